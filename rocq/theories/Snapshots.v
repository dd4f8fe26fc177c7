(** Snapshots.v — fidelity tests of the model against the repository's own snapshot files
    (crates/syntax/snapshots). Generated from the *.lua and *.snap files; these are tests on
    literals, not theorems about all inputs: they tie the model to recorded outputs of the real
    program. *)
From Verif Require Import Base SyntaxKind Lexer Tree TreeSink Ast Validation.

(** The {:#?} dump of a tree: depth, kind, range, in preorder. *)
Fixpoint dump (d off : nat) (g : green) {struct g} : list (nat * kind * nat * nat) :=
  (d, green_kind g, off, off + green_len g) ::
  match g with
  | GTok _ _ => []
  | GNode _ cs =>
    (fix go (off : nat) (cs : list green) :=
       match cs with
       | [] => []
       | c :: cs' => dump (S d) off c ++ go (off + green_len c) cs'
       end) off cs
  end.
Definition show_errs (l : list syntax_error) : list (string * nat * nat) :=
  map (fun e => (e_msg e, r_start (e_range e), r_end (e_range e))) l.
Definition snap_parse (t : text) :=
  match source_file_parse t with
  | Ok p => Some (green_text (pa_green p), dump 0 0 (pa_green p), show_errs (pa_errors p))
  | _ => None
  end.
Definition snap_lex (t : text) :=
  match tokenize t with
  | Ok (toks, errs) => Some (map (fun t => (t_kind t, t_len t)) toks, show_errs errs)
  | _ => None
  end.

Example snap_parser_ok_array_table_expr :
  let t := [108;111;99;97;108;32;97;114;114;97;121;32;61;32;123;10;32;32;34;102;105;114;115;116;34;44;10;32;32;51;50;52;44;10;32;32;102;117;110;99;116;105;111;110;40;41;32;101;110;100;44;10;32;32;34;97;110;111;116;104;101;114;34;44;10;125;10]%N in
  snap_parse t = Some (t,
  [(0,KSourceFile,0,67);(1,KBlock,0,67);(2,KLocalAssignStmt,0,66);(3,KLocalKw,0,5);(3,KWhitespace,5,6);(3,KMultiName,6,11);(4,KName,6,11);(5,KIdent,6,11);(3,KWhitespace,11,12);(3,KEq,12,13);(3,KWhitespace,13,14);(3,KMultivalExpr,14,66);(4,KTableExpr,14,66);(5,KLBrace,14,15);(5,KWhitespace,15,18);(5,KTableContent,18,25);(6,KPositionalValue,18,25);(7,KLiteral,18,25);(8,KStr,18,25);(5,KTableSep,25,26);(6,KComma,25,26);(5,KWhitespace,26,29);(5,KTableContent,29,32);(6,KPositionalValue,29,32);(7,KLiteral,29,32);(8,KNumber,29,32);(5,KTableSep,32,33);(6,KComma,32,33);(5,KWhitespace,33,36);(5,KTableContent,36,50);(6,KPositionalValue,36,50);(7,KFunctionExpr,36,50);(8,KFunctionKw,36,44);(8,KParamList,44,46);(9,KLParen,44,45);(9,KRParen,45,46);(8,KWhitespace,46,47);(8,KBlock,47,47);(8,KEndKw,47,50);(5,KTableSep,50,51);(6,KComma,50,51);(5,KWhitespace,51,54);(5,KTableContent,54,63);(6,KPositionalValue,54,63);(7,KLiteral,54,63);(8,KStr,54,63);(5,KTableSep,63,64);(6,KComma,63,64);(5,KWhitespace,64,65);(5,KRBrace,65,66);(2,KWhitespace,66,67)],
  []%string).
Proof. vm_compute. reflexivity. Qed.

Example snap_parser_ok_asserts :
  let t := [97;115;115;101;114;116;40;120;46;97;32;61;61;32;55;50;32;97;110;100;32;120;46;98;32;61;61;32;45;49;56;55;32;97;110;100;32;120;46;99;32;61;61;32;56;50;56;32;97;110;100;32;120;46;100;32;61;61;32;48;41;10;97;115;115;101;114;116;40;120;46;101;32;61;61;32;55;50;32;97;110;100;32;120;46;102;32;61;61;32;56;51;55;32;97;110;100;32;120;46;103;32;61;61;32;56;50;56;32;97;110;100;32;120;46;104;32;61;61;32;48;41;10;97;115;115;101;114;116;40;120;46;105;32;61;61;32;49;32;97;110;100;32;120;46;106;32;61;61;32;54;32;97;110;100;32;120;46;107;32;61;61;32;49;48;32;97;110;100;32;120;46;108;32;61;61;32;45;50;41;10;97;115;115;101;114;116;40;120;46;98;48;32;61;61;32;102;97;108;115;101;32;97;110;100;32;120;46;98;49;32;61;61;32;102;97;108;115;101;32;97;110;100;32;120;46;98;50;32;61;61;32;102;97;108;115;101;32;97;110;100;32;120;46;98;51;32;61;61;32;116;114;117;101;41;10]%N in
  snap_parse t = Some (t,
  [(0,KSourceFile,0,256);(1,KBlock,0,256);(2,KExprStmt,0,61);(3,KMultivalExpr,0,61);(4,KCallExpr,0,61);(5,KNameRef,0,6);(6,KIdent,0,6);(5,KCallArgs,6,61);(6,KArgList,6,61);(7,KLParen,6,7);(7,KMultivalExpr,7,60);(8,KInfixExpr,7,60);(9,KInfixExpr,7,47);(10,KInfixExpr,7,32);(11,KInfixExpr,7,16);(12,KDotExpr,7,10);(13,KNameRef,7,8);(14,KIdent,7,8);(13,KDot,8,9);(13,KIdent,9,10);(12,KWhitespace,10,11);(12,KEqEq,11,13);(12,KWhitespace,13,14);(12,KLiteral,14,16);(13,KNumber,14,16);(11,KWhitespace,16,17);(11,KAndKw,17,20);(11,KWhitespace,20,21);(11,KInfixExpr,21,32);(12,KDotExpr,21,24);(13,KNameRef,21,22);(14,KIdent,21,22);(13,KDot,22,23);(13,KIdent,23,24);(12,KWhitespace,24,25);(12,KEqEq,25,27);(12,KWhitespace,27,28);(12,KPrefixExpr,28,32);(13,KMinus,28,29);(13,KLiteral,29,32);(14,KNumber,29,32);(10,KWhitespace,32,33);(10,KAndKw,33,36);(10,KWhitespace,36,37);(10,KInfixExpr,37,47);(11,KDotExpr,37,40);(12,KNameRef,37,38);(13,KIdent,37,38);(12,KDot,38,39);(12,KIdent,39,40);(11,KWhitespace,40,41);(11,KEqEq,41,43);(11,KWhitespace,43,44);(11,KLiteral,44,47);(12,KNumber,44,47);(9,KWhitespace,47,48);(9,KAndKw,48,51);(9,KWhitespace,51,52);(9,KInfixExpr,52,60);(10,KDotExpr,52,55);(11,KNameRef,52,53);(12,KIdent,52,53);(11,KDot,53,54);(11,KIdent,54,55);(10,KWhitespace,55,56);(10,KEqEq,56,58);(10,KWhitespace,58,59);(10,KLiteral,59,60);(11,KNumber,59,60);(7,KRParen,60,61);(2,KWhitespace,61,62);(2,KExprStmt,62,122);(3,KMultivalExpr,62,122);(4,KCallExpr,62,122);(5,KNameRef,62,68);(6,KIdent,62,68);(5,KCallArgs,68,122);(6,KArgList,68,122);(7,KLParen,68,69);(7,KMultivalExpr,69,121);(8,KInfixExpr,69,121);(9,KInfixExpr,69,108);(10,KInfixExpr,69,93);(11,KInfixExpr,69,78);(12,KDotExpr,69,72);(13,KNameRef,69,70);(14,KIdent,69,70);(13,KDot,70,71);(13,KIdent,71,72);(12,KWhitespace,72,73);(12,KEqEq,73,75);(12,KWhitespace,75,76);(12,KLiteral,76,78);(13,KNumber,76,78);(11,KWhitespace,78,79);(11,KAndKw,79,82);(11,KWhitespace,82,83);(11,KInfixExpr,83,93);(12,KDotExpr,83,86);(13,KNameRef,83,84);(14,KIdent,83,84);(13,KDot,84,85);(13,KIdent,85,86);(12,KWhitespace,86,87);(12,KEqEq,87,89);(12,KWhitespace,89,90);(12,KLiteral,90,93);(13,KNumber,90,93);(10,KWhitespace,93,94);(10,KAndKw,94,97);(10,KWhitespace,97,98);(10,KInfixExpr,98,108);(11,KDotExpr,98,101);(12,KNameRef,98,99);(13,KIdent,98,99);(12,KDot,99,100);(12,KIdent,100,101);(11,KWhitespace,101,102);(11,KEqEq,102,104);(11,KWhitespace,104,105);(11,KLiteral,105,108);(12,KNumber,105,108);(9,KWhitespace,108,109);(9,KAndKw,109,112);(9,KWhitespace,112,113);(9,KInfixExpr,113,121);(10,KDotExpr,113,116);(11,KNameRef,113,114);(12,KIdent,113,114);(11,KDot,114,115);(11,KIdent,115,116);(10,KWhitespace,116,117);(10,KEqEq,117,119);(10,KWhitespace,119,120);(10,KLiteral,120,121);(11,KNumber,120,121);(7,KRParen,121,122);(2,KWhitespace,122,123);(2,KExprStmt,123,180);(3,KMultivalExpr,123,180);(4,KCallExpr,123,180);(5,KNameRef,123,129);(6,KIdent,123,129);(5,KCallArgs,129,180);(6,KArgList,129,180);(7,KLParen,129,130);(7,KMultivalExpr,130,179);(8,KInfixExpr,130,179);(9,KInfixExpr,130,165);(10,KInfixExpr,130,151);(11,KInfixExpr,130,138);(12,KDotExpr,130,133);(13,KNameRef,130,131);(14,KIdent,130,131);(13,KDot,131,132);(13,KIdent,132,133);(12,KWhitespace,133,134);(12,KEqEq,134,136);(12,KWhitespace,136,137);(12,KLiteral,137,138);(13,KNumber,137,138);(11,KWhitespace,138,139);(11,KAndKw,139,142);(11,KWhitespace,142,143);(11,KInfixExpr,143,151);(12,KDotExpr,143,146);(13,KNameRef,143,144);(14,KIdent,143,144);(13,KDot,144,145);(13,KIdent,145,146);(12,KWhitespace,146,147);(12,KEqEq,147,149);(12,KWhitespace,149,150);(12,KLiteral,150,151);(13,KNumber,150,151);(10,KWhitespace,151,152);(10,KAndKw,152,155);(10,KWhitespace,155,156);(10,KInfixExpr,156,165);(11,KDotExpr,156,159);(12,KNameRef,156,157);(13,KIdent,156,157);(12,KDot,157,158);(12,KIdent,158,159);(11,KWhitespace,159,160);(11,KEqEq,160,162);(11,KWhitespace,162,163);(11,KLiteral,163,165);(12,KNumber,163,165);(9,KWhitespace,165,166);(9,KAndKw,166,169);(9,KWhitespace,169,170);(9,KInfixExpr,170,179);(10,KDotExpr,170,173);(11,KNameRef,170,171);(12,KIdent,170,171);(11,KDot,171,172);(11,KIdent,172,173);(10,KWhitespace,173,174);(10,KEqEq,174,176);(10,KWhitespace,176,177);(10,KPrefixExpr,177,179);(11,KMinus,177,178);(11,KLiteral,178,179);(12,KNumber,178,179);(7,KRParen,179,180);(2,KWhitespace,180,181);(2,KExprStmt,181,255);(3,KMultivalExpr,181,255);(4,KCallExpr,181,255);(5,KNameRef,181,187);(6,KIdent,181,187);(5,KCallArgs,187,255);(6,KArgList,187,255);(7,KLParen,187,188);(7,KMultivalExpr,188,254);(8,KInfixExpr,188,254);(9,KInfixExpr,188,237);(10,KInfixExpr,188,219);(11,KInfixExpr,188,201);(12,KDotExpr,188,192);(13,KNameRef,188,189);(14,KIdent,188,189);(13,KDot,189,190);(13,KIdent,190,192);(12,KWhitespace,192,193);(12,KEqEq,193,195);(12,KWhitespace,195,196);(12,KLiteral,196,201);(13,KFalseKw,196,201);(11,KWhitespace,201,202);(11,KAndKw,202,205);(11,KWhitespace,205,206);(11,KInfixExpr,206,219);(12,KDotExpr,206,210);(13,KNameRef,206,207);(14,KIdent,206,207);(13,KDot,207,208);(13,KIdent,208,210);(12,KWhitespace,210,211);(12,KEqEq,211,213);(12,KWhitespace,213,214);(12,KLiteral,214,219);(13,KFalseKw,214,219);(10,KWhitespace,219,220);(10,KAndKw,220,223);(10,KWhitespace,223,224);(10,KInfixExpr,224,237);(11,KDotExpr,224,228);(12,KNameRef,224,225);(13,KIdent,224,225);(12,KDot,225,226);(12,KIdent,226,228);(11,KWhitespace,228,229);(11,KEqEq,229,231);(11,KWhitespace,231,232);(11,KLiteral,232,237);(12,KFalseKw,232,237);(9,KWhitespace,237,238);(9,KAndKw,238,241);(9,KWhitespace,241,242);(9,KInfixExpr,242,254);(10,KDotExpr,242,246);(11,KNameRef,242,243);(12,KIdent,242,243);(11,KDot,243,244);(11,KIdent,244,246);(10,KWhitespace,246,247);(10,KEqEq,247,249);(10,KWhitespace,249,250);(10,KLiteral,250,254);(11,KTrueKw,250,254);(7,KRParen,254,255);(2,KWhitespace,255,256)],
  []%string).
Proof. vm_compute. reflexivity. Qed.

Example snap_parser_ok_assign :
  let t := [32;32;32;32;32;32;32;32;32;32;32;32;32;32;32;32;32;32;32;32;32;32;10;10;32;32;32;32;32;32;32;32;32;32;32;32;32;32;32;32;32;32;32;32;32;32;10;45;45;32;106;117;115;116;32;97;32;99;111;109;109;101;110;116;32;97;116;32;116;104;101;32;115;116;97;114;116;10;45;45;32;108;111;99;97;108;32;104;101;108;108;111;32;61;32;53;10;45;45;32;108;111;99;97;108;32;97;110;111;116;104;101;114;32;61;32;40;53;41;10;108;111;99;97;108;32;115;32;61;32;34;97;32;115;116;114;34;10]%N in
  snap_parse t = Some (t,
  [(0,KSourceFile,0,138);(1,KBlock,0,138);(2,KWhitespace,0,47);(2,KComment,47,77);(2,KWhitespace,77,78);(2,KComment,78,96);(2,KWhitespace,96,97);(2,KComment,97,119);(2,KWhitespace,119,120);(2,KLocalAssignStmt,120,137);(3,KLocalKw,120,125);(3,KWhitespace,125,126);(3,KMultiName,126,127);(4,KName,126,127);(5,KIdent,126,127);(3,KWhitespace,127,128);(3,KEq,128,129);(3,KWhitespace,129,130);(3,KMultivalExpr,130,137);(4,KLiteral,130,137);(5,KStr,130,137);(2,KWhitespace,137,138)],
  []%string).
Proof. vm_compute. reflexivity. Qed.

Example snap_parser_ok_assign_lhs_expr :
  let t := [114;101;116;117;114;110;115;95;116;98;108;40;41;46;104;101;108;108;111;44;32;97;110;111;116;104;101;114;32;61;32;49;50;51;44;32;49;51;50;52;50;51;10;97;110;111;116;104;101;114;95;116;98;108;40;41;91;51;93;32;61;32;34;97;115;100;102;34;10;40;102;117;110;99;116;105;111;110;40;41;32;101;110;100;41;46;105;110;116;101;114;101;115;116;105;110;103;44;32;97;110;111;116;104;101;114;91;34;97;115;100;102;97;115;100;34;93;44;32;115;101;108;102;46;119;111;119;44;32;40;102;117;110;99;116;105;111;110;40;41;32;101;110;100;41;91;49;50;51;93;32;61;32;34;102;105;114;115;116;34;44;32;34;115;101;99;111;110;100;34;44;32;34;116;104;105;114;100;34;44;32;34;102;111;117;114;116;104;34;10]%N in
  snap_parse t = Some (t,
  [(0,KSourceFile,0,190);(1,KBlock,0,190);(2,KAssignStmt,0,42);(3,KMultivalExpr,0,28);(4,KDotExpr,0,19);(5,KCallExpr,0,13);(6,KNameRef,0,11);(7,KIdent,0,11);(6,KCallArgs,11,13);(7,KArgList,11,13);(8,KLParen,11,12);(8,KRParen,12,13);(5,KDot,13,14);(5,KIdent,14,19);(4,KComma,19,20);(4,KWhitespace,20,21);(4,KNameRef,21,28);(5,KIdent,21,28);(3,KWhitespace,28,29);(3,KEq,29,30);(3,KWhitespace,30,31);(3,KMultivalExpr,31,42);(4,KLiteral,31,34);(5,KNumber,31,34);(4,KComma,34,35);(4,KWhitespace,35,36);(4,KLiteral,36,42);(5,KNumber,36,42);(2,KWhitespace,42,43);(2,KAssignStmt,43,68);(3,KMultivalExpr,43,59);(4,KIndexExpr,43,59);(5,KCallExpr,43,56);(6,KNameRef,43,54);(7,KIdent,43,54);(6,KCallArgs,54,56);(7,KArgList,54,56);(8,KLParen,54,55);(8,KRParen,55,56);(5,KIndex,56,59);(6,KLBracket,56,57);(6,KLiteral,57,58);(7,KNumber,57,58);(6,KRBracket,58,59);(3,KWhitespace,59,60);(3,KEq,60,61);(3,KWhitespace,61,62);(3,KMultivalExpr,62,68);(4,KLiteral,62,68);(5,KStr,62,68);(2,KWhitespace,68,69);(2,KAssignStmt,69,189);(3,KMultivalExpr,69,150);(4,KDotExpr,69,97);(5,KParenExpr,69,85);(6,KLParen,69,70);(6,KFunctionExpr,70,84);(7,KFunctionKw,70,78);(7,KParamList,78,80);(8,KLParen,78,79);(8,KRParen,79,80);(7,KWhitespace,80,81);(7,KBlock,81,81);(7,KEndKw,81,84);(6,KRParen,84,85);(5,KDot,85,86);(5,KIdent,86,97);(4,KComma,97,98);(4,KWhitespace,98,99);(4,KIndexExpr,99,117);(5,KNameRef,99,106);(6,KIdent,99,106);(5,KIndex,106,117);(6,KLBracket,106,107);(6,KLiteral,107,116);(7,KStr,107,116);(6,KRBracket,116,117);(4,KComma,117,118);(4,KWhitespace,118,119);(4,KDotExpr,119,127);(5,KNameRef,119,123);(6,KIdent,119,123);(5,KDot,123,124);(5,KIdent,124,127);(4,KComma,127,128);(4,KWhitespace,128,129);(4,KIndexExpr,129,150);(5,KParenExpr,129,145);(6,KLParen,129,130);(6,KFunctionExpr,130,144);(7,KFunctionKw,130,138);(7,KParamList,138,140);(8,KLParen,138,139);(8,KRParen,139,140);(7,KWhitespace,140,141);(7,KBlock,141,141);(7,KEndKw,141,144);(6,KRParen,144,145);(5,KIndex,145,150);(6,KLBracket,145,146);(6,KLiteral,146,149);(7,KNumber,146,149);(6,KRBracket,149,150);(3,KWhitespace,150,151);(3,KEq,151,152);(3,KWhitespace,152,153);(3,KMultivalExpr,153,189);(4,KLiteral,153,160);(5,KStr,153,160);(4,KComma,160,161);(4,KWhitespace,161,162);(4,KLiteral,162,170);(5,KStr,162,170);(4,KComma,170,171);(4,KWhitespace,171,172);(4,KLiteral,172,179);(5,KStr,172,179);(4,KComma,179,180);(4,KWhitespace,180,181);(4,KLiteral,181,189);(5,KStr,181,189);(2,KWhitespace,189,190)],
  []%string).
Proof. vm_compute. reflexivity. Qed.

Example snap_parser_ok_both_table_expr :
  let t := [108;111;99;97;108;32;98;111;116;104;32;61;32;123;10;32;32;34;112;111;115;105;116;105;111;110;97;108;34;44;10;32;32;91;49;48;93;32;61;32;34;119;104;97;116;32;105;115;32;116;104;115;105;34;44;10;32;32;104;101;108;108;111;32;61;32;34;97;100;102;34;44;10;32;32;49;50;51;52;44;10;32;32;91;34;97;110;111;116;104;101;114;34;93;32;61;32;49;50;51;52;44;10;125;10]%N in
  snap_parse t = Some (t,
  [(0,KSourceFile,0,105);(1,KBlock,0,105);(2,KLocalAssignStmt,0,104);(3,KLocalKw,0,5);(3,KWhitespace,5,6);(3,KMultiName,6,10);(4,KName,6,10);(5,KIdent,6,10);(3,KWhitespace,10,11);(3,KEq,11,12);(3,KWhitespace,12,13);(3,KMultivalExpr,13,104);(4,KTableExpr,13,104);(5,KLBrace,13,14);(5,KWhitespace,14,17);(5,KTableContent,17,29);(6,KPositionalValue,17,29);(7,KLiteral,17,29);(8,KStr,17,29);(5,KTableSep,29,30);(6,KComma,29,30);(5,KWhitespace,30,33);(5,KTableContent,33,54);(6,KKeyValue,33,54);(7,KTableKey,33,37);(8,KIndex,33,37);(9,KLBracket,33,34);(9,KLiteral,34,36);(10,KNumber,34,36);(9,KRBracket,36,37);(7,KWhitespace,37,38);(7,KEq,38,39);(7,KWhitespace,39,40);(7,KLiteral,40,54);(8,KStr,40,54);(5,KTableSep,54,55);(6,KComma,54,55);(5,KWhitespace,55,58);(5,KTableContent,58,71);(6,KKeyValue,58,71);(7,KTableKey,58,63);(8,KName,58,63);(9,KIdent,58,63);(7,KWhitespace,63,64);(7,KEq,64,65);(7,KWhitespace,65,66);(7,KLiteral,66,71);(8,KStr,66,71);(5,KTableSep,71,72);(6,KComma,71,72);(5,KWhitespace,72,75);(5,KTableContent,75,79);(6,KPositionalValue,75,79);(7,KLiteral,75,79);(8,KNumber,75,79);(5,KTableSep,79,80);(6,KComma,79,80);(5,KWhitespace,80,83);(5,KTableContent,83,101);(6,KKeyValue,83,101);(7,KTableKey,83,94);(8,KIndex,83,94);(9,KLBracket,83,84);(9,KLiteral,84,93);(10,KStr,84,93);(9,KRBracket,93,94);(7,KWhitespace,94,95);(7,KEq,95,96);(7,KWhitespace,96,97);(7,KLiteral,97,101);(8,KNumber,97,101);(5,KTableSep,101,102);(6,KComma,101,102);(5,KWhitespace,102,103);(5,KRBrace,103,104);(2,KWhitespace,104,105)],
  []%string).
Proof. vm_compute. reflexivity. Qed.

Example snap_parser_ok_break_stmt :
  let t := [98;114;101;97;107;10;114;101;116;117;114;110;32;49;50;51;52;10;98;114;101;97;107;10]%N in
  snap_parse t = Some (t,
  [(0,KSourceFile,0,24);(1,KBlock,0,24);(2,KBreakStmt,0,5);(3,KBreakKw,0,5);(2,KWhitespace,5,6);(2,KReturnStmt,6,17);(3,KReturnKw,6,12);(3,KWhitespace,12,13);(3,KMultivalExpr,13,17);(4,KLiteral,13,17);(5,KNumber,13,17);(2,KWhitespace,17,18);(2,KBreakStmt,18,23);(3,KBreakKw,18,23);(2,KWhitespace,23,24)],
  []%string).
Proof. vm_compute. reflexivity. Qed.

Example snap_parser_ok_call_with_vararg :
  let t := [108;111;99;97;108;32;102;117;110;99;116;105;111;110;32;116;101;115;116;40;46;46;46;41;10;32;32;112;114;105;110;116;40;34;102;105;114;115;116;34;44;32;34;115;101;99;111;110;100;34;44;32;46;46;46;41;10;32;32;112;114;105;110;116;40;46;46;46;41;10;101;110;100;10]%N in
  snap_parse t = Some (t,
  [(0,KSourceFile,0,74);(1,KBlock,0,74);(2,KLocalFunctionDefStmt,0,73);(3,KLocalKw,0,5);(3,KWhitespace,5,6);(3,KFunctionKw,6,14);(3,KWhitespace,14,15);(3,KName,15,19);(4,KIdent,15,19);(3,KParamList,19,24);(4,KLParen,19,20);(4,KMultiName,20,20);(4,KTripleDot,20,23);(4,KRParen,23,24);(3,KWhitespace,24,27);(3,KBlock,27,69);(4,KExprStmt,27,56);(5,KMultivalExpr,27,56);(6,KCallExpr,27,56);(7,KNameRef,27,32);(8,KIdent,27,32);(7,KCallArgs,32,56);(8,KArgList,32,56);(9,KLParen,32,33);(9,KMultivalExpr,33,55);(10,KLiteral,33,40);(11,KStr,33,40);(10,KComma,40,41);(10,KWhitespace,41,42);(10,KLiteral,42,50);(11,KStr,42,50);(10,KComma,50,51);(10,KWhitespace,51,52);(10,KLiteral,52,55);(11,KTripleDot,52,55);(9,KRParen,55,56);(4,KWhitespace,56,59);(4,KExprStmt,59,69);(5,KMultivalExpr,59,69);(6,KCallExpr,59,69);(7,KNameRef,59,64);(8,KIdent,59,64);(7,KCallArgs,64,69);(8,KArgList,64,69);(9,KLParen,64,65);(9,KMultivalExpr,65,68);(10,KLiteral,65,68);(11,KTripleDot,65,68);(9,KRParen,68,69);(3,KWhitespace,69,70);(3,KEndKw,70,73);(2,KWhitespace,73,74)],
  []%string).
Proof. vm_compute. reflexivity. Qed.

Example snap_parser_ok_comment_on_thing :
  let t := [45;45;32;116;104;105;115;32;105;115;32;97;32;99;111;109;109;101;110;116;10;108;111;99;97;108;32;112;101;114;115;111;110;32;61;32;51;10]%N in
  snap_parse t = Some (t,
  [(0,KSourceFile,0,38);(1,KBlock,0,38);(2,KComment,0,20);(2,KWhitespace,20,21);(2,KLocalAssignStmt,21,37);(3,KLocalKw,21,26);(3,KWhitespace,26,27);(3,KMultiName,27,33);(4,KName,27,33);(5,KIdent,27,33);(3,KWhitespace,33,34);(3,KEq,34,35);(3,KWhitespace,35,36);(3,KMultivalExpr,36,37);(4,KLiteral,36,37);(5,KNumber,36,37);(2,KWhitespace,37,38)],
  []%string).
Proof. vm_compute. reflexivity. Qed.

Example snap_parser_ok_comments :
  let t := [45;45;32;116;104;101;115;101;32;97;114;101;32;106;117;115;116;32;115;105;109;112;108;101;32;99;111;109;109;101;110;116;115;10;45;45;32;109;111;114;101;32;99;111;109;109;101;110;116;115;10;45;45;32;109;111;114;101;32;99;111;109;109;101;110;116;115;10]%N in
  snap_parse t = Some (t,
  [(0,KSourceFile,0,68);(1,KBlock,0,68);(2,KComment,0,33);(2,KWhitespace,33,34);(2,KComment,34,50);(2,KWhitespace,50,51);(2,KComment,51,67);(2,KWhitespace,67,68)],
  []%string).
Proof. vm_compute. reflexivity. Qed.

Example snap_parser_ok_do_block :
  let t := [100;111;10;32;32;108;111;99;97;108;32;115;116;109;116;32;61;32;54;10;10;32;32;100;111;10;32;32;32;32;108;111;99;97;108;32;112;101;114;115;111;110;32;61;32;102;117;110;99;116;105;111;110;40;41;10;32;32;32;32;32;32;112;114;105;110;116;40;39;104;101;108;108;111;32;112;101;114;115;111;110;39;41;10;32;32;32;32;101;110;100;10;32;32;101;110;100;10;101;110;100;10]%N in
  snap_parse t = Some (t,
  [(0,KSourceFile,0,102);(1,KBlock,0,102);(2,KDoStmt,0,101);(3,KDoKw,0,2);(3,KWhitespace,2,5);(3,KBlock,5,97);(4,KLocalAssignStmt,5,19);(5,KLocalKw,5,10);(5,KWhitespace,10,11);(5,KMultiName,11,15);(6,KName,11,15);(7,KIdent,11,15);(5,KWhitespace,15,16);(5,KEq,16,17);(5,KWhitespace,17,18);(5,KMultivalExpr,18,19);(6,KLiteral,18,19);(7,KNumber,18,19);(4,KWhitespace,19,23);(4,KDoStmt,23,97);(5,KDoKw,23,25);(5,KWhitespace,25,30);(5,KBlock,30,91);(6,KLocalAssignStmt,30,91);(7,KLocalKw,30,35);(7,KWhitespace,35,36);(7,KMultiName,36,42);(8,KName,36,42);(9,KIdent,36,42);(7,KWhitespace,42,43);(7,KEq,43,44);(7,KWhitespace,44,45);(7,KMultivalExpr,45,91);(8,KFunctionExpr,45,91);(9,KFunctionKw,45,53);(9,KParamList,53,55);(10,KLParen,53,54);(10,KRParen,54,55);(9,KWhitespace,55,62);(9,KBlock,62,83);(10,KExprStmt,62,83);(11,KMultivalExpr,62,83);(12,KCallExpr,62,83);(13,KNameRef,62,67);(14,KIdent,62,67);(13,KCallArgs,67,83);(14,KArgList,67,83);(15,KLParen,67,68);(15,KMultivalExpr,68,82);(16,KLiteral,68,82);(17,KStr,68,82);(15,KRParen,82,83);(9,KWhitespace,83,88);(9,KEndKw,88,91);(5,KWhitespace,91,94);(5,KEndKw,94,97);(3,KWhitespace,97,98);(3,KEndKw,98,101);(2,KWhitespace,101,102)],
  []%string).
Proof. vm_compute. reflexivity. Qed.

Example snap_parser_ok_dot_expr :
  let t := [108;111;99;97;108;32;100;111;116;32;61;32;116;98;108;46;102;105;114;115;116;46;115;101;99;111;110;100;46;116;104;105;114;100;10;108;111;99;97;108;32;119;105;116;104;95;111;116;104;101;114;115;32;61;32;116;98;108;46;102;105;114;115;116;91;50;51;52;93;40;41;40;41;10]%N in
  snap_parse t = Some (t,
  [(0,KSourceFile,0,74);(1,KBlock,0,74);(2,KLocalAssignStmt,0,34);(3,KLocalKw,0,5);(3,KWhitespace,5,6);(3,KMultiName,6,9);(4,KName,6,9);(5,KIdent,6,9);(3,KWhitespace,9,10);(3,KEq,10,11);(3,KWhitespace,11,12);(3,KMultivalExpr,12,34);(4,KDotExpr,12,34);(5,KDotExpr,12,28);(6,KDotExpr,12,21);(7,KNameRef,12,15);(8,KIdent,12,15);(7,KDot,15,16);(7,KIdent,16,21);(6,KDot,21,22);(6,KIdent,22,28);(5,KDot,28,29);(5,KIdent,29,34);(2,KWhitespace,34,35);(2,KLocalAssignStmt,35,73);(3,KLocalKw,35,40);(3,KWhitespace,40,41);(3,KMultiName,41,52);(4,KName,41,52);(5,KIdent,41,52);(3,KWhitespace,52,53);(3,KEq,53,54);(3,KWhitespace,54,55);(3,KMultivalExpr,55,73);(4,KCallExpr,55,73);(5,KCallExpr,55,71);(6,KIndexExpr,55,69);(7,KDotExpr,55,64);(8,KNameRef,55,58);(9,KIdent,55,58);(8,KDot,58,59);(8,KIdent,59,64);(7,KIndex,64,69);(8,KLBracket,64,65);(8,KLiteral,65,68);(9,KNumber,65,68);(8,KRBracket,68,69);(6,KCallArgs,69,71);(7,KArgList,69,71);(8,KLParen,69,70);(8,KRParen,70,71);(5,KCallArgs,71,73);(6,KArgList,71,73);(7,KLParen,71,72);(7,KRParen,72,73);(2,KWhitespace,73,74)],
  []%string).
Proof. vm_compute. reflexivity. Qed.

Example snap_parser_ok_function_call :
  let t := [101;109;112;116;121;95;99;97;108;108;40;41;10;99;97;108;108;95;119;105;116;104;95;111;110;101;40;102;105;114;115;116;95;97;114;103;41;10;99;97;108;108;95;119;105;116;104;95;108;105;116;40;34;104;101;108;108;111;34;41;10]%N in
  snap_parse t = Some (t,
  [(0,KSourceFile,0,61);(1,KBlock,0,61);(2,KExprStmt,0,12);(3,KMultivalExpr,0,12);(4,KCallExpr,0,12);(5,KNameRef,0,10);(6,KIdent,0,10);(5,KCallArgs,10,12);(6,KArgList,10,12);(7,KLParen,10,11);(7,KRParen,11,12);(2,KWhitespace,12,13);(2,KExprStmt,13,37);(3,KMultivalExpr,13,37);(4,KCallExpr,13,37);(5,KNameRef,13,26);(6,KIdent,13,26);(5,KCallArgs,26,37);(6,KArgList,26,37);(7,KLParen,26,27);(7,KMultivalExpr,27,36);(8,KNameRef,27,36);(9,KIdent,27,36);(7,KRParen,36,37);(2,KWhitespace,37,38);(2,KExprStmt,38,60);(3,KMultivalExpr,38,60);(4,KCallExpr,38,60);(5,KNameRef,38,51);(6,KIdent,38,51);(5,KCallArgs,51,60);(6,KArgList,51,60);(7,KLParen,51,52);(7,KMultivalExpr,52,59);(8,KLiteral,52,59);(9,KStr,52,59);(7,KRParen,59,60);(2,KWhitespace,60,61)],
  []%string).
Proof. vm_compute. reflexivity. Qed.

Example snap_parser_ok_function_call_multi :
  let t := [109;117;108;116;105;95;99;97;108;108;40;102;105;114;115;116;44;32;115;101;99;111;110;100;95;97;114;103;44;32;116;104;105;114;100;95;97;114;103;41;10;109;117;116;108;105;95;99;97;108;108;95;119;105;116;104;95;108;105;116;101;114;97;108;115;40;34;102;105;114;115;116;34;44;32;49;50;51;32;43;32;49;44;32;50;51;94;49;48;32;42;32;50;41;10]%N in
  snap_parse t = Some (t,
  [(0,KSourceFile,0,95);(1,KBlock,0,95);(2,KExprStmt,0,40);(3,KMultivalExpr,0,40);(4,KCallExpr,0,40);(5,KNameRef,0,10);(6,KIdent,0,10);(5,KCallArgs,10,40);(6,KArgList,10,40);(7,KLParen,10,11);(7,KMultivalExpr,11,39);(8,KNameRef,11,16);(9,KIdent,11,16);(8,KComma,16,17);(8,KWhitespace,17,18);(8,KNameRef,18,28);(9,KIdent,18,28);(8,KComma,28,29);(8,KWhitespace,29,30);(8,KNameRef,30,39);(9,KIdent,30,39);(7,KRParen,39,40);(2,KWhitespace,40,41);(2,KExprStmt,41,94);(3,KMultivalExpr,41,94);(4,KCallExpr,41,94);(5,KNameRef,41,65);(6,KIdent,41,65);(5,KCallArgs,65,94);(6,KArgList,65,94);(7,KLParen,65,66);(7,KMultivalExpr,66,93);(8,KLiteral,66,73);(9,KStr,66,73);(8,KComma,73,74);(8,KWhitespace,74,75);(8,KInfixExpr,75,82);(9,KLiteral,75,78);(10,KNumber,75,78);(9,KWhitespace,78,79);(9,KPlus,79,80);(9,KWhitespace,80,81);(9,KLiteral,81,82);(10,KNumber,81,82);(8,KComma,82,83);(8,KWhitespace,83,84);(8,KInfixExpr,84,93);(9,KInfixExpr,84,89);(10,KLiteral,84,86);(11,KNumber,84,86);(10,KCaret,86,87);(10,KLiteral,87,89);(11,KNumber,87,89);(9,KWhitespace,89,90);(9,KAsterisk,90,91);(9,KWhitespace,91,92);(9,KLiteral,92,93);(10,KNumber,92,93);(7,KRParen,93,94);(2,KWhitespace,94,95)],
  []%string).
Proof. vm_compute. reflexivity. Qed.

Example snap_parser_ok_function_def :
  let t := [108;111;99;97;108;32;102;117;110;99;116;105;111;110;32;101;109;112;116;121;40;41;10;32;32;108;111;99;97;108;32;104;101;108;108;111;32;61;32;53;10;32;32;108;111;99;97;108;32;97;110;111;116;104;101;114;32;61;32;104;101;108;108;111;32;42;32;49;48;10;32;32;114;101;116;117;114;110;32;104;101;108;108;111;10;101;110;100;10]%N in
  snap_parse t = Some (t,
  [(0,KSourceFile,0,89);(1,KBlock,0,89);(2,KLocalFunctionDefStmt,0,88);(3,KLocalKw,0,5);(3,KWhitespace,5,6);(3,KFunctionKw,6,14);(3,KWhitespace,14,15);(3,KName,15,20);(4,KIdent,15,20);(3,KParamList,20,22);(4,KLParen,20,21);(4,KRParen,21,22);(3,KWhitespace,22,25);(3,KBlock,25,84);(4,KLocalAssignStmt,25,40);(5,KLocalKw,25,30);(5,KWhitespace,30,31);(5,KMultiName,31,36);(6,KName,31,36);(7,KIdent,31,36);(5,KWhitespace,36,37);(5,KEq,37,38);(5,KWhitespace,38,39);(5,KMultivalExpr,39,40);(6,KLiteral,39,40);(7,KNumber,39,40);(4,KWhitespace,40,43);(4,KLocalAssignStmt,43,69);(5,KLocalKw,43,48);(5,KWhitespace,48,49);(5,KMultiName,49,56);(6,KName,49,56);(7,KIdent,49,56);(5,KWhitespace,56,57);(5,KEq,57,58);(5,KWhitespace,58,59);(5,KMultivalExpr,59,69);(6,KInfixExpr,59,69);(7,KNameRef,59,64);(8,KIdent,59,64);(7,KWhitespace,64,65);(7,KAsterisk,65,66);(7,KWhitespace,66,67);(7,KLiteral,67,69);(8,KNumber,67,69);(4,KWhitespace,69,72);(4,KReturnStmt,72,84);(5,KReturnKw,72,78);(5,KWhitespace,78,79);(5,KMultivalExpr,79,84);(6,KNameRef,79,84);(7,KIdent,79,84);(3,KWhitespace,84,85);(3,KEndKw,85,88);(2,KWhitespace,88,89)],
  []%string).
Proof. vm_compute. reflexivity. Qed.

Example snap_parser_ok_function_literal :
  let t := [108;111;99;97;108;32;101;109;112;116;121;95;108;105;116;32;61;32;102;117;110;99;116;105;111;110;40;41;10;32;32;108;111;99;97;108;32;102;105;114;115;116;32;61;32;49;10;32;32;114;101;116;117;114;110;32;53;94;102;105;114;115;116;10;101;110;100;10;10;108;111;99;97;108;32;119;105;116;104;95;97;114;103;115;32;61;32;102;117;110;99;116;105;111;110;40;102;105;114;115;116;44;32;115;101;99;111;110;100;41;10;32;32;114;101;116;117;114;110;32;49;50;51;10;101;110;100;10]%N in
  snap_parse t = Some (t,
  [(0,KSourceFile,0,128);(1,KBlock,0,128);(2,KLocalAssignStmt,0,67);(3,KLocalKw,0,5);(3,KWhitespace,5,6);(3,KMultiName,6,15);(4,KName,6,15);(5,KIdent,6,15);(3,KWhitespace,15,16);(3,KEq,16,17);(3,KWhitespace,17,18);(3,KMultivalExpr,18,67);(4,KFunctionExpr,18,67);(5,KFunctionKw,18,26);(5,KParamList,26,28);(6,KLParen,26,27);(6,KRParen,27,28);(5,KWhitespace,28,31);(5,KBlock,31,63);(6,KLocalAssignStmt,31,46);(7,KLocalKw,31,36);(7,KWhitespace,36,37);(7,KMultiName,37,42);(8,KName,37,42);(9,KIdent,37,42);(7,KWhitespace,42,43);(7,KEq,43,44);(7,KWhitespace,44,45);(7,KMultivalExpr,45,46);(8,KLiteral,45,46);(9,KNumber,45,46);(6,KWhitespace,46,49);(6,KReturnStmt,49,63);(7,KReturnKw,49,55);(7,KWhitespace,55,56);(7,KMultivalExpr,56,63);(8,KInfixExpr,56,63);(9,KLiteral,56,57);(10,KNumber,56,57);(9,KCaret,57,58);(9,KNameRef,58,63);(10,KIdent,58,63);(5,KWhitespace,63,64);(5,KEndKw,64,67);(2,KWhitespace,67,69);(2,KLocalAssignStmt,69,127);(3,KLocalKw,69,74);(3,KWhitespace,74,75);(3,KMultiName,75,84);(4,KName,75,84);(5,KIdent,75,84);(3,KWhitespace,84,85);(3,KEq,85,86);(3,KWhitespace,86,87);(3,KMultivalExpr,87,127);(4,KFunctionExpr,87,127);(5,KFunctionKw,87,95);(5,KParamList,95,110);(6,KLParen,95,96);(6,KMultiName,96,109);(7,KName,96,101);(8,KIdent,96,101);(7,KComma,101,102);(7,KWhitespace,102,103);(7,KName,103,109);(8,KIdent,103,109);(6,KRParen,109,110);(5,KWhitespace,110,113);(5,KBlock,113,123);(6,KReturnStmt,113,123);(7,KReturnKw,113,119);(7,KWhitespace,119,120);(7,KMultivalExpr,120,123);(8,KLiteral,120,123);(9,KNumber,120,123);(5,KWhitespace,123,124);(5,KEndKw,124,127);(2,KWhitespace,127,128)],
  []%string).
Proof. vm_compute. reflexivity. Qed.

Example snap_parser_ok_generic_for_stmt :
  let t := [102;111;114;32;107;44;32;118;32;105;110;32;105;112;97;105;114;115;40;116;98;108;41;32;100;111;10;32;32;112;114;105;110;116;40;107;44;32;118;41;10;101;110;100;10]%N in
  snap_parse t = Some (t,
  [(0,KSourceFile,0,45);(1,KBlock,0,45);(2,KForStmt,0,44);(3,KForKw,0,3);(3,KWhitespace,3,4);(3,KForContent,4,23);(4,KGenericFor,4,23);(5,KMultiName,4,8);(6,KName,4,5);(7,KIdent,4,5);(6,KComma,5,6);(6,KWhitespace,6,7);(6,KName,7,8);(7,KIdent,7,8);(5,KWhitespace,8,9);(5,KInKw,9,11);(5,KWhitespace,11,12);(5,KCallExpr,12,23);(6,KNameRef,12,18);(7,KIdent,12,18);(6,KCallArgs,18,23);(7,KArgList,18,23);(8,KLParen,18,19);(8,KMultivalExpr,19,22);(9,KNameRef,19,22);(10,KIdent,19,22);(8,KRParen,22,23);(3,KWhitespace,23,24);(3,KDoKw,24,26);(3,KWhitespace,26,29);(3,KBlock,29,40);(4,KExprStmt,29,40);(5,KMultivalExpr,29,40);(6,KCallExpr,29,40);(7,KNameRef,29,34);(8,KIdent,29,34);(7,KCallArgs,34,40);(8,KArgList,34,40);(9,KLParen,34,35);(9,KMultivalExpr,35,39);(10,KNameRef,35,36);(11,KIdent,35,36);(10,KComma,36,37);(10,KWhitespace,37,38);(10,KNameRef,38,39);(11,KIdent,38,39);(9,KRParen,39,40);(3,KWhitespace,40,41);(3,KEndKw,41,44);(2,KWhitespace,44,45)],
  []%string).
Proof. vm_compute. reflexivity. Qed.

Example snap_parser_ok_higher_order_function :
  let t := [114;101;116;117;114;110;115;95;97;110;111;116;104;101;114;40;34;104;101;108;108;111;34;41;40;34;109;111;114;101;32;97;114;103;115;34;44;32;34;97;110;111;116;104;101;114;32;97;114;103;34;41;10]%N in
  snap_parse t = Some (t,
  [(0,KSourceFile,0,53);(1,KBlock,0,53);(2,KExprStmt,0,52);(3,KMultivalExpr,0,52);(4,KCallExpr,0,52);(5,KCallExpr,0,24);(6,KNameRef,0,15);(7,KIdent,0,15);(6,KCallArgs,15,24);(7,KArgList,15,24);(8,KLParen,15,16);(8,KMultivalExpr,16,23);(9,KLiteral,16,23);(10,KStr,16,23);(8,KRParen,23,24);(5,KCallArgs,24,52);(6,KArgList,24,52);(7,KLParen,24,25);(7,KMultivalExpr,25,51);(8,KLiteral,25,36);(9,KStr,25,36);(8,KComma,36,37);(8,KWhitespace,37,38);(8,KLiteral,38,51);(9,KStr,38,51);(7,KRParen,51,52);(2,KWhitespace,52,53)],
  []%string).
Proof. vm_compute. reflexivity. Qed.

Example snap_parser_ok_if_else_stmt :
  let t := [105;102;32;121;101;115;40;41;32;126;61;32;116;114;117;101;32;116;104;101;110;10;32;32;112;114;105;110;116;40;34;121;101;115;32;119;97;115;32;110;111;116;32;116;114;117;101;34;41;10;101;108;115;101;10;32;32;112;114;105;110;116;40;39;121;101;115;32;119;97;115;32;116;114;117;101;39;41;10;101;110;100;10]%N in
  snap_parse t = Some (t,
  [(0,KSourceFile,0,83);(1,KBlock,0,83);(2,KIfStmt,0,82);(3,KIfKw,0,2);(3,KWhitespace,2,3);(3,KInfixExpr,3,16);(4,KCallExpr,3,8);(5,KNameRef,3,6);(6,KIdent,3,6);(5,KCallArgs,6,8);(6,KArgList,6,8);(7,KLParen,6,7);(7,KRParen,7,8);(4,KWhitespace,8,9);(4,KNotEq,9,11);(4,KWhitespace,11,12);(4,KLiteral,12,16);(5,KTrueKw,12,16);(3,KWhitespace,16,17);(3,KThenKw,17,21);(3,KWhitespace,21,24);(3,KBlock,24,49);(4,KExprStmt,24,49);(5,KMultivalExpr,24,49);(6,KCallExpr,24,49);(7,KNameRef,24,29);(8,KIdent,24,29);(7,KCallArgs,29,49);(8,KArgList,29,49);(9,KLParen,29,30);(9,KMultivalExpr,30,48);(10,KLiteral,30,48);(11,KStr,30,48);(9,KRParen,48,49);(3,KWhitespace,49,50);(3,KElseBranch,50,78);(4,KElseKw,50,54);(4,KWhitespace,54,57);(4,KBlock,57,78);(5,KExprStmt,57,78);(6,KMultivalExpr,57,78);(7,KCallExpr,57,78);(8,KNameRef,57,62);(9,KIdent,57,62);(8,KCallArgs,62,78);(9,KArgList,62,78);(10,KLParen,62,63);(10,KMultivalExpr,63,77);(11,KLiteral,63,77);(12,KStr,63,77);(10,KRParen,77,78);(3,KWhitespace,78,79);(3,KEndKw,79,82);(2,KWhitespace,82,83)],
  []%string).
Proof. vm_compute. reflexivity. Qed.

Example snap_parser_ok_if_elseif_stmt :
  let t := [105;102;32;121;101;115;40;41;32;126;61;32;116;114;117;101;32;116;104;101;110;10;32;32;112;114;105;110;116;40;34;121;101;115;32;119;97;115;32;110;111;116;32;116;114;117;101;34;41;10;101;108;115;101;105;102;32;121;101;115;40;41;32;61;61;32;49;32;116;104;101;110;10;32;32;112;114;105;110;116;40;39;121;101;115;32;119;97;115;32;116;114;117;101;39;41;10;101;108;115;101;105;102;32;121;101;115;40;41;32;61;61;32;50;32;116;104;101;110;10;32;32;112;114;105;110;116;40;39;121;101;115;32;119;97;115;32;50;39;41;10;101;108;115;101;10;32;32;112;114;105;110;116;40;39;101;108;115;101;39;41;10;101;110;100;10]%N in
  snap_parse t = Some (t,
  [(0,KSourceFile,0,166);(1,KBlock,0,166);(2,KIfStmt,0,165);(3,KIfKw,0,2);(3,KWhitespace,2,3);(3,KInfixExpr,3,16);(4,KCallExpr,3,8);(5,KNameRef,3,6);(6,KIdent,3,6);(5,KCallArgs,6,8);(6,KArgList,6,8);(7,KLParen,6,7);(7,KRParen,7,8);(4,KWhitespace,8,9);(4,KNotEq,9,11);(4,KWhitespace,11,12);(4,KLiteral,12,16);(5,KTrueKw,12,16);(3,KWhitespace,16,17);(3,KThenKw,17,21);(3,KWhitespace,21,24);(3,KBlock,24,49);(4,KExprStmt,24,49);(5,KMultivalExpr,24,49);(6,KCallExpr,24,49);(7,KNameRef,24,29);(8,KIdent,24,29);(7,KCallArgs,29,49);(8,KArgList,29,49);(9,KLParen,29,30);(9,KMultivalExpr,30,48);(10,KLiteral,30,48);(11,KStr,30,48);(9,KRParen,48,49);(3,KWhitespace,49,50);(3,KElseIfBranch,50,161);(4,KElseifKw,50,56);(4,KWhitespace,56,57);(4,KInfixExpr,57,67);(5,KCallExpr,57,62);(6,KNameRef,57,60);(7,KIdent,57,60);(6,KCallArgs,60,62);(7,KArgList,60,62);(8,KLParen,60,61);(8,KRParen,61,62);(5,KWhitespace,62,63);(5,KEqEq,63,65);(5,KWhitespace,65,66);(5,KLiteral,66,67);(6,KNumber,66,67);(4,KWhitespace,67,68);(4,KThenKw,68,72);(4,KWhitespace,72,75);(4,KBlock,75,96);(5,KExprStmt,75,96);(6,KMultivalExpr,75,96);(7,KCallExpr,75,96);(8,KNameRef,75,80);(9,KIdent,75,80);(8,KCallArgs,80,96);(9,KArgList,80,96);(10,KLParen,80,81);(10,KMultivalExpr,81,95);(11,KLiteral,81,95);(12,KStr,81,95);(10,KRParen,95,96);(4,KWhitespace,96,97);(4,KElseIfBranch,97,161);(5,KElseifKw,97,103);(5,KWhitespace,103,104);(5,KInfixExpr,104,114);(6,KCallExpr,104,109);(7,KNameRef,104,107);(8,KIdent,104,107);(7,KCallArgs,107,109);(8,KArgList,107,109);(9,KLParen,107,108);(9,KRParen,108,109);(6,KWhitespace,109,110);(6,KEqEq,110,112);(6,KWhitespace,112,113);(6,KLiteral,113,114);(7,KNumber,113,114);(5,KWhitespace,114,115);(5,KThenKw,115,119);(5,KWhitespace,119,122);(5,KBlock,122,140);(6,KExprStmt,122,140);(7,KMultivalExpr,122,140);(8,KCallExpr,122,140);(9,KNameRef,122,127);(10,KIdent,122,127);(9,KCallArgs,127,140);(10,KArgList,127,140);(11,KLParen,127,128);(11,KMultivalExpr,128,139);(12,KLiteral,128,139);(13,KStr,128,139);(11,KRParen,139,140);(5,KWhitespace,140,141);(5,KElseBranch,141,161);(6,KElseKw,141,145);(6,KWhitespace,145,148);(6,KBlock,148,161);(7,KExprStmt,148,161);(8,KMultivalExpr,148,161);(9,KCallExpr,148,161);(10,KNameRef,148,153);(11,KIdent,148,153);(10,KCallArgs,153,161);(11,KArgList,153,161);(12,KLParen,153,154);(12,KMultivalExpr,154,160);(13,KLiteral,154,160);(14,KStr,154,160);(12,KRParen,160,161);(3,KWhitespace,161,162);(3,KEndKw,162,165);(2,KWhitespace,165,166)],
  []%string).
Proof. vm_compute. reflexivity. Qed.

Example snap_parser_ok_if_statement :
  let t := [105;102;32;116;121;112;101;40;104;101;108;108;111;41;32;61;61;32;34;115;116;114;105;110;103;34;32;116;104;101;110;10;32;32;112;114;105;110;116;40;34;105;115;32;115;116;114;105;110;103;34;41;10;101;110;100;10]%N in
  snap_parse t = Some (t,
  [(0,KSourceFile,0,57);(1,KBlock,0,57);(2,KIfStmt,0,56);(3,KIfKw,0,2);(3,KWhitespace,2,3);(3,KInfixExpr,3,26);(4,KCallExpr,3,14);(5,KNameRef,3,7);(6,KIdent,3,7);(5,KCallArgs,7,14);(6,KArgList,7,14);(7,KLParen,7,8);(7,KMultivalExpr,8,13);(8,KNameRef,8,13);(9,KIdent,8,13);(7,KRParen,13,14);(4,KWhitespace,14,15);(4,KEqEq,15,17);(4,KWhitespace,17,18);(4,KLiteral,18,26);(5,KStr,18,26);(3,KWhitespace,26,27);(3,KThenKw,27,31);(3,KWhitespace,31,34);(3,KBlock,34,52);(4,KExprStmt,34,52);(5,KMultivalExpr,34,52);(6,KCallExpr,34,52);(7,KNameRef,34,39);(8,KIdent,34,39);(7,KCallArgs,39,52);(8,KArgList,39,52);(9,KLParen,39,40);(9,KMultivalExpr,40,51);(10,KLiteral,40,51);(11,KStr,40,51);(9,KRParen,51,52);(3,KWhitespace,52,53);(3,KEndKw,53,56);(2,KWhitespace,56,57)],
  []%string).
Proof. vm_compute. reflexivity. Qed.

Example snap_parser_ok_if_stmt :
  let t := [105;102;32;116;121;112;101;40;104;101;108;108;111;41;32;61;61;32;34;115;116;114;105;110;103;34;32;116;104;101;110;10;32;32;112;114;105;110;116;40;34;105;115;32;115;116;114;105;110;103;34;41;10;101;110;100;10]%N in
  snap_parse t = Some (t,
  [(0,KSourceFile,0,57);(1,KBlock,0,57);(2,KIfStmt,0,56);(3,KIfKw,0,2);(3,KWhitespace,2,3);(3,KInfixExpr,3,26);(4,KCallExpr,3,14);(5,KNameRef,3,7);(6,KIdent,3,7);(5,KCallArgs,7,14);(6,KArgList,7,14);(7,KLParen,7,8);(7,KMultivalExpr,8,13);(8,KNameRef,8,13);(9,KIdent,8,13);(7,KRParen,13,14);(4,KWhitespace,14,15);(4,KEqEq,15,17);(4,KWhitespace,17,18);(4,KLiteral,18,26);(5,KStr,18,26);(3,KWhitespace,26,27);(3,KThenKw,27,31);(3,KWhitespace,31,34);(3,KBlock,34,52);(4,KExprStmt,34,52);(5,KMultivalExpr,34,52);(6,KCallExpr,34,52);(7,KNameRef,34,39);(8,KIdent,34,39);(7,KCallArgs,39,52);(8,KArgList,39,52);(9,KLParen,39,40);(9,KMultivalExpr,40,51);(10,KLiteral,40,51);(11,KStr,40,51);(9,KRParen,51,52);(3,KWhitespace,52,53);(3,KEndKw,53,56);(2,KWhitespace,56,57)],
  []%string).
Proof. vm_compute. reflexivity. Qed.

Example snap_parser_ok_index_expr :
  let t := [108;111;99;97;108;32;111;110;101;95;105;110;100;101;120;32;61;32;116;98;108;91;51;52;93;10;108;111;99;97;108;32;116;119;111;95;105;110;100;101;120;32;61;32;116;98;108;91;50;51;93;91;49;48;93;10;108;111;99;97;108;32;105;110;100;101;120;95;101;120;112;114;32;61;32;116;98;108;91;50;51;94;50;51;32;47;32;49;50;93;91;34;104;101;108;108;111;32;112;101;114;115;111;110;34;93;91;102;117;110;99;116;105;111;110;40;104;101;108;108;111;44;32;116;104;105;115;41;32;112;114;105;110;116;40;39;104;101;108;108;111;39;41;32;101;110;100;93;10;108;111;99;97;108;32;105;110;100;101;120;95;99;97;108;108;32;61;32;102;110;40;34;104;101;108;108;111;34;41;91;39;105;110;100;101;120;39;93;40;41;10]%N in
  snap_parse t = Some (t,
  [(0,KSourceFile,0,191);(1,KBlock,0,191);(2,KLocalAssignStmt,0,25);(3,KLocalKw,0,5);(3,KWhitespace,5,6);(3,KMultiName,6,15);(4,KName,6,15);(5,KIdent,6,15);(3,KWhitespace,15,16);(3,KEq,16,17);(3,KWhitespace,17,18);(3,KMultivalExpr,18,25);(4,KIndexExpr,18,25);(5,KNameRef,18,21);(6,KIdent,18,21);(5,KIndex,21,25);(6,KLBracket,21,22);(6,KLiteral,22,24);(7,KNumber,22,24);(6,KRBracket,24,25);(2,KWhitespace,25,26);(2,KLocalAssignStmt,26,55);(3,KLocalKw,26,31);(3,KWhitespace,31,32);(3,KMultiName,32,41);(4,KName,32,41);(5,KIdent,32,41);(3,KWhitespace,41,42);(3,KEq,42,43);(3,KWhitespace,43,44);(3,KMultivalExpr,44,55);(4,KIndexExpr,44,55);(5,KIndexExpr,44,51);(6,KNameRef,44,47);(7,KIdent,44,47);(6,KIndex,47,51);(7,KLBracket,47,48);(7,KLiteral,48,50);(8,KNumber,48,50);(7,KRBracket,50,51);(5,KIndex,51,55);(6,KLBracket,51,52);(6,KLiteral,52,54);(7,KNumber,52,54);(6,KRBracket,54,55);(2,KWhitespace,55,56);(2,KLocalAssignStmt,56,148);(3,KLocalKw,56,61);(3,KWhitespace,61,62);(3,KMultiName,62,72);(4,KName,62,72);(5,KIdent,62,72);(3,KWhitespace,72,73);(3,KEq,73,74);(3,KWhitespace,74,75);(3,KMultivalExpr,75,148);(4,KIndexExpr,75,148);(5,KIndexExpr,75,106);(6,KIndexExpr,75,90);(7,KNameRef,75,78);(8,KIdent,75,78);(7,KIndex,78,90);(8,KLBracket,78,79);(8,KInfixExpr,79,89);(9,KInfixExpr,79,84);(10,KLiteral,79,81);(11,KNumber,79,81);(10,KCaret,81,82);(10,KLiteral,82,84);(11,KNumber,82,84);(9,KWhitespace,84,85);(9,KSlash,85,86);(9,KWhitespace,86,87);(9,KLiteral,87,89);(10,KNumber,87,89);(8,KRBracket,89,90);(6,KIndex,90,106);(7,KLBracket,90,91);(7,KLiteral,91,105);(8,KStr,91,105);(7,KRBracket,105,106);(5,KIndex,106,148);(6,KLBracket,106,107);(6,KFunctionExpr,107,147);(7,KFunctionKw,107,115);(7,KParamList,115,128);(8,KLParen,115,116);(8,KMultiName,116,127);(9,KName,116,121);(10,KIdent,116,121);(9,KComma,121,122);(9,KWhitespace,122,123);(9,KName,123,127);(10,KIdent,123,127);(8,KRParen,127,128);(7,KWhitespace,128,129);(7,KBlock,129,143);(8,KExprStmt,129,143);(9,KMultivalExpr,129,143);(10,KCallExpr,129,143);(11,KNameRef,129,134);(12,KIdent,129,134);(11,KCallArgs,134,143);(12,KArgList,134,143);(13,KLParen,134,135);(13,KMultivalExpr,135,142);(14,KLiteral,135,142);(15,KStr,135,142);(13,KRParen,142,143);(7,KWhitespace,143,144);(7,KEndKw,144,147);(6,KRBracket,147,148);(2,KWhitespace,148,149);(2,KLocalAssignStmt,149,190);(3,KLocalKw,149,154);(3,KWhitespace,154,155);(3,KMultiName,155,165);(4,KName,155,165);(5,KIdent,155,165);(3,KWhitespace,165,166);(3,KEq,166,167);(3,KWhitespace,167,168);(3,KMultivalExpr,168,190);(4,KCallExpr,168,190);(5,KIndexExpr,168,188);(6,KCallExpr,168,179);(7,KNameRef,168,170);(8,KIdent,168,170);(7,KCallArgs,170,179);(8,KArgList,170,179);(9,KLParen,170,171);(9,KMultivalExpr,171,178);(10,KLiteral,171,178);(11,KStr,171,178);(9,KRParen,178,179);(6,KIndex,179,188);(7,KLBracket,179,180);(7,KLiteral,180,187);(8,KStr,180,187);(7,KRBracket,187,188);(5,KCallArgs,188,190);(6,KArgList,188,190);(7,KLParen,188,189);(7,KRParen,189,190);(2,KWhitespace,190,191)],
  []%string).
Proof. vm_compute. reflexivity. Qed.

Example snap_parser_ok_len_op :
  let t := [108;111;99;97;108;32;102;105;114;115;116;44;32;115;101;99;111;110;100;32;61;32;35;99;97;99;104;101;100;95;98;117;102;102;101;114;115;10]%N in
  snap_parse t = Some (t,
  [(0,KSourceFile,0,38);(1,KBlock,0,38);(2,KLocalAssignStmt,0,37);(3,KLocalKw,0,5);(3,KWhitespace,5,6);(3,KMultiName,6,19);(4,KName,6,11);(5,KIdent,6,11);(4,KComma,11,12);(4,KWhitespace,12,13);(4,KName,13,19);(5,KIdent,13,19);(3,KWhitespace,19,20);(3,KEq,20,21);(3,KWhitespace,21,22);(3,KMultivalExpr,22,37);(4,KPrefixExpr,22,37);(5,KHash,22,23);(5,KNameRef,23,37);(6,KIdent,23,37);(2,KWhitespace,37,38)],
  []%string).
Proof. vm_compute. reflexivity. Qed.

Example snap_parser_ok_long_table :
  let t := [10;114;101;116;117;114;110;32;123;10;32;32;102;111;114;109;97;116;116;101;114;115;32;61;32;123;10;32;32;32;32;91;34;108;117;97;45;102;111;114;109;97;116;34;93;32;61;32;123;10;32;32;32;32;32;32;99;111;109;109;97;110;100;32;61;32;34;108;117;97;45;102;111;114;109;97;116;34;44;10;32;32;32;32;32;32;97;114;103;115;32;61;32;123;34;37;102;105;108;101;112;97;116;104;34;44;32;34;45;45;99;111;110;102;105;103;34;44;32;118;105;109;46;102;110;46;101;120;112;97;110;100;40;34;126;47;46;99;111;110;102;105;103;47;108;117;97;102;111;114;109;97;116;116;101;114;47;99;111;110;102;105;103;46;121;109;108;34;41;125;44;10;32;32;32;32;125;44;10;32;32;125;44;10;125;10]%N in
  snap_parse t = Some (t,
  [(0,KSourceFile,0,186);(1,KBlock,0,186);(2,KWhitespace,0,1);(2,KReturnStmt,1,185);(3,KReturnKw,1,7);(3,KWhitespace,7,8);(3,KMultivalExpr,8,185);(4,KTableExpr,8,185);(5,KLBrace,8,9);(5,KWhitespace,9,12);(5,KTableContent,12,182);(6,KKeyValue,12,182);(7,KTableKey,12,22);(8,KName,12,22);(9,KIdent,12,22);(7,KWhitespace,22,23);(7,KEq,23,24);(7,KWhitespace,24,25);(7,KTableExpr,25,182);(8,KLBrace,25,26);(8,KWhitespace,26,31);(8,KTableContent,31,177);(9,KKeyValue,31,177);(10,KTableKey,31,45);(11,KIndex,31,45);(12,KLBracket,31,32);(12,KLiteral,32,44);(13,KStr,32,44);(12,KRBracket,44,45);(10,KWhitespace,45,46);(10,KEq,46,47);(10,KWhitespace,47,48);(10,KTableExpr,48,177);(11,KLBrace,48,49);(11,KWhitespace,49,56);(11,KTableContent,56,78);(12,KKeyValue,56,78);(13,KTableKey,56,63);(14,KName,56,63);(15,KIdent,56,63);(13,KWhitespace,63,64);(13,KEq,64,65);(13,KWhitespace,65,66);(13,KLiteral,66,78);(14,KStr,66,78);(11,KTableSep,78,79);(12,KComma,78,79);(11,KWhitespace,79,86);(11,KTableContent,86,170);(12,KKeyValue,86,170);(13,KTableKey,86,90);(14,KName,86,90);(15,KIdent,86,90);(13,KWhitespace,90,91);(13,KEq,91,92);(13,KWhitespace,92,93);(13,KTableExpr,93,170);(14,KLBrace,93,94);(14,KTableContent,94,105);(15,KPositionalValue,94,105);(16,KLiteral,94,105);(17,KStr,94,105);(14,KTableSep,105,106);(15,KComma,105,106);(14,KWhitespace,106,107);(14,KTableContent,107,117);(15,KPositionalValue,107,117);(16,KLiteral,107,117);(17,KStr,107,117);(14,KTableSep,117,118);(15,KComma,117,118);(14,KWhitespace,118,119);(14,KTableContent,119,169);(15,KPositionalValue,119,169);(16,KCallExpr,119,169);(17,KDotExpr,119,132);(18,KDotExpr,119,125);(19,KNameRef,119,122);(20,KIdent,119,122);(19,KDot,122,123);(19,KIdent,123,125);(18,KDot,125,126);(18,KIdent,126,132);(17,KCallArgs,132,169);(18,KArgList,132,169);(19,KLParen,132,133);(19,KMultivalExpr,133,168);(20,KLiteral,133,168);(21,KStr,133,168);(19,KRParen,168,169);(14,KRBrace,169,170);(11,KTableSep,170,171);(12,KComma,170,171);(11,KWhitespace,171,176);(11,KRBrace,176,177);(8,KTableSep,177,178);(9,KComma,177,178);(8,KWhitespace,178,181);(8,KRBrace,181,182);(5,KTableSep,182,183);(6,KComma,182,183);(5,KWhitespace,183,184);(5,KRBrace,184,185);(2,KWhitespace,185,186)],
  []%string).
Proof. vm_compute. reflexivity. Qed.

Example snap_parser_ok_map_table_expr :
  let t := [108;111;99;97;108;32;109;97;112;32;61;32;123;10;32;32;97;110;111;116;104;101;114;32;61;32;52;44;10;32;32;91;50;51;93;32;61;32;34;104;101;108;108;111;32;112;101;114;115;111;110;34;44;10;32;32;91;102;117;110;99;116;105;111;110;40;41;32;101;110;100;93;32;61;32;50;51;44;10;125;10]%N in
  snap_parse t = Some (t,
  [(0,KSourceFile,0,81);(1,KBlock,0,81);(2,KLocalAssignStmt,0,80);(3,KLocalKw,0,5);(3,KWhitespace,5,6);(3,KMultiName,6,9);(4,KName,6,9);(5,KIdent,6,9);(3,KWhitespace,9,10);(3,KEq,10,11);(3,KWhitespace,11,12);(3,KMultivalExpr,12,80);(4,KTableExpr,12,80);(5,KLBrace,12,13);(5,KWhitespace,13,16);(5,KTableContent,16,27);(6,KKeyValue,16,27);(7,KTableKey,16,23);(8,KName,16,23);(9,KIdent,16,23);(7,KWhitespace,23,24);(7,KEq,24,25);(7,KWhitespace,25,26);(7,KLiteral,26,27);(8,KNumber,26,27);(5,KTableSep,27,28);(6,KComma,27,28);(5,KWhitespace,28,31);(5,KTableContent,31,52);(6,KKeyValue,31,52);(7,KTableKey,31,35);(8,KIndex,31,35);(9,KLBracket,31,32);(9,KLiteral,32,34);(10,KNumber,32,34);(9,KRBracket,34,35);(7,KWhitespace,35,36);(7,KEq,36,37);(7,KWhitespace,37,38);(7,KLiteral,38,52);(8,KStr,38,52);(5,KTableSep,52,53);(6,KComma,52,53);(5,KWhitespace,53,56);(5,KTableContent,56,77);(6,KKeyValue,56,77);(7,KTableKey,56,72);(8,KIndex,56,72);(9,KLBracket,56,57);(9,KFunctionExpr,57,71);(10,KFunctionKw,57,65);(10,KParamList,65,67);(11,KLParen,65,66);(11,KRParen,66,67);(10,KWhitespace,67,68);(10,KBlock,68,68);(10,KEndKw,68,71);(9,KRBracket,71,72);(7,KWhitespace,72,73);(7,KEq,73,74);(7,KWhitespace,74,75);(7,KLiteral,75,77);(8,KNumber,75,77);(5,KTableSep,77,78);(6,KComma,77,78);(5,KWhitespace,78,79);(5,KRBrace,79,80);(2,KWhitespace,80,81)],
  []%string).
Proof. vm_compute. reflexivity. Qed.

Example snap_parser_ok_method_call :
  let t := [112;101;114;115;111;110;58;103;114;101;101;116;32;34;104;101;108;108;111;34;10;10;111;112;116;115;58;119;105;116;104;32;123;10;32;32;102;105;114;115;116;32;61;32;34;97;115;100;102;34;44;10;32;32;91;97;115;100;102;93;32;61;32;34;97;100;115;34;44;10;125;10;10;104;101;108;108;111;58;119;111;114;108;100;40;39;97;115;100;102;39;44;32;39;97;115;100;102;39;41;10]%N in
  snap_parse t = Some (t,
  [(0,KSourceFile,0,101);(1,KBlock,0,101);(2,KExprStmt,0,20);(3,KMultivalExpr,0,20);(4,KMethodCallExpr,0,20);(5,KNameRef,0,6);(6,KIdent,0,6);(5,KColon,6,7);(5,KNameRef,7,12);(6,KIdent,7,12);(5,KWhitespace,12,13);(5,KCallArgs,13,20);(6,KStr,13,20);(2,KWhitespace,20,22);(2,KExprStmt,22,71);(3,KMultivalExpr,22,71);(4,KMethodCallExpr,22,71);(5,KNameRef,22,26);(6,KIdent,22,26);(5,KColon,26,27);(5,KNameRef,27,31);(6,KIdent,27,31);(5,KWhitespace,31,32);(5,KCallArgs,32,71);(6,KTableExpr,32,71);(7,KLBrace,32,33);(7,KWhitespace,33,36);(7,KTableContent,36,50);(8,KKeyValue,36,50);(9,KTableKey,36,41);(10,KName,36,41);(11,KIdent,36,41);(9,KWhitespace,41,42);(9,KEq,42,43);(9,KWhitespace,43,44);(9,KLiteral,44,50);(10,KStr,44,50);(7,KTableSep,50,51);(8,KComma,50,51);(7,KWhitespace,51,54);(7,KTableContent,54,68);(8,KKeyValue,54,68);(9,KTableKey,54,60);(10,KIndex,54,60);(11,KLBracket,54,55);(11,KNameRef,55,59);(12,KIdent,55,59);(11,KRBracket,59,60);(9,KWhitespace,60,61);(9,KEq,61,62);(9,KWhitespace,62,63);(9,KLiteral,63,68);(10,KStr,63,68);(7,KTableSep,68,69);(8,KComma,68,69);(7,KWhitespace,69,70);(7,KRBrace,70,71);(2,KWhitespace,71,73);(2,KExprStmt,73,100);(3,KMultivalExpr,73,100);(4,KMethodCallExpr,73,100);(5,KNameRef,73,78);(6,KIdent,73,78);(5,KColon,78,79);(5,KNameRef,79,84);(6,KIdent,79,84);(5,KCallArgs,84,100);(6,KArgList,84,100);(7,KLParen,84,85);(7,KMultivalExpr,85,99);(8,KLiteral,85,91);(9,KStr,85,91);(8,KComma,91,92);(8,KWhitespace,92,93);(8,KLiteral,93,99);(9,KStr,93,99);(7,KRParen,99,100);(2,KWhitespace,100,101)],
  []%string).
Proof. vm_compute. reflexivity. Qed.

Example snap_parser_ok_method_def :
  let t := [102;117;110;99;116;105;111;110;32;80;101;114;115;111;110;58;110;97;109;101;40;41;10;32;32;114;101;116;117;114;110;32;34;104;101;108;108;111;34;10;101;110;100;10;10;102;117;110;99;116;105;111;110;32;104;101;108;108;111;46;119;111;114;108;100;46;97;110;111;116;104;101;114;46;87;111;114;108;100;58;104;101;108;108;111;40;41;10;32;32;114;101;116;117;114;110;32;34;104;101;108;108;111;32;112;101;114;115;111;110;34;10;101;110;100;10]%N in
  snap_parse t = Some (t,
  [(0,KSourceFile,0,116);(1,KBlock,0,116);(2,KFunctionDefStmt,0,43);(3,KFunctionKw,0,8);(3,KWhitespace,8,9);(3,KFunctionDefContent,9,20);(4,KFunctionMethod,9,20);(5,KIndexPath,9,15);(6,KNameRef,9,15);(7,KIdent,9,15);(5,KColon,15,16);(5,KName,16,20);(6,KIdent,16,20);(3,KParamList,20,22);(4,KLParen,20,21);(4,KRParen,21,22);(3,KWhitespace,22,25);(3,KBlock,25,39);(4,KReturnStmt,25,39);(5,KReturnKw,25,31);(5,KWhitespace,31,32);(5,KMultivalExpr,32,39);(6,KLiteral,32,39);(7,KStr,32,39);(3,KWhitespace,39,40);(3,KEndKw,40,43);(2,KWhitespace,43,45);(2,KFunctionDefStmt,45,115);(3,KFunctionKw,45,53);(3,KWhitespace,53,54);(3,KFunctionDefContent,54,85);(4,KFunctionMethod,54,85);(5,KIndexPath,54,79);(6,KNameRef,54,59);(7,KIdent,54,59);(6,KDot,59,60);(6,KNameRef,60,65);(7,KIdent,60,65);(6,KDot,65,66);(6,KNameRef,66,73);(7,KIdent,66,73);(6,KDot,73,74);(6,KNameRef,74,79);(7,KIdent,74,79);(5,KColon,79,80);(5,KName,80,85);(6,KIdent,80,85);(3,KParamList,85,87);(4,KLParen,85,86);(4,KRParen,86,87);(3,KWhitespace,87,90);(3,KBlock,90,111);(4,KReturnStmt,90,111);(5,KReturnKw,90,96);(5,KWhitespace,96,97);(5,KMultivalExpr,97,111);(6,KLiteral,97,111);(7,KStr,97,111);(3,KWhitespace,111,112);(3,KEndKw,112,115);(2,KWhitespace,115,116)],
  []%string).
Proof. vm_compute. reflexivity. Qed.

Example snap_parser_ok_multi_name :
  let t := [108;111;99;97;108;32;102;105;114;115;116;44;32;115;101;99;111;110;100;32;61;32;49;44;32;50;10;108;111;99;97;108;32;116;104;105;114;100;44;32;102;111;117;114;116;104;32;61;32;49;94;49;48;32;37;32;49;44;32;49;50;10;108;111;99;97;108;32;102;110;49;44;32;102;110;50;32;61;32;102;117;110;99;116;105;111;110;40;97;115;100;41;10;101;110;100;44;10;102;117;110;99;116;105;111;110;40;97;110;111;116;104;101;114;44;32;97;110;111;116;104;101;114;41;10;101;110;100;10]%N in
  snap_parse t = Some (t,
  [(0,KSourceFile,0,129);(1,KBlock,0,129);(2,KLocalAssignStmt,0,26);(3,KLocalKw,0,5);(3,KWhitespace,5,6);(3,KMultiName,6,19);(4,KName,6,11);(5,KIdent,6,11);(4,KComma,11,12);(4,KWhitespace,12,13);(4,KName,13,19);(5,KIdent,13,19);(3,KWhitespace,19,20);(3,KEq,20,21);(3,KWhitespace,21,22);(3,KMultivalExpr,22,26);(4,KLiteral,22,23);(5,KNumber,22,23);(4,KComma,23,24);(4,KWhitespace,24,25);(4,KLiteral,25,26);(5,KNumber,25,26);(2,KWhitespace,26,27);(2,KLocalAssignStmt,27,61);(3,KLocalKw,27,32);(3,KWhitespace,32,33);(3,KMultiName,33,46);(4,KName,33,38);(5,KIdent,33,38);(4,KComma,38,39);(4,KWhitespace,39,40);(4,KName,40,46);(5,KIdent,40,46);(3,KWhitespace,46,47);(3,KEq,47,48);(3,KWhitespace,48,49);(3,KMultivalExpr,49,61);(4,KInfixExpr,49,57);(5,KInfixExpr,49,53);(6,KLiteral,49,50);(7,KNumber,49,50);(6,KCaret,50,51);(6,KLiteral,51,53);(7,KNumber,51,53);(5,KWhitespace,53,54);(5,KModulo,54,55);(5,KWhitespace,55,56);(5,KLiteral,56,57);(6,KNumber,56,57);(4,KComma,57,58);(4,KWhitespace,58,59);(4,KLiteral,59,61);(5,KNumber,59,61);(2,KWhitespace,61,62);(2,KLocalAssignStmt,62,128);(3,KLocalKw,62,67);(3,KWhitespace,67,68);(3,KMultiName,68,76);(4,KName,68,71);(5,KIdent,68,71);(4,KComma,71,72);(4,KWhitespace,72,73);(4,KName,73,76);(5,KIdent,73,76);(3,KWhitespace,76,77);(3,KEq,77,78);(3,KWhitespace,78,79);(3,KMultivalExpr,79,128);(4,KFunctionExpr,79,96);(5,KFunctionKw,79,87);(5,KParamList,87,92);(6,KLParen,87,88);(6,KMultiName,88,91);(7,KName,88,91);(8,KIdent,88,91);(6,KRParen,91,92);(5,KWhitespace,92,93);(5,KBlock,93,93);(5,KEndKw,93,96);(4,KComma,96,97);(4,KWhitespace,97,98);(4,KFunctionExpr,98,128);(5,KFunctionKw,98,106);(5,KParamList,106,124);(6,KLParen,106,107);(6,KMultiName,107,123);(7,KName,107,114);(8,KIdent,107,114);(7,KComma,114,115);(7,KWhitespace,115,116);(7,KName,116,123);(8,KIdent,116,123);(6,KRParen,123,124);(5,KWhitespace,124,125);(5,KBlock,125,125);(5,KEndKw,125,128);(2,KWhitespace,128,129)],
  []%string).
Proof. vm_compute. reflexivity. Qed.

Example snap_parser_ok_numeric_for_stmt :
  let t := [102;111;114;32;105;32;61;32;49;48;48;44;32;49;48;55;32;100;111;10;32;32;112;114;105;110;116;40;39;104;101;108;108;111;32;119;111;114;108;100;39;41;10;101;110;100;10;10;102;111;114;32;105;32;61;32;51;44;32;53;44;32;50;32;100;111;10;32;32;112;114;105;110;116;40;105;41;10;101;110;100;10]%N in
  snap_parse t = Some (t,
  [(0,KSourceFile,0,82);(1,KBlock,0,82);(2,KForStmt,0,46);(3,KForKw,0,3);(3,KWhitespace,3,4);(3,KForContent,4,16);(4,KNumericFor,4,16);(5,KName,4,5);(6,KIdent,4,5);(5,KWhitespace,5,6);(5,KEq,6,7);(5,KWhitespace,7,8);(5,KMultivalExpr,8,16);(6,KLiteral,8,11);(7,KNumber,8,11);(6,KComma,11,12);(6,KWhitespace,12,13);(6,KLiteral,13,16);(7,KNumber,13,16);(3,KWhitespace,16,17);(3,KDoKw,17,19);(3,KWhitespace,19,22);(3,KBlock,22,42);(4,KExprStmt,22,42);(5,KMultivalExpr,22,42);(6,KCallExpr,22,42);(7,KNameRef,22,27);(8,KIdent,22,27);(7,KCallArgs,27,42);(8,KArgList,27,42);(9,KLParen,27,28);(9,KMultivalExpr,28,41);(10,KLiteral,28,41);(11,KStr,28,41);(9,KRParen,41,42);(3,KWhitespace,42,43);(3,KEndKw,43,46);(2,KWhitespace,46,48);(2,KForStmt,48,81);(3,KForKw,48,51);(3,KWhitespace,51,52);(3,KForContent,52,63);(4,KNumericFor,52,63);(5,KName,52,53);(6,KIdent,52,53);(5,KWhitespace,53,54);(5,KEq,54,55);(5,KWhitespace,55,56);(5,KMultivalExpr,56,63);(6,KLiteral,56,57);(7,KNumber,56,57);(6,KComma,57,58);(6,KWhitespace,58,59);(6,KLiteral,59,60);(7,KNumber,59,60);(6,KComma,60,61);(6,KWhitespace,61,62);(6,KLiteral,62,63);(7,KNumber,62,63);(3,KWhitespace,63,64);(3,KDoKw,64,66);(3,KWhitespace,66,69);(3,KBlock,69,77);(4,KExprStmt,69,77);(5,KMultivalExpr,69,77);(6,KCallExpr,69,77);(7,KNameRef,69,74);(8,KIdent,69,74);(7,KCallArgs,74,77);(8,KArgList,74,77);(9,KLParen,74,75);(9,KMultivalExpr,75,76);(10,KNameRef,75,76);(11,KIdent,75,76);(9,KRParen,76,77);(3,KWhitespace,77,78);(3,KEndKw,78,81);(2,KWhitespace,81,82)],
  []%string).
Proof. vm_compute. reflexivity. Qed.

Example snap_parser_ok_operators :
  let t := [108;111;99;97;108;32;104;101;108;108;111;32;61;32;97;115;115;101;114;116;40;53;32;61;61;32;50;41;10]%N in
  snap_parse t = Some (t,
  [(0,KSourceFile,0,29);(1,KBlock,0,29);(2,KLocalAssignStmt,0,28);(3,KLocalKw,0,5);(3,KWhitespace,5,6);(3,KMultiName,6,11);(4,KName,6,11);(5,KIdent,6,11);(3,KWhitespace,11,12);(3,KEq,12,13);(3,KWhitespace,13,14);(3,KMultivalExpr,14,28);(4,KCallExpr,14,28);(5,KNameRef,14,20);(6,KIdent,14,20);(5,KCallArgs,20,28);(6,KArgList,20,28);(7,KLParen,20,21);(7,KMultivalExpr,21,27);(8,KInfixExpr,21,27);(9,KLiteral,21,22);(10,KNumber,21,22);(9,KWhitespace,22,23);(9,KEqEq,23,25);(9,KWhitespace,25,26);(9,KLiteral,26,27);(10,KNumber,26,27);(7,KRParen,27,28);(2,KWhitespace,28,29)],
  []%string).
Proof. vm_compute. reflexivity. Qed.

Example snap_parser_ok_prefix_expr :
  let t := [108;111;99;97;108;32;110;101;103;95;110;117;109;32;61;32;45;53;32;42;32;45;49;48;10;108;111;99;97;108;32;97;110;111;116;104;101;114;32;61;32;110;111;116;32;116;114;117;101;10;108;111;99;97;108;32;102;105;110;97;108;121;32;61;32;116;114;117;101;32;97;110;100;32;110;111;116;32;102;97;108;115;101;10;108;111;99;97;108;32;97;110;111;116;104;101;114;32;61;32;116;114;117;101;32;97;110;100;32;110;111;116;32;102;97;108;115;101;32;111;114;32;110;111;116;32;116;114;117;101;32;111;114;32;45;49;10]%N in
  snap_parse t = Some (t,
  [(0,KSourceFile,0,137);(1,KBlock,0,137);(2,KLocalAssignStmt,0,24);(3,KLocalKw,0,5);(3,KWhitespace,5,6);(3,KMultiName,6,13);(4,KName,6,13);(5,KIdent,6,13);(3,KWhitespace,13,14);(3,KEq,14,15);(3,KWhitespace,15,16);(3,KMultivalExpr,16,24);(4,KInfixExpr,16,24);(5,KPrefixExpr,16,18);(6,KMinus,16,17);(6,KLiteral,17,18);(7,KNumber,17,18);(5,KWhitespace,18,19);(5,KAsterisk,19,20);(5,KWhitespace,20,21);(5,KPrefixExpr,21,24);(6,KMinus,21,22);(6,KLiteral,22,24);(7,KNumber,22,24);(2,KWhitespace,24,25);(2,KLocalAssignStmt,25,49);(3,KLocalKw,25,30);(3,KWhitespace,30,31);(3,KMultiName,31,38);(4,KName,31,38);(5,KIdent,31,38);(3,KWhitespace,38,39);(3,KEq,39,40);(3,KWhitespace,40,41);(3,KMultivalExpr,41,49);(4,KPrefixExpr,41,49);(5,KNotKw,41,44);(5,KWhitespace,44,45);(5,KLiteral,45,49);(6,KTrueKw,45,49);(2,KWhitespace,49,50);(2,KLocalAssignStmt,50,83);(3,KLocalKw,50,55);(3,KWhitespace,55,56);(3,KMultiName,56,62);(4,KName,56,62);(5,KIdent,56,62);(3,KWhitespace,62,63);(3,KEq,63,64);(3,KWhitespace,64,65);(3,KMultivalExpr,65,83);(4,KInfixExpr,65,83);(5,KLiteral,65,69);(6,KTrueKw,65,69);(5,KWhitespace,69,70);(5,KAndKw,70,73);(5,KWhitespace,73,74);(5,KPrefixExpr,74,83);(6,KNotKw,74,77);(6,KWhitespace,77,78);(6,KLiteral,78,83);(7,KFalseKw,78,83);(2,KWhitespace,83,84);(2,KLocalAssignStmt,84,136);(3,KLocalKw,84,89);(3,KWhitespace,89,90);(3,KMultiName,90,97);(4,KName,90,97);(5,KIdent,90,97);(3,KWhitespace,97,98);(3,KEq,98,99);(3,KWhitespace,99,100);(3,KMultivalExpr,100,136);(4,KInfixExpr,100,136);(5,KInfixExpr,100,130);(6,KInfixExpr,100,118);(7,KLiteral,100,104);(8,KTrueKw,100,104);(7,KWhitespace,104,105);(7,KAndKw,105,108);(7,KWhitespace,108,109);(7,KPrefixExpr,109,118);(8,KNotKw,109,112);(8,KWhitespace,112,113);(8,KLiteral,113,118);(9,KFalseKw,113,118);(6,KWhitespace,118,119);(6,KOrKw,119,121);(6,KWhitespace,121,122);(6,KPrefixExpr,122,130);(7,KNotKw,122,125);(7,KWhitespace,125,126);(7,KLiteral,126,130);(8,KTrueKw,126,130);(5,KWhitespace,130,131);(5,KOrKw,131,133);(5,KWhitespace,133,134);(5,KPrefixExpr,134,136);(6,KMinus,134,135);(6,KLiteral,135,136);(7,KNumber,135,136);(2,KWhitespace,136,137)],
  []%string).
Proof. vm_compute. reflexivity. Qed.

Example snap_parser_ok_repeat_until_stmt :
  let t := [114;101;112;101;97;116;10;32;32;108;111;99;97;108;32;104;101;108;108;111;32;61;32;50;10;32;32;97;110;111;116;104;101;114;32;61;32;102;97;108;115;101;10;117;110;116;105;108;32;115;104;111;117;108;100;95;102;105;110;105;115;104;40;41;10]%N in
  snap_parse t = Some (t,
  [(0,KSourceFile,0,65);(1,KBlock,0,65);(2,KRepeatUntilStmt,0,64);(3,KRepeatKw,0,6);(3,KWhitespace,6,9);(3,KBlock,9,42);(4,KLocalAssignStmt,9,24);(5,KLocalKw,9,14);(5,KWhitespace,14,15);(5,KMultiName,15,20);(6,KName,15,20);(7,KIdent,15,20);(5,KWhitespace,20,21);(5,KEq,21,22);(5,KWhitespace,22,23);(5,KMultivalExpr,23,24);(6,KLiteral,23,24);(7,KNumber,23,24);(4,KWhitespace,24,27);(4,KAssignStmt,27,42);(5,KMultivalExpr,27,34);(6,KNameRef,27,34);(7,KIdent,27,34);(5,KWhitespace,34,35);(5,KEq,35,36);(5,KWhitespace,36,37);(5,KMultivalExpr,37,42);(6,KLiteral,37,42);(7,KFalseKw,37,42);(3,KWhitespace,42,43);(3,KUntilKw,43,48);(3,KWhitespace,48,49);(3,KCallExpr,49,64);(4,KNameRef,49,62);(5,KIdent,49,62);(4,KCallArgs,62,64);(5,KArgList,62,64);(6,KLParen,62,63);(6,KRParen,63,64);(2,KWhitespace,64,65)],
  []%string).
Proof. vm_compute. reflexivity. Qed.

Example snap_parser_ok_require_stmt :
  let t := [114;101;113;117;105;114;101;40;34;104;101;108;108;111;34;41;10]%N in
  snap_parse t = Some (t,
  [(0,KSourceFile,0,17);(1,KBlock,0,17);(2,KExprStmt,0,16);(3,KMultivalExpr,0,16);(4,KCallExpr,0,16);(5,KNameRef,0,7);(6,KIdent,0,7);(5,KCallArgs,7,16);(6,KArgList,7,16);(7,KLParen,7,8);(7,KMultivalExpr,8,15);(8,KLiteral,8,15);(9,KStr,8,15);(7,KRParen,15,16);(2,KWhitespace,16,17)],
  []%string).
Proof. vm_compute. reflexivity. Qed.

Example snap_parser_ok_return_nothing :
  let t := [108;111;99;97;108;32;102;117;110;99;116;105;111;110;32;116;101;115;116;40;41;10;32;32;114;101;116;117;114;110;10;101;110;100;10;10;108;111;99;97;108;32;97;110;111;116;104;101;114;32;61;32;102;117;110;99;116;105;111;110;40;41;10;32;32;114;101;116;117;114;110;10;101;110;100;10;10;114;101;116;117;114;110;10]%N in
  snap_parse t = Some (t,
  [(0,KSourceFile,0,84);(1,KBlock,0,84);(2,KLocalFunctionDefStmt,0,34);(3,KLocalKw,0,5);(3,KWhitespace,5,6);(3,KFunctionKw,6,14);(3,KWhitespace,14,15);(3,KName,15,19);(4,KIdent,15,19);(3,KParamList,19,21);(4,KLParen,19,20);(4,KRParen,20,21);(3,KWhitespace,21,24);(3,KBlock,24,30);(4,KReturnStmt,24,30);(5,KReturnKw,24,30);(3,KWhitespace,30,31);(3,KEndKw,31,34);(2,KWhitespace,34,36);(2,KLocalAssignStmt,36,75);(3,KLocalKw,36,41);(3,KWhitespace,41,42);(3,KMultiName,42,49);(4,KName,42,49);(5,KIdent,42,49);(3,KWhitespace,49,50);(3,KEq,50,51);(3,KWhitespace,51,52);(3,KMultivalExpr,52,75);(4,KFunctionExpr,52,75);(5,KFunctionKw,52,60);(5,KParamList,60,62);(6,KLParen,60,61);(6,KRParen,61,62);(5,KWhitespace,62,65);(5,KBlock,65,71);(6,KReturnStmt,65,71);(7,KReturnKw,65,71);(5,KWhitespace,71,72);(5,KEndKw,72,75);(2,KWhitespace,75,77);(2,KReturnStmt,77,83);(3,KReturnKw,77,83);(2,KWhitespace,83,84)],
  []%string).
Proof. vm_compute. reflexivity. Qed.

Example snap_parser_ok_simple_math :
  let t := [108;111;99;97;108;32;101;120;112;114;32;61;32;53;32;43;32;54;10;108;111;99;97;108;32;99;111;109;112;108;105;99;97;116;101;100;95;101;120;112;114;32;61;32;53;32;43;32;54;94;49;49;32;42;32;55;10]%N in
  snap_parse t = Some (t,
  [(0,KSourceFile,0,57);(1,KBlock,0,57);(2,KLocalAssignStmt,0,18);(3,KLocalKw,0,5);(3,KWhitespace,5,6);(3,KMultiName,6,10);(4,KName,6,10);(5,KIdent,6,10);(3,KWhitespace,10,11);(3,KEq,11,12);(3,KWhitespace,12,13);(3,KMultivalExpr,13,18);(4,KInfixExpr,13,18);(5,KLiteral,13,14);(6,KNumber,13,14);(5,KWhitespace,14,15);(5,KPlus,15,16);(5,KWhitespace,16,17);(5,KLiteral,17,18);(6,KNumber,17,18);(2,KWhitespace,18,19);(2,KLocalAssignStmt,19,56);(3,KLocalKw,19,24);(3,KWhitespace,24,25);(3,KMultiName,25,41);(4,KName,25,41);(5,KIdent,25,41);(3,KWhitespace,41,42);(3,KEq,42,43);(3,KWhitespace,43,44);(3,KMultivalExpr,44,56);(4,KInfixExpr,44,56);(5,KLiteral,44,45);(6,KNumber,44,45);(5,KWhitespace,45,46);(5,KPlus,46,47);(5,KWhitespace,47,48);(5,KInfixExpr,48,56);(6,KInfixExpr,48,52);(7,KLiteral,48,49);(8,KNumber,48,49);(7,KCaret,49,50);(7,KLiteral,50,52);(8,KNumber,50,52);(6,KWhitespace,52,53);(6,KAsterisk,53,54);(6,KWhitespace,54,55);(6,KLiteral,55,56);(7,KNumber,55,56);(2,KWhitespace,56,57)],
  []%string).
Proof. vm_compute. reflexivity. Qed.

Example snap_parser_ok_static_function :
  let t := [102;117;110;99;116;105;111;110;32;77;46;102;105;114;115;116;40;41;10;32;32;114;101;116;117;114;110;32;49;10;101;110;100;10;10;102;117;110;99;116;105;111;110;32;77;46;97;110;111;116;104;101;114;46;112;97;116;104;46;104;101;108;108;111;46;109;111;114;101;40;41;10;101;110;100;10]%N in
  snap_parse t = Some (t,
  [(0,KSourceFile,0,76);(1,KBlock,0,76);(2,KFunctionDefStmt,0,33);(3,KFunctionKw,0,8);(3,KWhitespace,8,9);(3,KFunctionDefContent,9,16);(4,KFunctionStatic,9,16);(5,KIndexPath,9,11);(6,KNameRef,9,10);(7,KIdent,9,10);(6,KDot,10,11);(5,KName,11,16);(6,KIdent,11,16);(3,KParamList,16,18);(4,KLParen,16,17);(4,KRParen,17,18);(3,KWhitespace,18,21);(3,KBlock,21,29);(4,KReturnStmt,21,29);(5,KReturnKw,21,27);(5,KWhitespace,27,28);(5,KMultivalExpr,28,29);(6,KLiteral,28,29);(7,KNumber,28,29);(3,KWhitespace,29,30);(3,KEndKw,30,33);(2,KWhitespace,33,35);(2,KFunctionDefStmt,35,75);(3,KFunctionKw,35,43);(3,KWhitespace,43,44);(3,KFunctionDefContent,44,69);(4,KFunctionStatic,44,69);(5,KIndexPath,44,65);(6,KNameRef,44,45);(7,KIdent,44,45);(6,KDot,45,46);(6,KNameRef,46,53);(7,KIdent,46,53);(6,KDot,53,54);(6,KNameRef,54,58);(7,KIdent,54,58);(6,KDot,58,59);(6,KNameRef,59,64);(7,KIdent,59,64);(6,KDot,64,65);(5,KName,65,69);(6,KIdent,65,69);(3,KParamList,69,71);(4,KLParen,69,70);(4,KRParen,70,71);(3,KWhitespace,71,72);(3,KBlock,72,72);(3,KEndKw,72,75);(2,KWhitespace,75,76)],
  []%string).
Proof. vm_compute. reflexivity. Qed.

Example snap_parser_ok_string_call_expr :
  let t := [108;111;99;97;108;32;114;101;115;32;61;32;112;114;105;110;116;32;34;116;104;105;115;32;105;115;32;97;32;115;116;114;105;110;103;32;99;97;108;108;34;10;108;111;99;97;108;32;97;110;111;116;104;101;114;32;61;32;104;105;103;104;101;114;32;34;104;101;108;108;111;34;40;41;34;119;104;97;116;32;105;116;104;105;115;34;10;108;111;99;97;108;32;101;120;112;114;32;61;32;40;102;117;110;99;116;105;111;110;40;41;32;101;110;100;41;34;104;101;108;108;111;32;112;101;114;115;111;110;34;10]%N in
  snap_parse t = Some (t,
  [(0,KSourceFile,0,131);(1,KBlock,0,131);(2,KLocalAssignStmt,0,41);(3,KLocalKw,0,5);(3,KWhitespace,5,6);(3,KMultiName,6,9);(4,KName,6,9);(5,KIdent,6,9);(3,KWhitespace,9,10);(3,KEq,10,11);(3,KWhitespace,11,12);(3,KMultivalExpr,12,41);(4,KCallExpr,12,41);(5,KNameRef,12,17);(6,KIdent,12,17);(5,KWhitespace,17,18);(5,KCallArgs,18,41);(6,KStr,18,41);(2,KWhitespace,41,42);(2,KLocalAssignStmt,42,86);(3,KLocalKw,42,47);(3,KWhitespace,47,48);(3,KMultiName,48,55);(4,KName,48,55);(5,KIdent,48,55);(3,KWhitespace,55,56);(3,KEq,56,57);(3,KWhitespace,57,58);(3,KMultivalExpr,58,86);(4,KCallExpr,58,86);(5,KCallExpr,58,74);(6,KCallExpr,58,72);(7,KNameRef,58,64);(8,KIdent,58,64);(7,KWhitespace,64,65);(7,KCallArgs,65,72);(8,KStr,65,72);(6,KCallArgs,72,74);(7,KArgList,72,74);(8,KLParen,72,73);(8,KRParen,73,74);(5,KCallArgs,74,86);(6,KStr,74,86);(2,KWhitespace,86,87);(2,KLocalAssignStmt,87,130);(3,KLocalKw,87,92);(3,KWhitespace,92,93);(3,KMultiName,93,97);(4,KName,93,97);(5,KIdent,93,97);(3,KWhitespace,97,98);(3,KEq,98,99);(3,KWhitespace,99,100);(3,KMultivalExpr,100,130);(4,KCallExpr,100,130);(5,KParenExpr,100,116);(6,KLParen,100,101);(6,KFunctionExpr,101,115);(7,KFunctionKw,101,109);(7,KParamList,109,111);(8,KLParen,109,110);(8,KRParen,110,111);(7,KWhitespace,111,112);(7,KBlock,112,112);(7,KEndKw,112,115);(6,KRParen,115,116);(5,KCallArgs,116,130);(6,KStr,116,130);(2,KWhitespace,130,131)],
  []%string).
Proof. vm_compute. reflexivity. Qed.

Example snap_parser_ok_table_any_sep :
  let t := [108;111;99;97;108;32;116;98;108;32;61;32;123;10;32;32;34;97;115;100;102;97;115;100;34;59;10;32;32;34;97;110;111;116;104;101;114;34;44;10;32;32;91;97;115;100;102;93;32;61;32;50;51;52;44;10;32;32;97;115;100;102;59;10;32;32;104;101;108;108;111;32;61;32;34;119;111;114;108;34;59;10;125;10]%N in
  snap_parse t = Some (t,
  [(0,KSourceFile,0,84);(1,KBlock,0,84);(2,KLocalAssignStmt,0,83);(3,KLocalKw,0,5);(3,KWhitespace,5,6);(3,KMultiName,6,9);(4,KName,6,9);(5,KIdent,6,9);(3,KWhitespace,9,10);(3,KEq,10,11);(3,KWhitespace,11,12);(3,KMultivalExpr,12,83);(4,KTableExpr,12,83);(5,KLBrace,12,13);(5,KWhitespace,13,16);(5,KTableContent,16,25);(6,KPositionalValue,16,25);(7,KLiteral,16,25);(8,KStr,16,25);(5,KTableSep,25,26);(6,KSemicolon,25,26);(5,KWhitespace,26,29);(5,KTableContent,29,38);(6,KPositionalValue,29,38);(7,KLiteral,29,38);(8,KStr,29,38);(5,KTableSep,38,39);(6,KComma,38,39);(5,KWhitespace,39,42);(5,KTableContent,42,54);(6,KKeyValue,42,54);(7,KTableKey,42,48);(8,KIndex,42,48);(9,KLBracket,42,43);(9,KNameRef,43,47);(10,KIdent,43,47);(9,KRBracket,47,48);(7,KWhitespace,48,49);(7,KEq,49,50);(7,KWhitespace,50,51);(7,KLiteral,51,54);(8,KNumber,51,54);(5,KTableSep,54,55);(6,KComma,54,55);(5,KWhitespace,55,58);(5,KTableContent,58,62);(6,KPositionalValue,58,62);(7,KNameRef,58,62);(8,KIdent,58,62);(5,KTableSep,62,63);(6,KSemicolon,62,63);(5,KWhitespace,63,66);(5,KTableContent,66,80);(6,KKeyValue,66,80);(7,KTableKey,66,71);(8,KName,66,71);(9,KIdent,66,71);(7,KWhitespace,71,72);(7,KEq,72,73);(7,KWhitespace,73,74);(7,KLiteral,74,80);(8,KStr,74,80);(5,KTableSep,80,81);(6,KSemicolon,80,81);(5,KWhitespace,81,82);(5,KRBrace,82,83);(2,KWhitespace,83,84)],
  []%string).
Proof. vm_compute. reflexivity. Qed.

Example snap_parser_ok_table_call_expr :
  let t := [108;111;99;97;108;32;114;101;115;32;61;32;99;97;108;108;32;123;10;32;32;34;102;105;114;115;116;34;44;10;32;32;34;115;101;99;111;110;100;34;44;10;32;32;104;101;108;108;111;32;61;32;50;51;52;10;125;10]%N in
  snap_parse t = Some (t,
  [(0,KSourceFile,0,58);(1,KBlock,0,58);(2,KLocalAssignStmt,0,57);(3,KLocalKw,0,5);(3,KWhitespace,5,6);(3,KMultiName,6,9);(4,KName,6,9);(5,KIdent,6,9);(3,KWhitespace,9,10);(3,KEq,10,11);(3,KWhitespace,11,12);(3,KMultivalExpr,12,57);(4,KCallExpr,12,57);(5,KNameRef,12,16);(6,KIdent,12,16);(5,KWhitespace,16,17);(5,KCallArgs,17,57);(6,KTableExpr,17,57);(7,KLBrace,17,18);(7,KWhitespace,18,21);(7,KTableContent,21,28);(8,KPositionalValue,21,28);(9,KLiteral,21,28);(10,KStr,21,28);(7,KTableSep,28,29);(8,KComma,28,29);(7,KWhitespace,29,32);(7,KTableContent,32,40);(8,KPositionalValue,32,40);(9,KLiteral,32,40);(10,KStr,32,40);(7,KTableSep,40,41);(8,KComma,40,41);(7,KWhitespace,41,44);(7,KTableContent,44,55);(8,KKeyValue,44,55);(9,KTableKey,44,49);(10,KName,44,49);(11,KIdent,44,49);(9,KWhitespace,49,50);(9,KEq,50,51);(9,KWhitespace,51,52);(9,KLiteral,52,55);(10,KNumber,52,55);(7,KWhitespace,55,56);(7,KRBrace,56,57);(2,KWhitespace,57,58)],
  []%string).
Proof. vm_compute. reflexivity. Qed.

Example snap_parser_ok_types :
  let t := [108;111;99;97;108;32;95;32;61;32;34;97;115;100;34;44;32;49;50;50;51;44;32;116;114;117;101;44;32;102;97;108;115;101;44;32;102;117;110;99;116;105;111;110;40;41;32;101;110;100;44;32;110;105;108;10]%N in
  snap_parse t = Some (t,
  [(0,KSourceFile,0,56);(1,KBlock,0,56);(2,KLocalAssignStmt,0,55);(3,KLocalKw,0,5);(3,KWhitespace,5,6);(3,KMultiName,6,7);(4,KName,6,7);(5,KIdent,6,7);(3,KWhitespace,7,8);(3,KEq,8,9);(3,KWhitespace,9,10);(3,KMultivalExpr,10,55);(4,KLiteral,10,15);(5,KStr,10,15);(4,KComma,15,16);(4,KWhitespace,16,17);(4,KLiteral,17,21);(5,KNumber,17,21);(4,KComma,21,22);(4,KWhitespace,22,23);(4,KLiteral,23,27);(5,KTrueKw,23,27);(4,KComma,27,28);(4,KWhitespace,28,29);(4,KLiteral,29,34);(5,KFalseKw,29,34);(4,KComma,34,35);(4,KWhitespace,35,36);(4,KFunctionExpr,36,50);(5,KFunctionKw,36,44);(5,KParamList,44,46);(6,KLParen,44,45);(6,KRParen,45,46);(5,KWhitespace,46,47);(5,KBlock,47,47);(5,KEndKw,47,50);(4,KComma,50,51);(4,KWhitespace,51,52);(4,KLiteral,52,55);(5,KNilKw,52,55);(2,KWhitespace,55,56)],
  []%string).
Proof. vm_compute. reflexivity. Qed.

Example snap_parser_ok_vararg :
  let t := [108;111;99;97;108;32;102;117;110;99;116;105;111;110;32;97;115;100;102;40;104;101;108;108;111;44;32;46;46;46;41;10;101;110;100;10;10;108;111;99;97;108;32;102;117;110;99;116;105;111;110;32;97;100;115;102;40;46;46;46;41;10;101;110;100;10;10;108;111;99;97;108;32;102;117;110;99;116;105;111;110;32;97;115;100;102;40;104;101;108;108;111;44;32;119;111;114;108;100;44;32;46;46;46;41;10;101;110;100;10]%N in
  snap_parse t = Some (t,
  [(0,KSourceFile,0,110);(1,KBlock,0,110);(2,KLocalFunctionDefStmt,0,35);(3,KLocalKw,0,5);(3,KWhitespace,5,6);(3,KFunctionKw,6,14);(3,KWhitespace,14,15);(3,KName,15,19);(4,KIdent,15,19);(3,KParamList,19,31);(4,KLParen,19,20);(4,KMultiName,20,26);(5,KName,20,25);(6,KIdent,20,25);(5,KComma,25,26);(4,KWhitespace,26,27);(4,KTripleDot,27,30);(4,KRParen,30,31);(3,KWhitespace,31,32);(3,KBlock,32,32);(3,KEndKw,32,35);(2,KWhitespace,35,37);(2,KLocalFunctionDefStmt,37,65);(3,KLocalKw,37,42);(3,KWhitespace,42,43);(3,KFunctionKw,43,51);(3,KWhitespace,51,52);(3,KName,52,56);(4,KIdent,52,56);(3,KParamList,56,61);(4,KLParen,56,57);(4,KMultiName,57,57);(4,KTripleDot,57,60);(4,KRParen,60,61);(3,KWhitespace,61,62);(3,KBlock,62,62);(3,KEndKw,62,65);(2,KWhitespace,65,67);(2,KLocalFunctionDefStmt,67,109);(3,KLocalKw,67,72);(3,KWhitespace,72,73);(3,KFunctionKw,73,81);(3,KWhitespace,81,82);(3,KName,82,86);(4,KIdent,82,86);(3,KParamList,86,105);(4,KLParen,86,87);(4,KMultiName,87,100);(5,KName,87,92);(6,KIdent,87,92);(5,KComma,92,93);(5,KWhitespace,93,94);(5,KName,94,99);(6,KIdent,94,99);(5,KComma,99,100);(4,KWhitespace,100,101);(4,KTripleDot,101,104);(4,KRParen,104,105);(3,KWhitespace,105,106);(3,KBlock,106,106);(3,KEndKw,106,109);(2,KWhitespace,109,110)],
  []%string).
Proof. vm_compute. reflexivity. Qed.

Example snap_parser_ok_vararg_expr :
  let t := [108;111;99;97;108;32;102;117;110;99;116;105;111;110;32;112;101;114;115;111;110;40;46;46;46;41;10;32;32;112;114;105;110;116;40;46;46;46;41;10;32;32;108;111;99;97;108;32;104;101;108;108;111;32;61;32;46;46;46;32;43;32;49;10;32;32;112;114;105;110;116;40;46;46;46;44;32;34;97;110;111;116;104;101;114;34;44;32;46;46;46;41;10;101;110;100;10]%N in
  snap_parse t = Some (t,
  [(0,KSourceFile,0,97);(1,KBlock,0,97);(2,KLocalFunctionDefStmt,0,96);(3,KLocalKw,0,5);(3,KWhitespace,5,6);(3,KFunctionKw,6,14);(3,KWhitespace,14,15);(3,KName,15,21);(4,KIdent,15,21);(3,KParamList,21,26);(4,KLParen,21,22);(4,KMultiName,22,22);(4,KTripleDot,22,25);(4,KRParen,25,26);(3,KWhitespace,26,29);(3,KBlock,29,92);(4,KExprStmt,29,39);(5,KMultivalExpr,29,39);(6,KCallExpr,29,39);(7,KNameRef,29,34);(8,KIdent,29,34);(7,KCallArgs,34,39);(8,KArgList,34,39);(9,KLParen,34,35);(9,KMultivalExpr,35,38);(10,KLiteral,35,38);(11,KTripleDot,35,38);(9,KRParen,38,39);(4,KWhitespace,39,42);(4,KLocalAssignStmt,42,63);(5,KLocalKw,42,47);(5,KWhitespace,47,48);(5,KMultiName,48,53);(6,KName,48,53);(7,KIdent,48,53);(5,KWhitespace,53,54);(5,KEq,54,55);(5,KWhitespace,55,56);(5,KMultivalExpr,56,63);(6,KInfixExpr,56,63);(7,KLiteral,56,59);(8,KTripleDot,56,59);(7,KWhitespace,59,60);(7,KPlus,60,61);(7,KWhitespace,61,62);(7,KLiteral,62,63);(8,KNumber,62,63);(4,KWhitespace,63,66);(4,KExprStmt,66,92);(5,KMultivalExpr,66,92);(6,KCallExpr,66,92);(7,KNameRef,66,71);(8,KIdent,66,71);(7,KCallArgs,71,92);(8,KArgList,71,92);(9,KLParen,71,72);(9,KMultivalExpr,72,91);(10,KLiteral,72,75);(11,KTripleDot,72,75);(10,KComma,75,76);(10,KWhitespace,76,77);(10,KLiteral,77,86);(11,KStr,77,86);(10,KComma,86,87);(10,KWhitespace,87,88);(10,KLiteral,88,91);(11,KTripleDot,88,91);(9,KRParen,91,92);(3,KWhitespace,92,93);(3,KEndKw,93,96);(2,KWhitespace,96,97)],
  []%string).
Proof. vm_compute. reflexivity. Qed.

Example snap_parser_ok_variable_def :
  let t := [108;111;99;97;108;32;100;101;102;44;32;97;110;111;116;104;101;114;95;100;101;102;10;108;111;99;97;108;32;116;104;101;114;101;44;32;97;114;101;44;32;109;111;114;101;44;32;100;101;102;115;10]%N in
  snap_parse t = Some (t,
  [(0,KSourceFile,0,52);(1,KBlock,0,52);(2,KLocalAssignStmt,0,22);(3,KLocalKw,0,5);(3,KWhitespace,5,6);(3,KMultiName,6,22);(4,KName,6,9);(5,KIdent,6,9);(4,KComma,9,10);(4,KWhitespace,10,11);(4,KName,11,22);(5,KIdent,11,22);(2,KWhitespace,22,23);(2,KLocalAssignStmt,23,51);(3,KLocalKw,23,28);(3,KWhitespace,28,29);(3,KMultiName,29,51);(4,KName,29,34);(5,KIdent,29,34);(4,KComma,34,35);(4,KWhitespace,35,36);(4,KName,36,39);(5,KIdent,36,39);(4,KComma,39,40);(4,KWhitespace,40,41);(4,KName,41,45);(5,KIdent,41,45);(4,KComma,45,46);(4,KWhitespace,46,47);(4,KName,47,51);(5,KIdent,47,51);(2,KWhitespace,51,52)],
  []%string).
Proof. vm_compute. reflexivity. Qed.

Example snap_parser_ok_while_stmt :
  let t := [119;104;105;108;101;32;116;114;117;101;32;100;111;10;32;32;112;114;105;110;116;40;34;104;101;108;108;111;34;41;10;101;110;100;10]%N in
  snap_parse t = Some (t,
  [(0,KSourceFile,0,35);(1,KBlock,0,35);(2,KWhileStmt,0,34);(3,KWhileKw,0,5);(3,KWhitespace,5,6);(3,KLiteral,6,10);(4,KTrueKw,6,10);(3,KWhitespace,10,11);(3,KDoKw,11,13);(3,KWhitespace,13,16);(3,KBlock,16,30);(4,KExprStmt,16,30);(5,KMultivalExpr,16,30);(6,KCallExpr,16,30);(7,KNameRef,16,21);(8,KIdent,16,21);(7,KCallArgs,21,30);(8,KArgList,21,30);(9,KLParen,21,22);(9,KMultivalExpr,22,29);(10,KLiteral,22,29);(11,KStr,22,29);(9,KRParen,29,30);(3,KWhitespace,30,31);(3,KEndKw,31,34);(2,KWhitespace,34,35)],
  []%string).
Proof. vm_compute. reflexivity. Qed.

Example snap_parser_err_can_call :
  let t := [34;34;40;41;10;53;40;41;10]%N in
  snap_parse t = Some (t,
  [(0,KSourceFile,0,9);(1,KBlock,0,9);(2,KError,0,2);(3,KStr,0,2);(2,KExprStmt,2,4);(3,KMultivalExpr,2,4);(4,KParenExpr,2,4);(5,KLParen,2,3);(5,KError,3,4);(6,KRParen,3,4);(2,KWhitespace,4,5);(2,KError,5,6);(3,KNumber,5,6);(2,KExprStmt,6,8);(3,KMultivalExpr,6,8);(4,KParenExpr,6,8);(5,KLParen,6,7);(5,KError,7,8);(6,KRParen,7,8);(2,KWhitespace,8,9)],
  [("A literal cannot be the start of a statement", 0, 2);
   ("Expected an expression", 3, 4);
   ("Expected RParen, got Number", 4, 4);
   ("A literal cannot be the start of a statement", 5, 6);
   ("Expected an expression", 7, 8);
   ("Expected RParen, got Eof", 8, 8);
   ("Expected a call expression", 2, 4);
   ("Expected a call expression", 6, 8)]%string).
Proof. vm_compute. reflexivity. Qed.

Example snap_parser_err_cannot_call_literal :
  let t := [34;34;40;41;10]%N in
  snap_parse t = Some (t,
  [(0,KSourceFile,0,5);(1,KBlock,0,5);(2,KError,0,2);(3,KStr,0,2);(2,KExprStmt,2,4);(3,KMultivalExpr,2,4);(4,KParenExpr,2,4);(5,KLParen,2,3);(5,KError,3,4);(6,KRParen,3,4);(2,KWhitespace,4,5)],
  [("A literal cannot be the start of a statement", 0, 2);
   ("Expected an expression", 3, 4);
   ("Expected RParen, got Eof", 4, 4);
   ("Expected a call expression", 2, 4)]%string).
Proof. vm_compute. reflexivity. Qed.

Example snap_parser_err_function_no_ident :
  let t := [108;111;99;97;108;32;102;117;110;99;116;105;111;110;32;40;41;10;101;110;100;10]%N in
  snap_parse t = Some (t,
  [(0,KSourceFile,0,22);(1,KBlock,0,22);(2,KLocalFunctionDefStmt,0,21);(3,KLocalKw,0,5);(3,KWhitespace,5,6);(3,KFunctionKw,6,14);(3,KWhitespace,14,15);(3,KParamList,15,17);(4,KLParen,15,16);(4,KRParen,16,17);(3,KWhitespace,17,18);(3,KBlock,18,18);(3,KEndKw,18,21);(2,KWhitespace,21,22)],
  [("expected a name", 14, 14)]%string).
Proof. vm_compute. reflexivity. Qed.

Example snap_parser_err_invalid_escape :
  let t := [108;111;99;97;108;32;115;32;61;32;34;97;115;100;102;92;119;92;117;92;111;97;115;100;92;113;92;122;92;97;32;32;32;32;92;34;10]%N in
  snap_parse t = Some (t,
  [(0,KSourceFile,0,37);(1,KBlock,0,37);(2,KLocalAssignStmt,0,36);(3,KLocalKw,0,5);(3,KWhitespace,5,6);(3,KMultiName,6,7);(4,KName,6,7);(5,KIdent,6,7);(3,KWhitespace,7,8);(3,KEq,8,9);(3,KWhitespace,9,10);(3,KMultivalExpr,10,36);(4,KLiteral,10,36);(5,KStr,10,36);(2,KWhitespace,36,37)],
  [("Unexpected newline in string", 10, 36);
   ("Invalid escape sequence", 15, 17);
   ("Invalid escape sequence", 17, 19);
   ("Invalid escape sequence", 19, 21);
   ("Invalid escape sequence", 24, 26);
   ("Invalid escape sequence", 26, 28);
   ("Invalid escape sequence", 34, 35)]%string).
Proof. vm_compute. reflexivity. Qed.

Example snap_parser_err_local_assign :
  let t := [108;111;99;97;108;32;49;50;51;44;32;34;97;100;115;102;34;44;32;104;101;108;108;111;44;32;34;97;115;100;34;32;61;32;34;97;115;100;102;97;115;100;102;34;10;10]%N in
  snap_parse t = Some (t,
  [(0,KSourceFile,0,46);(1,KBlock,0,46);(2,KLocalAssignStmt,0,44);(3,KLocalKw,0,5);(3,KWhitespace,5,6);(3,KMultiName,6,31);(4,KError,6,9);(5,KNumber,6,9);(4,KComma,9,10);(4,KWhitespace,10,11);(4,KError,11,17);(5,KStr,11,17);(4,KComma,17,18);(4,KWhitespace,18,19);(4,KName,19,24);(5,KIdent,19,24);(4,KComma,24,25);(4,KWhitespace,25,26);(4,KError,26,31);(5,KStr,26,31);(3,KWhitespace,31,32);(3,KEq,32,33);(3,KWhitespace,33,34);(3,KMultivalExpr,34,44);(4,KLiteral,34,44);(5,KStr,34,44);(2,KWhitespace,44,46)],
  [("expected a name", 6, 9);
   ("expected a name", 11, 17);
   ("expected a name", 26, 31)]%string).
Proof. vm_compute. reflexivity. Qed.

Example snap_parser_err_missing_paren :
  let t := [108;111;99;97;108;32;101;120;112;114;32;61;32;40;53;10]%N in
  snap_parse t = Some (t,
  [(0,KSourceFile,0,16);(1,KBlock,0,16);(2,KLocalAssignStmt,0,15);(3,KLocalKw,0,5);(3,KWhitespace,5,6);(3,KMultiName,6,10);(4,KName,6,10);(5,KIdent,6,10);(3,KWhitespace,10,11);(3,KEq,11,12);(3,KWhitespace,12,13);(3,KMultivalExpr,13,15);(4,KParenExpr,13,15);(5,KLParen,13,14);(5,KLiteral,14,15);(6,KNumber,14,15);(2,KWhitespace,15,16)],
  [("Expected RParen, got Eof", 15, 15)]%string).
Proof. vm_compute. reflexivity. Qed.

Example snap_parser_err_multi_expr_stmt :
  let t := [112;114;105;110;116;40;34;97;115;100;102;97;115;100;102;34;41;44;32;97;115;100;102;10]%N in
  snap_parse t = Some (t,
  [(0,KSourceFile,0,24);(1,KBlock,0,24);(2,KExprStmt,0,23);(3,KMultivalExpr,0,23);(4,KCallExpr,0,17);(5,KNameRef,0,5);(6,KIdent,0,5);(5,KCallArgs,5,17);(6,KArgList,5,17);(7,KLParen,5,6);(7,KMultivalExpr,6,16);(8,KLiteral,6,16);(9,KStr,6,16);(7,KRParen,16,17);(4,KComma,17,18);(4,KWhitespace,18,19);(4,KNameRef,19,23);(5,KIdent,19,23);(2,KWhitespace,23,24)],
  [("Expression statements can only be call expressions", 19, 23)]%string).
Proof. vm_compute. reflexivity. Qed.

Example snap_parser_err_unknown_symbol :
  let t := [108;111;99;97;108;32;118;97;114;32;61;32;64;64;64;97;115;100;102;10]%N in
  snap_parse t = Some (t,
  [(0,KSourceFile,0,20);(1,KBlock,0,20);(2,KLocalAssignStmt,0,13);(3,KLocalKw,0,5);(3,KWhitespace,5,6);(3,KMultiName,6,9);(4,KName,6,9);(5,KIdent,6,9);(3,KWhitespace,9,10);(3,KEq,10,11);(3,KWhitespace,11,12);(3,KMultivalExpr,12,13);(4,KError,12,13);(5,KUnknown,12,13);(2,KError,13,14);(3,KUnknown,13,14);(2,KError,14,15);(3,KUnknown,14,15);(2,KExprStmt,15,19);(3,KMultivalExpr,15,19);(4,KNameRef,15,19);(5,KIdent,15,19);(2,KWhitespace,19,20)],
  [("Expected an expression", 12, 13);
   ("Expected a statement", 13, 14);
   ("Expected a statement", 14, 15);
   ("Got an unknown token", 12, 13);
   ("Got an unknown token", 13, 14);
   ("Got an unknown token", 14, 15);
   ("Expression statements can only be call expressions", 15, 19);
   ("Expected a call expression", 15, 19)]%string).
Proof. vm_compute. reflexivity. Qed.

Example snap_parser_err_vararg_wrong_position :
  let t := [108;111;99;97;108;32;102;117;110;99;116;105;111;110;32;119;114;111;110;103;40;46;46;46;44;32;97;115;100;102;41;10;101;110;100;10;10;108;111;99;97;108;32;102;117;110;99;116;105;111;110;32;109;111;114;101;95;119;114;111;110;103;40;46;46;46;44;32;46;46;46;41;10;101;110;100;10;10;108;111;99;97;108;32;102;117;110;99;116;105;111;110;32;119;114;111;110;103;40;97;115;100;102;44;32;46;46;46;44;32;97;115;100;102;41;10]%N in
  snap_parse t = Some (t,
  [(0,KSourceFile,0,116);(1,KBlock,0,116);(2,KLocalFunctionDefStmt,0,35);(3,KLocalKw,0,5);(3,KWhitespace,5,6);(3,KFunctionKw,6,14);(3,KWhitespace,14,15);(3,KName,15,20);(4,KIdent,15,20);(3,KParamList,20,25);(4,KLParen,20,21);(4,KMultiName,21,21);(4,KTripleDot,21,24);(4,KError,24,25);(5,KComma,24,25);(3,KWhitespace,25,26);(3,KBlock,26,31);(4,KExprStmt,26,30);(5,KMultivalExpr,26,30);(6,KNameRef,26,30);(7,KIdent,26,30);(4,KError,30,31);(5,KRParen,30,31);(3,KWhitespace,31,32);(3,KEndKw,32,35);(2,KWhitespace,35,37);(2,KLocalFunctionDefStmt,37,76);(3,KLocalKw,37,42);(3,KWhitespace,42,43);(3,KFunctionKw,43,51);(3,KWhitespace,51,52);(3,KName,52,62);(4,KIdent,52,62);(3,KParamList,62,67);(4,KLParen,62,63);(4,KMultiName,63,63);(4,KTripleDot,63,66);(4,KError,66,67);(5,KComma,66,67);(3,KWhitespace,67,68);(3,KBlock,68,72);(4,KError,68,71);(5,KTripleDot,68,71);(4,KError,71,72);(5,KRParen,71,72);(3,KWhitespace,72,73);(3,KEndKw,73,76);(2,KWhitespace,76,78);(2,KLocalFunctionDefStmt,78,115);(3,KLocalKw,78,83);(3,KWhitespace,83,84);(3,KFunctionKw,84,92);(3,KWhitespace,92,93);(3,KName,93,98);(4,KIdent,93,98);(3,KParamList,98,109);(4,KLParen,98,99);(4,KMultiName,99,104);(5,KName,99,103);(6,KIdent,99,103);(5,KComma,103,104);(4,KWhitespace,104,105);(4,KTripleDot,105,108);(4,KError,108,109);(5,KComma,108,109);(3,KWhitespace,109,110);(3,KBlock,110,115);(4,KExprStmt,110,114);(5,KMultivalExpr,110,114);(6,KNameRef,110,114);(7,KIdent,110,114);(4,KError,114,115);(5,KRParen,114,115);(2,KWhitespace,115,116)],
  [("Nothing can be after a vararg", 24, 25);
   ("Expected RParen, got Ident", 25, 25);
   ("Expected a statement", 30, 31);
   ("Nothing can be after a vararg", 66, 67);
   ("Expected RParen, got TripleDot", 67, 67);
   ("A literal cannot be the start of a statement", 68, 71);
   ("Expected a statement", 71, 72);
   ("Nothing can be after a vararg", 108, 109);
   ("Expected RParen, got Ident", 109, 109);
   ("Expected a statement", 114, 115);
   ("Expected EndKw, got Eof", 115, 115);
   ("Expression statements can only be call expressions", 26, 30);
   ("Expected a call expression", 26, 30);
   ("Expression statements can only be call expressions", 110, 114);
   ("Expected a call expression", 110, 114)]%string).
Proof. vm_compute. reflexivity. Qed.

Example snap_lexer_ok_assignment :
  snap_lex [108;111;99;97;108;32;104;101;108;108;111;32;61;32;53;10]%N = Some (
  [(KLocalKw,5);(KWhitespace,1);(KIdent,5);(KWhitespace,1);(KEq,1);(KWhitespace,1);(KNumber,1);(KWhitespace,1)],
  []%string).
Proof. vm_compute. reflexivity. Qed.

Example snap_lexer_ok_bracket_confusing :
  snap_lex [108;111;99;97;108;32;104;101;108;108;111;32;61;32;91;61;61;91;97;115;100;102;32;91;93;32;91;93;32;91;61;91;93;61;93;32;32;91;61;61;61;61;91;93;61;61;61;61;93;32;32;32;93;61;61;93;10]%N = Some (
  [(KLocalKw,5);(KWhitespace,1);(KIdent,5);(KWhitespace,1);(KEq,1);(KWhitespace,1);(KStr,42);(KWhitespace,1)],
  []%string).
Proof. vm_compute. reflexivity. Qed.

Example snap_lexer_ok_bracket_with_escapes :
  snap_lex [108;111;99;97;108;32;115;32;61;32;91;91;32;97;115;100;102;97;115;100;102;32;92;93;32;92;93;61;61;61;61;61;61;61;61;61;61;61;61;61;32;92;93;32;92;93;32;92;93;61;61;61;61;32;92;93;32;92;93;32;93;93;10;108;111;99;97;108;32;115;32;61;32;91;91;32;32;59;115;97;100;108;107;102;106;32;32;32;32;92;93;32;32;32;32;32;93;93;10]%N = Some (
  [(KLocalKw,5);(KWhitespace,1);(KIdent,1);(KWhitespace,1);(KEq,1);(KWhitespace,1);(KStr,52);(KWhitespace,1);(KLocalKw,5);(KWhitespace,1);(KIdent,1);(KWhitespace,1);(KEq,1);(KWhitespace,1);(KStr,25);(KWhitespace,1)],
  []%string).
Proof. vm_compute. reflexivity. Qed.

Example snap_lexer_ok_comparisons :
  snap_lex [105;32;62;61;32;49;10;60;61;10;61;61;10;62;10;60;10]%N = Some (
  [(KIdent,1);(KWhitespace,1);(KGtEq,2);(KWhitespace,1);(KNumber,1);(KWhitespace,1);(KLtEq,2);(KWhitespace,1);(KEqEq,2);(KWhitespace,1);(KGt,1);(KWhitespace,1);(KLt,1);(KWhitespace,1)],
  []%string).
Proof. vm_compute. reflexivity. Qed.

Example snap_lexer_ok_concat :
  snap_lex [46;46;10]%N = Some (
  [(KDoubleDot,2);(KWhitespace,1)],
  []%string).
Proof. vm_compute. reflexivity. Qed.

Example snap_lexer_ok_delimiters :
  snap_lex [123;104;101;108;108;111;32;61;32;34;97;110;111;116;104;101;114;34;125;10;97;115;100;102;40;41;10;91;93;91;93;10]%N = Some (
  [(KLBrace,1);(KIdent,5);(KWhitespace,1);(KEq,1);(KWhitespace,1);(KStr,9);(KRBrace,1);(KWhitespace,1);(KIdent,4);(KLParen,1);(KRParen,1);(KWhitespace,1);(KLBracket,1);(KRBracket,1);(KLBracket,1);(KRBracket,1);(KWhitespace,1)],
  []%string).
Proof. vm_compute. reflexivity. Qed.

Example snap_lexer_ok_double_colon :
  snap_lex [58;58;99;111;110;116;105;110;117;101;58;58;32;58;58;104;97;115;58;58;10]%N = Some (
  [(KDoubleColon,2);(KIdent,8);(KDoubleColon,2);(KWhitespace,1);(KDoubleColon,2);(KIdent,3);(KDoubleColon,2);(KWhitespace,1)],
  []%string).
Proof. vm_compute. reflexivity. Qed.

Example snap_lexer_ok_empty :
  snap_lex []%N = Some (
  [],
  []%string).
Proof. vm_compute. reflexivity. Qed.

Example snap_lexer_ok_hex_numbers :
  snap_lex [48;120;102;102;102;102;102;102;102;102;32;104;101;108;108;111;32;48;120;49;50;51;52;53;54;55;56;10]%N = Some (
  [(KNumber,10);(KWhitespace,1);(KIdent,5);(KWhitespace,1);(KNumber,10);(KWhitespace,1)],
  []%string).
Proof. vm_compute. reflexivity. Qed.

Example snap_lexer_ok_idents :
  snap_lex [32;32;32;32;32;32;32;32;32;32;32;32;104;101;108;108;111;10;32;32;32;119;111;114;108;100;32;121;101;115;10]%N = Some (
  [(KWhitespace,12);(KIdent,5);(KWhitespace,4);(KIdent,5);(KWhitespace,1);(KIdent,3);(KWhitespace,1)],
  []%string).
Proof. vm_compute. reflexivity. Qed.

Example snap_lexer_ok_keywords :
  snap_lex [45;45;32;116;97;107;101;110;32;102;114;111;109;32;116;104;101;32;108;117;97;32;114;101;102;101;114;101;110;99;101;10;32;97;110;100;32;32;32;32;32;32;32;98;114;101;97;107;32;32;32;32;32;100;111;32;32;32;32;32;32;32;32;101;108;115;101;32;32;32;32;32;32;101;108;115;101;105;102;32;32;32;32;101;110;100;10;32;102;97;108;115;101;32;32;32;32;32;102;111;114;32;32;32;32;32;32;32;102;117;110;99;116;105;111;110;32;32;103;111;116;111;32;32;32;32;32;32;105;102;32;32;32;32;32;32;32;32;105;110;10;32;108;111;99;97;108;32;32;32;32;32;110;105;108;32;32;32;32;32;32;32;110;111;116;32;32;32;32;32;32;32;111;114;32;32;32;32;32;32;32;32;114;101;112;101;97;116;32;32;32;32;114;101;116;117;114;110;10;32;116;104;101;110;32;32;32;32;32;32;116;114;117;101;32;32;32;32;32;32;117;110;116;105;108;32;32;32;32;32;119;104;105;108;101;10;32;108;111;99;97;108;32;118;97;114;32;61;32;34;97;115;100;102;34;10]%N = Some (
  [(KComment,31);(KWhitespace,2);(KAndKw,3);(KWhitespace,7);(KBreakKw,5);(KWhitespace,5);(KDoKw,2);(KWhitespace,8);(KElseKw,4);(KWhitespace,6);(KElseifKw,6);(KWhitespace,4);(KEndKw,3);(KWhitespace,2);(KFalseKw,5);(KWhitespace,5);(KForKw,3);(KWhitespace,7);(KFunctionKw,8);(KWhitespace,2);(KGotoKw,4);(KWhitespace,6);(KIfKw,2);(KWhitespace,8);(KInKw,2);(KWhitespace,2);(KLocalKw,5);(KWhitespace,5);(KNilKw,3);(KWhitespace,7);(KNotKw,3);(KWhitespace,7);(KOrKw,2);(KWhitespace,8);(KRepeatKw,6);(KWhitespace,4);(KReturnKw,6);(KWhitespace,2);(KThenKw,4);(KWhitespace,6);(KTrueKw,4);(KWhitespace,6);(KUntilKw,5);(KWhitespace,5);(KWhileKw,5);(KWhitespace,2);(KLocalKw,5);(KWhitespace,1);(KIdent,3);(KWhitespace,1);(KEq,1);(KWhitespace,1);(KStr,6);(KWhitespace,1)],
  []%string).
Proof. vm_compute. reflexivity. Qed.

Example snap_lexer_ok_math :
  snap_lex [53;32;43;32;49;10;49;50;32;42;32;51;10;51;52;32;45;32;50;51;10;50;47;49;10;53;32;37;32;49;10;53;94;54;10]%N = Some (
  [(KNumber,1);(KWhitespace,1);(KPlus,1);(KWhitespace,1);(KNumber,1);(KWhitespace,1);(KNumber,2);(KWhitespace,1);(KAsterisk,1);(KWhitespace,1);(KNumber,1);(KWhitespace,1);(KNumber,2);(KWhitespace,1);(KMinus,1);(KWhitespace,1);(KNumber,2);(KWhitespace,1);(KNumber,1);(KSlash,1);(KNumber,1);(KWhitespace,1);(KNumber,1);(KWhitespace,1);(KModulo,1);(KWhitespace,1);(KNumber,1);(KWhitespace,1);(KNumber,1);(KCaret,1);(KNumber,1);(KWhitespace,1)],
  []%string).
Proof. vm_compute. reflexivity. Qed.

Example snap_lexer_ok_multiline_comment :
  snap_lex [45;45;91;91;10;116;104;105;115;32;105;115;106;32;117;115;116;32;97;32;99;111;109;109;101;110;116;10;116;104;105;115;32;105;115;32;97;32;109;117;108;116;105;108;105;110;101;32;99;111;109;109;101;110;116;10;45;45;93;93;10]%N = Some (
  [(KComment,60);(KWhitespace,1)],
  []%string).
Proof. vm_compute. reflexivity. Qed.

Example snap_lexer_ok_multiline_equals :
  snap_lex [91;61;61;61;61;61;91;115;93;61;61;61;61;61;93;32;91;61;61;91;97;110;93;61;61;93;10]%N = Some (
  [(KStr,15);(KWhitespace,1);(KStr,10);(KWhitespace,1)],
  []%string).
Proof. vm_compute. reflexivity. Qed.

Example snap_lexer_ok_multiline_strings :
  snap_lex [91;91;10;98;114;97;99;107;101;116;100;32;115;116;114;105;110;103;49;51;52;32;97;115;100;10;97;115;100;102;10;93;93;10;91;91;116;104;105;115;32;105;115;32;97;32;108;111;110;103;32;115;116;114;105;110;103;93;93;32;91;91;97;110;111;116;104;101;114;93;93;10]%N = Some (
  [(KStr,33);(KWhitespace,1);(KStr,25);(KWhitespace,1);(KStr,11);(KWhitespace,1)],
  []%string).
Proof. vm_compute. reflexivity. Qed.

Example snap_lexer_ok_numbers :
  snap_lex [10;32;32;32;32;32;32;32;32;32;32;32;32;51;32;51;46;48;10;32;32;51;46;49;52;49;54;32;32;32;32;51;49;52;46;49;54;101;45;50;10;32;32;32;32;32;32;51;46;49;52;49;54;69;49;32;32;48;120;102;102;10]%N = Some (
  [(KWhitespace,13);(KNumber,1);(KWhitespace,1);(KNumber,3);(KWhitespace,3);(KNumber,6);(KWhitespace,4);(KNumber,9);(KWhitespace,7);(KNumber,8);(KWhitespace,2);(KNumber,4);(KWhitespace,1)],
  []%string).
Proof. vm_compute. reflexivity. Qed.

Example snap_lexer_ok_operators :
  snap_lex [33;49;51;32;33;116;114;117;101;10]%N = Some (
  [(KBang,1);(KNumber,2);(KWhitespace,1);(KBang,1);(KTrueKw,4);(KWhitespace,1)],
  []%string).
Proof. vm_compute. reflexivity. Qed.

Example snap_lexer_ok_punct :
  snap_lex [44;46;97;119;101;59;58;33;59;10]%N = Some (
  [(KComma,1);(KDot,1);(KIdent,3);(KSemicolon,1);(KColon,1);(KBang,1);(KSemicolon,1);(KWhitespace,1)],
  []%string).
Proof. vm_compute. reflexivity. Qed.

Example snap_lexer_ok_vararg :
  snap_lex [102;117;110;99;116;105;111;110;40;46;46;46;41;32;112;114;105;110;116;40;46;46;46;41;32;101;110;100;10]%N = Some (
  [(KFunctionKw,8);(KLParen,1);(KTripleDot,3);(KRParen,1);(KWhitespace,1);(KIdent,5);(KLParen,1);(KTripleDot,3);(KRParen,1);(KWhitespace,1);(KEndKw,3);(KWhitespace,1)],
  []%string).
Proof. vm_compute. reflexivity. Qed.

Example snap_lexer_err_multiline_strings :
  snap_lex [108;111;99;97;108;32;115;32;61;32;91;61;61;61;91;115;100;102;93;61;61;93;32;32;91;61;91;97;100;102;93;93;32;91;91;97;115;100;102;93;61;61;61;61;93;10]%N = Some (
  [(KLocalKw,5);(KWhitespace,1);(KIdent,1);(KWhitespace,1);(KEq,1);(KWhitespace,1);(KStr,36)],
  [("Could not find bracket string close", 10, 46)]%string).
Proof. vm_compute. reflexivity. Qed.

Example snap_lexer_err_string_newline :
  snap_lex [39;10;97;115;100;102;97;115;100;102;39;10]%N = Some (
  [(KStr,1);(KWhitespace,1);(KIdent,8);(KStr,1);(KWhitespace,1)],
  [("Unexpected newline in string", 0, 1);
   ("Unexpected newline in string", 10, 11)]%string).
Proof. vm_compute. reflexivity. Qed.

Example snap_lexer_err_string_unclosed :
  snap_lex [39;97;115;100;102;115;97;100;102;10]%N = Some (
  [(KStr,9);(KWhitespace,1)],
  [("Unexpected newline in string", 0, 9)]%string).
Proof. vm_compute. reflexivity. Qed.
