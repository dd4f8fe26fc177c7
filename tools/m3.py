MUTS=[]
def m(id,file,defn,edit,claims,*edits):
    MUTS.append(dict(id=id,file=file,edits=list(edits),claims=claims.split(),edit=edit,**{'def':defn}))
m('X01','Validation','escape_ok','\\f missing from the accepted escapes','C24',('txt "abfnrtv"','txt "abnrtv"'))
m('X02','Validation','unescape','range of a bad escape ends one byte early','C24',('(pos + (1 + utf8_len d) + start)) :: rest','(pos + utf8_len d + start)) :: rest'))
m('X03','Validation','unescape','escaped character examined again','C24',("let rest := unescape fuel' (pos + utf8_len c + utf8_len d) start t'' in","let rest := unescape fuel' (pos + utf8_len c) start t' in"))
m('X04','Validation','unescape','position counts characters, not bytes','C24 C28',("else unescape fuel' (pos + utf8_len c) start t'","else unescape fuel' (pos + 1) start t'"))
m('X05','Validation','assignable','calls accepted as targets','C27',('KDotExpr | KIndexExpr | KNameRef => true','KDotExpr | KIndexExpr | KNameRef | KCallExpr => true'))
m('X06','Validation','validate_expr_stmt','more than one call accepted','C26',('(if 1 <? n then','(if 2 <? n then'))
m('X07','Validation','validate_expr_stmt','non-call expressions not reported','C26',('++ (if n =? 0 then','++ (if false then'))
m('X08','Validation','validate_node','literals not validated','C24',('  | KLiteral => validate_literal e\n',''))
m('X09','Validation','validate_list','only the first node validated','C24 C26 C27',("let? b := validate_list l' in","let? b := Ok [] in"))
m('X10','Validation','unquote','closing quote kept in the body','C24',('Ok (Some (1, removelast t1))','Ok (Some (1, t1))'))
m('X11','Validation','unquote','offset 0','C24',('Ok (Some (1, removelast t1))','Ok (Some (0, removelast t1))'))
m('X12','Validation','source_file_parse','validation errors dropped','C24 C26 C27',('Ok (mkParse g (errs ++ verrs))','Ok (mkParse g errs)'))
m('X13','Validation','unquote','long bracket offset forgets the equals signs','C24',('Ok (Some (2 + equals, t4))','Ok (Some (2, t4))'))
m('X14','Validation','validate_assign','right-hand side targets checked','C27',('(filter (fun x => negb (assignable x)) (multival_exprs lhs))','(filter (fun x => negb (assignable x)) (match assign_rhs e with Some r => multival_exprs r | None => [] end))'))
m('Y01','Ast','expr_can_cast','calls are not expressions','C26 C29',('KFunctionExpr | KCallExpr | KMethodCallExpr','KFunctionExpr | KMethodCallExpr'))
m('Y02','Ast','infix_rhs','returns the left operand','C29',('option elem := nth_error (ast_children expr_can_cast e) 1','option elem := nth_error (ast_children expr_can_cast e) 0'))
m('Y03','Ast','place','siblings not shifted','C15 C24 C28 C31',("mkElem off c :: place (off + green_len c) cs'","mkElem off c :: place off cs'"))
m('Y04','Ast','assign_lhs','second list','C27',('  nth_error (ast_children (is_kind KMultivalExpr) e) 0','  nth_error (ast_children (is_kind KMultivalExpr) e) 1'))
m('Y05','Ast','expr_is_call','method calls not calls','C26',('match el_kind e with KCallExpr | KMethodCallExpr => true','match el_kind e with KCallExpr => true'))
m('Y06','Ast','stmt_can_cast','while statements not statements','C29',('KIfStmt | KReturnStmt | KWhileStmt','KIfStmt | KReturnStmt'))
m('K01','TreeSink','eat_trivias_loop','comments not skipped','C11 C12 C13',('if is_trivia (t_kind tok) then let? s := do_token s','if kind_eqb (t_kind tok) KWhitespace then let? s := do_token s'))
m('K02','TreeSink','do_token','token position not advanced','C12 C13',('(S (k_token_pos s))\n             (b_token','(k_token_pos s)\n             (b_token'))
m('K03','TreeSink','range_cover','maximum of starts','C15 C16',('(Nat.min (r_start a) (r_start b))','(Nat.max (r_start a) (r_start b))'))
m('K04','TreeSink','ts_start_node','leading trivia inside the node is not eaten first','C22',('  let? s := eat_trivias s in\n  eat_trivias (with_inner s (b_start k (k_inner s)))','  eat_trivias (with_inner s (b_start k (k_inner s)))'))
m('K05','TreeSink','ts_finish_error_node','error reported at the current position','C16',('Ok (ts_push_error e r\n','Ok (ts_push_error e (mkRange (k_text_pos s) (k_text_pos s))\n'))
m('K06','TreeSink','DEFER_AMOUNT','1','C14',('DEFER_AMOUNT : nat := 2','DEFER_AMOUNT : nat := 1'))
m('K07','TreeSink','parse_text','lexer errors dropped','C05 C15',('Ok (g, perrs ++ lex_errs)','Ok (g, perrs)'))
m('K08','TreeSink','d_finish','trailing trivia not eaten','C12 C13',('let? s := eat_trivias (d_sink d) in\n','let? s := Ok (d_sink d) in\n'))
m('K09','TreeSink','ts_start_error_node','range not opened','C16 C11',('(k_error_ranges s ++ [mkRange (k_text_pos s) (k_text_pos s)])','(k_error_ranges s)'))
m('K10','TreeSink','ts_error','error at 0','C15',('Ok (ts_push_error e (mkRange (k_text_pos s) (k_text_pos s)) s)','Ok (ts_push_error e (mkRange 0 0) s)'))
m('N01','Event','process_loop','parents started after children','C22 C20',('Ok (map SStart (rev ks) ++ rest)','Ok (map SStart ks ++ rest)'))
m('N02','Event','walk','visited events not erased','C22 C11',("let evs := list_set evs idx tombstone in\n        let acc","let evs := evs in\n        let acc"))
m('N03','Event','walk','follows only one link','C22',("walk fuel' evs idx fp' acc","Ok (acc, evs)"))
m('N04','Event','process_loop','errors dropped','C20 C16',('Ok (SErr e :: rest)','Ok rest'))
m('Q01','Parser','ts_filter','comments passed to the grammar','C11 C17',('if is_trivia (t_kind t) then rest','if kind_eqb (t_kind t) KWhitespace then rest'))
m('Q02','Parser','c_precede','link points to the node itself','C22 C20',('(EStart k (Some (new_pos - c_start c)))','(EStart k (Some 0))'))
m('Q03','Parser','p_expect','wrong token is consumed','C23 C20',("else p_push_error (PExpected k c) ;; ret false","else p_adv ;; p_push_error (PExpected k c) ;; ret false"))
m('Q04','Parser','p_expect','no error for a missing token','C23',("else p_push_error (PExpected k c) ;; ret false","else ret false"))
m('Q05','Parser','p_err_recover','end of input consumed','C11',('err_node (p_accept PAny ;; ret (PMsg m))','err_node (p_adv ;; ret (PMsg m))'))
m('Q06','Parser','p_err_until','does not stop at the end of input','C11',('else b2 <- p_at (PKind KEof) ;; ret (negb b2))','else ret true)'))
m('Q07','Parser','ts_bump','position not advanced','C11 C13',('mkTS (ts_pairs s) c (ts_pos s + 1))','mkTS (ts_pairs s) c (ts_pos s))'))
m('Q08','Parser','perr_display','expected and got swapped','',('("Expected " ++ kind_name e ++ ", got " ++ kind_name g)','("Expected " ++ kind_name g ++ ", got " ++ kind_name e)'))
m('Q09','Parser','m_complete','wrong kind','C20 C23',('list_set (p_events st) m (EStart k fp)','list_set (p_events st) m (EStart KBlock fp)'))
m('W01','Grammar','infix_loop','<= instead of <','C19 C18',('if l_bp <? min_bp then ret l','if l_bp <=? min_bp then ret l'))
m('W02','Grammar','lua_op_decls','* before +','C18',('(OEq, PInfix ALeft); (OConcat, PInfix ARight); (OPlus, PInfix ALeft);\n    (OMinus, PInfix ALeft); (OMul, PInfix ALeft);','(OEq, PInfix ALeft); (OConcat, PInfix ARight); (OMul, PInfix ALeft); (OPlus, PInfix ALeft);\n    (OMinus, PInfix ALeft);'))
m('W03','Grammar','lua_op_decls','.. left associative','C18 C20',('(OConcat, PInfix ARight)','(OConcat, PInfix ALeft)'))
m('W04','Grammar','BLOCK_END','until missing','C20',('KElseifKw; KElseKw; KUntilKw]','KElseifKw; KElseKw]'))
m('W05','Grammar','repeat_until_stmt','condition optional','C23 C20',('block ;; p_expect KUntilKw ;; expr_single)','block ;; p_expect KUntilKw)'))
m('W06','Grammar','if_stmt','end not required','C23',('      else ret tt) ;;\n     p_expect KEndKw)','      else ret tt) ;;\n     p_accept (PKind KEndKw))'))
m('W07','Grammar','atom_expr','after a paren no call','C20',("m <- paren_expr ;; ret (Some (m, true))","m <- paren_expr ;; ret (Some (m, false))"))
m('W08','Grammar','return_stmt','never takes values','C20',("     b <- p_at (PSet EXPR_FIRST) ;;\n     if b then expr else ret tt).\n\n(** statements.rs:314","     ret tt).\n\n(** statements.rs:314"))
m('W09','Grammar','method_call_expr','arguments not required','C23',('if b then call_args else p_error "Expected call arguments"','if b then call_args else ret tt'))
m('W10','Grammar','stmt_body','semicolon not accepted','C20',("  p_accept (PKind KSemicolon) ;; ret tt.","  ret tt."))
m('W11','Grammar','table_inner','separator not required','C23',("         else table_correct fuel ;; ret true).","         else ret false)."))
m('W12','Grammar','expr_multi','only one expression','C20',("(p_bump (PKind KComma) ;; expr_single ;; ret tt)).\nDefinition expr ","(p_bump (PKind KComma) ;; ret tt)).\nDefinition expr "))
m('W13','Grammar','generic_for','expression list (a fix)','C21',('p_expect KInKw ;; expr_single)','p_expect KInKw ;; expr)'))
m('W14','Grammar','stmt_body','unmatched end not consumed','C11',('err_node (p_bump (PKind KEndKw) ;; ret (PMsg "Unmatched end token"))','p_error "Unmatched end token"'))
m('W15','Grammar','function_def_content','method and static swapped','C20',("name_r recovery ;;\n            ret KFunctionMethod\n          else\n            name_r recovery ;;\n            ret KFunctionStatic","name_r recovery ;;\n            ret KFunctionStatic\n          else\n            name_r recovery ;;\n            ret KFunctionMethod"))
m('W16','Grammar','prefix binding','uses LOWEST for the operand','C18 C20',('c <- node KPrefixExpr (p_bump PAny ;; expr_bp r_bp) ;;','c <- node KPrefixExpr (p_bump PAny ;; expr_bp LOWEST) ;;'))
m('W17','Grammar','dot_expr','name optional','C23',('(p_bump (PKind KDot) ;; p_expect KIdent)','(p_bump (PKind KDot) ;; p_accept (PKind KIdent))'))
m('W18','Grammar','param_list','vararg need not be last','C23',('if c then ret tt else p_err_and_bump "Nothing can be after a vararg"','ret tt'))
m('Z01','Lexer','is_hex','g accepted','C04',('(97 <=? c)%N && (c <=? 102)%N','(97 <=? c)%N && (c <=? 103)%N'))
m('Z02','Lexer','is_ident_start','Z excluded','C03',('(65 <=? c)%N && (c <=? 90)%N','(65 <=? c)%N && (c <=? 89)%N'))
m('Z03','Lexer','is_whitespace','vertical tab is whitespace','C04',('(c =? 12)%N || (c =? 13)%N','(c =? 11)%N || (c =? 12)%N || (c =? 13)%N'))
m('Z04','Lexer','lex_main','>= and > swapped','C02',('ok_kind KGtEq s\n    else ok_kind KGt s','ok_kind KGt s\n    else ok_kind KGtEq s'))
m('Z05','Lexer','lex_main','... lexed as .. and .','C02',('if (d =? ch ".")%N then let? s := l_bump (C ".") s in ok_kind KTripleDot s\n      else ok_kind KDoubleDot s','ok_kind KDoubleDot s'))
m('Z06','Lexer','lex_number','exponent sign not accepted','C04 C09',('let? (_, s) := l_accept (C "-") s in\n                 ','' ))
m('Z07','Lexer','lex_number','+ accepted in exponent','C04',('let? (_, s) := l_accept (C "-") s in\n','let? (_, s) := l_accept (LOr [C "-"; C "+"]) s in\n'))
m('Z08','Lexer','string_loop','newlines allowed','C05',('else if (c =? newline)%N then Ok (Some "Unexpected newline in string"%string, s)\n','' ))
m('Z09','Lexer','string_loop','escaped quote ends the string','C06',('(LOr [LSeq [LChr backslash; LChr delim]; LAny])','LAny'))
m('Z10','Lexer','lex_comment','newline included','C04',("let? (_, s) := l_accept (LUntil (LChr newline)) s in\n  ok_kind","let? (_, s) := l_accept (LUntil (LChr newline)) s in\n  let? (_, s) := l_accept (LChr newline) s in\n  ok_kind"))
m('Z11','Lexer','tokenize_loop','error ranges not shifted','C05',('(r_start (e_range e) + pos) (r_end (e_range e) + pos)','(r_start (e_range e)) (r_end (e_range e))'))
m('Z12','Lexer','close_loop','level not compared','C07',('if negb (count =? close_count) then','if false then'))
m('Z13','Lexer','lex_main','unknown characters silent','C05',('Ok ((KUnknown, Some "Got an unknown token"%string), s)','Ok ((KUnknown, None), s)'))
m('Z14','Lexer','lex_ident','keywords not recognised','C03',('match from_keyword t with Some k => k | None => KIdent end','KIdent'))
m('Z15','Lexer','is_ident_continue','digits not allowed','C03',('is_ident_start c || is_number c','is_ident_start c'))
m('Z16','Lexer','lex_string','error dropped for unclosed strings','C05',('let? (err, s) := string_loop (loop_fuel s) delim s in\n  Ok ((KStr, err), s)','let? (err, s) := string_loop (loop_fuel s) delim s in\n  Ok ((KStr, None), s)'))
m('Z17','Lexer','lex_number','0X accepted','C09',('LSeq [C "0"; C "x"]','LSeq [C "0"; LOr [C "x"; C "X"]]'))
