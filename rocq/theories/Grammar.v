(** Grammar.v — crates/parser/src/grammar.rs, grammar/statements.rs, grammar/expressions.rs.

    The recursion of the grammar is open: every function below that (transitively) calls
    [stmt] or [expr_bp] takes them as the section variables [stmt] and [expr_bp]; loops take
    their bound from [fuel]. The functions are written over the
    interface [ops] of Parser.v. The knot is tied at the end by a mutual Fixpoint on fuel. The
    recursive function [elseif_branch] has its own fixpoint. *)
From Verif Require Import Base SyntaxKind TokenSet Lexer BindingPowers Parser.

(** ** Token sets *)

(** statements.rs:12. *)
Definition STMT_RECOVERY := ts_new [KFunctionKw; KDoKw; KDoubleColon].
(** expressions.rs:10. *)
Definition EXPR_RECOVERY_SET := ts_new [KLocalKw].
(** expressions.rs:225. *)
Definition LITERAL_FIRST := ts_new [KTrueKw; KFalseKw; KNumber; KStr; KNilKw; KTripleDot].
(** expressions.rs:164. *)
Definition ATOM_EXPR_FIRST :=
  ts_union (ts_new [KFunctionKw; KLBrace; KIdent; KLParen]) LITERAL_FIRST.
(** expressions.rs:149, 105. *)
Definition LHS_FIRST := ts_union (ts_new [KNotKw; KHash; KMinus]) ATOM_EXPR_FIRST.
Definition EXPR_FIRST := LHS_FIRST.
(** expressions.rs:200. *)
Definition CALL_FIRST := ts_new [KLBrace; KLParen; KStr].
(** expressions.rs:234. *)
Definition TABLE_SEP := ts_new [KComma; KSemicolon].
(** expressions.rs:242. *)
Definition TABLE_RECOVERY := ts_union (ts_new [KRBrace; KLBracket]) TABLE_SEP.
(** expressions.rs:249. *)
Definition TABLE_END := ts_new [KEof; KEndKw; KRBrace].
(** grammar.rs:113. *)
Definition ROOT_END := ts_new [KEof].
(** grammar.rs:117. *)
Definition BLOCK_END := ts_new [KEof; KEndKw; KElseifKw; KElseKw; KUntilKw].
(** grammar.rs:123. *)
Definition PARAM_END := ts_new [KRParen; KEof].

(** ** Operators: expressions.rs:12-103 *)

(** The deduplicated enum generated by [precedences!] (variants in BTreeSet order). *)
Inductive lua_op :=
| OAnd | OConcat | ODiv | OEq | OGt | OGtEq | OLen | OLt | OLtEq | OMinus | OMod | OMul
| ONot | ONotEq | OOr | OPlus | OPower.

(** [LuaOp::X as usize]. *)
Definition op_id (o : lua_op) : nat :=
  match o with
  | OAnd => 0 | OConcat => 1 | ODiv => 2 | OEq => 3 | OGt => 4 | OGtEq => 5 | OLen => 6
  | OLt => 7 | OLtEq => 8 | OMinus => 9 | OMod => 10 | OMul => 11 | ONot => 12
  | ONotEq => 13 | OOr => 14 | OPlus => 15 | OPower => 16
  end.

(** expressions.rs:12-68: the declaration list, in order. *)
Definition lua_op_decls : list (lua_op * prec_type) :=
  [ (OOr, PInfix ALeft); (OAnd, PInfix ALeft); (OLt, PInfix ALeft); (OGt, PInfix ALeft);
    (OLtEq, PInfix ALeft); (OGtEq, PInfix ALeft); (ONotEq, PInfix ALeft);
    (OEq, PInfix ALeft); (OConcat, PInfix ARight); (OPlus, PInfix ALeft);
    (OMinus, PInfix ALeft); (OMul, PInfix ALeft); (ODiv, PInfix ALeft);
    (OMod, PInfix ALeft); (ONot, PPrefix); (OLen, PPrefix); (OMinus, PPrefix);
    (OPower, PInfix ARight) ].

(** lib/binding_powers/src/lib.rs:136-138: the constant table. *)
Definition lua_powers : list precs :=
  match bp_new 17 (map (fun d => (op_id (fst d), snd d)) lua_op_decls) with
  | Ok t => t
  | _ => []
  end.

(** expressions.rs:70-95 [From<SyntaxKind> for Option<LuaOp>]. *)
Definition op_of_kind (k : kind) : option lua_op :=
  match k with
  | KOrKw => Some OOr | KAndKw => Some OAnd | KNotKw => Some ONot
  | KLt => Some OLt | KGt => Some OGt | KLtEq => Some OLtEq | KGtEq => Some OGtEq
  | KNotEq => Some ONotEq | KEqEq => Some OEq | KDoubleDot => Some OConcat
  | KPlus => Some OPlus | KHash => Some OLen | KMinus => Some OMinus
  | KAsterisk => Some OMul | KSlash => Some ODiv | KModulo => Some OMod
  | KCaret => Some OPower
  | _ => None
  end.

(** expressions.rs:97-99. *)
Definition infix_binding_power (k : kind) : nat * nat :=
  match op_of_kind k with
  | Some o => get_infix lua_powers (op_id o)
  | None => (NOT_AN_OP, NOT_AN_OP)
  end.
(** expressions.rs:101-103. *)
Definition prefix_binding_power (k : kind) : nat :=
  match op_of_kind k with
  | Some o => get_prefix lua_powers (op_id o)
  | None => NOT_AN_OP
  end.

(** ** Functions that do not recurse *)

Section Gram.
Context {O : ops}.

(** grammar.rs:68-72. *)
Definition name_unchecked : M unit := node_ KName (p_bump (PKind KIdent)).
(** grammar.rs:59-66. *)
Definition name_r (recovery : token_set) : M unit :=
  b <- p_at (PKind KIdent) ;;
  if b then name_unchecked else p_err_recover "expected a name" recovery.
(** grammar.rs:74-78. *)
Definition name_ref_unchecked : M unit := node_ KNameRef (p_bump (PKind KIdent)).
(** grammar.rs:80-86. *)
Definition name_ref_r (recovery : token_set) : M unit :=
  b <- p_at (PKind KIdent) ;;
  if b then name_ref_unchecked else p_err_recover "expected a name referencer" recovery.
(** grammar.rs:88-92. *)
Definition name_ref : M mark := node KNameRef (p_expect KIdent).
(** grammar.rs:94-102. *)
Definition name : M unit :=
  b <- p_at (PKind KIdent) ;;
  if b then node_ KName (p_bump (PKind KIdent)) else p_error "expected a name".

(** grammar.rs:36-57 [multi_name_r]. *)
Definition multi_name_r (fuel : nat) (recovery : token_set) (vararg : bool) : M unit :=
  let recovery := ts_union recovery (ts_new [KComma]) in
  node_ KMultiName
    (b <- p_at (PKind KTripleDot) ;;
     if vararg && b then ret tt
     else
       name_r recovery ;;
       p_loop fuel
         (c <- p_at (PKind KComma) ;;
          if c then
            p_bump (PKind KComma) ;;
            b <- p_at (PKind KTripleDot) ;;
            if vararg && b then ret false
            else name_r recovery ;; ret true
          else ret false)).

(** grammar.rs:122-142 [param_list]. *)
Definition param_list (fuel : nat) : M unit :=
  node_ KParamList
    (p_expect KLParen ;;
     (b <- p_at (PSet PARAM_END) ;;
      if b then ret tt else multi_name_r fuel STMT_RECOVERY true) ;;
     (b <- p_at (PKind KTripleDot) ;;
      if b then
        p_bump (PKind KTripleDot) ;;
        c <- p_at (PKind KRParen) ;;
        if c then ret tt else p_err_and_bump "Nothing can be after a vararg"
      else ret tt) ;;
     p_expect KRParen).

(** expressions.rs:227-232 [literal]. *)
Definition literal : M mark :=
  (b <- p_at (PSet LITERAL_FIRST) ;; passert b) ;;
  node KLiteral (p_bump PAny).

(** expressions.rs:236-240 [table_sep]. *)
Definition table_sep : M unit := node_ KTableSep (p_bump_ts TABLE_SEP).

(** expressions.rs:272-274 [table_correct]. *)
Definition table_correct (fuel : nat) : M unit :=
  p_err_until fuel "Failed to find comma or closing bracket" TABLE_RECOVERY.

(** expressions.rs:390-395 [dot_expr]. *)
Definition dot_expr (lhs : mark) : M mark :=
  pre_node lhs KDotExpr (p_bump (PKind KDot) ;; p_expect KIdent).

(** statements.rs:118-123. *)
Definition goto_stmt : M unit := node_ KGotoStmt (p_bump (PKind KGotoKw) ;; name_ref).
(** statements.rs:134-138. *)
Definition label_delim : M unit := node_ KLabelDelim (p_expect KDoubleColon).
(** statements.rs:125-132. *)
Definition label_stmt : M unit :=
  (b <- p_at (PKind KDoubleColon) ;; passert b) ;;
  node_ KLabelStmt (label_delim ;; name_r STMT_RECOVERY ;; label_delim).
(** statements.rs:201-205. *)
Definition break_stmt : M unit := node_ KBreakStmt (p_bump (PKind KBreakKw)).

(** statements.rs:269-295 [index_path]. *)
Definition index_path (fuel : nat) : M mark :=
  let recovery := ts_union (ts_new [KDot; KColon]) STMT_RECOVERY in
  node KIndexPath
    (name_ref_r recovery ;;
     p_loop fuel
       (b <- p_at (PKind KColon) ;;
        if b then ret false
        else
          d <- p_at (PKind KDot) ;;
          if d then
            p_bump (PKind KDot) ;;
            n <- p_nth 1 ;;
            if kind_eqb n KLParen then ret false
            else name_ref_r recovery ;; ret true
          else ret false)).

(** statements.rs:249-267 [function_def_content]. *)
Definition function_def_content (fuel : nat) : M unit :=
  let recovery := ts_union (ts_new [KLParen]) STMT_RECOVERY in
  node_ KFunctionDefContent
    (b <- p_at (PKind KIdent) ;;
     n <- p_nth 1 ;;
     if b && kind_eqb n KLParen then
       name_r (ts_union (ts_new [KLParen]) recovery)
     else
       c <- index_path fuel ;;
       pre_node_by c
         (b <- p_at (PKind KColon) ;;
          if b then
            p_bump (PKind KColon) ;;
            name_r recovery ;;
            ret KFunctionMethod
          else
            name_r recovery ;;
            ret KFunctionStatic) ;; ret tt).

(** ** Functions that recurse through [stmt] and [expr_bp] *)

Section Open.
Variable fuel : nat.
Variable stmt : M unit.
Variable expr_bp : nat -> M (option mark).

(** grammar.rs:104-110 [block_raw]. *)
Definition block_raw (e : token_set) : M unit :=
  node_ KBlock
    (p_while fuel (b <- p_at (PSet e) ;; ret (negb b)) stmt).
(** grammar.rs:112-114. *)
Definition root_block : M unit := block_raw ROOT_END.
(** grammar.rs:116-118. *)
Definition block : M unit := block_raw BLOCK_END.
(** grammar.rs:16-23. *)
Definition root : M unit := node_ KSourceFile root_block.

(** expressions.rs:125-127. *)
Definition expr_single : M (option mark) := expr_bp LOWEST.

(** expressions.rs:111-123 [expr_multi], 107-109 [expr]. *)
Definition expr_multi : M unit :=
  node_ KMultivalExpr
    (expr_single ;;
     p_while fuel (p_at (PKind KComma)) (p_bump (PKind KComma) ;; expr_single ;; ret tt)).
Definition expr : M unit := expr_multi.

(** expressions.rs:217-223. *)
Definition paren_expr : M mark :=
  node KParenExpr (p_expect KLParen ;; expr_bp LOWEST ;; p_expect KRParen).

(** expressions.rs:397-403. *)
Definition index : M unit :=
  node_ KIndex (p_bump (PKind KLBracket) ;; expr_single ;; p_expect KRBracket).

(** expressions.rs:276-321 [table_content]. *)
Definition table_content : M unit :=
  node_ KTableContent
    (c <- p_current ;;
     if kind_eqb c KIdent then
       n <- p_nth 1 ;;
       if kind_eqb n KEq then
         node_ KKeyValue
           (node_ KTableKey name_unchecked ;;
            p_bump (PKind KEq) ;;
            expr_single)
       else
         node_ KPositionalValue expr_single
     else if kind_eqb c KLBracket then
       node_ KKeyValue
         (node_ KTableKey index ;;
          p_expect KEq ;;
          expr_single)
     else
       b <- p_at (PSet EXPR_FIRST) ;;
       if b then node_ KPositionalValue expr_single
       else p_error "Expected an expression").

(** expressions.rs:256-266: the inner loop of [table_expr]. *)
Definition table_inner : M unit :=
  p_loop fuel
    (e <- p_at (PSet TABLE_END) ;;
     if e then ret false
     else
       b <- p_at (PSet TABLE_SEP) ;;
       if b then table_sep ;; ret false
       else
         r <- p_at (PSet TABLE_RECOVERY) ;;
         if r then ret false
         else table_correct fuel ;; ret true).

(** expressions.rs:244-270 [table_expr]. *)
Definition table_expr : M mark :=
  node KTableExpr
    (p_bump (PKind KLBrace) ;;
     p_while fuel (b <- p_at (PSet TABLE_END) ;; ret (negb b))
       (table_content ;; table_inner) ;;
     p_expect KRBrace).

(** expressions.rs:323-330. *)
Definition function_expr : M mark :=
  node KFunctionExpr
    (p_bump (PKind KFunctionKw) ;; param_list fuel ;; block ;; p_expect KEndKw).

(** expressions.rs:359-370. *)
Definition arg_list : M unit :=
  node_ KArgList
    (p_bump (PKind KLParen) ;;
     (b <- p_at (PKind KRParen) ;; if b then ret tt else expr) ;;
     p_expect KRParen).

(** expressions.rs:338-357 [call_args]. *)
Definition call_args : M unit :=
  (b <- p_at (PSet CALL_FIRST) ;; passert b) ;;
  node_ KCallArgs
    (c <- p_current ;;
     if kind_eqb c KLParen then arg_list
     else if kind_eqb c KLBrace then table_expr ;; ret tt
     else if kind_eqb c KStr then p_bump PAny
     else panic).

(** expressions.rs:332-336. *)
Definition call_expr (lhs : mark) : M mark := pre_node lhs KCallExpr call_args.
(** expressions.rs:372-376. *)
Definition index_expr (lhs : mark) : M mark := pre_node lhs KIndexExpr index.
(** expressions.rs:378-388. *)
Definition method_call_expr (lhs : mark) : M mark :=
  pre_node lhs KMethodCallExpr
    (p_bump (PKind KColon) ;;
     name_ref ;;
     b <- p_at (PSet CALL_FIRST) ;;
     if b then call_args else p_error "Expected call arguments").

(** expressions.rs:202-215 [postfix_expr]; recursion on the loop bound. *)
Fixpoint postfix_expr (n : nat) (lhs : mark) (can_call : bool) : M mark :=
  match n with
  | 0 => out
  | S n' =>
    c <- p_current ;;
    b <- p_at (PSet CALL_FIRST) ;;
    if can_call && b then
      lhs <- call_expr lhs ;; postfix_expr n' lhs true
    else if kind_eqb c KColon && can_call then
      lhs <- method_call_expr lhs ;; postfix_expr n' lhs true
    else if kind_eqb c KLBracket then
      lhs <- index_expr lhs ;; postfix_expr n' lhs true
    else if kind_eqb c KDot then
      lhs <- dot_expr lhs ;; postfix_expr n' lhs true
    else ret lhs
  end.

(** expressions.rs:192-198 [prefix_expr]. The [?] on line 195 would drop the live marker [m]
    and so trip its drop bomb: a panic. *)
Definition prefix_expr (r_bp : nat) : M (option mark) :=
  c <- node_by
         (p_bump PAny ;;
          o <- expr_bp r_bp ;;
          match o with
          | None => panic
          | Some _ => ret KPrefixExpr
          end) ;;
  ret (Some c).

(** expressions.rs:167-190 [atom_expr]. *)
Definition atom_expr : M (option (mark * bool)) :=
  c <- p_current ;;
  let r_bp := prefix_binding_power c in
  if 0 <? r_bp then
    o <- prefix_expr r_bp ;;
    ret (option_map (fun c => (c, false)) o)
  else
    b <- p_at (PSet LITERAL_FIRST) ;;
    if b then c <- literal ;; ret (Some (c, false))
    else
      c <- p_current ;;
      if kind_eqb c KFunctionKw then m <- function_expr ;; ret (Some (m, true))
      else if kind_eqb c KLBrace then m <- table_expr ;; ret (Some (m, true))
      else if kind_eqb c KIdent then m <- name_ref ;; ret (Some (m, true))
      else if kind_eqb c KLParen then m <- paren_expr ;; ret (Some (m, true))
      else p_err_recover "Expected an expression" EXPR_RECOVERY_SET ;; ret None.

(** expressions.rs:151-162 [lhs]. *)
Definition lhs : M (option mark) :=
  c <- p_current ;;
  let r_bp := prefix_binding_power c in
  if NOT_AN_OP <? r_bp then
    c <- node KPrefixExpr (p_bump PAny ;; expr_bp r_bp) ;;
    ret (Some c)
  else
    o <- atom_expr ;;
    match o with
    | None => ret None
    | Some (l, can_call) => c <- postfix_expr fuel l can_call ;; ret (Some c)
    end.

(** expressions.rs:132-144: the loop of [expr_bp]. *)
Fixpoint infix_loop (n : nat) (min_bp : nat) (l : mark) : M mark :=
  match n with
  | 0 => out
  | S n' =>
    c <- p_current ;;
    let (l_bp, r_bp) := infix_binding_power c in
    if l_bp <? min_bp then ret l
    else
      p_bump PAny ;;
      l <- pre_node l KInfixExpr (expr_bp r_bp) ;;
      infix_loop n' min_bp l
  end.

(** expressions.rs:129-147 [expr_bp]. *)
Definition expr_bp_body (min_bp : nat) : M (option mark) :=
  o <- lhs ;;
  match o with
  | None => ret None
  | Some l => c <- infix_loop fuel min_bp l ;; ret (Some c)
  end.

(** statements.rs:111-116. *)
Definition else_branch : M unit := node_ KElseBranch (p_bump (PKind KElseKw) ;; block).

(** statements.rs:93-109 [elseif_branch]; recursion on the loop bound. *)
Fixpoint elseif_branch (n : nat) : M unit :=
  match n with
  | 0 => out
  | S n' =>
    node_ KElseIfBranch
      (p_bump (PKind KElseifKw) ;;
       expr_single ;;
       p_expect KThenKw ;;
       block ;;
       c <- p_current ;;
       if kind_eqb c KElseifKw then elseif_branch n'
       else if kind_eqb c KElseKw then else_branch
       else ret tt)
  end.

(** statements.rs:74-91. *)
Definition if_stmt : M unit :=
  node_ KIfStmt
    (p_bump (PKind KIfKw) ;;
     expr_single ;;
     p_expect KThenKw ;;
     block ;;
     (c <- p_current ;;
      if kind_eqb c KElseifKw then elseif_branch fuel
      else if kind_eqb c KElseKw then else_branch
      else ret tt) ;;
     p_expect KEndKw).

(** statements.rs:140-148. *)
Definition while_stmt : M unit :=
  node_ KWhileStmt
    (p_bump (PKind KWhileKw) ;; expr_single ;; p_expect KDoKw ;; block ;; p_expect KEndKw).

(** statements.rs:174-181. *)
Definition generic_for : M unit :=
  (b <- p_at (PKind KIdent) ;; passert b) ;;
  node_ KGenericFor
    (multi_name_r fuel STMT_RECOVERY false ;; p_expect KInKw ;; expr_single).

(** statements.rs:183-190. *)
Definition numeric_for : M unit :=
  (b <- p_at (PKind KIdent) ;; passert b) ;;
  node_ KNumericFor (name ;; p_bump (PKind KEq) ;; expr).

(** statements.rs:160-172. *)
Definition for_content : M unit :=
  node_ KForContent
    (b <- p_at (PKind KIdent) ;;
     if b then
       n <- p_nth 1 ;;
       if kind_eqb n KEq then numeric_for else generic_for
     else p_error "Expected an identifier").

(** statements.rs:150-158. *)
Definition for_stmt : M unit :=
  node_ KForStmt
    (p_bump (PKind KForKw) ;; for_content ;; p_expect KDoKw ;; block ;; p_expect KEndKw).

(** statements.rs:192-199. *)
Definition repeat_until_stmt : M unit :=
  node_ KRepeatUntilStmt
    (p_bump (PKind KRepeatKw) ;; block ;; p_expect KUntilKw ;; expr_single).

(** statements.rs:214-223. *)
Definition expr_stmt : M unit :=
  node_by
    (expr ;;
     b <- p_accept (PKind KEq) ;;
     if b then expr ;; ret KAssignStmt
     else ret KExprStmt) ;;
  ret tt.

(** statements.rs:225-236. *)
Definition local_function_def_stmt : M unit :=
  let recovery := ts_union STMT_RECOVERY (ts_new [KLParen]) in
  node_ KLocalFunctionDefStmt
    (p_bump (PKind KLocalKw) ;;
     p_expect KFunctionKw ;;
     name_r recovery ;;
     param_list fuel ;;
     block ;;
     p_expect KEndKw).

(** statements.rs:238-247. *)
Definition function_def_stmt : M unit :=
  node_ KFunctionDefStmt
    (p_expect KFunctionKw ;;
     function_def_content fuel ;;
     param_list fuel ;;
     block ;;
     p_expect KEndKw).

(** statements.rs:297-303. *)
Definition do_stmt : M unit :=
  node_ KDoStmt (p_bump (PKind KDoKw) ;; block ;; p_expect KEndKw).

(** statements.rs:305-312. *)
Definition return_stmt : M unit :=
  node_ KReturnStmt
    (p_bump (PKind KReturnKw) ;;
     b <- p_at (PSet EXPR_FIRST) ;;
     if b then expr else ret tt).

(** statements.rs:314-322. *)
Definition local_assign_stmt : M unit :=
  node_ KLocalAssignStmt
    (p_bump (PKind KLocalKw) ;;
     multi_name_r fuel STMT_RECOVERY false ;;
     b <- p_accept (PKind KEq) ;;
     if b then expr else ret tt).

(** statements.rs:207-212. *)
Definition local_stmt : M unit :=
  n <- p_nth 1 ;;
  if kind_eqb n KFunctionKw then local_function_def_stmt else local_assign_stmt.

(** statements.rs:14-72 [stmt]. *)
Definition stmt_body : M unit :=
  (c <- p_current ;;
   if kind_eqb c KIfKw then if_stmt
   else if kind_eqb c KDoubleColon then label_stmt
   else if kind_eqb c KGotoKw then goto_stmt
   else if kind_eqb c KLocalKw then local_stmt
   else if kind_eqb c KRepeatKw then repeat_until_stmt
   else if kind_eqb c KFunctionKw then function_def_stmt
   else if kind_eqb c KReturnKw then return_stmt
   else if kind_eqb c KDoKw then do_stmt
   else if kind_eqb c KWhileKw then while_stmt
   else if kind_eqb c KForKw then for_stmt
   else if kind_eqb c KBreakKw then break_stmt
   else if kind_eqb c KIdent then expr_stmt
   else if kind_eqb c KLParen then expr_stmt
   else if kind_eqb c KSemicolon then
     p_err_and_bump "Semicolons can only be used after statements"
   else
     b <- p_at (PSet LITERAL_FIRST) ;;
     if b then p_err_and_bump "A literal cannot be the start of a statement"
     else if kind_eqb c KEndKw then
       err_node (p_bump (PKind KEndKw) ;; ret (PMsg "Unmatched end token"))
     else p_err_and_bump "Expected a statement") ;;
  p_accept (PKind KSemicolon) ;; ret tt.
End Open.

(** ** Tying the knot *)
Fixpoint stmt_f (n : nat) : M unit :=
  match n with
  | 0 => out
  | S n' => stmt_body n' (stmt_f n') (expr_f n')
  end
with expr_f (n : nat) (min_bp : nat) : M (option mark) :=
  match n with
  | 0 => out
  | S n' => expr_bp_body n' (stmt_f n') (expr_f n') min_bp
  end.

Definition root_f (n : nat) : M unit := root n (stmt_f n).
(** grammar.rs:144-149 [reparser]: only Block nodes are reparsable. *)
Definition block_f (n : nat) : M unit := block n (stmt_f n).
End Gram.

(** Enough fuel for every token sequence (proved in ParserTotal2.v). *)
Definition parse_fuel (s : token_source) : nat := 4 * length (ts_pairs s) + 8.

(** crates/parser/src/lib.rs:75-101 [parse_from_tokens]/[parse] up to the event list: a grammar
    function run on the event-based parser. *)
Definition run_grammar (g : nat -> P unit) (s : token_source) : res (list event) :=
  let? (_, st) := g (parse_fuel s) (mkP s []) in
  Ok (p_events st).

Definition reparser (k : kind) : option (nat -> P unit) :=
  if kind_eqb k KBlock then Some (block_f (O := event_ops)) else None.

Definition parse_events (s : token_source) : res (list event) :=
  run_grammar (root_f (O := event_ops)) s.
