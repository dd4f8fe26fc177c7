(** PropsAst.v — C66: the typed accessors on the nodes of a Lua program. [x] is always a positioned node
    of a tree whose shape is that of a construct of LuaSyntax.v (whose trees the parser builds: C20). *)
From Verif Require Import Base SyntaxKind Grammar Tree ParserTree Ast ParseSpec AstNodes LuaSyntax TreeSink Validation LexSpec LexerFwd LuaDialect LuaComplete PropsLua.

(** * Specification *)
(** The children of a node without whitespace and comments. *)
Definition parts (x : elem) : list elem := filter (fun c => is_gnode (el_green c) || negb (is_trivia (el_kind c))) (el_children_with_tokens x).
(** The element [y] has the shape [t]. *)
Definition shows (y : elem) (t : ptree) : Prop := skel (el_green y) = [t].
Definition shows_block (y : elem) (b : block) : Prop := shows y (PNode KBlock (block_t b)).
Definition shows_exps (y : elem) (es : exps) : Prop := shows y (PNode KMultivalExpr (exps_t es)).
Definition shows_names (y : elem) (n : nat) : Prop := shows y (PNode KMultiName (names_t n)).
Definition is_paren (e : exp) : bool := match e with EParen _ => true | _ => false end.
(** What an accessor of type Expr gives for the child [y] that is the expression [e]. *)
Definition expr_or_none (e : exp) (y : elem) : option elem := if is_paren e then None else Some y.
Fixpoint exps_list (es : exps) : list exp := match es with One e => [e] | More e es => e :: exps_list es end.
Fixpoint block_list (b : block) : list stat := match b with BNil => [] | BCons s _ b => s :: block_list b end.
Definition is_do (s : stat) : bool := match s with SDo _ => true | _ => false end.
(** The elements of [ys] for which the item of [l] at the same place is not [bad]. *)
Definition kept {A B} (bad : A -> bool) (l : list A) (ys : list B) : list B := map snd (filter (fun p => negb (bad (fst p))) (combine l ys)).
(** Accessors of the else part. *)
Definition else_parts (t : iftail) (p : list elem) (else_branch else_if : option elem) : Prop :=
  match t with
  | INone => p = [] /\ else_branch = None /\ else_if = None
  | IElse b => exists y, p = [y] /\ shows y (PNode KElseBranch [PTok KElseKw; PNode KBlock (block_t b)]) /\ else_branch = Some y /\ else_if = None
  | IElseif e b t => exists y, p = [y] /\ shows y (PNode KElseIfBranch ([PTok KElseifKw; exp_t e; PTok KThenKw; PNode KBlock (block_t b)] ++ iftail_t t)) /\ else_branch = None /\ else_if = Some y
  end.

(** * Proof tools *)
Lemma parts_shows x k ts : shows x (PNode k ts) -> Forall2 shows (parts x) ts.
Proof.
  unfold shows. destruct (el_green x) as [k' cs|k' t] eqn:E; cbn [skel]; [|destruct (is_trivia k'); discriminate]. intros H. injection H as -> <-.
  unfold parts, el_children_with_tokens. rewrite E. generalize (el_off x). clear. induction cs as [|c cs IH]; intros off; cbn [place filter flat_map]; [constructor|].
  destruct c as [k cs'|k t]; cbn [el_green is_gnode orb skel]; [constructor; [reflexivity|apply IH]|]. unfold el_kind at 1. cbn [el_green green_kind]. destruct (is_trivia k) eqn:T; cbn [negb app]; [apply IH|]. constructor; [|apply IH]. unfold shows. cbn [el_green skel]. now rewrite T.
Qed.
Lemma children_parts x : el_children x = filter (fun c => is_gnode (el_green c)) (parts x).
Proof. unfold el_children, parts. induction (el_children_with_tokens x) as [|c l IH]; cbn [filter]; [reflexivity|]. destruct (is_gnode (el_green c)) eqn:E; cbn [orb filter]; [now rewrite E, IH|]. destruct (is_trivia _); cbn [negb filter]; [exact IH|]. now rewrite E. Qed.
Lemma children_cast x cast : ast_children cast x = filter (fun c => is_gnode (el_green c) && cast (el_kind c)) (parts x).
Proof. unfold ast_children. rewrite children_parts. induction (parts x) as [|c l IH]; cbn [filter]; [reflexivity|]. destruct (is_gnode (el_green c)); cbn [filter andb]; [destruct (cast (el_kind c)); now rewrite IH|exact IH]. Qed.
Lemma token_parts x k : is_trivia k = false -> ast_token k x = hd_error (filter (fun c => negb (is_gnode (el_green c)) && kind_eqb (el_kind c) k) (parts x)).
Proof.
  intros T. unfold ast_token, parts. f_equal. induction (el_children_with_tokens x) as [|c l IH]; cbn [filter]; [reflexivity|]. destruct (is_gnode (el_green c)) eqn:E; cbn [orb negb filter andb]; [rewrite E; exact IH|].
  destruct (is_trivia (el_kind c)) eqn:Tc; cbn [negb filter andb].
  - destruct (kind_eqb (el_kind c) k) eqn:K; [apply kind_eqb_eq in K; congruence|exact IH].
  - rewrite E. cbn [negb andb]. destruct (kind_eqb (el_kind c) k); now rewrite IH.
Qed.
Lemma ops_parts x : infix_op_details x = hd_error (flat_map (fun c => if kind_eqb (el_kind c) KNotKw then [] else match op_of_kind (el_kind c) with Some o => [(c, o)] | None => [] end) (filter (fun c => negb (is_gnode (el_green c))) (parts x))).
Proof.
  unfold infix_op_details, parts. f_equal. induction (el_children_with_tokens x) as [|c l IH]; cbn [filter flat_map]; [reflexivity|]. destruct (is_gnode (el_green c)) eqn:E; cbn [orb negb filter]; [rewrite E; exact IH|].
  destruct (is_trivia (el_kind c)) eqn:T; cbn [negb filter flat_map]; [|rewrite E; cbn [negb flat_map]; now rewrite IH]. rewrite IH. destruct (el_kind c); try discriminate T; reflexivity.
Qed.
Lemma shows_tok y k : shows y (PTok k) -> exists off t, y = mkElem off (GTok k t).
Proof. destruct y as [off [k' cs|k' t]]; unfold shows; cbn [el_green skel]; [discriminate|]. destruct (is_trivia k'); [discriminate|]. intros H. injection H as ->. eauto. Qed.
Lemma shows_node y k f : shows y (PNode k f) -> exists off cs, y = mkElem off (GNode k cs).
Proof. destruct y as [off [k' cs|k' t]]; unfold shows; cbn [el_green skel]; [|destruct (is_trivia k'); discriminate]. intros H. injection H as -> _. eauto. Qed.
Definition exp_kind (e : exp) : kind :=
  match e with ELit _ => KLiteral | EName => KNameRef | EParen _ => KParenExpr | EFun _ _ _ => KFunctionExpr | ETable _ => KTableExpr | EUn _ _ => KPrefixExpr | EBin _ _ _ => KInfixExpr
  | ECall _ _ => KCallExpr | EMethod _ _ => KMethodCallExpr | EIndex _ _ => KIndexExpr | EDot _ => KDotExpr end.
Lemma shows_exp y e : shows y (exp_t e) -> exists off cs, y = mkElem off (GNode (exp_kind e) cs).
Proof. destruct e; cbn [exp_t exp_kind]; unfold name_ref_t; apply shows_node. Qed.
Lemma shows_args y a : shows y (args_t a) -> exists off cs, y = mkElem off (GNode KCallArgs cs).
Proof. destruct a; apply shows_node. Qed.
Definition binop_op (o : binop) : lua_op :=
  match o with BOr => OOr | BAnd => OAnd | BLt => OLt | BGt => OGt | BLe => OLtEq | BGe => OGtEq | BNe => ONotEq | BEq => OEq | BConcat => OConcat
  | BAdd => OPlus | BSub => OMinus | BMul => OMul | BDiv => ODiv | BMod => OMod | BPow => OPower end.
Ltac forms := repeat match goal with
  | H : Forall2 shows _ [] |- _ => inversion H; clear H; subst
  | H : Forall2 shows _ (_ :: _) |- _ => inversion H; clear H; subst
  end.
Ltac known := repeat match goal with
  | H : shows ?y (PTok _) |- _ => is_var y; let E := fresh "E" in pose proof (shows_tok _ _ H) as (? & ? & E); revert H; subst y
  | H : shows ?y (exp_t _) |- _ => is_var y; let E := fresh "E" in pose proof (shows_exp _ _ H) as (? & ? & E); revert H; subst y
  | H : shows ?y (args_t _) |- _ => is_var y; let E := fresh "E" in pose proof (shows_args _ _ H) as (? & ? & E); revert H; subst y
  | H : shows ?y (PNode _ _) |- _ => is_var y; let E := fresh "E" in pose proof (shows_node _ _ _ H) as (? & ? & E); revert H; subst y
  end; intros.
Ltac exps := repeat match goal with |- context [exp_kind ?e] => is_var e; destruct e end.
Ltac accessor := match goal with
  | |- infix_op_details _ = _ => rewrite ops_parts
  | |- infix_lhs _ = _ => unfold infix_lhs; rewrite children_cast
  | |- infix_rhs _ = _ => unfold infix_rhs; rewrite children_cast
  | |- assign_lhs _ = _ => unfold assign_lhs; rewrite children_cast
  | |- assign_rhs _ = _ => unfold assign_rhs; rewrite children_cast
  | |- ?f ?x = _ => unfold f; first [unfold ast_child; rewrite children_cast | rewrite children_cast | rewrite token_parts by reflexivity]
  end.
Ltac forms_of x P := let Ps := fresh "Ps" in let ps := fresh "ps" in remember (parts x) as ps eqn:Ps; forms; known.
Ltac conclude1 := match goal with E : _ = parts ?x |- _ => accessor; rewrite <- E; unfold expr_or_none; exps; reflexivity end.
Ltac conclude := repeat match goal with |- _ /\ _ => split end;
  try (unfold shows_exps, shows_block, shows_names; match goal with H : shows ?y _ |- shows ?y _ => exact H end); try conclude1.
Ltac exists_parts := repeat match goal with |- exists _ : elem, _ => eexists end.
Ltac solve_parts H := let P := fresh "P" in
  cbn [stat_t exp_t] in H; unfold file_t, name_t, name_ref_t, label_delim_t, fname_t, params_t in H; pose proof (parts_shows _ _ _ H) as P; clear H;
  match type of P with Forall2 shows (parts ?x) _ => forms_of x P end; exists_parts; split; [reflexivity|]; conclude.
Theorem C66_call_stat : forall x e, shows x (stat_t (SCall e)) ->
  exists m, parts x = [m] /\ shows_exps m (One e) /\ ExprStmt_multival_expr x = Some m.
Proof. intros. match goal with H : shows _ _ |- _ => solve_parts H end. Qed.
Theorem C66_assign : forall x ts es, shows x (stat_t (SAssign ts es)) ->
  exists l q r, parts x = [l; q; r] /\ shows_exps l ts /\ shows q (PTok KEq) /\ shows_exps r es /\ assign_lhs x = Some l /\ AssignStmt_eq_token x = Some q /\ assign_rhs x = Some r.
Proof. intros. match goal with H : shows _ _ |- _ => solve_parts H end. Qed.
Theorem C66_local : forall x n, shows x (stat_t (SLocal n)) ->
  exists k m, parts x = [k; m] /\ shows k (PTok KLocalKw) /\ shows_names m n /\ LocalAssignStmt_local_token x = Some k /\ LocalAssignStmt_multi_name x = Some m /\ LocalAssignStmt_eq_token x = None /\ LocalAssignStmt_multival_expr x = None.
Proof. intros. match goal with H : shows _ _ |- _ => solve_parts H end. Qed.
Theorem C66_local_init : forall x n es, shows x (stat_t (SLocalInit n es)) ->
  exists k m q r, parts x = [k; m; q; r] /\ shows k (PTok KLocalKw) /\ shows_names m n /\ shows q (PTok KEq) /\ shows_exps r es /\ LocalAssignStmt_local_token x = Some k /\ LocalAssignStmt_multi_name x = Some m /\ LocalAssignStmt_eq_token x = Some q /\ LocalAssignStmt_multival_expr x = Some r.
Proof. intros. match goal with H : shows _ _ |- _ => solve_parts H end. Qed.
Theorem C66_local_function : forall x n va b, shows x (stat_t (SLocalFun n va b)) ->
  exists l f m ps y z, parts x = [l; f; m; ps; y; z] /\ shows l (PTok KLocalKw) /\ shows f (PTok KFunctionKw) /\ shows m name_t /\ shows ps (params_t n va) /\ shows_block y b /\ shows z (PTok KEndKw) /\ LocalFunctionDefStmt_local_token x = Some l /\ LocalFunctionDefStmt_function_token x = Some f /\ LocalFunctionDefStmt_name x = Some m /\ LocalFunctionDefStmt_param_list x = Some ps /\ LocalFunctionDefStmt_body x = Some y /\ LocalFunctionDefStmt_end_token x = Some z.
Proof. intros. match goal with H : shows _ _ |- _ => solve_parts H end. Qed.
Theorem C66_function : forall x fn n va b, shows x (stat_t (SFun fn n va b)) ->
  exists f m ps y z, parts x = [f; m; ps; y; z] /\ shows f (PTok KFunctionKw) /\ shows m (fname_t fn) /\ shows ps (params_t n va) /\ shows_block y b /\ shows z (PTok KEndKw) /\ FunctionDefStmt_function_token x = Some f /\ FunctionDefStmt_function_def_content x = None /\ FunctionDefStmt_param_list x = Some ps /\ FunctionDefStmt_body x = Some y /\ FunctionDefStmt_end_token x = Some z.
Proof. intros. match goal with H : shows _ _ |- _ => solve_parts H end. Qed.
Theorem C66_while : forall x e b, shows x (stat_t (SWhile e b)) ->
  exists w c d y z, parts x = [w; c; d; y; z] /\ shows w (PTok KWhileKw) /\ shows c (exp_t e) /\ shows d (PTok KDoKw) /\ shows_block y b /\ shows z (PTok KEndKw) /\ WhileStmt_while_token x = Some w /\ WhileStmt_cond x = expr_or_none e c /\ WhileStmt_do_token x = Some d /\ WhileStmt_body x = Some y /\ WhileStmt_end_token x = Some z.
Proof. intros. match goal with H : shows _ _ |- _ => solve_parts H end. Qed.
Theorem C66_repeat : forall x b e, shows x (stat_t (SRepeat b e)) ->
  exists w y u c, parts x = [w; y; u; c] /\ shows w (PTok KRepeatKw) /\ shows_block y b /\ shows u (PTok KUntilKw) /\ shows c (exp_t e) /\ RepeatUntilStmt_repeat_token x = Some w /\ RepeatUntilStmt_block x = Some y /\ RepeatUntilStmt_until_token x = Some u /\ RepeatUntilStmt_expr x = expr_or_none e c.
Proof. intros. match goal with H : shows _ _ |- _ => solve_parts H end. Qed.
Theorem C66_do : forall x b, shows x (stat_t (SDo b)) ->
  exists d y z, parts x = [d; y; z] /\ shows d (PTok KDoKw) /\ shows_block y b /\ shows z (PTok KEndKw) /\ DoStmt_do_token x = Some d /\ DoStmt_body x = Some y /\ DoStmt_end_token x = Some z.
Proof. intros. match goal with H : shows _ _ |- _ => solve_parts H end. Qed.
Theorem C66_for : forall x s b, shows x (PNode KForStmt [PTok KForKw; s; PTok KDoKw; PNode KBlock (block_t b); PTok KEndKw]) -> (exists f, s = PNode KForContent f) ->
  exists f c d y z, parts x = [f; c; d; y; z] /\ shows f (PTok KForKw) /\ shows c s /\ shows d (PTok KDoKw) /\ shows_block y b /\ shows z (PTok KEndKw) /\ ForStmt_for_token x = Some f /\ ForStmt_content x = None /\ ForStmt_do_token x = Some d /\ ForStmt_block x = Some y /\ ForStmt_end_token x = Some z.
Proof. intros x s b H (g & ->). solve_parts H. Qed.
Theorem C66_numeric_for : forall x es, shows x (PNode KNumericFor [name_t; PTok KEq; PNode KMultivalExpr (exps_t es)]) ->
  exists m q r, parts x = [m; q; r] /\ shows m name_t /\ shows q (PTok KEq) /\ shows_exps r es /\ NumericFor_name x = Some m /\ NumericFor_eq_token x = Some q /\ NumericFor_expr x = Some r.
Proof. intros. match goal with H : shows _ _ |- _ => solve_parts H end. Qed.
Theorem C66_generic_for : forall x n e, shows x (PNode KGenericFor [PNode KMultiName (names_t n); PTok KInKw; exp_t e]) ->
  exists m i c, parts x = [m; i; c] /\ shows_names m n /\ shows i (PTok KInKw) /\ shows c (exp_t e) /\ GenericFor_multi_name x = Some m /\ GenericFor_in_token x = Some i /\ GenericFor_expr x = None.
Proof. intros. match goal with H : shows _ _ |- _ => solve_parts H end. Qed.
Theorem C66_return0 : forall x, shows x (stat_t SReturn0) ->
  exists k, parts x = [k] /\ shows k (PTok KReturnKw) /\ ReturnStmt_return_token x = Some k /\ ReturnStmt_expr x = None.
Proof. intros. match goal with H : shows _ _ |- _ => solve_parts H end. Qed.
Theorem C66_return : forall x es, shows x (stat_t (SReturn es)) ->
  exists k m, parts x = [k; m] /\ shows k (PTok KReturnKw) /\ shows_exps m es /\ ReturnStmt_return_token x = Some k /\ ReturnStmt_expr x = None.
Proof. intros. match goal with H : shows _ _ |- _ => solve_parts H end. Qed.
Theorem C66_break : forall x, shows x (stat_t SBreak) ->
  exists k, parts x = [k] /\ shows k (PTok KBreakKw) /\ BreakStmt_break_token x = Some k.
Proof. intros. match goal with H : shows _ _ |- _ => solve_parts H end. Qed.
Theorem C66_goto : forall x, shows x (stat_t SGoto) ->
  exists k m, parts x = [k; m] /\ shows k (PTok KGotoKw) /\ shows m name_ref_t /\ GotoStmt_goto_token x = Some k /\ GotoStmt_name_ref x = Some m.
Proof. intros. match goal with H : shows _ _ |- _ => solve_parts H end. Qed.
Theorem C66_label : forall x, shows x (stat_t SLabel) ->
  exists a m z, parts x = [a; m; z] /\ shows a label_delim_t /\ shows m name_t /\ shows z label_delim_t /\ LabelStmt_start x = Some a /\ LabelStmt_name x = Some m /\ LabelStmt_finish x = Some a.
Proof. intros. match goal with H : shows _ _ |- _ => solve_parts H end. Qed.
Theorem C66_label_delim : forall x, shows x (label_delim_t) ->
  exists c, parts x = [c] /\ shows c (PTok KDoubleColon) /\ LabelDelim_double_colon_token x = Some c.
Proof. intros. match goal with H : shows _ _ |- _ => solve_parts H end. Qed.
Theorem C66_else : forall x b, shows x (PNode KElseBranch [PTok KElseKw; PNode KBlock (block_t b)]) ->
  exists k y, parts x = [k; y] /\ shows k (PTok KElseKw) /\ shows_block y b /\ ElseBranch_else_token x = Some k /\ ElseBranch_block x = Some y.
Proof. intros. match goal with H : shows _ _ |- _ => solve_parts H end. Qed.
Theorem C66_name_ref : forall x, shows x (exp_t EName) ->
  exists i, parts x = [i] /\ shows i (PTok KIdent) /\ NameRef_ident_token x = Some i.
Proof. intros. match goal with H : shows _ _ |- _ => solve_parts H end. Qed.
Theorem C66_name : forall x, shows x (name_t) ->
  exists i, parts x = [i] /\ shows i (PTok KIdent) /\ Name_ident_token x = Some i.
Proof. intros. match goal with H : shows _ _ |- _ => solve_parts H end. Qed.
Theorem C66_paren : forall x e, shows x (exp_t (EParen e)) ->
  exists l c r, parts x = [l; c; r] /\ shows l (PTok KLParen) /\ shows c (exp_t e) /\ shows r (PTok KRParen) /\ ParenExpr_l_paren_token x = Some l /\ ParenExpr_expr x = expr_or_none e c /\ ParenExpr_r_paren_token x = Some r.
Proof. intros. match goal with H : shows _ _ |- _ => solve_parts H end. Qed.
Theorem C66_function_expr : forall x n va b, shows x (exp_t (EFun n va b)) ->
  exists f ps y z, parts x = [f; ps; y; z] /\ shows f (PTok KFunctionKw) /\ shows ps (params_t n va) /\ shows_block y b /\ shows z (PTok KEndKw) /\ FunctionExpr_function_token x = Some f /\ FunctionExpr_params x = Some ps /\ FunctionExpr_body x = Some y /\ FunctionExpr_end_token x = Some z.
Proof. intros. match goal with H : shows _ _ |- _ => solve_parts H end. Qed.
Theorem C66_prefix : forall x o e, shows x (exp_t (EUn o e)) ->
  exists k c, parts x = [k; c] /\ shows k (PTok (unop_kind o)) /\ shows c (exp_t e) /\ PrefixExpr_expr x = expr_or_none e c.
Proof. intros x o e H. solve_parts H. Qed.
Theorem C66_infix : forall x o l r, shows x (exp_t (EBin o l r)) ->
  exists a k c, parts x = [a; k; c] /\ shows a (exp_t l) /\ shows k (PTok (binop_kind o)) /\ shows c (exp_t r) /\ infix_op_details x = Some (k, binop_op o) /\ infix_lhs x = (if is_paren l then expr_or_none r c else Some a) /\ infix_rhs x = (if is_paren l then None else expr_or_none r c).
Proof. intros x o l r H. solve_parts H. all: match goal with E : _ = parts _ |- _ => rewrite ops_parts, <- E end; destruct o; reflexivity. Qed.
Theorem C66_call : forall x f a, shows x (exp_t (ECall f a)) ->
  exists c y, parts x = [c; y] /\ shows c (exp_t f) /\ shows y (args_t a) /\ CallExpr_fun x = expr_or_none f c /\ CallExpr_call_args x = Some y.
Proof. intros. match goal with H : shows _ _ |- _ => solve_parts H end. Qed.
Theorem C66_method_call : forall x f a, shows x (exp_t (EMethod f a)) ->
  exists c k m y, parts x = [c; k; m; y] /\ shows c (exp_t f) /\ shows k (PTok KColon) /\ shows m name_ref_t /\ shows y (args_t a) /\ MethodCallExpr_colon_token x = Some k /\ MethodCallExpr_call_args x = Some y /\ MethodCallExpr_fun x = (if is_paren f then Some m else Some c) /\ MethodCallExpr_name_ref x = Some (match f with EName => c | _ => m end).
Proof. intros. match goal with H : shows _ _ |- _ => solve_parts H end. Qed.
Theorem C66_index : forall x f i, shows x (exp_t (EIndex f i)) ->
  exists c y, parts x = [c; y] /\ shows c (exp_t f) /\ shows y (PNode KIndex [PTok KLBracket; exp_t i; PTok KRBracket]) /\ IndexExpr_base x = expr_or_none f c /\ IndexExpr_index x = Some y.
Proof. intros. match goal with H : shows _ _ |- _ => solve_parts H end. Qed.
Theorem C66_index_part : forall x i, shows x (PNode KIndex [PTok KLBracket; exp_t i; PTok KRBracket]) ->
  exists l c r, parts x = [l; c; r] /\ shows l (PTok KLBracket) /\ shows c (exp_t i) /\ shows r (PTok KRBracket) /\ Index_l_brack_token x = Some l /\ Index_expr x = expr_or_none i c /\ Index_r_brack_token x = Some r.
Proof. intros. match goal with H : shows _ _ |- _ => solve_parts H end. Qed.
Theorem C66_dot : forall x f, shows x (exp_t (EDot f)) ->
  exists c d i, parts x = [c; d; i] /\ shows c (exp_t f) /\ shows d (PTok KDot) /\ shows i (PTok KIdent) /\ DotExpr_expr x = expr_or_none f c /\ DotExpr_dot_token x = Some d /\ DotExpr_ident_token x = Some i.
Proof. intros. match goal with H : shows _ _ |- _ => solve_parts H end. Qed.
Theorem C66_no_args : forall x, shows x (PNode KArgList [PTok KLParen; PTok KRParen]) ->
  exists l r, parts x = [l; r] /\ shows l (PTok KLParen) /\ shows r (PTok KRParen) /\ ArgList_l_paren_token x = Some l /\ ArgList_args x = [] /\ ArgList_triple_dot_token x = None /\ ArgList_r_paren_token x = Some r.
Proof. intros. match goal with H : shows _ _ |- _ => solve_parts H end. Qed.
Theorem C66_arg_list : forall x es, shows x (PNode KArgList [PTok KLParen; PNode KMultivalExpr (exps_t es); PTok KRParen]) ->
  exists l m r, parts x = [l; m; r] /\ shows l (PTok KLParen) /\ shows_exps m es /\ shows r (PTok KRParen) /\ ArgList_l_paren_token x = Some l /\ ArgList_args x = [] /\ ArgList_triple_dot_token x = None /\ ArgList_r_paren_token x = Some r.
Proof. intros. match goal with H : shows _ _ |- _ => solve_parts H end. Qed.
Theorem C66_positional : forall x e, shows x (PNode KPositionalValue [exp_t e]) ->
  exists c, parts x = [c] /\ shows c (exp_t e) /\ PositionalValue_expr x = expr_or_none e c.
Proof. intros. match goal with H : shows _ _ |- _ => solve_parts H end. Qed.
Theorem C66_key_value : forall x k e, shows x (PNode KKeyValue [PNode KTableKey k; PTok KEq; exp_t e]) ->
  exists a q c, parts x = [a; q; c] /\ shows a (PNode KTableKey k) /\ shows q (PTok KEq) /\ shows c (exp_t e) /\ KeyValue_key x = None /\ KeyValue_value x = expr_or_none e c.
Proof. intros. match goal with H : shows _ _ |- _ => solve_parts H end. Qed.
Theorem C66_table_sep : forall x (semi : bool), shows x (PNode KTableSep [PTok (if semi then KSemicolon else KComma)]) ->
  exists s, parts x = [s] /\ shows s (PTok (if semi then KSemicolon else KComma)) /\ TableSep_semicolon_token x = (if semi then Some s else None).
Proof. intros x [|] H; solve_parts H. Qed.
Theorem C66_function_method : forall x n, shows x (PNode KFunctionMethod [PNode KIndexPath (path_t n); PTok KColon; name_t]) ->
  exists p c m, parts x = [p; c; m] /\ shows p (PNode KIndexPath (path_t n)) /\ shows c (PTok KColon) /\ shows m name_t /\ FunctionMethod_index_path x = Some p /\ FunctionMethod_colon_token x = Some c /\ FunctionMethod_name x = Some m.
Proof. intros. match goal with H : shows _ _ |- _ => solve_parts H end. Qed.
Theorem C66_function_static : forall x n, shows x (PNode KFunctionStatic [PNode KIndexPath (path_t n ++ [PTok KDot]); name_t]) ->
  exists p m, parts x = [p; m] /\ shows p (PNode KIndexPath (path_t n ++ [PTok KDot])) /\ shows m name_t /\ FunctionStatic_index_path x = Some p /\ FunctionStatic_dot_token x = None /\ FunctionStatic_name x = Some m.
Proof. intros. match goal with H : shows _ _ |- _ => solve_parts H end. Qed.
Theorem C66_source_file : forall x b, shows x (file_t b) ->
  exists y, parts x = [y] /\ shows_block y b /\ SourceFile_body x = Some y.
Proof. intros. match goal with H : shows _ _ |- _ => solve_parts H end. Qed.

(** An [if] statement or [elseif] branch: [p] are its parts after the block and before the closing [end]. *)
Theorem C66_if : forall x e b t, shows x (stat_t (SIf e b t)) ->
  exists i c h y p z, parts x = [i; c; h; y] ++ p ++ [z] /\ shows i (PTok KIfKw) /\ shows c (exp_t e) /\ shows h (PTok KThenKw) /\ shows_block y b /\ shows z (PTok KEndKw) /\
    IfStmt_if_token x = Some i /\ IfStmt_cond x = expr_or_none e c /\ IfStmt_then_token x = Some h /\ IfStmt_block x = Some y /\ IfStmt_end_token x = Some z /\
    else_parts t p (IfStmt_else_branch x) (IfStmt_else_if_branch x).
Proof.
  intros x e b t H. destruct t; cbn [stat_t iftail_t app] in H; pose proof (parts_shows _ _ _ H) as P; clear H.
  - forms_of x P. exists_parts. exists (@nil elem). eexists. cbn [app]. split; [reflexivity|]. conclude. repeat split; reflexivity || conclude1.
  - forms_of x P. exists_parts. eexists [_], _. cbn [app]. split; [reflexivity|]. conclude. eexists. split; [reflexivity|]. split; [eassumption|]. split; conclude1.
  - forms_of x P. exists_parts. eexists [_], _. cbn [app]. split; [reflexivity|]. conclude. eexists. split; [reflexivity|]. split; [eassumption|]. split; conclude1.
Qed.
Theorem C66_else_if : forall x e b t, shows x (PNode KElseIfBranch ([PTok KElseifKw; exp_t e; PTok KThenKw; PNode KBlock (block_t b)] ++ iftail_t t)) ->
  exists i c h y p, parts x = [i; c; h; y] ++ p /\ shows i (PTok KElseifKw) /\ shows c (exp_t e) /\ shows h (PTok KThenKw) /\ shows_block y b /\
    ElseIfBranch_elseif_token x = Some i /\ ElseIfBranch_cond x = expr_or_none e c /\ ElseIfBranch_then_token x = Some h /\ ElseIfBranch_block x = Some y /\
    else_parts t p (ElseIfBranch_else_branch x) (ElseIfBranch_else_if_branch x).
Proof.
  intros x e b t H. destruct t; cbn [iftail_t app] in H; pose proof (parts_shows _ _ _ H) as P; clear H.
  - forms_of x P. exists_parts. exists (@nil elem). cbn [app]. split; [reflexivity|]. conclude. repeat split; reflexivity || conclude1.
  - forms_of x P. exists_parts. eexists [_]. cbn [app]. split; [reflexivity|]. conclude. eexists. split; [reflexivity|]. split; [eassumption|]. split; conclude1.
  - forms_of x P. exists_parts. eexists [_]. cbn [app]. split; [reflexivity|]. conclude. eexists. split; [reflexivity|]. split; [eassumption|]. split; conclude1.
Qed.
(** Literals: the token and its kind; the four generated token accessors. *)
Definition lit_kind_read (l : lit) : literal_kind :=
  match l with LNil => LKNil | LTrue => LKBool true | LFalse => LKBool false | LNumber => LKNumber | LString => LKStr | LVararg => LKVararg end.
Theorem C66_literal : forall x l, shows x (exp_t (ELit l)) ->
  exists t, parts x = [t] /\ shows t (PTok (lit_kind l)) /\ literal_token x = Ok t /\ literal_kind_of x = Ok (lit_kind_read l) /\
    Literal_number_token x = (match l with LNumber => Some t | _ => None end) /\ Literal_str_token x = (match l with LString => Some t | _ => None end) /\
    Literal_true_token x = (match l with LTrue => Some t | _ => None end) /\ Literal_false_token x = (match l with LFalse => Some t | _ => None end).
Proof.
  assert (F : forall x, literal_token x = match parts x with c :: _ => if is_gnode (el_green c) then (if is_trivia (el_kind c) then literal_token x else Panic) else Ok c | [] => literal_token x end).
  { intros x. unfold literal_token, parts. induction (el_children_with_tokens x) as [|c cs IH]; cbn [find filter]; [reflexivity|]. destruct (is_gnode (el_green c)) eqn:G; cbn [orb]; [destruct (is_trivia (el_kind c)) eqn:T; cbn [negb]; rewrite ?G, ?T; reflexivity|]. destruct (is_trivia (el_kind c)); cbn [negb]; [exact IH|]. now rewrite G. }
  intros x l H. cbn [exp_t] in H. pose proof (parts_shows _ _ _ H) as P. clear H. forms_of x P.
  match goal with E : _ = parts _ |- _ => specialize (F x); rewrite <- E in F end. cbn [el_green is_gnode] in F.
  eexists. split; [reflexivity|]. split; [eassumption|]. split; [exact F|]. split; [unfold literal_kind_of; rewrite F; cbn [rbind]; now destruct l|].
  repeat split; match goal with E : _ = parts ?x |- _ => accessor; rewrite <- E; now destruct l end.
Qed.
(** Call arguments. *)
Theorem C66_call_args : forall x a, shows x (args_t a) ->
  exists y, parts x = [y] /\
    match a with
    | ANone => shows y (PNode KArgList [PTok KLParen; PTok KRParen]) /\ CallArgs_arg_list x = Some y /\ CallArgs_table_expr x = None /\ CallArgs_str_token x = None
    | AList es => shows y (PNode KArgList [PTok KLParen; PNode KMultivalExpr (exps_t es); PTok KRParen]) /\ CallArgs_arg_list x = Some y /\ CallArgs_table_expr x = None /\ CallArgs_str_token x = None
    | ATable fs => shows y (exp_t (ETable fs)) /\ CallArgs_arg_list x = None /\ CallArgs_table_expr x = Some y /\ CallArgs_str_token x = None
    | AString => shows y (PTok KStr) /\ CallArgs_arg_list x = None /\ CallArgs_table_expr x = None /\ CallArgs_str_token x = Some y
    end.
Proof. intros x [|es|fs|] H; cbn [args_t] in H; solve_parts H. Qed.
(** Parameter lists: [n] names and possibly [...]. *)
Theorem C66_params : forall x n va, shows x (params_t n va) ->
  exists l p r, parts x = [l] ++ p ++ [r] /\ shows l (PTok KLParen) /\ shows r (PTok KRParen) /\ ParamList_l_paren_token x = Some l /\ ParamList_r_paren_token x = Some r /\
    match n, va with
    | 0, false => p = [] /\ ParamList_multi_name x = None /\ ParamList_triple_dot_token x = None
    | 0, true => exists m d, p = [m; d] /\ shows m (PNode KMultiName []) /\ shows d (PTok KTripleDot) /\ ParamList_multi_name x = Some m /\ ParamList_triple_dot_token x = Some d
    | S k, false => exists m, p = [m] /\ shows_names m k /\ ParamList_multi_name x = Some m /\ ParamList_triple_dot_token x = None
    | S k, true => exists m d, p = [m; d] /\ shows m (PNode KMultiName (names_t k ++ [PTok KComma])) /\ shows d (PTok KTripleDot) /\ ParamList_multi_name x = Some m /\ ParamList_triple_dot_token x = Some d
    end.
Proof.
  intros x [|n] [|] H; unfold params_t in H; cbn [app] in H; pose proof (parts_shows _ _ _ H) as P; clear H; forms_of x P; eexists.
  - eexists [_; _], _. split; [reflexivity|]. conclude. do 2 eexists. split; [reflexivity|]. conclude.
  - exists (@nil elem). eexists. split; [reflexivity|]. conclude. reflexivity.
  - eexists [_; _], _. split; [reflexivity|]. conclude. do 2 eexists. split; [reflexivity|]. conclude.
  - eexists [_], _. split; [reflexivity|]. conclude. eexists. split; [reflexivity|]. conclude.
Qed.
(** Lists: the child nodes of a list of names, of a path, of an expression list and of a block, in order. *)
Definition child_nodes (x : elem) : list elem := filter (fun c => is_gnode (el_green c)) (parts x).
Lemma cast_nodes x cast : ast_children cast x = filter (fun c => cast (el_kind c)) (child_nodes x).
Proof. rewrite children_cast. unfold child_nodes. induction (parts x) as [|c l IH]; cbn [filter]; [reflexivity|]. destruct (is_gnode (el_green c)); cbn [andb filter]; [destruct (cast (el_kind c)); now rewrite IH|exact IH]. Qed.
Lemma filter_all {A} (f : A -> bool) l : (forall a, In a l -> f a = true) -> filter f l = l.
Proof. induction l as [|a l IH]; intros H; cbn [filter]; [reflexivity|]. rewrite (H a) by (left; reflexivity). f_equal. apply IH. intros b Hb. apply H. right. exact Hb. Qed.
Lemma child_nodes_shows x k ts : shows x (PNode k ts) -> Forall2 shows (child_nodes x) (filter (fun t => match t with PNode _ _ => true | _ => false end) ts).
Proof.
  intros H. apply parts_shows in H. unfold child_nodes. induction H as [|c t cs ts S _ IH]; cbn [filter]; [constructor|].
  destruct t as [k'|m|m1 m2|k' f]; [destruct (shows_tok _ _ S) as (off & u & ->)|exfalso; unfold shows in S; destruct (el_green c) as [k1 c1|k1 c1]; cbn [skel] in S; [discriminate|destruct (is_trivia k1); discriminate]|exfalso; unfold shows in S; destruct (el_green c) as [k1 c1|k1 c1]; cbn [skel] in S; [discriminate|destruct (is_trivia k1); discriminate]|destruct (shows_node _ _ _ S) as (off & gs & ->)]; cbn [el_green is_gnode]; [exact IH|constructor; [exact S|exact IH]].
Qed.
Definition tree_nodes := filter (fun t => match t with PNode _ _ => true | _ => false end).
Lemma names_nodes n : tree_nodes (names_t n) = repeat name_t (S n).
Proof. induction n as [|n IH]; [reflexivity|]. cbn [names_t]. unfold tree_nodes in *. cbn [filter name_t]. rewrite IH. reflexivity. Qed.
Lemma path_nodes n : tree_nodes (path_t n) = repeat name_ref_t (S n).
Proof. induction n as [|n IH]; [reflexivity|]. cbn [path_t]. unfold tree_nodes in *. cbn [filter name_ref_t]. rewrite IH. reflexivity. Qed.
Lemma tree_nodes_app a b : tree_nodes (a ++ b) = tree_nodes a ++ tree_nodes b.
Proof. apply filter_app. Qed.
Lemma repeat_shows ys t n : Forall2 shows ys (repeat t n) -> length ys = n /\ Forall (fun y => shows y t) ys.
Proof. revert ys. induction n as [|n IH]; intros ys H; inversion H; subst; [split; [reflexivity|constructor]|]. match goal with H : Forall2 _ _ _ |- _ => apply IH in H as (L & F) end. cbn [length]. split; [now rewrite L|constructor; assumption]. Qed.
Theorem C66_names : forall x n comma, shows x (PNode KMultiName (names_t n ++ (if comma : bool then [PTok KComma] else []))) ->
  length (child_nodes x) = S n /\ Forall (fun y => shows y name_t) (child_nodes x) /\ MultiName_names x = child_nodes x.
Proof.
  intros x n comma H. apply child_nodes_shows in H. change (filter _ (names_t n ++ _)) with (tree_nodes (names_t n ++ (if comma then [PTok KComma] else []))) in H. rewrite tree_nodes_app, names_nodes in H.
  assert (E : tree_nodes (if comma then [PTok KComma] else []) = []) by now destruct comma. rewrite E, app_nil_r in H. apply repeat_shows in H as (L & F). split; [exact L|]. split; [exact F|].
  unfold MultiName_names. rewrite cast_nodes. apply filter_all. intros y Hy. rewrite Forall_forall in F. destruct (shows_node _ _ _ (F y Hy)) as (off & cs & ->). reflexivity.
Qed.
Theorem C66_path : forall x n dot, shows x (PNode KIndexPath (path_t n ++ (if dot : bool then [PTok KDot] else []))) ->
  length (child_nodes x) = S n /\ Forall (fun y => shows y name_ref_t) (child_nodes x) /\ IndexPath_name_refs x = child_nodes x.
Proof.
  intros x n comma H. apply child_nodes_shows in H. change (filter _ (path_t n ++ _)) with (tree_nodes (path_t n ++ (if comma then [PTok KDot] else []))) in H. rewrite tree_nodes_app, path_nodes in H.
  assert (E : tree_nodes (if comma then [PTok KDot] else []) = []) by now destruct comma. rewrite E, app_nil_r in H. apply repeat_shows in H as (L & F). split; [exact L|]. split; [exact F|].
  unfold IndexPath_name_refs. rewrite cast_nodes. apply filter_all. intros y Hy. rewrite Forall_forall in F. destruct (shows_node _ _ _ (F y Hy)) as (off & cs & ->). reflexivity.
Qed.
Lemma kept_cons {A B} (bad : A -> bool) a l (y : B) ys : kept bad (a :: l) (y :: ys) = if bad a then kept bad l ys else y :: kept bad l ys.
Proof. unfold kept. cbn [combine filter fst]. destruct (bad a); reflexivity. Qed.
Lemma exp_t_node e : exists k f, exp_t e = PNode k f.
Proof. destruct e; cbn [exp_t]; unfold name_ref_t; eauto. Qed.
Lemma exps_nodes es : tree_nodes (exps_t es) = map exp_t (exps_list es).
Proof. induction es as [e|e es IH]; cbn [exps_t exps_list map]; destruct (exp_t_node e) as (k & f & E); rewrite E; unfold tree_nodes in *; cbn [filter]; [reflexivity|]. now rewrite IH. Qed.
Theorem C66_exprs : forall x es, shows_exps x es ->
  Forall2 (fun e y => shows y (exp_t e)) (exps_list es) (child_nodes x) /\ MultivalExpr_exprs x = kept is_paren (exps_list es) (child_nodes x).
Proof.
  intros x es H. apply child_nodes_shows in H. change (filter _ (exps_t es)) with (tree_nodes (exps_t es)) in H. rewrite exps_nodes in H.
  assert (F : Forall2 (fun e y => shows y (exp_t e)) (exps_list es) (child_nodes x)).
  { revert H. generalize (child_nodes x). induction (exps_list es) as [|e l IH]; cbn [map]; intros ys H; inversion H; subst; constructor; auto. }
  split; [exact F|]. unfold MultivalExpr_exprs. rewrite cast_nodes. clear H. induction F as [|e y l ys S _ IH]; [reflexivity|]. rewrite kept_cons. cbn [filter]. destruct (shows_exp _ _ S) as (off & cs & ->). cbn [el_kind el_green green_kind].
  rewrite IH. destruct e; reflexivity.
Qed.
Lemma stat_t_node s : exists k f, stat_t s = PNode k f /\ stmt_can_cast k = negb (is_do s).
Proof. destruct s; cbn [stat_t is_do negb]; do 2 eexists; (split; [reflexivity|reflexivity]). Qed.
Lemma block_nodes b : tree_nodes (block_t b) = map stat_t (block_list b).
Proof.
  induction b as [|s semi b IH]; cbn [block_t block_list map]; [reflexivity|]. destruct (stat_t_node s) as (k & f & E & _). rewrite E. unfold tree_nodes in *. cbn [filter]. rewrite filter_app, IH. destruct semi; reflexivity.
Qed.
Theorem C66_stmts : forall x b, shows_block x b ->
  Forall2 (fun s y => shows y (stat_t s)) (block_list b) (child_nodes x) /\ Block_stmts x = kept is_do (block_list b) (child_nodes x).
Proof.
  intros x b H. apply child_nodes_shows in H. change (filter _ (block_t b)) with (tree_nodes (block_t b)) in H. rewrite block_nodes in H.
  assert (F : Forall2 (fun e y => shows y (stat_t e)) (block_list b) (child_nodes x)).
  { revert H. generalize (child_nodes x). induction (block_list b) as [|e l IH]; cbn [map]; intros ys H; inversion H; subst; constructor; auto. }
  split; [exact F|]. unfold Block_stmts. rewrite cast_nodes. clear H. induction F as [|e y l ys S _ IH]; [reflexivity|]. rewrite kept_cons. cbn [filter]. destruct (stat_t_node e) as (k & f & E & K). rewrite E in S. destruct (shows_node _ _ _ S) as (off & cs & ->). cbn [el_kind el_green green_kind].
  rewrite IH, K. destruct (is_do e); reflexivity.
Qed.
(** Tables: the braces; the fields are there but [table_contents] is always [None]. *)
Lemma fields_kinds fs : Forall (fun t => exists k f, t = PNode k f /\ (k = KTableContent \/ k = KTableSep)) (fields_t fs).
Proof. induction fs as [|f|f semi fs IH]; cbn [fields_t]; repeat constructor; try exact IH; destruct f; cbn [field_t]; eauto 10. Qed.
Theorem C66_table : forall x fs, shows x (exp_t (ETable fs)) ->
  exists l p r, parts x = [l] ++ p ++ [r] /\ shows l (PTok KLBrace) /\ Forall2 shows p (fields_t fs) /\ shows r (PTok KRBrace) /\
    TableExpr_l_curly_token x = Some l /\ TableExpr_table_contents x = None /\ TableExpr_r_curly_token x = Some r.
Proof.
  intros x fs H. cbn [exp_t] in H. apply parts_shows in H. inversion H as [|l t ps ts L R E E']. subst t ts. apply Forall2_app_inv_r in R as (p & rs & F & R & ->). inversion R as [|r t q ts S1 R1]. subst. inversion R1; subst. clear R R1 H.
  exists l, p, r. cbn [app]. symmetry in E. split; [reflexivity|]. split; [exact L|]. split; [exact F|]. split; [exact S1|].
  destruct (shows_tok _ _ L) as (o1 & t1 & ->), (shows_tok _ _ S1) as (o2 & t2 & ->).
  assert (G : Forall (fun y => exists off k cs, y = mkElem off (GNode k cs) /\ (k = KTableContent \/ k = KTableSep)) p).
  { pose proof (fields_kinds fs) as K. clear E L S1. revert K. induction F as [|y t ys ts S _ IH]; intros K; [constructor|]. inversion K as [|? ? (k & f & -> & C) K']; subst. constructor; [|apply IH; exact K']. destruct (shows_node _ _ _ S) as (off & cs & ->). eauto. }
  split; [|split].
  - unfold TableExpr_l_curly_token. rewrite token_parts by reflexivity. rewrite E. reflexivity.
  - unfold TableExpr_table_contents, ast_child. rewrite children_cast, E. cbn [filter el_green is_gnode andb]. rewrite filter_app. clear -G. induction G as [|y ys (off & k & cs & -> & C) _ IH]; [reflexivity|]. cbn [filter el_green is_gnode andb el_kind green_kind]. destruct C as [-> | ->]; exact IH.
  - unfold TableExpr_r_curly_token. rewrite token_parts by reflexivity. rewrite E. cbn [filter el_green is_gnode negb andb el_kind green_kind kind_eqb]. change (kind_eqb KLBrace KRBrace) with false. cbn [andb]. rewrite filter_app.
    assert (N : filter (fun c => negb (is_gnode (el_green c)) && kind_eqb (el_kind c) KRBrace) p = []).
    { clear -G. induction G as [|y ys (off & k & cs & -> & C) _ IH]; [reflexivity|]. exact IH. }
    rewrite N. reflexivity.
Qed.

(** * A whole program: on the tree the parser builds for an accepted Lua program the root shows the program,
    so the theorems above apply from the root down. *)
Theorem C66_program_partial : forall ps t toks b, spaced ps t toks -> map fst ps = block_w b -> block_ok lua b = true -> block_same b = true -> fits_u32 (S (blen t)) = true ->
  exists p y, source_file_parse t = Ok p /\ pa_errors p = [] /\ SourceFile_body (root_elem (pa_green p)) = Some y /\
    Forall2 (fun s n => shows n (stat_t s)) (block_list b) (child_nodes y) /\ Block_stmts y = kept is_do (block_list b) (child_nodes y).
Proof.
  intros ps t toks b Sp W Ho Hs F. destruct (C20_text_partial ps t toks b Sp W Ho Hs F) as (p & P & E & Sk).
  destruct (C66_source_file (root_elem (pa_green p)) b Sk) as (y & _ & B & Y). exists p, y. destruct (C66_stmts y b B) as (L & K). auto.
Qed.
Print Assumptions C66_program_partial.

(** * Where the accessors do not return the part they are named after *)
Definition on_program (t : string) (k : kind) (claim : elem -> Prop) : Prop :=
  exists p x, source_file_parse (txt t) = Ok p /\ pa_errors p = [] /\ In x (el_descendants (root_elem (pa_green p))) /\ el_kind x = k /\ claim x.
Definition find_node (t : string) (k : kind) : option elem :=
  match source_file_parse (txt t) with
  | Ok p => match pa_errors p with [] => find (fun x => kind_eqb (el_kind x) k) (el_descendants (root_elem (pa_green p))) | _ => None end
  | _ => None
  end.
Lemma find_on t k claim : match find_node t k with Some x => claim x | None => False end -> on_program t k claim.
Proof.
  unfold find_node, on_program. destruct (source_file_parse (txt t)) as [p| |] eqn:P; try contradiction. destruct (pa_errors p) eqn:E; [|contradiction].
  destruct (find _ _) as [x|] eqn:G; [|contradiction]. intros C. apply find_some in G as (G & K). exists p, x. repeat split; try assumption. now apply kind_eqb_eq.
Qed.
Theorem C66_refuted :
  on_program "while (a) do end" KWhileStmt (fun x => shows x (stat_t (SWhile (EParen EName) BNil)) /\ WhileStmt_cond x = None) /\
  on_program "return (a) + b" KInfixExpr (fun x => exists a o b, parts x = [a; o; b] /\ infix_lhs x = Some b /\ infix_rhs x = None) /\
  on_program "a:f()" KMethodCallExpr (fun x => exists a c f y, parts x = [a; c; f; y] /\ MethodCallExpr_name_ref x = Some a) /\
  on_program "(a):f()" KMethodCallExpr (fun x => exists a c f y, parts x = [a; c; f; y] /\ MethodCallExpr_fun x = Some f) /\
  on_program "f(a)" KArgList (fun x => length (parts x) = 3 /\ ArgList_args x = []) /\
  on_program "return a" KReturnStmt (fun x => length (parts x) = 2 /\ ReturnStmt_expr x = None) /\
  on_program "for a in b do end" KForStmt (fun x => length (parts x) = 5 /\ ForStmt_content x = None) /\
  on_program "for a in b do end" KGenericFor (fun x => length (parts x) = 3 /\ GenericFor_expr x = None) /\
  on_program "function f() end" KFunctionDefStmt (fun x => length (parts x) = 5 /\ FunctionDefStmt_function_def_content x = None) /\
  on_program "function a.f() end" KFunctionStatic (fun x => length (parts x) = 2 /\ FunctionStatic_dot_token x = None) /\
  on_program "a = {b = c}" KTableExpr (fun x => length (parts x) = 3 /\ TableExpr_table_contents x = None) /\
  on_program "a = {b = c}" KKeyValue (fun x => length (parts x) = 3 /\ KeyValue_key x = None) /\
  on_program "::a::" KLabelStmt (fun x => exists s n f, parts x = [s; n; f] /\ s <> f /\ LabelStmt_finish x = Some s) /\
  on_program "do end" KBlock (fun x => length (child_nodes x) = 1 /\ Block_stmts x = []).
Proof.
  repeat match goal with |- _ /\ _ => split end; apply find_on; vm_compute; repeat match goal with
    | |- _ /\ _ => split | |- exists _, _ => eexists | |- ?a = ?b => reflexivity | |- _ <> _ => discriminate | |- _ -> False => discriminate end.
Qed.
Print Assumptions C66_refuted.
(** The theorems above on concrete programs. *)
Example C66_case : on_program "if a then b() elseif c then d = 1 else return end" KIfStmt (fun x =>
    exists e b t, shows x (stat_t (SIf e b t)) /\ IfStmt_cond x <> None /\ IfStmt_else_if_branch x <> None /\ IfStmt_else_branch x = None) /\
  on_program "local a, b = 1, {}" KMultivalExpr (fun x => shows_exps x (More (ELit LNumber) (One (ETable FNil))) /\ length (MultivalExpr_exprs x) = 2) /\
  on_program "function a.b:c(d, e, ...) end" KParamList (fun x => shows x (params_t 2 true)).
Proof.
  repeat match goal with |- _ /\ _ => split end; apply find_on.
  - destruct (find_node _ _) as [x|] eqn:E; vm_compute in E; [|discriminate]. injection E as <-.
    exists EName, (BCons (SCall (ECall EName ANone)) false BNil), (IElseif EName (BCons (SAssign (One EName) (One (ELit LNumber))) false BNil) (IElse (BCons SReturn0 false BNil))). vm_compute. repeat split; discriminate.
  - vm_compute. split; reflexivity.
  - vm_compute. reflexivity.
Qed.
