(** ContOpen.v — every function of the grammar that recurses, and the grammar itself, can be completed (ContProofs.v, ContGrammar.v). *)
From Coq Require Import ZArith.
From Verif Require Import Base SyntaxKind TokenSet Lexer BindingPowers Parser Grammar ParserTree FirstProofs ContProofs ContGrammar.

(** The operators bind tighter than nothing. *)
Lemma r_bp_pos k l r : infix_binding_power k = (l, r) -> 0 < l -> 0 < r.
Proof. destruct k; intros H L; vm_compute in H; injection H as <- <-; lia. Qed.
Lemma S0_infix k : S0 k = true -> infix_binding_power k = (0, 0).
Proof. destruct k; intros H; try discriminate H; reflexivity. Qed.
Ltac ifs := repeat match goal with |- cpl _ _ _ (if ?b then _ else _) => destruct b end.
Section Open.
Variable n : nat.
Variable stmt : D unit.
Variable ex : nat -> D (option nat).
Hypothesis HS : T1 stmt.
Hypothesis HE : forall b, T1 (ex b).
Hypothesis XE : forall b, eats (kind_eqb KIdent) (ex b).
Hypothesis CS : cpl any 0 S0 stmt.
Hypothesis CE : forall b, 0 < b -> cpl any 0 S0 (ex b).
Hypothesis DE : forall b, 0 < b -> dfl S0 (ex b) [KIdent].
Let t_single : T1 (@expr_single TO ex) := HE LOWEST.
Lemma t_block : T1 (@block TO n stmt).
Proof. now apply tw_block. Qed.
Lemma t_expr : T1 (@expr TO n ex).
Proof. now apply tw_expr. Qed.
Lemma t_index : T1 (@index TO ex).
Proof. now apply tw_index. Qed.
Lemma t_content : T1 (@table_content TO ex).
Proof. now apply tw_table_content. Qed.
Lemma t_inner : T1 (@table_inner TO n).
Proof. apply tw_table_inner. Qed.
Lemma t_table : T1 (@table_expr TO n ex).
Proof. now apply tw_table. Qed.
Lemma t_function : T1 (@function_expr TO n stmt).
Proof. now apply tw_function. Qed.
Lemma t_args : T1 (@arg_list TO n ex).
Proof. now apply tw_arg_list. Qed.
Lemma t_call_args : T1 (@call_args TO n ex).
Proof. now apply tw_call_args. Qed.
Lemma t_call l : T1 (@call_expr TO n ex l).
Proof. now apply tw_call. Qed.
Lemma t_index_expr l : T1 (@index_expr TO ex l).
Proof. now apply tw_index_expr. Qed.
Lemma t_method l : T1 (@method_call_expr TO n ex l).
Proof. now apply tw_method. Qed.
Lemma t_postfix m l c : T1 (@postfix_expr TO n ex m l c).
Proof. now apply tw_postfix. Qed.
Lemma t_prefix r : T1 (@prefix_expr TO ex r).
Proof. now apply tw_prefix. Qed.
Lemma t_atom : T1 (@atom_expr TO n stmt ex).
Proof. now apply tw_atom. Qed.
Lemma t_lhs : T1 (@lhs TO n stmt ex).
Proof. now apply tw_lhs. Qed.
Lemma t_infix b m l : T1 (@infix_loop TO ex m b l).
Proof. now apply tw_infix. Qed.
Lemma t_paren : T1 (@paren_expr TO ex).
Proof. now apply tw_paren. Qed.
Lemma t_else : T1 (@else_branch TO n stmt).
Proof. now apply tw_else. Qed.
Lemma t_elseif m : T1 (@elseif_branch TO n stmt ex m).
Proof. now apply tw_elseif. Qed.
Lemma t_for : T1 (@for_content TO n ex).
Proof. now apply tw_for. Qed.
Hint Resolve HS HE t_single t_block t_expr t_index t_content t_inner t_table t_function t_args t_call_args t_call t_index_expr t_method t_postfix t_prefix t_atom t_lhs t_infix t_paren t_else t_elseif t_for : tw.

(** ** Blocks *)
Lemma cpl_block_raw q e S : (forall k, S k = true -> pacc_test (PSet e) k = true) -> sub S S0 -> cpl q 0 S (@block_raw TO n stmt e).
Proof.
  intros H L. unfold block_raw. apply cpl_any, cpl_node_, (cpl_while _ _ _ _ _ _ (hdet_not_at _)); [tws|exact HS|apply (cpl_sub _ _ _ S0); [exact L|exact CS]|]. intros k Hk. now rewrite (H _ Hk).
Qed.
Lemma dfl_block_raw e S : (forall k, S k = true -> pacc_test (PSet e) k = true) -> dfl S (@block_raw TO n stmt e) [].
Proof. intros H. unfold block_raw. apply dfl_node_, (dfl_while _ _ _ _ _ (hdet_not_at _)). intros k Hk. now rewrite (H _ Hk). Qed.
Lemma block_end k : SB k = true -> pacc_test (PSet BLOCK_END) k = true.
Proof. destruct k; intros H; try discriminate H; reflexivity. Qed.
Lemma cpl_block q : cpl q 0 SB (@block TO n stmt).
Proof. apply cpl_block_raw; [apply block_end|apply sub_B0]. Qed.
Lemma dfl_block : dfl SB (@block TO n stmt) [].
Proof. apply dfl_block_raw, block_end. Qed.
(** A block up to its [end]. *)
Lemma cpl_block_end : cpl any 8 any (@block TO n stmt >>> @p_expect TO KEndKw).
Proof. apply (cpl_step _ SB [KEndKw]); [tws|apply cpl_block|intros _; exts|intros _; apply wm8, cpl_expect|intros _; apply dfl_expect|hds|cbn; lia|reflexivity]. Qed.
Lemma dfl_block_end S : dfl S (@block TO n stmt >>> @p_expect TO KEndKw) [KEndKw].
Proof. apply (dfl_bind _ SB [] [KEndKw]); [apply dfl_block|intros _; apply dfl_expect|hds]. Qed.
(** ** Expressions *)
Lemma low_pos : 0 < LOWEST.
Proof. unfold LOWEST. lia. Qed.
Lemma cpl_single : cpl any 0 S0 (@expr_single TO ex).
Proof. apply CE, low_pos. Qed.
Lemma dfl_single : dfl S0 (@expr_single TO ex) [KIdent].
Proof. apply DE, low_pos. Qed.
Lemma S0_comma k : S0 k = true -> pacc_test (PKind KComma) k = false.
Proof. destruct k; intros H; try discriminate H; reflexivity. Qed.
Lemma cpl_expr q : cpl q 0 S0 (@expr TO n ex).
Proof.
  unfold expr, expr_multi. apply cpl_any, cpl_node_, (cpl_zero _ _ S0); [exact t_single|apply cpl_single|intros _; exts| | |intros k H; exact H]; intros _.
  - apply (cpl_while _ _ _ _ _ _ (hdet_at _)); [tws|tws| |exact S0_comma]. apply (cpl_bumped _ _ _ [KIdent]); [exts| | |cbn; lia|reflexivity].
    + apply w08, (cpl_ret_after _ _ _ _ (fun _ => tt)), cpl_single.
    + apply (dfl_ret_after _ _ _ (fun _ => tt)), dfl_single.
  - apply (dfl_while _ _ _ _ _ (hdet_at _)). exact S0_comma.
Qed.
Lemma dfl_expr : dfl S0 (@expr TO n ex) [KIdent].
Proof.
  unfold expr, expr_multi. apply dfl_node_, (dfl_bind _ S0 [KIdent] []); [apply dfl_single|intros _|hds]. apply (dfl_while _ _ _ _ _ (hdet_at _)). exact S0_comma.
Qed.
(** An expression and the token that has to follow it. *)
Lemma cpl_expr_to (m : D (option nat)) K : T1 m -> cpl any 0 S0 m -> S0 K = true -> ne [K] = true -> cpl any 1 any (m >>> @p_expect TO K).
Proof. intros T C Z NK. apply (cpl_bind any 1 0 (-8) any S0 [K]); [exact T|exact C|intros _; exts|intros _; apply cpl_expect|intros _; apply dfl_expect|intros z _; exact Z|exact NK|cbn; lia|lia]. Qed.
Lemma dfl_expr_to (m : D (option nat)) K : dfl S0 m [KIdent] -> S0 K = true -> dfl any (m >>> @p_expect TO K) [KIdent; K].
Proof. intros C Z. apply (dfl_bind _ S0 [KIdent] [K]); [exact C|intros _; apply dfl_expect|intros z _; exact Z]. Qed.
Lemma cpl_paren q : cpl q 0 any (@paren_expr TO ex).
Proof.
  unfold paren_expr. apply cpl_node, (cpl_expected _ _ _ [KIdent; KRParen]); [intros _; exts| | |cbn; lia|reflexivity]; intros _.
  - apply (cpl_weak _ 1); [lia|]. apply cpl_expr_to; [apply HE|apply CE, low_pos|reflexivity|reflexivity].
  - apply dfl_expr_to; [apply DE, low_pos|reflexivity].
Qed.
Lemma cpl_index q : cpl q (-2) any (@index TO ex).
Proof.
  unfold index. apply cpl_node_, (cpl_bind_e _ _ (-8) 1 1 _ any [KIdent; KRBracket]); [apply tw_any; tws|apply cpl_bump|apply takes_bump|intros _; exts|intros _|intros _|hds|reflexivity|cbn; lia|lia].
  - apply cpl_expr_to; [apply HE|apply cpl_single|reflexivity|reflexivity].
  - apply dfl_expr_to; [apply dfl_single|reflexivity].
Qed.
(** ** Tables *)
Lemma cpl_content : cpl any 0 S0 (@table_content TO ex).
Proof.
  unfold table_content. apply cpl_node_, (cpl_det _ _ _ _ _ _ hdet_current). intros k _. destruct (kind_eqb k KIdent) eqn:EI.
  - apply kind_eqb_eq in EI. subst k. apply (cpl_peek _ _ _ []); [| |reflexivity|cbn; lia].
    + intros k. destruct (kind_eqb k KEq); [|apply cpl_node_, cpl_any, cpl_single]. apply cpl_node_, (cpl_first _ _ [KEq; KIdent]); [apply tw_any; tws| | |intros _; exts| | |cbn; lia|reflexivity].
      * apply cpl_node_, cpl_name_unchecked.
      * apply takes_node_. unfold name_unchecked. apply takes_node_, takes_bump.
      * intros _. apply w08, (cpl_bumped _ _ _ [KIdent]); [exts|apply w08, cpl_single|apply dfl_single|cbn; lia|reflexivity].
      * intros _. apply (dfl_bind _ any [KEq] [KIdent]); [apply dfl_bump|intros _; apply dfl_single|hds].
    + intros k Hk _. apply kind_eqb_eq in Hk. subst k. intros z F a r F1 Sz C E. rewrite peek_run in E. cbn [app nth] in E. assert (NE : kind_eqb (hd0 z) KEq = false) by (revert Sz; destruct (hd0 z); intros Sz; try discriminate Sz; reflexivity).
      unfold hd0 in NE. rewrite NE in E. exact (dfl_node_ S0 [KIdent] _ _ dfl_single z F a r F1 Sz C E).
  - destruct (kind_eqb k KLBracket).
    + apply cpl_node_, (cpl_bind _ _ (-2) 0 _ any [KEq; KIdent]); [apply tw_any; tws|apply cpl_node_, cpl_index|intros _; exts|intros _|intros _|hds|reflexivity|cbn; lia|lia].
      * apply (cpl_expected _ _ _ [KIdent]); [intros _; exts|intros _; apply w08, cpl_single|intros _; apply dfl_single|cbn; lia|reflexivity].
      * apply (dfl_bind _ any [KEq] [KIdent]); [apply dfl_expect|intros _; apply dfl_single|hds].
    + apply (cpl_det _ _ _ _ _ _ (hdet_at _)). intros k' _. destruct (pacc_test _ k'); [apply cpl_node_, cpl_any, cpl_single|apply cpl_stuck, stuck_msg].
Qed.
Lemma cpl_inner : cpl any 0 (one KRBrace) (@table_inner TO n).
Proof.
  unfold table_inner. apply cpl_loop; [tws| |].
  - apply (cpl_det _ _ _ _ _ _ (hdet_at _)). intros k _. destruct (pacc_test _ k); [apply cpl_ret|]. apply (cpl_det _ _ _ _ _ _ (hdet_at _)). intros k1 _. destruct (pacc_test _ k1).
    + apply (cpl_sub _ _ _ any); [apply sub_any|]. apply (cpl_ret_after _ _ _ _ (fun _ => false)), cpl_table_sep.
    + apply (cpl_det _ _ _ _ _ _ (hdet_at _)). intros k2 _. destruct (pacc_test _ k2); [apply cpl_ret|]. apply (cpl_sub _ _ _ any); [apply sub_any|]. apply (cpl_ret_after _ _ _ _ (fun _ => true)), cpl_table_correct.
  - apply (nos_det _ _ _ _ (hdet_at _)). intros k Hk. apply kind_eqb_eq in Hk. subst k. apply nos_ret.
Qed.
Lemma dfl_inner : dfl (one KRBrace) (@table_inner TO n) [].
Proof. unfold table_inner. apply dfl_loop, (nos_det _ _ _ _ (hdet_at _)). intros k Hk. apply kind_eqb_eq in Hk. subst k. apply nos_ret. Qed.
Lemma brace_end k : one KRBrace k = true -> negb (pacc_test (PSet TABLE_END) k) = false.
Proof. intros Hk. apply kind_eqb_eq in Hk. now subst k. Qed.
Lemma cpl_table q : cpl q 0 any (@table_expr TO n ex).
Proof.
  unfold table_expr. apply cpl_node, (cpl_bumped _ _ _ [KRBrace]); [exts| | |cbn; lia|reflexivity].
  - apply (cpl_step _ (one KRBrace) [KRBrace]); [tws| |intros _; exts|intros _; apply wm8, cpl_expect|intros _; apply dfl_expect|hds|cbn; lia|reflexivity].
    apply (cpl_while _ _ _ _ _ _ (hdet_not_at _)); [tws|tws| |exact brace_end]. apply (cpl_zero _ _ S0); [tws|apply cpl_content|intros _; exts|intros _; apply cpl_inner|intros _; apply dfl_inner|apply sub_one; reflexivity].
  - apply (dfl_bind _ (one KRBrace) [] [KRBrace]); [|intros _; apply dfl_expect|hds]. apply (dfl_while _ _ _ _ _ (hdet_not_at _)). exact brace_end.
Qed.
(** ** Functions and calls *)
(** Parameters, body and [end]. *)
Lemma cpl_params_to : cpl any 8 any (@param_list TO n >>> @block TO n stmt >>> @p_expect TO KEndKw).
Proof.
  apply (cpl_step _ any [KEndKw]); [tws|apply cpl_params|intros _; exts|intros _; apply cpl_block_end|intros _; apply dfl_block_end|hds|cbn; lia|reflexivity].
Qed.
Lemma dfl_params_to S : dfl S (@param_list TO n >>> @block TO n stmt >>> @p_expect TO KEndKw) [KLParen; KRParen; KEndKw].
Proof. apply (dfl_bind _ any [KLParen; KRParen] [KEndKw]); [apply dfl_params|intros _; apply dfl_block_end|hds]. Qed.
Lemma cpl_function q : cpl q 0 any (@function_expr TO n stmt).
Proof. unfold function_expr. apply cpl_node, (cpl_bumped _ _ _ [KLParen; KRParen; KEndKw]); [exts|apply cpl_params_to|apply dfl_params_to|cbn; lia|reflexivity]. Qed.
Definition arg_mid : D unit := b <- @p_at TO (PKind KRParen) ;; if b then @ret TO _ tt else @expr TO n ex.
Lemma args_eq : @arg_list TO n ex = @node_ TO _ KArgList (@p_bump TO (PKind KLParen) >>> arg_mid >>> @p_expect TO KRParen).
Proof. reflexivity. Qed.
Lemma t_mid : T1 arg_mid.
Proof. unfold arg_mid. tws. Qed.
Hint Resolve t_mid : tw.
Lemma cpl_mid : cpl any 0 (one KRParen) arg_mid.
Proof. unfold arg_mid. apply (cpl_det _ _ _ _ _ _ (hdet_at _)). intros k _. destruct (pacc_test _ k); [apply cpl_ret|]. apply (cpl_sub _ _ _ S0); [apply sub_one; reflexivity|apply cpl_expr]. Qed.
Lemma dfl_mid : dfl (one KRParen) arg_mid [].
Proof. unfold arg_mid. apply (dfl_det_nil _ _ _ _ (hdet_at _)). intros k Hk. apply kind_eqb_eq in Hk. subst k. apply dfl_ret. Qed.
Lemma dfl_mid_to : dfl any (arg_mid >>> @p_expect TO KRParen) [KRParen].
Proof. apply (dfl_bind _ (one KRParen) [] [KRParen]); [apply dfl_mid|intros _; apply dfl_expect|hds]. Qed.
Lemma cpl_args q : cpl q 0 any (@arg_list TO n ex).
Proof.
  rewrite args_eq. apply cpl_node_, (cpl_bumped _ _ _ [KRParen]); [exts| |apply dfl_mid_to|cbn; lia|reflexivity].
  apply (cpl_step _ (one KRParen) [KRParen]); [tws|apply cpl_mid|intros _; exts|intros _; apply wm8, cpl_expect|intros _; apply dfl_expect|hds|cbn; lia|reflexivity].
Qed.
Lemma dfl_args : dfl any (@arg_list TO n ex) [KLParen; KRParen].
Proof. rewrite args_eq. apply dfl_node_, (dfl_bind _ any [KLParen] [KRParen]); [apply dfl_bump|intros _; apply dfl_mid_to|hds]. Qed.
Lemma cpl_call_args q : cpl q 0 any (@call_args TO n ex).
Proof.
  unfold call_args. apply cpl_guard, cpl_node_, (cpl_det _ _ _ _ _ _ hdet_current). intros k _. destruct (kind_eqb k KLParen); [apply cpl_args|]. destruct (kind_eqb k KLBrace).
  - apply (cpl_ret_after _ _ _ _ (fun _ => tt)), cpl_table.
  - destruct (kind_eqb k KStr); [apply wm0, cpl_bump|apply cpl_panic].
Qed.
Lemma dfl_call_args : dfl any (@call_args TO n ex) [KLParen; KRParen].
Proof. unfold call_args. apply dfl_guard, dfl_node_, (dfl_det_cons _ _ _ _ _ _ hdet_current). cbn [kind_eqb]. apply dfl_args. Qed.
Lemma cpl_method q l : cpl q 0 any (@method_call_expr TO n ex l).
Proof.
  unfold method_call_expr. apply cpl_pre.
  assert (Z : dfl any (b <- @p_at TO (PSet CALL_FIRST) ;; if b then @call_args TO n ex else @p_error TO "Expected call arguments") [KLParen; KRParen]).
  { apply (dfl_det_cons _ _ _ _ _ _ (hdet_at _)). exact dfl_call_args. }
  apply (cpl_bumped _ _ _ [KIdent; KLParen; KRParen]); [exts| | |cbn; lia|reflexivity].
  - apply (cpl_step _ any [KLParen; KRParen]); [tws|apply wm0, cpl_name_ref|intros _; exts| |intros _; exact Z|hds|cbn; lia|reflexivity].
    intros _. apply w08, (cpl_det _ _ _ _ _ _ (hdet_at _)). intros k _. destruct (pacc_test _ k); [apply cpl_call_args|apply cpl_stuck, stuck_msg].
  - apply (dfl_bind _ any [KIdent] [KLParen; KRParen]); [apply dfl_name_ref|intros _; exact Z|hds].
Qed.
Lemma dfl_postfix : forall m l c, dfl S0 (@postfix_expr TO n ex m l c) [].
Proof.
  destruct m as [|m]; intros l c; cbn [postfix_expr]; [apply dfl_out|]. apply (dfl_det_nil _ _ _ _ hdet_current). intros k Hk. apply (dfl_det_nil _ _ _ _ (hdet_at _)). intros k' Hk'. apply kind_eqb_eq in Hk'. subst k'.
  assert (E1 : pacc_test (PSet CALL_FIRST) k = false) by (destruct k; try discriminate Hk; reflexivity).
  assert (E2 : kind_eqb k KColon = false) by (destruct k; try discriminate Hk; reflexivity).
  assert (E3 : kind_eqb k KLBracket = false) by (destruct k; try discriminate Hk; reflexivity).
  assert (E4 : kind_eqb k KDot = false) by (destruct k; try discriminate Hk; reflexivity).
  rewrite E1, E2, E3, E4, andb_false_r. cbn [andb]. apply dfl_ret.
Qed.
Lemma cpl_postfix : forall m l c, cpl any 0 S0 (@postfix_expr TO n ex m l c).
Proof.
  induction m as [|m IH]; intros l c; cbn [postfix_expr]; [apply cpl_out|]. apply (cpl_det _ _ _ _ _ _ hdet_current). intros k _. apply (cpl_det _ _ _ _ _ _ (hdet_at _)). intros k' _.
  assert (Z : forall (p : D nat), T1 p -> cpl any 0 any p -> cpl (kind_eqb k') 0 S0 (@bind TO _ _ p (fun l => @postfix_expr TO n ex m l true))).
  { intros p T C. apply cpl_any, (cpl_zero _ _ any); [exact T|exact C|intros l'; apply t_postfix|intros l'; apply IH|intros l'; apply dfl_postfix|apply sub_any]. }
  destruct (c && _); [apply Z; [tws|apply cpl_pre, cpl_call_args]|]. destruct (_ && c); [apply Z; [tws|apply cpl_method]|]. destruct (kind_eqb k KLBracket); [apply Z; [tws|apply cpl_pre]|].
  { apply (cpl_weak _ (-2)); [lia|apply cpl_index]. }
  destruct (kind_eqb k KDot); [apply Z; [tws|apply cpl_dot]|apply cpl_ret].
Qed.
Lemma cpl_prefix r : 0 < r -> cpl any 0 S0 (@prefix_expr TO ex r).
Proof.
  intros P. unfold prefix_expr. apply (cpl_ret_after _ _ _ _ (fun c => Some c)), cpl_node_by.
  assert (Z : forall o : option nat, cpl any 0 S0 (match o with None => @panic TO _ | Some _ => @ret TO _ KPrefixExpr end)) by (intros [?|]; [apply cpl_ret|apply cpl_panic]).
  assert (Y : forall o : option nat, dfl S0 (match o with None => @panic TO _ | Some _ => @ret TO _ KPrefixExpr end) []) by (intros [?|]; [apply dfl_ret|apply dfl_panic]).
  apply (cpl_bumped _ _ _ [KIdent]); [exts| | |cbn; lia|reflexivity].
  - apply w08, (cpl_zero _ _ S0); [apply HE|now apply CE|intros o; exts|exact Z|exact Y|intros k H; exact H].
  - apply (dfl_bind _ S0 [KIdent] []); [now apply DE|exact Y|hds].
Qed.
Lemma cpl_atom : cpl any 0 S0 (@atom_expr TO n stmt ex).
Proof.
  assert (W : forall (p : D nat) (f : nat -> option (nat * bool)) q, cpl q 0 any p -> cpl q 0 S0 (@bind TO _ _ p (fun c => @ret TO _ (f c)))).
  { intros p f q C. apply (cpl_sub _ _ _ any); [apply sub_any|]. now apply cpl_ret_after. }
  unfold atom_expr. apply (cpl_det _ _ _ _ _ _ hdet_current). intros k _. cbv zeta. destruct (0 <? prefix_binding_power k) eqn:P.
  - apply Nat.ltb_lt in P. apply (cpl_ret_after _ _ _ _ (fun o => option_map (fun c => (c, false)) o)), cpl_any, cpl_prefix, P.
  - apply (cpl_det _ _ _ _ _ _ (hdet_at _)). intros k1 _. destruct (pacc_test _ k1); [apply W, cpl_literal|]. apply (cpl_det _ _ _ _ _ _ hdet_current). intros k2 _.
    destruct (kind_eqb k2 KFunctionKw); [apply W, cpl_function|]. destruct (kind_eqb k2 KLBrace); [apply W, cpl_table|]. destruct (kind_eqb k2 KIdent); [apply W, wm0, cpl_name_ref|]. destruct (kind_eqb k2 KLParen); [apply W, cpl_paren|].
    apply (cpl_ret_after _ _ _ _ (fun _ => None)), cpl_stuck, stuck_recover.
Qed.
Lemma dfl_atom : dfl S0 (@atom_expr TO n stmt ex) [KIdent].
Proof.
  unfold atom_expr. apply (dfl_det_cons _ _ _ _ _ _ hdet_current). cbv zeta. replace (0 <? prefix_binding_power KIdent) with false by reflexivity.
  apply (dfl_det_cons _ _ _ _ _ _ (hdet_at _)). replace (pacc_test (PSet LITERAL_FIRST) KIdent) with false by reflexivity. apply (dfl_det_cons _ _ _ _ _ _ hdet_current). cbn [kind_eqb].
  apply (dfl_ret_after _ _ _ (fun c => Some (c, true))), dfl_name_ref.
Qed.
Definition lhs_tail (o : option (nat * bool)) : D (option nat) := match o with None => @ret TO _ None | Some (l, can_call) => c <- @postfix_expr TO n ex n l can_call ;; @ret TO _ (Some c) end.
Lemma t_tail o : T1 (lhs_tail o).
Proof. unfold lhs_tail. destruct o as [[l c]|]; tws. Qed.
Lemma cpl_lhs_tail o : cpl any 0 S0 (lhs_tail o).
Proof. unfold lhs_tail. destruct o as [[l c]|]; [apply (cpl_ret_after _ _ _ _ (fun c => Some c)), cpl_postfix|apply cpl_ret]. Qed.
Lemma dfl_lhs_tail o : dfl S0 (lhs_tail o) [].
Proof. unfold lhs_tail. destruct o as [[l c]|]; [apply (dfl_ret_after _ _ _ (fun c => Some c)), dfl_postfix|apply dfl_ret]. Qed.
Lemma lhs_eq : @lhs TO n stmt ex = (c <- @p_current TO ;; let r_bp := prefix_binding_power c in
  if NOT_AN_OP <? r_bp then c <- @node TO _ KPrefixExpr (@p_bump TO PAny ;; ex r_bp) ;; @ret TO _ (Some c) else o <- @atom_expr TO n stmt ex ;; lhs_tail o).
Proof. reflexivity. Qed.
Lemma cpl_lhs : cpl any 0 S0 (@lhs TO n stmt ex).
Proof.
  rewrite lhs_eq. apply (cpl_det _ _ _ _ _ _ hdet_current). intros k _. cbv zeta. destruct (NOT_AN_OP <? prefix_binding_power k) eqn:P.
  - apply Nat.ltb_lt in P. unfold NOT_AN_OP in P. apply (cpl_ret_after _ _ _ _ (fun c => Some c)), cpl_node, (cpl_bumped _ _ _ [KIdent]); [exts|apply w08; now apply CE|now apply DE|cbn; lia|reflexivity].
  - apply cpl_any, (cpl_zero _ _ S0); [tws|apply cpl_atom|intros o; apply t_tail|apply cpl_lhs_tail|apply dfl_lhs_tail|intros k' H; exact H].
Qed.
Lemma dfl_lhs : dfl S0 (@lhs TO n stmt ex) [KIdent].
Proof.
  rewrite lhs_eq. apply (dfl_det_cons _ _ _ _ _ _ hdet_current). cbv zeta. replace (NOT_AN_OP <? prefix_binding_power KIdent) with false by reflexivity. apply (dfl_bind _ S0 [KIdent] []); [apply dfl_atom|apply dfl_lhs_tail|hds].
Qed.
Lemma dfl_infix b : 0 < b -> forall m l, dfl S0 (@infix_loop TO ex m b l) [].
Proof.
  intros P [|m] l; cbn [infix_loop]; [apply dfl_out|]. apply (dfl_det_nil _ _ _ _ hdet_current). intros k Hk. rewrite (S0_infix _ Hk). apply Nat.ltb_lt in P. rewrite P. apply dfl_ret.
Qed.
Lemma cpl_infix b : 0 < b -> forall m l, cpl any 0 S0 (@infix_loop TO ex m b l).
Proof.
  intros P. induction m as [|m IH]; intros l; cbn [infix_loop]; [apply cpl_out|]. apply (cpl_det _ _ _ _ _ _ hdet_current). intros k _. destruct (infix_binding_power k) as [lb rb] eqn:EB. destruct (lb <? b) eqn:LB; [apply cpl_ret|].
  apply Nat.ltb_ge in LB. assert (R : 0 < rb) by (apply (r_bp_pos k lb); [exact EB|lia]). apply (cpl_bumped _ _ _ [KIdent]); [exts| | |cbn; lia|reflexivity].
  - apply w08, (cpl_zero _ _ S0); [tws|apply cpl_pre; now apply CE|intros l'; apply t_infix|exact IH|intros l'; now apply dfl_infix|intros k' H; exact H].
  - apply (dfl_bind _ S0 [KIdent] []); [apply dfl_pre; now apply DE|intros l'; now apply dfl_infix|hds].
Qed.
Definition bp_tail (b : nat) (o : option nat) : D (option nat) := match o with None => @ret TO _ None | Some l => c <- @infix_loop TO ex n b l ;; @ret TO _ (Some c) end.
Lemma expr_bp_eq b : @expr_bp_body TO n stmt ex b = (o <- @lhs TO n stmt ex ;; bp_tail b o).
Proof. reflexivity. Qed.
Lemma t_bp b o : T1 (bp_tail b o).
Proof. unfold bp_tail. destruct o; tws. Qed.
Lemma cpl_bp_tail b o : 0 < b -> cpl any 0 S0 (bp_tail b o).
Proof. intros P. unfold bp_tail. destruct o as [l|]; [apply (cpl_ret_after _ _ _ _ (fun c => Some c)); now apply cpl_infix|apply cpl_ret]. Qed.
Lemma dfl_bp_tail b o : 0 < b -> dfl S0 (bp_tail b o) [].
Proof. intros P. unfold bp_tail. destruct o as [l|]; [apply (dfl_ret_after _ _ _ (fun c => Some c)); now apply dfl_infix|apply dfl_ret]. Qed.
Lemma cpl_expr_bp b : 0 < b -> cpl any 0 S0 (@expr_bp_body TO n stmt ex b).
Proof. intros P. rewrite expr_bp_eq. apply (cpl_zero _ _ S0); [tws|apply cpl_lhs|intros o; apply t_bp|intros o; now apply cpl_bp_tail|intros o; now apply dfl_bp_tail|intros k' H; exact H]. Qed.
Lemma dfl_expr_bp b : 0 < b -> dfl S0 (@expr_bp_body TO n stmt ex b) [KIdent].
Proof. intros P. rewrite expr_bp_eq. apply (dfl_bind _ S0 [KIdent] []); [apply dfl_lhs|intros o; now apply dfl_bp_tail|hds]. Qed.
(** ** Statements *)
Lemma cpl_else q : cpl q 0 SB (@else_branch TO n stmt).
Proof. unfold else_branch. apply cpl_node_, (cpl_bumped _ _ _ []); [exts|apply w08, cpl_block|apply dfl_block|cbn; lia|reflexivity]. Qed.
Definition branches (m : D unit) : D unit := c <- @p_current TO ;; if kind_eqb c KElseifKw then m else if kind_eqb c KElseKw then @else_branch TO n stmt else @ret TO _ tt.
Lemma t_branches m : T1 m -> T1 (branches m).
Proof. intros T. unfold branches. tws. Qed.
Lemma cpl_branches m : cpl any 0 (one KEndKw) m -> cpl any 0 (one KEndKw) (branches m).
Proof.
  intros C. unfold branches. apply (cpl_det _ _ _ _ _ _ hdet_current). intros k _. destruct (kind_eqb k KElseifKw); [apply cpl_any, C|]. destruct (kind_eqb k KElseKw); [|apply cpl_ret]. apply (cpl_sub _ _ _ SB); [apply sub_one; reflexivity|apply cpl_else].
Qed.
Lemma dfl_branches m : dfl (one KEndKw) (branches m) [].
Proof. unfold branches. apply (dfl_det_nil _ _ _ _ hdet_current). intros k Hk. apply kind_eqb_eq in Hk. subst k. apply dfl_ret. Qed.
(** [exp then block] and what follows. *)
Definition then_part {A} (f : D A) : D A := @expr_single TO ex >>> @p_expect TO KThenKw >>> @block TO n stmt >>> f.
Lemma cpl_then {A} (f : D A) S : T1 f -> cpl any 8 S f -> forall w, dfl S f w -> length w <= 6 -> ne w = true -> (forall z, S (hd0 z) = true -> SB (hd0 (w ++ z)) = true) -> cpl any 8 S (then_part f) /\ dfl S (then_part f) ([KIdent; KThenKw] ++ w).
Proof.
  intros T C w Df L NE HW. unfold then_part.
  assert (D1 : dfl S (@block TO n stmt >>> f) w) by (apply (dfl_bind _ SB [] w); [apply dfl_block|intros _; exact Df|exact HW]).
  assert (D2 : dfl S (@p_expect TO KThenKw >>> @block TO n stmt >>> f) (KThenKw :: w)) by (apply (dfl_bind _ any [KThenKw] w); [apply dfl_expect|intros _; exact D1|hds]).
  split; [|apply (dfl_bind _ S0 [KIdent] (KThenKw :: w)); [apply dfl_single|intros _; exact D2|hds]].
  apply (cpl_step _ S0 (KThenKw :: w)); [exact t_single|apply cpl_single|intros _; exts; exact T| |intros _; exact D2|hds|cbn [length]; lia|exact NE]. intros _.
  apply (cpl_bind _ _ (-8) 8 _ any w); [tws|apply cpl_expect|intros _; exts; exact T|intros _|intros _; exact D1|hds|exact NE|lia|lia].
  apply (cpl_step _ SB w); [tws|apply cpl_block|intros _; apply T|intros _; exact C|intros _; exact Df|exact HW|lia|exact NE].
Qed.
Lemma elseif_eq m : @elseif_branch TO n stmt ex (S m) = @node_ TO _ KElseIfBranch (@p_bump TO (PKind KElseifKw) >>> then_part (branches (@elseif_branch TO n stmt ex m))).
Proof. reflexivity. Qed.
Lemma one_end z : one KEndKw (hd0 z) = true -> SB (hd0 z) = true.
Proof. intros H. apply kind_eqb_eq in H. now rewrite <- H. Qed.
Lemma cpl_elseif : forall m, cpl any 0 (one KEndKw) (@elseif_branch TO n stmt ex m).
Proof.
  induction m as [|m IH]; [apply cpl_out|]. rewrite elseif_eq.
  destruct (cpl_then (branches (@elseif_branch TO n stmt ex m)) (one KEndKw)) with (w := @nil kind) as [C Df]; [apply t_branches, t_elseif|apply w08, cpl_branches, IH|apply dfl_branches|cbn; lia|reflexivity|intros z H; apply one_end, H|].
  apply cpl_node_, (cpl_bumped _ _ _ [KIdent; KThenKw]); [|exact C|exact Df|cbn; lia|reflexivity]. unfold then_part. exts. apply t_branches, t_elseif.
Qed.
Lemma if_eq : @if_stmt TO n stmt ex = @node_ TO _ KIfStmt (@p_bump TO (PKind KIfKw) >>> then_part (branches (@elseif_branch TO n stmt ex n) >>> @p_expect TO KEndKw)).
Proof. reflexivity. Qed.
Lemma cpl_if q : cpl q 0 any (@if_stmt TO n stmt ex).
Proof.
  rewrite if_eq. assert (TB : T1 (branches (@elseif_branch TO n stmt ex n) >>> @p_expect TO KEndKw)) by (apply tw_bind; [apply t_branches, t_elseif|intros a; tws]).
  destruct (cpl_then (branches (@elseif_branch TO n stmt ex n) >>> @p_expect TO KEndKw) any) with (w := [KEndKw]) as [C Df]; [exact TB| | |cbn; lia|reflexivity|hds|].
  - apply (cpl_step _ (one KEndKw) [KEndKw]); [apply t_branches, t_elseif|apply cpl_branches, cpl_elseif|intros _; exts|intros _; apply wm8, cpl_expect|intros _; apply dfl_expect|hds|cbn; lia|reflexivity].
  - apply (dfl_bind _ (one KEndKw) [] [KEndKw]); [apply dfl_branches|intros _; apply dfl_expect|hds].
  - apply cpl_node_, (cpl_bumped _ _ _ [KIdent; KThenKw; KEndKw]); [|exact C|exact Df|cbn; lia|reflexivity]. unfold then_part. exts. apply t_branches, t_elseif.
Qed.
(** [do block end]. *)
Lemma cpl_do_end : cpl any 0 any (@p_expect TO KDoKw >>> @block TO n stmt >>> @p_expect TO KEndKw).
Proof. apply (cpl_expected _ _ _ [KEndKw]); [intros _; exts|intros _; apply cpl_block_end|intros _; apply dfl_block_end|cbn; lia|reflexivity]. Qed.
Lemma dfl_do_end S : dfl S (@p_expect TO KDoKw >>> @block TO n stmt >>> @p_expect TO KEndKw) [KDoKw; KEndKw].
Proof. apply (dfl_bind _ any [KDoKw] [KEndKw]); [apply dfl_expect|intros _; apply dfl_block_end|hds]. Qed.
Lemma cpl_while_stmt q : cpl q 0 any (@while_stmt TO n stmt ex).
Proof.
  unfold while_stmt. apply cpl_node_, (cpl_bumped _ _ _ [KIdent; KDoKw; KEndKw]); [exts| | |cbn; lia|reflexivity].
  - apply (cpl_step _ S0 [KDoKw; KEndKw]); [exact t_single|apply cpl_single|intros _; exts|intros _; apply w08, cpl_do_end|intros _; apply dfl_do_end|hds|cbn; lia|reflexivity].
  - apply (dfl_bind _ S0 [KIdent] [KDoKw; KEndKw]); [apply dfl_single|intros _; apply dfl_do_end|hds].
Qed.
Lemma S0_no_comma : sub S0 no_comma.
Proof. dk. Qed.
Lemma dfl_in : dfl S0 (@p_expect TO KInKw >>> @expr_single TO ex) [KInKw; KIdent].
Proof. apply (dfl_bind _ any [KInKw] [KIdent]); [apply dfl_expect|intros _; apply dfl_single|hds]. Qed.
Lemma dfl_generic : dfl S0 (@generic_for TO n ex) [KIdent; KInKw; KIdent].
Proof. unfold generic_for. apply dfl_guard, dfl_node_, (dfl_bind _ no_comma [KIdent] [KInKw; KIdent]); [apply dfl_multi|intros _; apply dfl_in|hds]. Qed.
Lemma cpl_for_content : cpl any 2 S0 (@for_content TO n ex).
Proof.
  unfold for_content. apply cpl_node_, (cpl_det _ _ _ _ _ _ (hdet_at _)). intros k _. destruct (pacc_test _ k) eqn:EI; [|apply cpl_stuck, stuck_msg]. cbn [pacc_test] in EI. apply kind_eqb_eq in EI. subst k.
  apply (cpl_peek _ _ _ [KInKw; KIdent]); [| |reflexivity|cbn; lia].
  - intros k. destruct (kind_eqb k KEq).
    + unfold numeric_for. apply (cpl_weak _ 0); [lia|]. apply cpl_guard, cpl_node_, (cpl_first _ _ [KEq; KIdent]); [apply tw_any; tws|apply cpl_name|apply takes_name|intros _; exts| | |cbn; lia|reflexivity]; intros _.
      * apply w08, (cpl_bumped _ _ _ [KIdent]); [exts|apply w08, cpl_expr|apply dfl_expr|cbn; lia|reflexivity].
      * apply (dfl_bind _ any [KEq] [KIdent]); [apply dfl_bump|intros _; apply dfl_expr|hds].
    + unfold generic_for. apply cpl_guard, cpl_node_, (cpl_bind _ _ 0 0 _ no_comma [KInKw; KIdent]); [apply tw_any; tws|apply cpl_multi|intros _; exts|intros _|intros _; apply dfl_in|hds|reflexivity|cbn; lia|lia].
      apply (cpl_expected _ _ _ [KIdent]); [intros _; exts|intros _; apply w08, cpl_single|intros _; apply dfl_single|cbn; lia|reflexivity].
  - intros k Hk _. apply kind_eqb_eq in Hk. subst k. intros z F a r F1 Sz C E. rewrite peek_run in E. cbn [app nth kind_eqb] in E. exact (dfl_generic z F a r F1 Sz C E).
Qed.
Lemma dfl_for_content : dfl S0 (@for_content TO n ex) [KIdent; KInKw; KIdent].
Proof.
  unfold for_content. apply dfl_node_, (dfl_det_cons _ _ _ _ _ _ (hdet_at _)). cbn [pacc_test kind_eqb]. intros z F a r F1 Sz C E. rewrite kind_eqb_refl, peek_run in E. cbn [app nth kind_eqb] in E. exact (dfl_generic z F a r F1 Sz C E).
Qed.
Lemma cpl_for q : cpl q 0 any (@for_stmt TO n stmt ex).
Proof.
  unfold for_stmt. apply cpl_node_, (cpl_bumped _ _ _ [KIdent; KInKw; KIdent; KDoKw; KEndKw]); [exts| | |cbn; lia|reflexivity].
  - apply (cpl_bind _ _ 2 0 _ S0 [KDoKw; KEndKw]); [tws|apply cpl_for_content|intros _; exts|intros _; apply cpl_do_end|intros _; apply dfl_do_end|hds|reflexivity|cbn; lia|lia].
  - apply (dfl_bind _ S0 [KIdent; KInKw; KIdent] [KDoKw; KEndKw]); [apply dfl_for_content|intros _; apply dfl_do_end|hds].
Qed.
Lemma cpl_repeat q : cpl q 0 S0 (@repeat_until_stmt TO n stmt ex).
Proof.
  assert (Z : dfl S0 (@p_expect TO KUntilKw >>> @expr_single TO ex) [KUntilKw; KIdent]) by (apply (dfl_bind _ any [KUntilKw] [KIdent]); [apply dfl_expect|intros _; apply dfl_single|hds]).
  unfold repeat_until_stmt. apply cpl_node_, (cpl_bumped _ _ _ [KUntilKw; KIdent]); [exts| | |cbn; lia|reflexivity].
  - apply (cpl_step _ SB [KUntilKw; KIdent]); [tws|apply cpl_block|intros _; exts|intros _|intros _; exact Z|hds|cbn; lia|reflexivity].
    apply w08, (cpl_expected _ _ _ [KIdent]); [intros _; exts|intros _; apply w08, cpl_single|intros _; apply dfl_single|cbn; lia|reflexivity].
  - apply (dfl_bind _ SB [] [KUntilKw; KIdent]); [apply dfl_block|intros _; exact Z|hds].
Qed.
Lemma S0_accept K : S0 K = false -> forall k, S0 k = true -> pacc_test (PKind K) k = false.
Proof. intros H k Hk. cbn [pacc_test]. apply kind_eqb_neq. intros ->. congruence. Qed.
Definition assign_tail : D kind := b <- @p_accept TO (PKind KEq) ;; if b then @expr TO n ex ;; @ret TO _ KAssignStmt else @ret TO _ KExprStmt.
Lemma expr_stmt_eq : @expr_stmt TO n ex = (@node_by TO (@expr TO n ex >>> assign_tail) >>> @ret TO _ tt).
Proof. reflexivity. Qed.
Lemma cpl_assign_tail : cpl any 0 S0 assign_tail.
Proof.
  unfold assign_tail. apply (cpl_accept _ _ _ _ [KIdent]); [apply w08, (cpl_ret_after _ _ _ _ (fun _ => KAssignStmt)), cpl_expr|apply (dfl_ret_after _ _ _ (fun _ => KAssignStmt)), dfl_expr|reflexivity|cbn; lia|apply cpl_ret].
Qed.
Lemma dfl_assign_tail : dfl S0 assign_tail [].
Proof. unfold assign_tail. apply dfl_accept_nil; [apply S0_accept; reflexivity|apply dfl_ret]. Qed.
Lemma cpl_expr_stmt q : cpl q 0 S0 (@expr_stmt TO n ex).
Proof.
  rewrite expr_stmt_eq. apply (cpl_ret_after _ _ _ _ (fun _ => tt)), cpl_node_by, (cpl_zero _ _ S0); [apply tw_any; tws|apply cpl_expr|intros _; unfold assign_tail; exts|intros _; apply cpl_assign_tail|intros _; apply dfl_assign_tail|intros k H; exact H].
Qed.
Lemma cpl_local_function q : cpl q 0 any (@local_function_def_stmt TO n stmt).
Proof.
  unfold local_function_def_stmt. cbv zeta. set (s := ts_union STMT_RECOVERY (ts_new [KLParen])).
  assert (D1 : dfl any (@name_r TO s >>> @param_list TO n >>> @block TO n stmt >>> @p_expect TO KEndKw) [KIdent; KLParen; KRParen; KEndKw]) by (apply (dfl_bind _ any [KIdent] [KLParen; KRParen; KEndKw]); [apply dfl_name_r|intros _; apply dfl_params_to|hds]).
  apply cpl_node_, (cpl_bumped _ _ _ [KFunctionKw; KIdent; KLParen; KRParen; KEndKw]); [exts| | |cbn; lia|reflexivity].
  - apply w08, (cpl_expected _ _ _ [KIdent; KLParen; KRParen; KEndKw]); [intros _; exts|intros _|intros _; exact D1|cbn; lia|reflexivity].
    apply (cpl_step _ any [KLParen; KRParen; KEndKw]); [tws|apply wm0, cpl_name_r|intros _; exts|intros _; apply cpl_params_to|intros _; apply dfl_params_to|hds|cbn; lia|reflexivity].
  - apply (dfl_bind _ any [KFunctionKw] [KIdent; KLParen; KRParen; KEndKw]); [apply dfl_expect|intros _; exact D1|hds].
Qed.
Lemma cpl_function_def q : cpl q 0 any (@function_def_stmt TO n stmt).
Proof.
  unfold function_def_stmt. apply cpl_node_, (cpl_expected _ _ _ [KIdent; KLParen; KRParen; KEndKw]); [intros _; exts|intros _|intros _|cbn; lia|reflexivity].
  - apply (cpl_step _ (one KLParen) [KLParen; KRParen; KEndKw]); [tws|apply cpl_fname|intros _; exts|intros _; apply cpl_params_to|intros _; apply dfl_params_to|hds|cbn; lia|reflexivity].
  - apply (dfl_bind _ (one KLParen) [KIdent] [KLParen; KRParen; KEndKw]); [apply dfl_fname|intros _; apply dfl_params_to|hds].
Qed.
Lemma cpl_do q : cpl q 0 any (@do_stmt TO n stmt).
Proof. unfold do_stmt. apply cpl_node_, (cpl_bumped _ _ _ [KEndKw]); [exts|apply cpl_block_end|apply dfl_block_end|cbn; lia|reflexivity]. Qed.
Lemma cpl_return q : cpl q 0 S0 (@return_stmt TO n ex).
Proof.
  unfold return_stmt. apply cpl_node_, (cpl_bumped _ _ _ []); [exts| | |cbn; lia|reflexivity].
  - apply (cpl_det _ _ _ _ _ _ (hdet_at _)). intros k _. destruct (pacc_test _ k); [apply w08, cpl_expr|apply cpl_ret].
  - apply (dfl_det_nil _ _ _ _ (hdet_at _)). intros k Hk. replace (pacc_test (PSet EXPR_FIRST) k) with false by (destruct k; try discriminate Hk; reflexivity). apply dfl_ret.
Qed.
Definition local_tail : D unit := b <- @p_accept TO (PKind KEq) ;; if b then @expr TO n ex else @ret TO _ tt.
Lemma local_assign_eq : @local_assign_stmt TO n ex = @node_ TO _ KLocalAssignStmt (@p_bump TO (PKind KLocalKw) >>> @multi_name_r TO n STMT_RECOVERY false >>> local_tail).
Proof. reflexivity. Qed.
Lemma t_local_tail : T1 local_tail.
Proof. unfold local_tail. tws. Qed.
Hint Resolve t_local_tail : tw.
Lemma cpl_local_tail : cpl any 0 S0 local_tail.
Proof. unfold local_tail. apply (cpl_accept _ _ _ _ [KIdent]); [apply w08, cpl_expr|apply dfl_expr|reflexivity|cbn; lia|apply cpl_ret]. Qed.
Lemma dfl_local_tail : dfl S0 local_tail [].
Proof. unfold local_tail. apply dfl_accept_nil; [apply S0_accept; reflexivity|apply dfl_ret]. Qed.
Lemma dfl_names_tail : dfl S0 (@multi_name_r TO n STMT_RECOVERY false >>> local_tail) [KIdent].
Proof. apply (dfl_bind _ no_comma [KIdent] []); [apply dfl_multi|intros _; apply dfl_local_tail|intros z H; apply S0_no_comma, H]. Qed.
Lemma cpl_local_assign q : cpl q 0 S0 (@local_assign_stmt TO n ex).
Proof.
  rewrite local_assign_eq. apply cpl_node_, (cpl_bumped _ _ _ [KIdent]); [exts| |apply dfl_names_tail|cbn; lia|reflexivity].
  apply w08, (cpl_zero _ _ no_comma); [tws|apply cpl_multi|intros _; exts|intros _; apply cpl_local_tail|intros _; apply dfl_local_tail|apply S0_no_comma].
Qed.
Lemma cpl_local : cpl (kind_eqb KLocalKw) 0 S0 (@local_stmt TO n stmt ex).
Proof.
  unfold local_stmt. apply (cpl_peek _ _ _ [KIdent]); [| |reflexivity|cbn; lia].
  - intros k. destruct (kind_eqb k KFunctionKw); [|apply cpl_local_assign]. apply (cpl_sub _ _ _ any); [apply sub_any|apply cpl_local_function].
  - intros k Hk _. apply kind_eqb_eq in Hk. subst k. intros z F a r F1 Sz C E. rewrite peek_run in E. cbn [app nth kind_eqb] in E. rewrite local_assign_eq in E.
    refine (dfl_node_ S0 [KLocalKw; KIdent] _ _ _ z F a r F1 Sz C E). apply (dfl_bind _ any [KLocalKw] [KIdent]); [apply dfl_bump|intros _; apply dfl_names_tail|hds].
Qed.
Definition choice : D unit := c <- @p_current TO ;;
   if kind_eqb c KIfKw then @if_stmt TO n stmt ex
   else if kind_eqb c KDoubleColon then @label_stmt TO
   else if kind_eqb c KGotoKw then @goto_stmt TO
   else if kind_eqb c KLocalKw then @local_stmt TO n stmt ex
   else if kind_eqb c KRepeatKw then @repeat_until_stmt TO n stmt ex
   else if kind_eqb c KFunctionKw then @function_def_stmt TO n stmt
   else if kind_eqb c KReturnKw then @return_stmt TO n ex
   else if kind_eqb c KDoKw then @do_stmt TO n stmt
   else if kind_eqb c KWhileKw then @while_stmt TO n stmt ex
   else if kind_eqb c KForKw then @for_stmt TO n stmt ex
   else if kind_eqb c KBreakKw then @break_stmt TO
   else if kind_eqb c KIdent then @expr_stmt TO n ex
   else if kind_eqb c KLParen then @expr_stmt TO n ex
   else if kind_eqb c KSemicolon then @p_err_and_bump TO "Semicolons can only be used after statements"
   else b <- @p_at TO (PSet LITERAL_FIRST) ;;
     if b then @p_err_and_bump TO "A literal cannot be the start of a statement"
     else if kind_eqb c KEndKw then @err_node TO (@p_bump TO (PKind KEndKw) ;; @ret TO _ (PMsg "Unmatched end token"))
     else @p_err_and_bump TO "Expected a statement".
Lemma stmt_eq : @stmt_body TO n stmt ex = (choice >>> @p_accept TO (PKind KSemicolon) >>> @ret TO _ tt).
Proof. reflexivity. Qed.
Lemma t_choice : T1 choice.
Proof.
  unfold choice. apply tw_cur. intros k. destruct (kind_eqb k KLocalKw) eqn:EL.
  - apply kind_eqb_eq in EL. subst k. cbn [kind_eqb]. now apply tw_local.
  - apply tw_any. unfold if_stmt, repeat_until_stmt, return_stmt, do_stmt, while_stmt, for_stmt, expr_stmt. tws. now apply tw_fun_def.
Qed.
Lemma cpl_choice : cpl any 0 S0 choice.
Proof.
  assert (W : forall q (p : D unit), cpl q 0 any p -> cpl q 0 S0 p) by (intros q p C; apply (cpl_sub _ _ _ any); [apply sub_any|exact C]).
  unfold choice. apply (cpl_det _ _ _ _ _ _ hdet_current). intros k _.
  destruct (kind_eqb k KIfKw); [apply W, cpl_if|]. destruct (kind_eqb k KDoubleColon); [apply W, cpl_label|]. destruct (kind_eqb k KGotoKw); [apply W, cpl_goto|].
  destruct (kind_eqb k KLocalKw) eqn:EL; [apply kind_eqb_eq in EL; subst k; apply cpl_local|]. destruct (kind_eqb k KRepeatKw); [apply cpl_repeat|]. destruct (kind_eqb k KFunctionKw); [apply W, cpl_function_def|].
  destruct (kind_eqb k KReturnKw); [apply cpl_return|]. destruct (kind_eqb k KDoKw); [apply W, cpl_do|]. destruct (kind_eqb k KWhileKw); [apply W, cpl_while_stmt|]. destruct (kind_eqb k KForKw); [apply W, cpl_for|].
  destruct (kind_eqb k KBreakKw); [apply W, cpl_break|]. destruct (kind_eqb k KIdent); [apply cpl_expr_stmt|]. destruct (kind_eqb k KLParen); [apply cpl_expr_stmt|]. destruct (kind_eqb k KSemicolon); [apply cpl_stuck, stuck_recover|].
  apply (cpl_det _ _ _ _ _ _ (hdet_at _)). intros k1 _. destruct (pacc_test _ k1); [apply cpl_stuck, stuck_recover|]. destruct (kind_eqb k KEndKw); [apply cpl_stuck, stuck_err_node|apply cpl_stuck, stuck_recover].
Qed.
Lemma cpl_stmt : cpl any 0 S0 (@stmt_body TO n stmt ex).
Proof.
  rewrite stmt_eq. apply (cpl_zero _ _ S0); [apply t_choice|apply cpl_choice|intros _; exts|intros _|intros _|intros k H; exact H].
  - apply (cpl_accept _ _ _ _ []); [apply cpl_ret|apply dfl_ret|reflexivity|cbn; lia|apply cpl_ret].
  - apply dfl_accept_nil; [apply S0_accept; reflexivity|apply dfl_ret].
Qed.
Lemma cpl_root : cpl any 0 (one KEof) (@root TO n stmt).
Proof.
  unfold root, root_block. apply cpl_node_, cpl_block_raw; [|apply sub_one; reflexivity]. intros k Hk. apply kind_eqb_eq in Hk. now subst k.
Qed.
End Open.
(** ** The grammar *)
Theorem cpl_knot : forall n, cpl any 0 S0 (@stmt_f TO n) /\ forall b, 0 < b -> cpl any 0 S0 (@expr_f TO n b) /\ dfl S0 (@expr_f TO n b) [KIdent].
Proof.
  assert (EK : forall n b, eats (kind_eqb KIdent) (@expr_f TO n b)).
  { induction n as [|n IH]; intros b; cbn [expr_f]; [apply eats_out|]. destruct (tw_knot n) as [IS IE]. now apply eats_expr_bp. }
  induction n as [|n [CS CE]]; cbn [stmt_f expr_f].
  - split; [apply cpl_out|]. intros b _. split; [apply cpl_out|apply dfl_out].
  - destruct (tw_knot n) as [IS IE]. assert (CE1 : forall b, 0 < b -> cpl any 0 S0 (@expr_f TO n b)) by (intros b P; apply (CE b P)). assert (DE1 : forall b, 0 < b -> dfl S0 (@expr_f TO n b) [KIdent]) by (intros b P; apply (CE b P)).
    split; [apply cpl_stmt; auto|]. intros b P. split; [apply cpl_expr_bp; auto|apply dfl_expr_bp; auto].
Qed.
Theorem cpl_program n : cpl any 0 (one KEof) (@root_f TO n).
Proof. unfold root_f. apply cpl_root; apply tw_knot || apply cpl_knot. Qed.
Print Assumptions cpl_program.
