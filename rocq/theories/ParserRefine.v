(** ParserRefine.v — every grammar function, run on the event-based parser, produces the event
    encoding of the forest it produces when run on the tree-building parser. *)
From Verif Require Import Base SyntaxKind TokenSet Lexer BindingPowers Parser Grammar ParserTree.

Create HintDb rg discriminated.

Ltac rg_step :=
  match goal with
  | |- Rg _ _ (let (_, _) := ?x in _) _ => destruct x
  | |- Rg _ _ (if ?b then _ else _) _ => destruct b
  | |- Rg _ _ (@ret event_ops _ _) _ => apply Rg_ret_eq
  | |- Rg _ _ (@panic event_ops _) _ => apply Rg_panic
  | |- Rg _ _ (@out event_ops _) _ => apply Rg_out
  | |- Rg _ _ (@p_adv event_ops) _ => apply Rg_adv
  | |- Rg _ _ (@p_nth event_ops _) _ => apply Rg_nth1
  | |- Rg _ _ (@p_at event_ops _) _ => apply Rg_at1
  | |- Rg _ _ (@p_push_error event_ops _) _ => apply Rg_error
  | |- Rg _ _ (@bind event_ops _ _ (@p_nth event_ops _) _) _ => apply Rg_nth; intro
  | |- Rg _ _ (@bind event_ops _ _ (@p_current event_ops) _) _ => apply Rg_nth; intro
  | |- Rg _ _ (@bind event_ops _ _ (@p_at event_ops _) _) _ => apply Rg_at; intro
  | |- Rg _ _ (@node_by event_ops _) _ => apply Rg_node_by
  | |- Rg _ _ (@err_node event_ops _) _ => apply Rg_err_node
  | |- Rg (mP _ _) _ (@pre_node_by event_ops _ _) _ => apply Rg_pre_node_by
  | |- Rg anyP _ _ _ => solve [auto 3 with rg nocore]
  | |- Rg _ _ _ _ => solve [apply Rg_weaken; auto 3 with rg nocore]
  | |- Rg _ _ (@bind event_ops unit _ _ _) _ => apply Rg_bind_eq; [|intro]
  | |- Rg _ _ (@bind event_ops bool _ _ _) _ => apply Rg_bind_eq; [|intro]
  | |- Rg _ _ (@bind event_ops kind _ _ _) _ => apply Rg_bind_eq; [|intro]
  | |- Rg _ _ (@bind event_ops (@mark event_ops) _ _ (fun _ => _)) _ =>
      apply (Rg_bind_drop _ MR)
  | |- Rg _ _ (@bind event_ops (option (@mark event_ops)) _ _ (fun _ => _)) _ =>
      apply (Rg_bind_drop _ (optR MR))
  | |- Rg _ _ (@bind event_ops (@mark event_ops) _ _ _) _ =>
      apply (Rg_bind _ MR); [|intros ? ?; fold (mP)]
  end.
Ltac rg := repeat rg_step.

Lemma passert_rg b : Rg anyP eqR (@passert event_ops b) (@passert tree_ops b).
Proof. unfold passert. rg. Qed.
#[export] Hint Resolve passert_rg : rg.

Lemma p_accept_rg a : Rg anyP eqR (@p_accept event_ops a) (@p_accept tree_ops a).
Proof. unfold p_accept. rg. Qed.
#[export] Hint Resolve p_accept_rg : rg.

Lemma p_bump_rg a : Rg anyP eqR (@p_bump event_ops a) (@p_bump tree_ops a).
Proof. unfold p_bump. rg. Qed.
#[export] Hint Resolve p_bump_rg : rg.

(** Bumping keeps a completed marker valid. *)
Lemma p_bump_rg_mark a c i :
  Rg (mP c i) (fun E st ds _ _ => MR E st ds c i) (@p_bump event_ops a) (@p_bump tree_ops a).
Proof.
  unfold p_bump, p_accept.
  eapply (Rg_bind _ (fun E st ds (a b : bool) => a = b /\ MR E st ds c i)).
  - apply Rg_at. intros [|].
    + eapply Rg_bind; [apply Rg_adv_mark|]. intros [] []. apply Rg_ret. auto.
    + apply Rg_ret. auto.
  - intros b b' E st ds HR [<- HM].
    assert (H : Rg (mP c i) (fun E st ds (_ _ : unit) => MR E st ds c i)
                   (@passert event_ops b) (@passert tree_ops b)).
    { unfold passert. destruct b; [apply Rg_ret; auto|apply Rg_panic]. }
    exact (H E st ds HR HM).
Qed.

Lemma node_rg {A B} k (AR : vrel A B) (m : P A) (d : D B) :
  Rg anyP AR m d -> Rg anyP MR (@node event_ops A k m) (@node tree_ops B k d).
Proof.
  intros H. unfold node. apply Rg_node_by. eapply Rg_bind_drop; [exact H|]. apply Rg_ret_eq.
Qed.

Lemma node__rg {A B} k (AR : vrel A B) (m : P A) (d : D B) :
  Rg anyP AR m d -> Rg anyP eqR (@node_ event_ops A k m) (@node_ tree_ops B k d).
Proof.
  intros H. unfold node_. apply (Rg_bind_drop _ MR); [|apply Rg_ret_eq].
  eapply node_rg; exact H.
Qed.

Lemma pre_node_rg {A B} c i k (AR : vrel A B) (m : P A) (d : D B) :
  Rg anyP AR m d ->
  Rg (mP c i) MR (@pre_node event_ops A c k m) (@pre_node tree_ops B i k d).
Proof.
  intros H. unfold pre_node. apply Rg_pre_node_by. eapply Rg_bind_drop; [exact H|].
  apply Rg_ret_eq.
Qed.

Lemma p_loop_rg n b b' : Rg anyP eqR b b' ->
  Rg anyP eqR (@p_loop event_ops n b) (@p_loop tree_ops n b').
Proof. intros H. induction n as [|n IH]; cbn [p_loop]; rg; assumption. Qed.

Lemma p_while_rg n c c' b b' : Rg anyP eqR c c' -> Rg anyP eqR b b' ->
  Rg anyP eqR (@p_while event_ops n c b) (@p_while tree_ops n c' b').
Proof. intros H1 H2. unfold p_while. apply p_loop_rg. rg; assumption. Qed.

Lemma p_error_rg m : Rg anyP eqR (@p_error event_ops m) (@p_error tree_ops m).
Proof. unfold p_error. rg. Qed.
#[export] Hint Resolve p_error_rg : rg.

Lemma p_err_recover_rg m r :
  Rg anyP eqR (@p_err_recover event_ops m r) (@p_err_recover tree_ops m r).
Proof. unfold p_err_recover. rg. Qed.
#[export] Hint Resolve p_err_recover_rg : rg.

Lemma p_err_and_bump_rg m :
  Rg anyP eqR (@p_err_and_bump event_ops m) (@p_err_and_bump tree_ops m).
Proof. unfold p_err_and_bump. rg. Qed.
#[export] Hint Resolve p_err_and_bump_rg : rg.

Lemma p_err_until_rg n m r :
  Rg anyP eqR (@p_err_until event_ops n m r) (@p_err_until tree_ops n m r).
Proof.
  unfold p_err_until. apply Rg_err_node. apply Rg_bind_eq; [|intro; rg].
  apply p_while_rg; rg.
Qed.
#[export] Hint Resolve p_err_until_rg : rg.

Lemma p_bump_ts_rg s : Rg anyP eqR (@p_bump_ts event_ops s) (@p_bump_ts tree_ops s).
Proof. unfold p_bump_ts. rg. Qed.
Lemma p_expect_rg k : Rg anyP eqR (@p_expect event_ops k) (@p_expect tree_ops k).
Proof. unfold p_expect. rg. Qed.
#[export] Hint Resolve p_bump_ts_rg p_expect_rg : rg.

Ltac rg2 :=
  repeat first
    [ rg_step
    | match goal with
      | |- Rg _ _ (@node_ event_ops unit _ _) _ => apply (node__rg _ eqR)
      | |- Rg _ _ (@node_ event_ops bool _ _) _ => apply (node__rg _ eqR)
      | |- Rg _ _ (@node_ event_ops (@mark event_ops) _ _) _ => apply (node__rg _ MR)
      | |- Rg _ _ (@node_ event_ops (option (@mark event_ops)) _ _) _ => apply (node__rg _ (optR MR))
      | |- Rg _ _ (@node event_ops unit _ _) _ => apply (node_rg _ eqR)
      | |- Rg _ _ (@node event_ops bool _ _) _ => apply (node_rg _ eqR)
      | |- Rg _ _ (@node event_ops (option (@mark event_ops)) _ _) _ => apply (node_rg _ (optR MR))
      | |- Rg _ _ (@pre_node event_ops unit _ _ _) _ => apply (pre_node_rg _ _ _ eqR)
      | |- Rg _ _ (@pre_node event_ops bool _ _ _) _ => apply (pre_node_rg _ _ _ eqR)
      | |- Rg _ _ (@pre_node event_ops (option (@mark event_ops)) _ _ _) _ =>
          apply (pre_node_rg _ _ _ (optR MR))
      | |- Rg _ _ (@p_loop event_ops _ _) _ => apply p_loop_rg
      | |- Rg _ _ (@p_while event_ops _ _ _) _ => apply p_while_rg
      end ].

Ltac t f := unfold f; rg2.

Lemma name_unchecked_rg : Rg anyP eqR (@name_unchecked event_ops) (@name_unchecked tree_ops).
Proof. t @name_unchecked. Qed.
#[export] Hint Resolve name_unchecked_rg : rg.
Lemma name_r_rg r : Rg anyP eqR (@name_r event_ops r) (@name_r tree_ops r).
Proof. t @name_r. Qed.
#[export] Hint Resolve name_r_rg : rg.
Lemma name_ref_unchecked_rg :
  Rg anyP eqR (@name_ref_unchecked event_ops) (@name_ref_unchecked tree_ops).
Proof. t @name_ref_unchecked. Qed.
#[export] Hint Resolve name_ref_unchecked_rg : rg.
Lemma name_ref_r_rg r : Rg anyP eqR (@name_ref_r event_ops r) (@name_ref_r tree_ops r).
Proof. t @name_ref_r. Qed.
Lemma name_ref_rg : Rg anyP MR (@name_ref event_ops) (@name_ref tree_ops).
Proof. t @name_ref. Qed.
Lemma name_rg : Rg anyP eqR (@name event_ops) (@name tree_ops).
Proof. t @name. Qed.
#[export] Hint Resolve name_ref_r_rg name_ref_rg name_rg : rg.
Lemma multi_name_r_rg n r v :
  Rg anyP eqR (@multi_name_r event_ops n r v) (@multi_name_r tree_ops n r v).
Proof. t @multi_name_r. Qed.
#[export] Hint Resolve multi_name_r_rg : rg.
Lemma param_list_rg n : Rg anyP eqR (@param_list event_ops n) (@param_list tree_ops n).
Proof. t @param_list. Qed.
Lemma literal_rg : Rg anyP MR (@literal event_ops) (@literal tree_ops).
Proof. t @literal. Qed.
Lemma table_sep_rg : Rg anyP eqR (@table_sep event_ops) (@table_sep tree_ops).
Proof. t @table_sep. Qed.
Lemma table_correct_rg n : Rg anyP eqR (@table_correct event_ops n) (@table_correct tree_ops n).
Proof. t @table_correct. Qed.
Lemma dot_expr_rg c i : Rg (mP c i) MR (@dot_expr event_ops c) (@dot_expr tree_ops i).
Proof. t @dot_expr. Qed.
Lemma goto_stmt_rg : Rg anyP eqR (@goto_stmt event_ops) (@goto_stmt tree_ops).
Proof. t @goto_stmt. Qed.
Lemma label_delim_rg : Rg anyP eqR (@label_delim event_ops) (@label_delim tree_ops).
Proof. t @label_delim. Qed.
#[export] Hint Resolve param_list_rg literal_rg table_sep_rg table_correct_rg goto_stmt_rg
  label_delim_rg : rg.
Lemma label_stmt_rg : Rg anyP eqR (@label_stmt event_ops) (@label_stmt tree_ops).
Proof. t @label_stmt. Qed.
Lemma break_stmt_rg : Rg anyP eqR (@break_stmt event_ops) (@break_stmt tree_ops).
Proof. t @break_stmt. Qed.
Lemma index_path_rg n : Rg anyP MR (@index_path event_ops n) (@index_path tree_ops n).
Proof. t @index_path. Qed.
#[export] Hint Resolve label_stmt_rg break_stmt_rg index_path_rg : rg.
Lemma function_def_content_rg n :
  Rg anyP eqR (@function_def_content event_ops n) (@function_def_content tree_ops n).
Proof.
  unfold function_def_content. apply (node__rg _ eqR). apply Rg_at; intro. apply Rg_nth; intro.
  match goal with |- context [if ?b then _ else _] => destruct b end; [rg2|].
  apply (Rg_bind _ MR); [rg2|]. intros c i.
  apply (Rg_bind_drop _ MR); [|rg2]. apply Rg_pre_node_by. rg2.
Qed.
#[export] Hint Resolve function_def_content_rg : rg.

Section Open.
Variable n : nat.
Variable stmt : P unit.
Variable expr_bp : nat -> P (option cmark).
Variable stmt' : D unit.
Variable expr_bp' : nat -> D (option nat).
Hypothesis Hstmt : Rg anyP eqR stmt stmt'.
Hypothesis Hexpr : forall b, Rg anyP (optR MR) (expr_bp b) (expr_bp' b).
#[local] Hint Resolve Hstmt Hexpr : rg.

Lemma block_raw_rg s :
  Rg anyP eqR (@block_raw event_ops n stmt s) (@block_raw tree_ops n stmt' s).
Proof. t @block_raw. Qed.
#[local] Hint Resolve block_raw_rg : rg.
Lemma block_rg : Rg anyP eqR (@block event_ops n stmt) (@block tree_ops n stmt').
Proof. t @block. Qed.
Lemma root_rg : Rg anyP eqR (@root event_ops n stmt) (@root tree_ops n stmt').
Proof. unfold root, root_block. rg2. Qed.
Lemma expr_single_rg :
  Rg anyP (optR MR) (@expr_single event_ops expr_bp) (@expr_single tree_ops expr_bp').
Proof. t @expr_single. Qed.
#[local] Hint Resolve block_rg expr_single_rg : rg.
Lemma expr_rg : Rg anyP eqR (@expr event_ops n expr_bp) (@expr tree_ops n expr_bp').
Proof. unfold expr, expr_multi. rg2. Qed.
Lemma paren_expr_rg : Rg anyP MR (@paren_expr event_ops expr_bp) (@paren_expr tree_ops expr_bp').
Proof. t @paren_expr. Qed.
Lemma index_rg : Rg anyP eqR (@index event_ops expr_bp) (@index tree_ops expr_bp').
Proof. t @index. Qed.
#[local] Hint Resolve expr_rg paren_expr_rg index_rg : rg.
Lemma table_content_rg :
  Rg anyP eqR (@table_content event_ops expr_bp) (@table_content tree_ops expr_bp').
Proof. t @table_content. Qed.
Lemma table_inner_rg : Rg anyP eqR (@table_inner event_ops n) (@table_inner tree_ops n).
Proof. t @table_inner. Qed.
#[local] Hint Resolve table_content_rg table_inner_rg : rg.
Lemma table_expr_rg :
  Rg anyP MR (@table_expr event_ops n expr_bp) (@table_expr tree_ops n expr_bp').
Proof. t @table_expr. Qed.
Lemma function_expr_rg :
  Rg anyP MR (@function_expr event_ops n stmt) (@function_expr tree_ops n stmt').
Proof. t @function_expr. Qed.
Lemma arg_list_rg : Rg anyP eqR (@arg_list event_ops n expr_bp) (@arg_list tree_ops n expr_bp').
Proof. t @arg_list. Qed.
#[local] Hint Resolve table_expr_rg function_expr_rg arg_list_rg : rg.
Lemma call_args_rg :
  Rg anyP eqR (@call_args event_ops n expr_bp) (@call_args tree_ops n expr_bp').
Proof. t @call_args. Qed.
#[local] Hint Resolve call_args_rg : rg.
Lemma call_expr_rg c i :
  Rg (mP c i) MR (@call_expr event_ops n expr_bp c) (@call_expr tree_ops n expr_bp' i).
Proof. t @call_expr. Qed.
Lemma index_expr_rg c i :
  Rg (mP c i) MR (@index_expr event_ops expr_bp c) (@index_expr tree_ops expr_bp' i).
Proof. t @index_expr. Qed.
Lemma method_call_expr_rg c i :
  Rg (mP c i) MR (@method_call_expr event_ops n expr_bp c)
     (@method_call_expr tree_ops n expr_bp' i).
Proof. t @method_call_expr. Qed.

Lemma postfix_expr_rg m c i b :
  Rg (mP c i) MR (@postfix_expr event_ops n expr_bp m c b)
     (@postfix_expr tree_ops n expr_bp' m i b).
Proof.
  revert c i b; induction m as [|m IH]; intros c i b; cbn [postfix_expr]; [rg2|].
  apply Rg_nth; intro k. apply Rg_at; intro x.
  destruct (b && x); [|destruct (kind_eqb k KColon && b); [|destruct (kind_eqb k KLBracket);
    [|destruct (kind_eqb k KDot)]]].
  - eapply Rg_bind; [apply call_expr_rg|]. intros a a'. apply IH.
  - eapply Rg_bind; [apply method_call_expr_rg|]. intros a a'. apply IH.
  - eapply Rg_bind; [apply index_expr_rg|]. intros a a'. apply IH.
  - eapply Rg_bind; [apply dot_expr_rg|]. intros a a'. apply IH.
  - apply Rg_ret. auto.
Qed.

Lemma prefix_expr_rg b :
  Rg anyP (optR MR) (@prefix_expr event_ops expr_bp b) (@prefix_expr tree_ops expr_bp' b).
Proof.
  unfold prefix_expr. eapply (Rg_bind _ MR).
  - apply Rg_node_by. apply Rg_bind_eq; [rg2|intros _]. apply (Rg_bind _ (optR MR)); [rg2|].
    intros [c|] [i|]; try rg2; intros E st ds HR Hx; exfalso; exact Hx.
  - intros c i. apply Rg_ret. auto.
Qed.

Lemma atom_expr_rg :
  Rg anyP (optR (pairR MR)) (@atom_expr event_ops n stmt expr_bp)
     (@atom_expr tree_ops n stmt' expr_bp').
Proof.
  unfold atom_expr. apply Rg_nth; intro k.
  destruct (0 <? prefix_binding_power k).
  { eapply (Rg_bind _ (optR MR)); [apply prefix_expr_rg|].
    intros [c|] [i|]; apply Rg_ret; unfold optR, pairR; cbn [option_map fst snd]; auto. }
  apply Rg_at; intros [|].
  { eapply (Rg_bind _ MR); [rg2|]. intros; apply Rg_ret; unfold optR, pairR; cbn [option_map fst snd]; auto. }
  apply Rg_nth; intro k'.
  repeat match goal with
  | |- context [if kind_eqb k' ?x then _ else _] => destruct (kind_eqb k' x)
  end;
  try (eapply (Rg_bind _ MR); [solve [rg2]|intros; apply Rg_ret; unfold optR, pairR; cbn [option_map fst snd]; auto]).
  apply Rg_bind_eq; [rg2|]. intros _. apply Rg_ret; unfold optR, pairR; cbn [option_map fst snd]; auto.
Qed.

Lemma lhs_rg :
  Rg anyP (optR MR) (@lhs event_ops n stmt expr_bp) (@lhs tree_ops n stmt' expr_bp').
Proof.
  unfold lhs. apply Rg_nth; intro k.
  destruct (NOT_AN_OP <? prefix_binding_power k).
  - eapply (Rg_bind _ MR); [rg2|]. intros; apply Rg_ret; auto.
  - eapply Rg_bind; [apply atom_expr_rg|].
    intros [[c b]|] [[i b']|]; try (intros E st ds HR Hx; exfalso; exact Hx).
    + intros E st ds HR [HM Hb]. cbn [fst snd] in HM, Hb. subst b'.
      revert E st ds HR HM. apply (Rg_bind (mP c i) MR).
      * apply postfix_expr_rg.
      * intros; apply Rg_ret; auto.
    + apply Rg_ret; unfold optR, pairR; cbn [option_map fst snd]; auto.
Qed.

Lemma infix_loop_rg m b c i :
  Rg (mP c i) MR (@infix_loop event_ops expr_bp m b c) (@infix_loop tree_ops expr_bp' m b i).
Proof.
  revert c i; induction m as [|m IH]; intros c i; cbn [infix_loop]; [rg2|].
  apply Rg_nth; intro k. destruct (infix_binding_power k) as [l r].
  destruct (l <? b); [apply Rg_ret; auto|].
  eapply Rg_bind; [apply p_bump_rg_mark|]. intros u1 u2; fold (mP c i).
  apply (Rg_bind (mP c i) MR); [apply (pre_node_rg _ _ _ (optR MR)); apply Hexpr|]. intros a a'. apply IH.
Qed.

Lemma expr_bp_body_rg b :
  Rg anyP (optR MR) (@expr_bp_body event_ops n stmt expr_bp b)
     (@expr_bp_body tree_ops n stmt' expr_bp' b).
Proof.
  unfold expr_bp_body. eapply Rg_bind; [apply lhs_rg|].
  intros [c|] [i|]; try (intros E st ds HR Hx; exfalso; exact Hx).
  - apply (Rg_bind (mP c i) MR); [apply infix_loop_rg|]. intros; apply Rg_ret; auto.
  - apply Rg_ret; unfold optR, pairR; cbn [option_map fst snd]; auto.
Qed.

Lemma else_branch_rg : Rg anyP eqR (@else_branch event_ops n stmt) (@else_branch tree_ops n stmt').
Proof. t @else_branch. Qed.
#[local] Hint Resolve else_branch_rg : rg.
Lemma elseif_branch_rg m :
  Rg anyP eqR (@elseif_branch event_ops n stmt expr_bp m) (@elseif_branch tree_ops n stmt' expr_bp' m).
Proof. induction m as [|m IH]; cbn [elseif_branch]; rg2; exact IH. Qed.
#[local] Hint Resolve elseif_branch_rg : rg.
Lemma stmt_body_rg :
  Rg anyP eqR (@stmt_body event_ops n stmt expr_bp) (@stmt_body tree_ops n stmt' expr_bp').
Proof.
  unfold stmt_body, if_stmt, local_stmt, local_function_def_stmt, local_assign_stmt,
    repeat_until_stmt, function_def_stmt, return_stmt, do_stmt, while_stmt, for_stmt,
    for_content, numeric_for, generic_for, expr_stmt.
  rg2.
Qed.
End Open.

Lemma stmt_expr_rg n :
  Rg anyP eqR (@stmt_f event_ops n) (@stmt_f tree_ops n) /\
  (forall b, Rg anyP (optR MR) (@expr_f event_ops n b) (@expr_f tree_ops n b)).
Proof.
  induction n as [|n [IH1 IH2]]; cbn [stmt_f expr_f].
  - split; intros; apply Rg_out.
  - split; [apply stmt_body_rg|intro; apply expr_bp_body_rg]; assumption.
Qed.

Lemma root_f_rg n : Rg anyP eqR (@root_f event_ops n) (@root_f tree_ops n).
Proof. apply root_rg; apply stmt_expr_rg. Qed.
Lemma block_f_rg n : Rg anyP eqR (@block_f event_ops n) (@block_f tree_ops n).
Proof. apply block_rg; apply stmt_expr_rg. Qed.

(** The grammar run on a token source: an event list exactly when the tree parser succeeds, and
    then one that encodes its forest. *)
Lemma run_grammar_refines (g : nat -> P unit) (g' : nat -> D unit) raw :
  (forall n, Rg anyP eqR (g n) (g' n)) ->
  let s := ts_new_source raw in
  match g' (parse_fuel s) (mkDS (map (fun p => t_kind (fst p)) (ts_pairs s)) []) with
  | Ok (_, ds) => exists ev, run_grammar g s = Ok ev /\ EncF (ds_for ds) ev
  | Panic => run_grammar g s = Panic
  | OutOfFuel => run_grammar g s = OutOfFuel
  end.
Proof.
  intros Hg s. specialize (Hg (parse_fuel s) [] (mkP s [])
    (mkDS (map (fun p => t_kind (fst p)) (ts_pairs s)) [])).
  assert (HR : Rel [] (mkP s []) (mkDS (map (fun p => t_kind (fst p)) (ts_pairs s)) [])).
  { split; [split; reflexivity|]. exists []. split; [reflexivity|constructor]. }
  specialize (Hg HR I). unfold run_grammar.
  destruct (g' _ _) as [[[] ds]| |].
  - destruct Hg as ([] & st' & -> & [_ (ev & He & Hf)] & _). cbn [rbind]. exists ev.
    rewrite He. auto.
  - now rewrite Hg.
  - now rewrite Hg.
Qed.
