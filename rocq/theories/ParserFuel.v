(** ParserFuel.v — the fuel of the grammar functions (Grammar.v) only bounds how long they may run: with more
    fuel a run that succeeded gives the same result. *)
From Verif Require Import Base SyntaxKind TokenSet Lexer BindingPowers Parser Grammar ParserTree.
Notation TO := tree_ops.

(** Whenever [m] succeeds [m'] does, with the same result. *)
Definition up {A} (m m' : D A) : Prop := forall st r, m st = Ok r -> m' st = Ok r.
Lemma up_refl {A} (m : D A) : up m m.
Proof. intros st r H. exact H. Qed.
Lemma up_out {A} (m : D A) : up (@out TO A) m.
Proof. intros st r H. discriminate H. Qed.
Lemma up_bind {A B} (m m' : D A) (f f' : A -> D B) : up m m' -> (forall a, up (f a) (f' a)) -> up (@bind TO A B m f) (@bind TO A B m' f').
Proof. intros H1 H2 st r. cbn [bind tree_ops]. unfold tr_bind. destruct (m st) as [[a st1]| |] eqn:E; cbn [rbind]; try discriminate. rewrite (H1 _ _ E). cbn [rbind fst snd]. apply H2. Qed.
Lemma up_node_by (m m' : D kind) : up m m' -> up (@node_by TO m) (@node_by TO m').
Proof. intros H st r. cbn [node_by tree_ops]. unfold tr_node. destruct (m _) as [[a st1]| |] eqn:E; cbn [rbind]; try discriminate. now rewrite (H _ _ E). Qed.
Lemma up_pre_by i (m m' : D kind) : up m m' -> up (@pre_node_by TO i m) (@pre_node_by TO i m').
Proof. intros H st r. cbn [pre_node_by tree_ops]. unfold tr_pre. destruct (skipn i (ds_for st)) as [|[| | |kt ft] pre]; try discriminate. destruct (m _) as [[a st1]| |] eqn:E; cbn [rbind]; try discriminate. now rewrite (H _ _ E). Qed.
Lemma up_err_node (m m' : D perr) : up m m' -> up (@err_node TO m) (@err_node TO m').
Proof. intros H st r. cbn [err_node tree_ops]. unfold tr_err_node. destruct (m _) as [[a st1]| |] eqn:E; cbn [rbind]; try discriminate. now rewrite (H _ _ E). Qed.
Lemma up_node {A} k (m m' : D A) : up m m' -> up (@node TO A k m) (@node TO A k m').
Proof. intros H. unfold node. apply up_node_by, up_bind; [exact H|]. intros a. apply up_refl. Qed.
Lemma up_node_ {A} k (m m' : D A) : up m m' -> up (@node_ TO A k m) (@node_ TO A k m').
Proof. intros H. unfold node_. apply up_bind; [now apply up_node|]. intros a. apply up_refl. Qed.
Lemma up_pre {A} i k (m m' : D A) : up m m' -> up (@pre_node TO A i k m) (@pre_node TO A i k m').
Proof. intros H. unfold pre_node. apply up_pre_by, up_bind; [exact H|]. intros a. apply up_refl. Qed.
Lemma up_loop (b b' : D bool) : up b b' -> forall n n', n <= n' -> up (@p_loop TO n b) (@p_loop TO n' b').
Proof. intros H. induction n as [|n IH]; intros n' L; cbn [p_loop]; [apply up_out|]. destruct n' as [|n']; [lia|]. cbn [p_loop]. apply up_bind; [exact H|]. intros [|]; [apply IH; lia|apply up_refl]. Qed.
Lemma up_while (c c' : D bool) (b b' : D unit) n n' : up c c' -> up b b' -> n <= n' -> up (@p_while TO n c b) (@p_while TO n' c' b').
Proof. intros Hc Hb L. unfold p_while. apply up_loop; [|exact L]. apply up_bind; [exact Hc|]. intros [|]; [|apply up_refl]. apply up_bind; [exact Hb|]. intros a. apply up_refl. Qed.
Lemma up_err_until n n' m s : n <= n' -> up (@p_err_until TO n m s) (@p_err_until TO n' m s).
Proof. intros L. unfold p_err_until. apply up_err_node. apply up_bind; [|intros a; apply up_refl]. apply up_while; auto using up_refl. Qed.
#[export] Hint Resolve up_err_until : up.

(** One step: equal computations, sequences, nodes, loops, and cases. *)
Ltac up1 := first
  [ match goal with |- up ?a ?b => constr_eq a b; apply up_refl end | match goal with |- up (@out _ _) _ => apply up_out end
  | lazymatch goal with
    | |- up (@bind _ _ _ _ _) _ => apply up_bind; [|intros ?]
    | |- up (@node_ _ _ _ _) _ => apply up_node_
    | |- up (@node _ _ _ _) _ => apply up_node
    | |- up (@pre_node _ _ _ _ _) _ => apply up_pre
    | |- up (@pre_node_by _ _ _) _ => apply up_pre_by
    | |- up (@node_by _ _) _ => apply up_node_by
    | |- up (@err_node _ _) _ => apply up_err_node
    | |- up (@p_while _ _ _ _) _ => apply up_while
    | |- up (@p_loop _ _ _) _ => apply up_loop
    | |- up (if ?b then _ else _) _ => destruct b
    | |- up (match ?o with Some _ => _ | None => _ end) _ => destruct o
    | |- up (let (_, _) := ?o in _) _ => destruct o
    | |- up (match ?o with pair _ _ => _ end) _ => destruct o
    | |- _ <= _ => assumption
    end
  | solve [auto 3 with up nocore] | apply up_refl ].
Ltac ups := repeat up1.
Lemma up_multi_name n n' s v : n <= n' -> up (@multi_name_r TO n s v) (@multi_name_r TO n' s v).
Proof. intros L. unfold multi_name_r. ups. Qed.
Lemma up_params n n' : n <= n' -> up (@param_list TO n) (@param_list TO n').
Proof. intros L. unfold param_list. pose proof (up_multi_name n n'). ups. Qed.
Lemma up_table_correct n n' : n <= n' -> up (@table_correct TO n) (@table_correct TO n').
Proof. intros L. unfold table_correct. ups. Qed.
Lemma up_path n n' : n <= n' -> up (@index_path TO n) (@index_path TO n').
Proof. intros L. unfold index_path. ups. Qed.
#[export] Hint Resolve up_multi_name up_params up_table_correct up_path : up.
Lemma up_fname n n' : n <= n' -> up (@function_def_content TO n) (@function_def_content TO n').
Proof. intros L. unfold function_def_content. ups. Qed.
#[export] Hint Resolve up_fname : up.

Section Open.
Variables n n' : nat.
Variables stmt stmt' : D unit.
Variables ex ex' : nat -> D (option nat).
Hypothesis L : n <= n'.
Hypothesis HS : up stmt stmt'.
Hypothesis HE : forall b, up (ex b) (ex' b).
Hint Resolve L HS HE : up.
Lemma up_block_raw s : up (@block_raw TO n stmt s) (@block_raw TO n' stmt' s).
Proof. unfold block_raw. ups. Qed.
Lemma up_block : up (@block TO n stmt) (@block TO n' stmt').
Proof. apply up_block_raw. Qed.
Hint Resolve up_block : up.
Lemma up_single : up (@expr_single TO ex) (@expr_single TO ex').
Proof. apply HE. Qed.
Hint Resolve up_single : up.
Lemma up_expr : up (@expr TO n ex) (@expr TO n' ex').
Proof. unfold expr, expr_multi. ups. Qed.
Lemma up_paren : up (@paren_expr TO ex) (@paren_expr TO ex').
Proof. unfold paren_expr. ups. Qed.
Lemma up_index : up (@index TO ex) (@index TO ex').
Proof. unfold index. ups. Qed.
Hint Resolve up_expr up_paren up_index : up.
Lemma up_table_content : up (@table_content TO ex) (@table_content TO ex').
Proof. unfold table_content. ups. Qed.
Lemma up_table_inner : up (@table_inner TO n) (@table_inner TO n').
Proof. unfold table_inner. ups. Qed.
Hint Resolve up_table_content up_table_inner : up.
Lemma up_table : up (@table_expr TO n ex) (@table_expr TO n' ex').
Proof. unfold table_expr. ups. Qed.
Lemma up_function : up (@function_expr TO n stmt) (@function_expr TO n' stmt').
Proof. unfold function_expr. ups. Qed.
Lemma up_arg_list : up (@arg_list TO n ex) (@arg_list TO n' ex').
Proof. unfold arg_list. ups. Qed.
Hint Resolve up_table up_function up_arg_list : up.
Lemma up_call_args : up (@call_args TO n ex) (@call_args TO n' ex').
Proof. unfold call_args. ups. Qed.
Hint Resolve up_call_args : up.
Lemma up_call l : up (@call_expr TO n ex l) (@call_expr TO n' ex' l).
Proof. unfold call_expr. ups. Qed.
Lemma up_index_expr l : up (@index_expr TO ex l) (@index_expr TO ex' l).
Proof. unfold index_expr. ups. Qed.
Lemma up_method l : up (@method_call_expr TO n ex l) (@method_call_expr TO n' ex' l).
Proof. unfold method_call_expr. ups. Qed.
Hint Resolve up_call up_index_expr up_method : up.
Lemma up_postfix : forall m m' l c, m <= m' -> up (@postfix_expr TO n ex m l c) (@postfix_expr TO n' ex' m' l c).
Proof. induction m as [|m IH]; intros m' l c K; cbn [postfix_expr]; [apply up_out|]. destruct m' as [|m']; [lia|]. cbn [postfix_expr]. assert (m <= m') by lia. ups. Qed.
Lemma up_prefix r : up (@prefix_expr TO ex r) (@prefix_expr TO ex' r).
Proof. unfold prefix_expr. ups. Qed.
Hint Resolve up_postfix up_prefix : up.
Lemma up_atom : up (@atom_expr TO n stmt ex) (@atom_expr TO n' stmt' ex').
Proof. unfold atom_expr. ups. Qed.
Hint Resolve up_atom : up.
Lemma up_lhs : up (@lhs TO n stmt ex) (@lhs TO n' stmt' ex').
Proof. unfold lhs. ups. Qed.
Hint Resolve up_lhs : up.
Lemma up_infix b : forall m m' l, m <= m' -> up (@infix_loop TO ex m b l) (@infix_loop TO ex' m' b l).
Proof. induction m as [|m IH]; intros m' l K; cbn [infix_loop]; [apply up_out|]. destruct m' as [|m']; [lia|]. cbn [infix_loop]. assert (m <= m') by lia. ups. Qed.
Hint Resolve up_infix : up.
Lemma up_expr_bp b : up (@expr_bp_body TO n stmt ex b) (@expr_bp_body TO n' stmt' ex' b).
Proof. unfold expr_bp_body. ups. Qed.
Lemma up_else : up (@else_branch TO n stmt) (@else_branch TO n' stmt').
Proof. unfold else_branch. ups. Qed.
Hint Resolve up_else : up.
Lemma up_elseif : forall m m', m <= m' -> up (@elseif_branch TO n stmt ex m) (@elseif_branch TO n' stmt' ex' m').
Proof. induction m as [|m IH]; intros m' K; cbn [elseif_branch]; [apply up_out|]. destruct m' as [|m']; [lia|]. cbn [elseif_branch]. assert (m <= m') by lia. ups. Qed.
Hint Resolve up_elseif : up.
Lemma up_stmt : up (@stmt_body TO n stmt ex) (@stmt_body TO n' stmt' ex').
Proof.
  unfold stmt_body, if_stmt, local_stmt, local_function_def_stmt, local_assign_stmt, repeat_until_stmt, function_def_stmt, return_stmt, do_stmt, while_stmt, for_stmt, for_content, numeric_for, generic_for, expr_stmt. ups.
Qed.
Lemma up_root : up (@root TO n stmt) (@root TO n' stmt').
Proof. unfold root, root_block. apply up_node_, up_block_raw. Qed.
End Open.

Theorem up_knot : forall n n', n <= n' -> up (@stmt_f TO n) (@stmt_f TO n') /\ forall b, up (@expr_f TO n b) (@expr_f TO n' b).
Proof.
  induction n as [|n IH]; intros n' L; cbn [stmt_f expr_f]; [split; intros; apply up_out|]. destruct n' as [|n']; [lia|]. cbn [stmt_f expr_f].
  assert (K : n <= n') by lia. destruct (IH _ K) as [IS IE]. split; [now apply up_stmt|]. intros b. now apply up_expr_bp.
Qed.
(** The whole grammar. *)
Theorem up_root_f : forall n n', n <= n' -> up (@root_f TO n) (@root_f TO n').
Proof. intros n n' L. unfold root_f. apply up_root; [exact L|]. now apply up_knot. Qed.
Theorem up_block_f : forall n n', n <= n' -> up (@block_f TO n) (@block_f TO n').
Proof. intros n n' L. unfold block_f. apply up_block; [exact L|]. now apply up_knot. Qed.
