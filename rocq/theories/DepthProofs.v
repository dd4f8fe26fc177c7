(** DepthProofs.v — the parser on a bounded stack (Depth.v): it either does the same as the parser, or stops
    because the tree is too high; and when it does not stop, the tree is not nested too deeply. *)
From Verif Require Import Base SyntaxKind TokenSet Lexer BindingPowers Parser Grammar ParserTree ParserRefine ParserFuel Depth DepthSpec.

Section Measure.
Variable of : kind -> list nat -> nat.
Fixpoint kid (t : ptree) : list nat :=
  match t with
  | PNode k fs => [of k (flat_map kid fs)]
  | PErrN fs _ => [of KError (flat_map kid fs)]
  | _ => []
  end.
Definition kids (fs : forest) : list nat := flat_map kid fs.
Definition top (fs : forest) : nat := list_max (kids fs).
Lemma kids_app a b : kids (a ++ b) = kids a ++ kids b.
Proof. apply flat_map_app. Qed.
Lemma top_app a b : top (a ++ b) = Nat.max (top a) (top b).
Proof. unfold top. now rewrite kids_app, list_max_app. Qed.
Lemma top_node k fs : top [PNode k fs] = of k (kids fs).
Proof. unfold top, kids. cbn. apply Nat.max_0_r. Qed.
Lemma top_errn e fs : top [PErrN fs e] = of KError (kids fs).
Proof. unfold top, kids. cbn. apply Nat.max_0_r. Qed.
Lemma top_tok k : top [PTok k] = 0.
Proof. reflexivity. Qed.
Lemma top_err e : top [PErr e] = 0.
Proof. reflexivity. Qed.
Lemma top_skip i f : top f = Nat.max (top (firstn i f)) (top (skipn i f)).
Proof. rewrite <- top_app, firstn_skipn. reflexivity. Qed.
Lemma top_cons t f : top (t :: f) = Nat.max (top [t]) (top f).
Proof. exact (top_app [t] f). Qed.
End Measure.
Local Arguments top : simpl never.
Local Arguments kids : simpl never.

(** * Enough *)

Notation lvs := (top level_of).
Lemma level_ge k l : list_max l <= level_of k l.
Proof. unfold level_of. destruct (post k); [destruct l as [|x l]; unfold list_max; cbn [fold_right]; lia|lia]. Qed.

(** Whenever [m] succeeds its forest has grown, and [m'] does the same or has no stack left because the forest
    is at least [d] high. *)
Definition rel (d : nat) {A} (m m' : D A) : Prop := forall st r st', m st = Ok (r, st') ->
  lvs (ds_for st) <= lvs (ds_for st') /\ (m' st = Ok (r, st') \/ m' st = OutOfFuel /\ d <= lvs (ds_for st')).
Lemma rel_less d d' {A} (m m' : D A) : d' <= d -> rel d m m' -> rel d' m m'.
Proof. intros L H st r st' E. destruct (H st r st' E) as [X [Y|[Y Z]]]; split; auto. right. split; [exact Y|lia]. Qed.
Lemma rel_out d {A} (m : D A) : rel d (@out TO A) m.
Proof. intros st r st' H. discriminate H. Qed.
Lemma rel_panic d {A} (m : D A) : rel d (@panic TO A) m.
Proof. intros st r st' H. discriminate H. Qed.
Lemma rel_0 {A} (m : D A) : (forall st r st', m st = Ok (r, st') -> lvs (ds_for st) <= lvs (ds_for st')) -> rel 0 m (@out TO A).
Proof. intros H st r st' E. split; [exact (H _ _ _ E)|]. right. split; [reflexivity|lia]. Qed.
Lemma rel_ret d {A} (a : A) : rel d (@ret TO A a) (@ret TO A a).
Proof. intros st r st' H. injection H as <- <-. auto. Qed.
Lemma rel_nth d n : rel d (@p_nth TO n) (@p_nth TO n).
Proof. intros st r st' H. injection H as <- <-. auto. Qed.
Lemma rel_adv d : rel d (@p_adv TO) (@p_adv TO).
Proof.
  intros st r st' H. split; [|left; exact H]. cbn [p_adv tree_ops] in H. unfold tr_adv in H. destruct (ds_rem st) as [|k l]; [discriminate|]. destruct (kind_eqb k KEof); [discriminate|].
  injection H as <- <-. cbn [ds_for]. rewrite top_app. lia.
Qed.
Lemma rel_push d e : rel d (@p_push_error TO e) (@p_push_error TO e).
Proof. intros st r st' H. split; [|left; exact H]. injection H as <- <-. cbn [ds_for]. rewrite top_app. lia. Qed.
Lemma rel_bind d {A B} (m m' : D A) (f f' : A -> D B) : rel d m m' -> (forall a, rel d (f a) (f' a)) -> rel d (@bind TO A B m f) (@bind TO A B m' f').
Proof.
  intros H1 H2 st r st'. cbn [bind tree_ops]. unfold tr_bind. destruct (m st) as [[a st1]| |] eqn:E; cbn [rbind]; try discriminate. cbn [fst snd]. intros E2.
  destruct (H1 _ _ _ E) as [X1 [Y1|[Y1 Z1]]]; destruct (H2 a _ _ _ E2) as [X2 Y2]; (split; [lia|]).
  - rewrite Y1. cbn [rbind fst snd]. exact Y2.
  - right. rewrite Y1. split; [reflexivity|lia].
Qed.
Lemma node_level d k f : pred d <= lvs f -> post k = false -> d <= level_of k (kids level_of f).
Proof. intros H E. unfold level_of at 1. rewrite E. change (list_max (kids level_of f)) with (lvs f). lia. Qed.
Lemma rel_node_by d (m m' : D kind) : rel d m m' -> rel d (@node_by TO m) (@node_by TO m').
Proof.
  intros H st r st'. cbn [node_by tree_ops]. unfold tr_node. destruct (m _) as [[k st1]| |] eqn:E; cbn [rbind]; try discriminate. intros R. injection R as <- <-. cbn [ds_for]. rewrite top_app, top_node. split; [lia|].
  destruct (H _ _ _ E) as [_ [Y|[Y Z]]]; rewrite Y; cbn [rbind]; [auto|]. right. split; [reflexivity|]. pose proof (level_ge k (kids level_of (ds_for st1))) as G. change (list_max (kids level_of (ds_for st1))) with (lvs (ds_for st1)) in G. lia.
Qed.
Lemma rel_node d {A} k (m m' : D A) : post k = false -> rel (pred d) m m' -> rel d (@node TO A k m) (@node TO A k m').
Proof.
  intros K H st r st'. unfold node. cbn [node_by bind ret tree_ops]. unfold tr_node, tr_bind, tr_ret. destruct (m _) as [[a st1]| |] eqn:E; cbn [rbind]; try discriminate. cbn [fst snd]. intros R. injection R as <- <-. cbn [ds_for]. rewrite top_app, top_node. split; [lia|].
  destruct (H _ _ _ E) as [_ [Y|[Y Z]]]; rewrite Y; cbn [rbind]; [auto|]. right. split; [reflexivity|]. pose proof (node_level d k _ Z K). lia.
Qed.
Lemma rel_node_k d (m m' : D kind) : (forall st k st', m st = Ok (k, st') -> post k = false) -> rel (pred d) m m' -> rel d (@node_by TO m) (@node_by TO m').
Proof.
  intros K H st r st'. cbn [node_by tree_ops]. unfold tr_node. destruct (m _) as [[k st1]| |] eqn:E; cbn [rbind]; try discriminate. intros R. injection R as <- <-. cbn [ds_for]. rewrite top_app, top_node. split; [lia|].
  destruct (H _ _ _ E) as [_ [Y|[Y Z]]]; rewrite Y; cbn [rbind]; [auto|]. right. split; [reflexivity|]. pose proof (node_level d k _ Z (K _ _ _ E)). lia.
Qed.
Lemma rel_node_ d {A} k (m m' : D A) : post k = false -> rel (pred d) m m' -> rel d (@node_ TO A k m) (@node_ TO A k m').
Proof. intros K H. unfold node_. apply rel_bind; [now apply rel_node|]. intros a. apply rel_ret. Qed.
Lemma pre_top i st kt ft pre : skipn i (ds_for st) = PNode kt ft :: pre -> lvs (ds_for st) = Nat.max (lvs (firstn i (ds_for st))) (Nat.max (lvs [PNode kt ft]) (lvs pre)).
Proof. intros E. rewrite (top_skip _ i (ds_for st)), E, (top_cons _ (PNode kt ft) pre). reflexivity. Qed.
Lemma level_pre k kt ft pre f : Nat.max (lvs [PNode kt ft]) (Nat.max (lvs pre) (lvs f)) <= level_of k (kids level_of (PNode kt ft :: pre ++ f)).
Proof. etransitivity; [|apply level_ge]. change (list_max (kids level_of (PNode kt ft :: pre ++ f))) with (lvs (PNode kt ft :: pre ++ f)). rewrite (top_cons _ (PNode kt ft) (pre ++ f)), top_app. lia. Qed.
Lemma rel_pre_by d i (m m' : D kind) : rel d m m' -> rel d (@pre_node_by TO i m) (@pre_node_by TO i m').
Proof.
  intros H st r st'. cbn [pre_node_by tree_ops]. unfold tr_pre. destruct (skipn i (ds_for st)) as [|[| | |kt ft] pre] eqn:S; try discriminate. destruct (m _) as [[k st1]| |] eqn:E; cbn [rbind]; try discriminate.
  intros R. injection R as <- <-. cbn [ds_for]. rewrite top_app, top_node, (pre_top _ _ _ _ _ S). pose proof (level_pre k kt ft pre (ds_for st1)). split; [lia|].
  destruct (H _ _ _ E) as [_ [Y|[Y Z]]]; rewrite Y; cbn [rbind]; [auto|]. right. split; [reflexivity|]. lia.
Qed.
Lemma rel_pre d {A} i k (m m' : D A) : post k = true -> rel (pred d) m m' -> rel d (@pre_node TO A i k m) (@pre_node TO A i k m').
Proof.
  intros K H st r st'. unfold pre_node. cbn [pre_node_by bind ret tree_ops]. unfold tr_pre, tr_bind, tr_ret. destruct (skipn i (ds_for st)) as [|[| | |kt ft] pre] eqn:S; try discriminate.
  destruct (m _) as [[a st1]| |] eqn:E; cbn [rbind]; try discriminate. cbn [fst snd]. intros R. injection R as <- <-. cbn [ds_for]. rewrite top_app, top_node, (pre_top _ _ _ _ _ S). pose proof (level_pre k kt ft pre (ds_for st1)). split; [lia|].
  destruct (H _ _ _ E) as [_ [Y|[Y Z]]]; rewrite Y; cbn [rbind]; [auto|]. right. split; [reflexivity|].
  assert (G : d <= level_of k (kids level_of (PNode kt ft :: pre ++ ds_for st1))).
  { unfold level_of at 1. rewrite K. unfold kids. cbn [flat_map kid app]. change (list_max (flat_map (kid level_of) (pre ++ ds_for st1))) with (lvs (pre ++ ds_for st1)). rewrite top_app. cbn [ds_for] in Z. lia. }
  lia.
Qed.
Lemma rel_err_node d (m m' : D perr) : rel d m m' -> rel d (@err_node TO m) (@err_node TO m').
Proof.
  intros H st r st'. cbn [err_node tree_ops]. unfold tr_err_node. destruct (m _) as [[e st1]| |] eqn:E; cbn [rbind]; try discriminate. intros R. injection R as <- <-. cbn [ds_for]. rewrite top_app, top_errn. split; [lia|].
  destruct (H _ _ _ E) as [_ [Y|[Y Z]]]; rewrite Y; cbn [rbind]; [auto|]. right. split; [reflexivity|]. pose proof (level_ge KError (kids level_of (ds_for st1))) as G. change (list_max (kids level_of (ds_for st1))) with (lvs (ds_for st1)) in G. lia.
Qed.
Lemma rel_loop d (b b' : D bool) : rel d b b' -> forall n n', n <= n' -> rel d (@p_loop TO n b) (@p_loop TO n' b').
Proof. intros H. induction n as [|n IH]; intros n' L; cbn [p_loop]; [apply rel_out|]. destruct n' as [|n']; [lia|]. cbn [p_loop]. apply rel_bind; [exact H|]. intros [|]; [apply IH; lia|apply rel_ret]. Qed.
Lemma rel_while d (c c' : D bool) (b b' : D unit) n n' : rel d c c' -> rel d b b' -> n <= n' -> rel d (@p_while TO n c b) (@p_while TO n' c' b').
Proof. intros Hc Hb L. unfold p_while. apply rel_loop; [|exact L]. apply rel_bind; [exact Hc|]. intros [|]; [|apply rel_ret]. apply rel_bind; [exact Hb|]. intros a. apply rel_ret. Qed.

Create HintDb rl discriminated.
#[export] Hint Extern 1 (_ <= _) => lia : rl.
Ltac rl1 := first
  [ lazymatch goal with
    | |- rel _ (@bind _ _ _ _ _) _ => apply rel_bind; [|intros ?]
    | |- rel _ (@ret _ _ _) _ => apply rel_ret
    | |- rel _ (@panic _ _) _ => apply rel_panic
    | |- rel _ (@out _ _) _ => apply rel_out
    | |- rel _ (@p_nth _ _) _ => apply rel_nth
    | |- rel _ (@p_adv _) _ => apply rel_adv
    | |- rel _ (@p_push_error _ _) _ => apply rel_push
    | |- rel _ (@node_ _ _ _ _) _ => apply rel_node_; [reflexivity|]
    | |- rel _ (@node _ _ _ _) _ => apply rel_node; [reflexivity|]
    | |- rel _ (@pre_node _ _ _ _ _) _ => apply rel_pre; [reflexivity|]
    | |- rel _ (@pre_node_by _ _ _) _ => apply rel_pre_by
    | |- rel _ (@node_by _ _) _ => apply rel_node_by
    | |- rel _ (@err_node _ _) _ => apply rel_err_node
    | |- rel _ (@p_while _ _ _ _) _ => apply rel_while
    | |- rel _ (@p_loop _ _ _) _ => apply rel_loop
    | |- rel _ (if ?b then _ else _) _ => destruct b
    | |- rel _ (match ?o with Some _ => _ | None => _ end) _ => destruct o
    | |- rel _ (let (_, _) := ?o in _) _ => destruct o
    | |- rel _ (match ?o with pair _ _ => _ end) _ => destruct o
    | |- _ <= _ => lia
    end
  | solve [auto 3 with rl nocore] ].
Ltac rls := repeat rl1.
Lemma rel_current d : rel d (@p_current TO) (@p_current TO).
Proof. apply rel_nth. Qed.
#[export] Hint Resolve rel_current : rl.
Lemma rel_at d a : rel d (@p_at TO a) (@p_at TO a).
Proof. unfold p_at. rls. Qed.
#[export] Hint Resolve rel_at : rl.
Lemma rel_accept d a : rel d (@p_accept TO a) (@p_accept TO a).
Proof. unfold p_accept. rls. Qed.
Lemma rel_assert d b : rel d (@passert TO b) (@passert TO b).
Proof. unfold passert. rls. Qed.
#[export] Hint Resolve rel_accept rel_assert : rl.
Lemma rel_bump d a : rel d (@p_bump TO a) (@p_bump TO a).
Proof. unfold p_bump. rls. Qed.
Lemma rel_error d m : rel d (@p_error TO m) (@p_error TO m).
Proof. unfold p_error. rls. Qed.
#[export] Hint Resolve rel_bump rel_error : rl.
Lemma rel_recover d m s : rel d (@p_err_recover TO m s) (@p_err_recover TO m s).
Proof. unfold p_err_recover. rls. Qed.
Lemma rel_until d n n' m s : n <= n' -> rel d (@p_err_until TO n m s) (@p_err_until TO n' m s).
Proof. intros L. unfold p_err_until. rls. Qed.
Lemma rel_bump_ts d s : rel d (@p_bump_ts TO s) (@p_bump_ts TO s).
Proof. unfold p_bump_ts. rls. Qed.
Lemma rel_expect d k : rel d (@p_expect TO k) (@p_expect TO k).
Proof. unfold p_expect. rls. Qed.
#[export] Hint Resolve rel_recover rel_until rel_bump_ts rel_expect : rl.
Lemma rel_and_bump d m : rel d (@p_err_and_bump TO m) (@p_err_and_bump TO m).
Proof. unfold p_err_and_bump. rls. Qed.
Lemma rel_name_unchecked d : rel d (@name_unchecked TO) (@name_unchecked TO).
Proof. unfold name_unchecked. rls. Qed.
Lemma rel_name_ref_unchecked d : rel d (@name_ref_unchecked TO) (@name_ref_unchecked TO).
Proof. unfold name_ref_unchecked. rls. Qed.
#[export] Hint Resolve rel_and_bump rel_name_unchecked rel_name_ref_unchecked : rl.
Lemma rel_name_r d s : rel d (@name_r TO s) (@name_r TO s).
Proof. unfold name_r. rls. Qed.
Lemma rel_name_ref_r d s : rel d (@name_ref_r TO s) (@name_ref_r TO s).
Proof. unfold name_ref_r. rls. Qed.
Lemma rel_name_ref d : rel d (@name_ref TO) (@name_ref TO).
Proof. unfold name_ref. rls. Qed.
Lemma rel_name d : rel d (@name TO) (@name TO).
Proof. unfold name. rls. Qed.
#[export] Hint Resolve rel_name_r rel_name_ref_r rel_name_ref rel_name : rl.
Lemma rel_multi_name d n n' s v : n <= n' -> rel d (@multi_name_r TO n s v) (@multi_name_r TO n' s v).
Proof. intros L. unfold multi_name_r. rls. Qed.
#[export] Hint Resolve rel_multi_name : rl.
Lemma rel_params d n n' : n <= n' -> rel d (@param_list TO n) (@param_list TO n').
Proof. intros L. unfold param_list. rls. Qed.
Lemma rel_literal d : rel d (@literal TO) (@literal TO).
Proof. unfold literal. rls. Qed.
Lemma rel_sep d : rel d (@table_sep TO) (@table_sep TO).
Proof. unfold table_sep. rls. Qed.
Lemma rel_table_correct d n n' : n <= n' -> rel d (@table_correct TO n) (@table_correct TO n').
Proof. intros L. unfold table_correct. rls. Qed.
Lemma rel_dot d l : rel d (@dot_expr TO l) (@dot_expr TO l).
Proof. unfold dot_expr. rls. Qed.
Lemma rel_goto d : rel d (@goto_stmt TO) (@goto_stmt TO).
Proof. unfold goto_stmt. rls. Qed.
Lemma rel_label d : rel d (@label_stmt TO) (@label_stmt TO).
Proof. unfold label_stmt, label_delim. rls. Qed.
Lemma rel_break d : rel d (@break_stmt TO) (@break_stmt TO).
Proof. unfold break_stmt. rls. Qed.
Lemma rel_path d n n' : n <= n' -> rel d (@index_path TO n) (@index_path TO n').
Proof. intros L. unfold index_path. rls. Qed.
#[export] Hint Resolve rel_params rel_literal rel_sep rel_table_correct rel_dot rel_goto rel_label rel_break rel_path : rl.
Lemma rel_fname d n n' : n <= n' -> rel d (@function_def_content TO n) (@function_def_content TO n').
Proof. intros L. unfold function_def_content. rls. Qed.
#[export] Hint Resolve rel_fname : rl.

Section Open.
Variables n n' e : nat.
Variables stmt stmt' : D unit.
Variables ex ex' : nat -> D (option nat).
Hypothesis L : n <= n'.
Hypothesis HS : forall d, d <= e -> rel d stmt stmt'.
Hypothesis HE : forall b d, d <= e -> rel d (ex b) (ex' b).
Hint Resolve HS HE : rl.
Lemma rel_block_raw d s : d <= S e -> rel d (@block_raw TO n stmt s) (@block_raw TO n' stmt' s).
Proof. intros H. unfold block_raw. rls. Qed.
Lemma rel_block d : d <= S e -> rel d (@block TO n stmt) (@block TO n' stmt').
Proof. apply rel_block_raw. Qed.
Lemma rel_single d : d <= e -> rel d (@expr_single TO ex) (@expr_single TO ex').
Proof. apply HE. Qed.
Hint Resolve rel_block rel_single : rl.
Lemma rel_expr d : d <= S e -> rel d (@expr TO n ex) (@expr TO n' ex').
Proof. intros H. unfold expr, expr_multi. rls. Qed.
Lemma rel_paren d : d <= S e -> rel d (@paren_expr TO ex) (@paren_expr TO ex').
Proof. intros H. unfold paren_expr. rls. Qed.
Lemma rel_index d : d <= S e -> rel d (@index TO ex) (@index TO ex').
Proof. intros H. unfold index. rls. Qed.
Hint Resolve rel_expr rel_paren rel_index : rl.
Lemma rel_table_content d : d <= S e -> rel d (@table_content TO ex) (@table_content TO ex').
Proof. intros H. unfold table_content. rls. Qed.
Lemma rel_table_inner d : rel d (@table_inner TO n) (@table_inner TO n').
Proof. unfold table_inner. rls. Qed.
Hint Resolve rel_table_content rel_table_inner : rl.
Lemma rel_table d : d <= S e -> rel d (@table_expr TO n ex) (@table_expr TO n' ex').
Proof. intros H. unfold table_expr. rls. Qed.
Lemma rel_function d : d <= S e -> rel d (@function_expr TO n stmt) (@function_expr TO n' stmt').
Proof. intros H. unfold function_expr. rls. Qed.
Lemma rel_arg_list d : d <= S e -> rel d (@arg_list TO n ex) (@arg_list TO n' ex').
Proof. intros H. unfold arg_list. rls. Qed.
Hint Resolve rel_table rel_function rel_arg_list : rl.
Lemma rel_call_args d : d <= S e -> rel d (@call_args TO n ex) (@call_args TO n' ex').
Proof. intros H. unfold call_args. rls. Qed.
Hint Resolve rel_call_args : rl.
Lemma rel_call d l : d <= S e -> rel d (@call_expr TO n ex l) (@call_expr TO n' ex' l).
Proof. intros H. unfold call_expr. rls. Qed.
Lemma rel_index_expr d l : d <= S e -> rel d (@index_expr TO ex l) (@index_expr TO ex' l).
Proof. intros H. unfold index_expr. rls. Qed.
Lemma rel_method d l : d <= S e -> rel d (@method_call_expr TO n ex l) (@method_call_expr TO n' ex' l).
Proof. intros H. unfold method_call_expr. rls. Qed.
Hint Resolve rel_call rel_index_expr rel_method : rl.
Lemma rel_postfix d : d <= S e -> forall m m' l c, m <= m' -> rel d (@postfix_expr TO n ex m l c) (@postfix_expr TO n' ex' m' l c).
Proof. intros H. induction m as [|m IH]; intros m' l c K; cbn [postfix_expr]; [apply rel_out|]. destruct m' as [|m']; [lia|]. cbn [postfix_expr]. assert (m <= m') by lia. rls. Qed.
Lemma rel_prefix d r : d <= S e -> rel d (@prefix_expr TO ex r) (@prefix_expr TO ex' r).
Proof.
  intros H. unfold prefix_expr. apply rel_bind; [|intros a; apply rel_ret]. apply rel_node_k.
  - intros st k st' E. cbn [bind ret panic tree_ops] in E. unfold tr_bind in E. destruct (@p_bump TO PAny st) as [[a st1]| |]; try discriminate E. cbn [rbind fst snd] in E. destruct (ex r st1) as [[[o|] st2]| |]; try discriminate E.
    cbn [rbind fst snd] in E. injection E as <- _. reflexivity.
  - rls.
Qed.
Hint Resolve rel_postfix rel_prefix : rl.
Lemma rel_atom d : d <= S e -> rel d (@atom_expr TO n stmt ex) (@atom_expr TO n' stmt' ex').
Proof. intros H. unfold atom_expr. rls. Qed.
Hint Resolve rel_atom : rl.
Lemma rel_lhs d : d <= S e -> rel d (@lhs TO n stmt ex) (@lhs TO n' stmt' ex').
Proof. intros H. unfold lhs. rls. Qed.
Hint Resolve rel_lhs : rl.
Lemma rel_infix d b : d <= S e -> forall m m' l, m <= m' -> rel d (@infix_loop TO ex m b l) (@infix_loop TO ex' m' b l).
Proof. intros H. induction m as [|m IH]; intros m' l K; cbn [infix_loop]; [apply rel_out|]. destruct m' as [|m']; [lia|]. cbn [infix_loop]. assert (m <= m') by lia. rls. Qed.
Hint Resolve rel_infix : rl.
Lemma rel_expr_bp d b : d <= S e -> rel d (@expr_bp_body TO n stmt ex b) (@expr_bp_body TO n' stmt' ex' b).
Proof. intros H. unfold expr_bp_body. rls. Qed.
Lemma rel_else d : d <= S e -> rel d (@else_branch TO n stmt) (@else_branch TO n' stmt').
Proof. intros H. unfold else_branch. rls. Qed.
Hint Resolve rel_else : rl.
Variables el el' : D unit.
Hypothesis HI : forall d, d <= e -> rel d el el'.
Hint Resolve HI : rl.
Lemma rel_if d : d <= S e -> rel d (@if_stmt_d TO n stmt ex el) (@if_stmt_d TO n' stmt' ex' el').
Proof. intros H. unfold if_stmt_d. rls. Qed.
Lemma rel_elseif d : d <= S e -> rel d (@elseif_body TO n stmt ex el) (@elseif_body TO n' stmt' ex' el').
Proof. intros H. unfold elseif_body. rls. Qed.
End Open.

(** [stmt] with its [if] apart. *)
Lemma stmt_split n (stmt : D unit) ex st : @stmt_body TO n stmt ex st = @stmt_body_d TO n stmt ex (@elseif_branch TO n stmt ex n) st.
Proof.
  unfold stmt_body_d. cbn [bind tree_ops]. unfold tr_bind at 1. unfold p_current at 1. cbn [p_nth tree_ops]. unfold tr_nth at 1. cbn [rbind fst snd].
  destruct (kind_eqb (nth 0 (ds_rem st) KEof) KIfKw) eqn:K; [|reflexivity].
  unfold stmt_body. cbn [bind tree_ops]. unfold tr_bind at 1. unfold tr_bind at 1. unfold p_current at 1. cbn [p_nth tree_ops]. unfold tr_nth at 1. cbn [rbind fst snd]. rewrite K. reflexivity.
Qed.
Section Stmt.
Variables n n' e : nat.
Variables stmt stmt' : D unit.
Variables ex ex' : nat -> D (option nat).
Hypothesis L : n <= n'.
Hypothesis HS : forall d, d <= e -> rel d stmt stmt'.
Hypothesis HE : forall b d, d <= e -> rel d (ex b) (ex' b).
Hint Resolve HS HE : rl.
Lemma rel_elseif_same : forall m m' d, m <= m' -> d <= S e -> rel d (@elseif_branch TO n stmt ex m) (@elseif_branch TO n' stmt' ex' m').
Proof.
  induction m as [|m IH]; intros m' d K H; [apply rel_out|]. destruct m' as [|m']; [lia|]. cbn [elseif_branch].
  apply (rel_elseif n n' e stmt stmt' ex ex' L HS HE (@elseif_branch TO n stmt ex m) (@elseif_branch TO n' stmt' ex' m')); [|exact H]. intros k I. apply IH; lia.
Qed.
Lemma rel_stmt_same d : d <= S e -> rel d (@stmt_body TO n stmt ex) (@stmt_body TO n' stmt' ex').
Proof.
  intros H. pose proof (rel_elseif_same n n') as HI. pose proof (rel_block n n' e stmt stmt' L HS). pose proof (rel_else n n' e stmt stmt' L HS). pose proof (rel_expr n n' e ex ex' L HE). pose proof (rel_single e ex ex' HE).
  unfold stmt_body, if_stmt, local_stmt, local_function_def_stmt, local_assign_stmt, repeat_until_stmt, function_def_stmt, return_stmt, do_stmt, while_stmt, for_stmt, for_content, numeric_for, generic_for, expr_stmt. rls.
Qed.
Variables el' : D unit.
Hypothesis HI : forall d, d <= e -> rel d (@elseif_branch TO n stmt ex n) el'.
Lemma rel_stmt d : d <= S e -> rel d (@stmt_body TO n stmt ex) (@stmt_body_d TO n' stmt' ex' el').
Proof.
  intros H st r st' E. rewrite stmt_split in E. revert st r st' E. change (rel d (@stmt_body_d TO n stmt ex (@elseif_branch TO n stmt ex n)) (@stmt_body_d TO n' stmt' ex' el')).
  pose proof (rel_if n n' e stmt stmt' ex ex' L HS HE _ _ HI). pose proof rel_stmt_same.
  unfold stmt_body_d. rls.
Qed.
Lemma rel_root d : d <= S (S e) -> rel d (@root TO n stmt) (@root TO n' stmt').
Proof. intros H. unfold root, root_block. pose proof (rel_block_raw n n' e stmt stmt' L HS). rls. Qed.
End Stmt.

Lemma rel_mono {A} d (m m' : D A) : rel d m m' -> rel 0 m (@out TO A).
Proof. intros H. apply rel_0. intros st r st' E. apply (H _ _ _ E). Qed.
Lemma same_knot : forall n, rel 0 (@stmt_f TO n) (@stmt_f TO n) /\ forall b, rel 0 (@expr_f TO n b) (@expr_f TO n b).
Proof.
  induction n as [|n [IS IE]]; cbn [stmt_f expr_f]; [split; intros; apply rel_out|].
  assert (IS' : forall d, d <= 0 -> rel d (@stmt_f TO n) (@stmt_f TO n)) by (intros d I; apply (rel_less 0); [lia|exact IS]).
  assert (IE' : forall b d, d <= 0 -> rel d (@expr_f TO n b) (@expr_f TO n b)) by (intros b d I; apply (rel_less 0); [lia|apply IE]).
  split; [apply (rel_stmt_same n n 0); auto|]. intros b. apply (rel_expr_bp n n 0); auto.
Qed.
Theorem rel_knot n' : forall n d, n <= n' -> (forall k, k <= d -> rel k (@stmt_f TO n) (@stmt_d TO n' d)) /\ (forall b k, k <= d -> rel k (@expr_f TO n b) (@expr_d TO n' d b)) /\
  forall m k, k <= d -> rel k (@elseif_branch TO n (@stmt_f TO n) (@expr_f TO n) m) (@elseif_d TO n' d).
Proof.
  assert (EL : forall n d, n <= n' -> (forall d k, k <= d -> rel k (@stmt_f TO n) (@stmt_d TO n' d)) -> (forall d b k, k <= d -> rel k (@expr_f TO n b) (@expr_d TO n' d b)) ->
    forall m k, k <= d -> rel k (@elseif_branch TO n (@stmt_f TO n) (@expr_f TO n) m) (@elseif_d TO n' d)).
  { intros n d Ln IS IE m. revert d. induction m as [|m IHm]; intros d k I; [apply rel_out|]. destruct d as [|d].
    - assert (k = 0) as -> by lia. destruct (same_knot n) as [A B]. apply (rel_mono 0 _ (@elseif_branch TO n (@stmt_f TO n) (@expr_f TO n) (S m))).
      apply (rel_elseif_same n n 0); auto; [intros d J; apply (rel_less 0); [lia|exact A]|intros b d J; apply (rel_less 0); [lia|apply B]].
    - cbn [elseif_branch elseif_d]. apply (rel_elseif n n' d); auto. }
  induction n as [|n IH]; intros d Ln.
  - split; [intros; apply rel_out|]. split; [intros; apply rel_out|]. intros m k I. apply EL; auto; intros; apply rel_out.
  - assert (IHd : forall d, _) by (intros x; exact (IH x ltac:(lia))). clear IH.
    assert (IS : forall d k, k <= d -> rel k (@stmt_f TO (S n)) (@stmt_d TO n' d)).
    { intros [|x] k I; [assert (k = 0) as -> by lia; apply (rel_mono 0 _ (@stmt_f TO (S n))), same_knot|]. destruct (IHd x) as (A & B & C). cbn [stmt_f stmt_d]. apply (rel_stmt n n' x); auto; lia. }
    assert (IE : forall d b k, k <= d -> rel k (@expr_f TO (S n) b) (@expr_d TO n' d b)).
    { intros [|x] b k I; [assert (k = 0) as -> by lia; apply (rel_mono 0 _ (@expr_f TO (S n) b)), same_knot|]. destruct (IHd x) as (A & B & C). cbn [expr_f expr_d]. apply (rel_expr_bp n n' x); auto; lia. }
    split; [apply IS|]. split; [apply IE|]. intros m k I. apply EL; auto.
Qed.
Theorem rel_root_d n d : rel (S (S d)) (@root_f TO n) (@root_d TO n d).
Proof. unfold root_f, root_d. apply (rel_root n n d); auto. intros k I. now apply rel_knot. Qed.

(** * Needed *)

Notation nst := (top nest_of).
Lemma nest_le k l : nest_of k l <= S (list_max l).
Proof. unfold nest_of. destruct (encl k); lia. Qed.
Definition low (d : nat) {A} (m : D A) : Prop := forall st r st', m st = Ok (r, st') -> nst (ds_for st') <= Nat.max d (nst (ds_for st)).
Lemma low_more d d' {A} (m : D A) : d <= d' -> low d m -> low d' m.
Proof. intros L H st r st' E. pose proof (H st r st' E). lia. Qed.
Lemma low_out d {A} : low d (@out TO A).
Proof. intros st r st' H. discriminate H. Qed.
Lemma low_panic d {A} : low d (@panic TO A).
Proof. intros st r st' H. discriminate H. Qed.
Lemma low_ret d {A} (a : A) : low d (@ret TO A a).
Proof. intros st r st' H. injection H as <- <-. lia. Qed.
Lemma low_nth d n : low d (@p_nth TO n).
Proof. intros st r st' H. injection H as <- <-. lia. Qed.
Lemma low_adv d : low d (@p_adv TO).
Proof.
  intros st r st' H. cbn [p_adv tree_ops] in H. unfold tr_adv in H. destruct (ds_rem st) as [|k l]; [discriminate|]. destruct (kind_eqb k KEof); [discriminate|].
  injection H as <- <-. cbn [ds_for]. rewrite top_app, top_tok. lia.
Qed.
Lemma low_push d e : low d (@p_push_error TO e).
Proof. intros st r st' H. injection H as <- <-. cbn [ds_for]. rewrite top_app, top_err. lia. Qed.
Lemma low_bind d {A B} (m : D A) (f : A -> D B) : low d m -> (forall a, low d (f a)) -> low d (@bind TO A B m f).
Proof.
  intros H1 H2 st r st'. cbn [bind tree_ops]. unfold tr_bind. destruct (m st) as [[a st1]| |] eqn:E; cbn [rbind]; try discriminate. cbn [fst snd]. intros E2. pose proof (H1 _ _ _ E). pose proof (H2 a _ _ _ E2). lia.
Qed.
(** A node of any kind. *)
Lemma low_node_by d (m : D kind) : low d m -> low (S d) (@node_by TO m).
Proof.
  intros H st r st'. cbn [node_by tree_ops]. unfold tr_node. destruct (m _) as [[k st1]| |] eqn:E; cbn [rbind]; try discriminate. intros R. injection R as <- <-. cbn [ds_for]. rewrite top_app, top_node.
  pose proof (nest_le k (kids nest_of (ds_for st1))) as G. change (list_max (kids nest_of (ds_for st1))) with (nst (ds_for st1)) in G. pose proof (H _ _ _ E) as Y. cbn [ds_for] in Y. change (nst []) with 0 in Y. lia.
Qed.
(** A node that encloses nothing. *)
Lemma low_node_k d (m : D kind) : (forall st k st', m st = Ok (k, st') -> encl k = false) -> low d m -> low d (@node_by TO m).
Proof.
  intros K H st r st'. cbn [node_by tree_ops]. unfold tr_node. destruct (m _) as [[k st1]| |] eqn:E; cbn [rbind]; try discriminate. intros R. injection R as <- <-. cbn [ds_for]. rewrite top_app, top_node.
  unfold nest_of at 2. rewrite (K _ _ _ E). change (list_max (kids nest_of (ds_for st1))) with (nst (ds_for st1)). pose proof (H _ _ _ E) as Y. cbn [ds_for] in Y. change (nst []) with 0 in Y. lia.
Qed.
Lemma ret_kind {A} (m : D A) k : forall st k' st', @bind TO A kind m (fun _ => @ret TO kind k) st = Ok (k', st') -> k' = k.
Proof. intros st k' st' E. cbn [bind ret tree_ops] in E. unfold tr_bind in E. destruct (m st) as [[a st1]| |]; try discriminate E. cbn [rbind fst snd] in E. injection E as <- _. reflexivity. Qed.
Lemma low_encl d {A} k (m : D A) : 1 <= d -> low (pred d) m -> low d (@node TO A k m).
Proof. intros I H. destruct d as [|d]; [lia|]. unfold node. apply low_node_by, low_bind; [exact H|]. intros a. apply low_ret. Qed.
Lemma low_node d {A} k (m : D A) : encl k = false -> low d m -> low d (@node TO A k m).
Proof. intros K H. unfold node. apply low_node_k; [intros st k' st' E; now rewrite (ret_kind m k _ _ _ E)|]. apply low_bind; [exact H|]. intros a. apply low_ret. Qed.
Lemma low_encl_ d {A} k (m : D A) : 1 <= d -> low (pred d) m -> low d (@node_ TO A k m).
Proof. intros I H. unfold node_. apply low_bind; [now apply low_encl|]. intros a. apply low_ret. Qed.
Lemma low_node_ d {A} k (m : D A) : encl k = false -> low d m -> low d (@node_ TO A k m).
Proof. intros K H. unfold node_. apply low_bind; [now apply low_node|]. intros a. apply low_ret. Qed.
Lemma low_pre_by d i (m : D kind) : (forall st k st', m st = Ok (k, st') -> encl k = false) -> low d m -> low d (@pre_node_by TO i m).
Proof.
  intros K H st r st'. cbn [pre_node_by tree_ops]. unfold tr_pre. destruct (skipn i (ds_for st)) as [|[| | |kt ft] pre] eqn:S; try discriminate. destruct (m _) as [[k st1]| |] eqn:E; cbn [rbind]; try discriminate.
  intros R. injection R as <- <-. cbn [ds_for]. rewrite top_app, top_node, (top_skip _ i (ds_for st)), S, (top_cons _ (PNode kt ft) pre).
  unfold nest_of at 2. rewrite (K _ _ _ E). change (list_max (kids nest_of (PNode kt ft :: pre ++ ds_for st1))) with (nst (PNode kt ft :: pre ++ ds_for st1)). rewrite (top_cons _ (PNode kt ft) (pre ++ ds_for st1)), top_app.
  pose proof (H _ _ _ E) as Y. cbn [ds_for] in Y. change (nst []) with 0 in Y. lia.
Qed.
Lemma low_pre d {A} i k (m : D A) : encl k = false -> low d m -> low d (@pre_node TO A i k m).
Proof. intros K H. unfold pre_node. apply low_pre_by; [intros st k' st' E; now rewrite (ret_kind m k _ _ _ E)|]. apply low_bind; [exact H|]. intros a. apply low_ret. Qed.
Lemma low_err_node d (m : D perr) : low d m -> low d (@err_node TO m).
Proof.
  intros H st r st'. cbn [err_node tree_ops]. unfold tr_err_node. destruct (m _) as [[e st1]| |] eqn:E; cbn [rbind]; try discriminate. intros R. injection R as <- <-. cbn [ds_for]. rewrite top_app, top_errn.
  change (nest_of KError (kids nest_of (ds_for st1))) with (nst (ds_for st1)). pose proof (H _ _ _ E) as Y. cbn [ds_for] in Y. change (nst []) with 0 in Y. lia.
Qed.
Lemma low_loop d (b : D bool) : low d b -> forall n, low d (@p_loop TO n b).
Proof. intros H. induction n as [|n IH]; cbn [p_loop]; [apply low_out|]. apply low_bind; [exact H|]. intros [|]; [exact IH|apply low_ret]. Qed.
Lemma low_while d (c : D bool) (b : D unit) n : low d c -> low d b -> low d (@p_while TO n c b).
Proof. intros Hc Hb. unfold p_while. apply low_loop. apply low_bind; [exact Hc|]. intros [|]; [|apply low_ret]. apply low_bind; [exact Hb|]. intros a. apply low_ret. Qed.

Create HintDb lw discriminated.
#[export] Hint Extern 1 (_ <= _) => lia : lw.
Ltac lw1 := first
  [ lazymatch goal with
    | |- low _ (@bind _ _ _ _ _) => apply low_bind; [|intros ?]
    | |- low _ (@ret _ _ _) => apply low_ret
    | |- low _ (@panic _ _) => apply low_panic
    | |- low _ (@out _ _) => apply low_out
    | |- low _ (@p_nth _ _) => apply low_nth
    | |- low _ (@p_adv _) => apply low_adv
    | |- low _ (@p_push_error _ _) => apply low_push
    | |- low _ (@node_ _ _ _ _) => first [apply low_node_; [reflexivity|] | apply low_encl_; [lia|]]
    | |- low _ (@node _ _ _ _) => first [apply low_node; [reflexivity|] | apply low_encl; [lia|]]
    | |- low _ (@pre_node _ _ _ _ _) => apply low_pre; [reflexivity|]
    | |- low _ (@err_node _ _) => apply low_err_node
    | |- low _ (@p_while _ _ _ _) => apply low_while
    | |- low _ (@p_loop _ _ _) => apply low_loop
    | |- low _ (if ?b then _ else _) => destruct b
    | |- low _ (match ?o with Some _ => _ | None => _ end) => destruct o
    | |- low _ (let (_, _) := ?o in _) => destruct o
    | |- low _ (match ?o with pair _ _ => _ end) => destruct o
    | |- _ <= _ => lia
    end
  | solve [auto 3 with lw nocore] ].
Ltac lws := repeat lw1.
Lemma low_current d : low d (@p_current TO).
Proof. apply low_nth. Qed.
#[export] Hint Resolve low_current : lw.
Lemma low_at d a : low d (@p_at TO a).
Proof. unfold p_at. lws. Qed.
#[export] Hint Resolve low_at : lw.
Lemma low_accept d a : low d (@p_accept TO a).
Proof. unfold p_accept. lws. Qed.
Lemma low_assert d b : low d (@passert TO b).
Proof. unfold passert. lws. Qed.
#[export] Hint Resolve low_accept low_assert : lw.
Lemma low_bump d a : low d (@p_bump TO a).
Proof. unfold p_bump. lws. Qed.
Lemma low_error d m : low d (@p_error TO m).
Proof. unfold p_error. lws. Qed.
#[export] Hint Resolve low_bump low_error : lw.
Lemma low_recover d m s : low d (@p_err_recover TO m s).
Proof. unfold p_err_recover. lws. Qed.
Lemma low_until d n m s : low d (@p_err_until TO n m s).
Proof. unfold p_err_until. lws. Qed.
Lemma low_bump_ts d s : low d (@p_bump_ts TO s).
Proof. unfold p_bump_ts. lws. Qed.
Lemma low_expect d k : low d (@p_expect TO k).
Proof. unfold p_expect. lws. Qed.
#[export] Hint Resolve low_recover low_until low_bump_ts low_expect : lw.
Lemma low_and_bump d m : low d (@p_err_and_bump TO m).
Proof. unfold p_err_and_bump. lws. Qed.
Lemma low_name_unchecked d : low d (@name_unchecked TO).
Proof. unfold name_unchecked. lws. Qed.
Lemma low_name_ref_unchecked d : low d (@name_ref_unchecked TO).
Proof. unfold name_ref_unchecked. lws. Qed.
#[export] Hint Resolve low_and_bump low_name_unchecked low_name_ref_unchecked : lw.
Lemma low_name_r d s : low d (@name_r TO s).
Proof. unfold name_r. lws. Qed.
Lemma low_name_ref_r d s : low d (@name_ref_r TO s).
Proof. unfold name_ref_r. lws. Qed.
Lemma low_name_ref d : low d (@name_ref TO).
Proof. unfold name_ref. lws. Qed.
Lemma low_name d : low d (@name TO).
Proof. unfold name. lws. Qed.
#[export] Hint Resolve low_name_r low_name_ref_r low_name_ref low_name : lw.
Lemma low_multi_name d n s v : low d (@multi_name_r TO n s v).
Proof. unfold multi_name_r. lws. Qed.
#[export] Hint Resolve low_multi_name : lw.
Lemma low_params d n : low d (@param_list TO n).
Proof. unfold param_list. lws. Qed.
Lemma low_literal d : low d (@literal TO).
Proof. unfold literal. lws. Qed.
Lemma low_sep d : low d (@table_sep TO).
Proof. unfold table_sep. lws. Qed.
Lemma low_table_correct d n : low d (@table_correct TO n).
Proof. unfold table_correct. lws. Qed.
Lemma low_dot d l : low d (@dot_expr TO l).
Proof. unfold dot_expr. lws. Qed.
Lemma low_goto d : low d (@goto_stmt TO).
Proof. unfold goto_stmt. lws. Qed.
Lemma low_label d : low d (@label_stmt TO).
Proof. unfold label_stmt, label_delim. lws. Qed.
Lemma low_break d : low d (@break_stmt TO).
Proof. unfold break_stmt. lws. Qed.
Lemma low_path d n : low d (@index_path TO n).
Proof. unfold index_path. lws. Qed.
#[export] Hint Resolve low_params low_literal low_sep low_table_correct low_dot low_goto low_label low_break low_path : lw.
Ltac kinds E := cbn [bind ret panic tree_ops] in E; unfold tr_bind, tr_ret, tr_panic in E;
  repeat match type of E with
  | rbind ?m _ = _ => destruct m as [[? ?]| |]; try discriminate E; cbn [rbind fst snd] in E
  | (if ?b then _ else _) _ = _ => destruct b
  | (match ?o with Some _ => _ | None => _ end) _ = _ => destruct o; try discriminate E
  | Ok _ = Ok _ => injection E as <- _; reflexivity
  end.
Lemma low_fname d n : low d (@function_def_content TO n).
Proof. unfold function_def_content. lws. apply low_pre_by; [intros st k st' E; kinds E|]. lws. Qed.
#[export] Hint Resolve low_fname : lw.

Section Open.
Variables n e : nat.
Variable stmt : D unit.
Variable ex : nat -> D (option nat).
Variable el : D unit.
Hypothesis HS : forall d, e <= d -> low d stmt.
Hypothesis HE : forall b d, e <= d -> low d (ex b).
Hypothesis HI : forall d, e <= d -> low d el.
Hint Resolve HS HE HI : lw.
Lemma low_block_raw d s : e <= d -> low d (@block_raw TO n stmt s).
Proof. intros H. unfold block_raw. lws. Qed.
Lemma low_block d : e <= d -> low d (@block TO n stmt).
Proof. apply low_block_raw. Qed.
Lemma low_single d : e <= d -> low d (@expr_single TO ex).
Proof. apply HE. Qed.
Hint Resolve low_block low_single : lw.
Lemma low_expr d : e <= d -> low d (@expr TO n ex).
Proof. intros H. unfold expr, expr_multi. lws. Qed.
Lemma low_paren d : S e <= d -> low d (@paren_expr TO ex).
Proof. intros H. unfold paren_expr. lws. Qed.
Lemma low_index d : e <= d -> low d (@index TO ex).
Proof. intros H. unfold index. lws. Qed.
Hint Resolve low_expr low_paren low_index : lw.
Lemma low_table_content d : e <= d -> low d (@table_content TO ex).
Proof. intros H. unfold table_content. lws. Qed.
Lemma low_table_inner d : low d (@table_inner TO n).
Proof. unfold table_inner. lws. Qed.
Hint Resolve low_table_content low_table_inner : lw.
Lemma low_table d : S e <= d -> low d (@table_expr TO n ex).
Proof. intros H. unfold table_expr. lws. Qed.
Lemma low_function d : S e <= d -> low d (@function_expr TO n stmt).
Proof. intros H. unfold function_expr. lws. Qed.
Lemma low_arg_list d : S e <= d -> low d (@arg_list TO n ex).
Proof. intros H. unfold arg_list. lws. Qed.
Hint Resolve low_table low_function low_arg_list : lw.
Lemma low_call_args d : S e <= d -> low d (@call_args TO n ex).
Proof. intros H. unfold call_args. lws. Qed.
Hint Resolve low_call_args : lw.
Lemma low_call d l : S e <= d -> low d (@call_expr TO n ex l).
Proof. intros H. unfold call_expr. lws. Qed.
Lemma low_index_expr d l : e <= d -> low d (@index_expr TO ex l).
Proof. intros H. unfold index_expr. lws. Qed.
Lemma low_method d l : S e <= d -> low d (@method_call_expr TO n ex l).
Proof. intros H. unfold method_call_expr. lws. Qed.
Hint Resolve low_call low_index_expr low_method : lw.
Lemma low_postfix d : S e <= d -> forall m l c, low d (@postfix_expr TO n ex m l c).
Proof. intros H. induction m as [|m IH]; intros l c; cbn [postfix_expr]; [apply low_out|]. lws. Qed.
Lemma low_prefix d r : S e <= d -> low d (@prefix_expr TO ex r).
Proof. intros H. unfold prefix_expr. apply low_bind; [|intros a; apply low_ret]. destruct d as [|d]; [lia|]. apply low_node_by. lws. Qed.
Hint Resolve low_postfix low_prefix : lw.
Lemma low_atom d : S e <= d -> low d (@atom_expr TO n stmt ex).
Proof. intros H. unfold atom_expr. lws. Qed.
Hint Resolve low_atom : lw.
Lemma low_lhs d : S e <= d -> low d (@lhs TO n stmt ex).
Proof. intros H. unfold lhs. lws. Qed.
Hint Resolve low_lhs : lw.
Lemma low_infix d b : e <= d -> forall m l, low d (@infix_loop TO ex m b l).
Proof. intros H. induction m as [|m IH]; intros l; cbn [infix_loop]; [apply low_out|]. lws. Qed.
Hint Resolve low_infix : lw.
Lemma low_expr_bp d b : S e <= d -> low d (@expr_bp_body TO n stmt ex b).
Proof. intros H. unfold expr_bp_body. lws. Qed.
Lemma low_else d : e <= d -> low d (@else_branch TO n stmt).
Proof. intros H. unfold else_branch. lws. Qed.
Hint Resolve low_else : lw.
Lemma low_if d : S e <= d -> low d (@if_stmt_d TO n stmt ex el).
Proof. intros H. unfold if_stmt_d. lws. Qed.
Lemma low_elseif d : S e <= d -> low d (@elseif_body TO n stmt ex el).
Proof. intros H. unfold elseif_body. lws. Qed.
Hint Resolve low_if : lw.
Lemma low_expr_stmt d : e <= d -> low d (@expr_stmt TO n ex).
Proof.
  intros H. unfold expr_stmt. apply low_bind; [|intros a; apply low_ret]. apply low_node_k; [|lws].
  intros st k st' E. cbn [bind tree_ops] in E. unfold tr_bind in E. destruct (@expr TO n ex st) as [[a st1]| |]; try discriminate E. cbn [rbind fst snd] in E.
  destruct (@p_accept TO (PKind KEq) st1) as [[[|] st2]| |]; try discriminate E; cbn [rbind fst snd] in E; [|injection E as <- _; reflexivity].
  destruct (@expr TO n ex st2) as [[a3 st3]| |]; try discriminate E. cbn [rbind fst snd] in E. injection E as <- _; reflexivity.
Qed.
Hint Resolve low_expr_stmt : lw.
Lemma bind_cur {A B} (F : kind -> D A) (G : A -> D B) st : @bind TO A B (@bind TO kind A (@p_current TO) F) G st = @bind TO A B (F (nth 0 (ds_rem st) KEof)) G st.
Proof. reflexivity. Qed.
(** The [if] of [stmt_body] is not reached in [stmt_body_d]. *)
Lemma low_rest d : S e <= d -> forall st r st', kind_eqb (nth 0 (ds_rem st) KEof) KIfKw = false -> @stmt_body TO n stmt ex st = Ok (r, st') -> nst (ds_for st') <= Nat.max d (nst (ds_for st)).
Proof.
  intros H st r st' K E. unfold stmt_body in E.
  rewrite bind_cur in E. cbv beta in E.
  rewrite K in E. cbv iota in E. revert E.
  match goal with |- ?X st = _ -> _ => assert (Y : low d X) end.
  { clear K. generalize (nth 0 (ds_rem st) KEof). intros c.
    unfold local_stmt, local_function_def_stmt, local_assign_stmt, repeat_until_stmt, function_def_stmt, return_stmt, do_stmt, while_stmt, for_stmt, for_content, numeric_for, generic_for.
    lws. }
  apply Y.
Qed.
Lemma low_stmt d : S e <= d -> low d (@stmt_body_d TO n stmt ex el).
Proof.
  intros H st r st' E. unfold stmt_body_d in E. cbn [bind tree_ops] in E. unfold tr_bind at 1 in E. unfold p_current at 1 in E. cbn [p_nth tree_ops] in E. unfold tr_nth at 1 in E. cbn [rbind fst snd] in E.
  destruct (kind_eqb (nth 0 (ds_rem st) KEof) KIfKw) eqn:K; [|exact (low_rest d H st r st' K E)].
  assert (Y : low d (@bind TO unit unit (@if_stmt_d TO n stmt ex el) (fun _ => @bind TO bool unit (@p_accept TO (PKind KSemicolon)) (fun _ => @ret TO unit tt)))) by lws. exact (Y _ _ _ E).
Qed.
End Open.
Theorem low_knot n : forall d, low d (@stmt_d TO n d) /\ (forall b, low d (@expr_d TO n d b)) /\ low d (@elseif_d TO n d).
Proof.
  induction d as [|d (A & B & C)]; cbn [stmt_d expr_d elseif_d]; [repeat split; intros; apply low_out|].
  assert (A' : forall k, d <= k -> low k (@stmt_d TO n d)) by (intros k I; exact (low_more d k _ I A)).
  assert (B' : forall b k, d <= k -> low k (@expr_d TO n d b)) by (intros b k I; exact (low_more d k _ I (B b))).
  assert (C' : forall k, d <= k -> low k (@elseif_d TO n d)) by (intros k I; exact (low_more d k _ I C)).
  split; [apply (low_stmt n d); auto|]. split; [intros b; apply (low_expr_bp n d); auto|]. apply (low_elseif n d); auto.
Qed.
Theorem low_root_d n d : low d (@root_d TO n d).
Proof.
  unfold root_d, root, root_block. apply low_node_; [reflexivity|]. apply (low_block_raw n d); [|lia]. intros k I. apply (low_more d k _ I). apply low_knot.
Qed.

(** * The parser on events *)

Lemma if_rg n stmt expr_bp stmt' expr_bp' el el' : Rg anyP eqR stmt stmt' -> (forall b, Rg anyP (optR MR) (expr_bp b) (expr_bp' b)) -> Rg anyP eqR el el' ->
  Rg anyP eqR (@if_stmt_d event_ops n stmt expr_bp el) (@if_stmt_d tree_ops n stmt' expr_bp' el').
Proof.
  intros HS HE HI. pose proof (block_rg n _ _ HS). pose proof (expr_single_rg _ _ HE). pose proof (else_branch_rg n _ _ HS). unfold if_stmt_d. rg2; assumption.
Qed.
Lemma elseif_rg n stmt expr_bp stmt' expr_bp' el el' : Rg anyP eqR stmt stmt' -> (forall b, Rg anyP (optR MR) (expr_bp b) (expr_bp' b)) -> Rg anyP eqR el el' ->
  Rg anyP eqR (@elseif_body event_ops n stmt expr_bp el) (@elseif_body tree_ops n stmt' expr_bp' el').
Proof.
  intros HS HE HI. pose proof (block_rg n _ _ HS). pose proof (expr_single_rg _ _ HE). pose proof (else_branch_rg n _ _ HS). unfold elseif_body. rg2; assumption.
Qed.
Lemma stmt_rg n stmt expr_bp stmt' expr_bp' el el' : Rg anyP eqR stmt stmt' -> (forall b, Rg anyP (optR MR) (expr_bp b) (expr_bp' b)) -> Rg anyP eqR el el' ->
  Rg anyP eqR (@stmt_body_d event_ops n stmt expr_bp el) (@stmt_body_d tree_ops n stmt' expr_bp' el').
Proof.
  intros HS HE HI. pose proof (if_rg n _ _ _ _ _ _ HS HE HI). pose proof (stmt_body_rg n _ _ _ _ HS HE). unfold stmt_body_d. rg2; assumption.
Qed.
Lemma knot_rg n : forall d, Rg anyP eqR (@stmt_d event_ops n d) (@stmt_d tree_ops n d) /\ (forall b, Rg anyP (optR MR) (@expr_d event_ops n d b) (@expr_d tree_ops n d b)) /\
  Rg anyP eqR (@elseif_d event_ops n d) (@elseif_d tree_ops n d).
Proof.
  induction d as [|d (A & B & C)]; cbn [stmt_d expr_d elseif_d]; [repeat split; intros; apply Rg_out|].
  split; [now apply stmt_rg|]. split; [intros b; now apply expr_bp_body_rg|]. now apply elseif_rg.
Qed.
Lemma root_d_rg n d : Rg anyP eqR (@root_d event_ops n d) (@root_d tree_ops n d).
Proof. apply root_rg. apply knot_rg. Qed.
