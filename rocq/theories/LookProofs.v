(** LookProofs.v — the grammar functions (Grammar.v) look at most one token past what they consume: when a run
    leaves at least one token unread, the tokens after it do not matter. Inside a statement the lookahead is
    sometimes two tokens ([nth(1)]), but then the first of them is consumed before the statement ends. *)
From Verif Require Import Base SyntaxKind TokenSet Lexer BindingPowers Parser Grammar ParserTree ParserTotal.
Notation TO := tree_ops.

(** The next token. *)
Definition hd0 (w : list kind) : kind := nth 0 w KEof.
Definition any : kind -> bool := fun _ => true.
Definition cst (d : nat) : kind -> nat := fun _ => d.
(** A run that starts at a token in [q] consumes some tokens [c], and does the same before any other tokens that
    agree on the first [n k], where [k] is the first of them. *)
Definition loc (q : kind -> bool) (n : kind -> nat) {A} (m : D A) : Prop := forall r F a r' F', m (mkDS r F) = Ok (a, mkDS r' F') ->
  exists c, r = c ++ r' /\ (NEof r -> q (hd0 r) = true -> forall v x y, r' = v ++ x -> v <> [] -> n (hd0 v) <= length v -> m (mkDS (c ++ v ++ y) F) = Ok (a, mkDS (v ++ y) F')).
Notation one := (cst 1).
Notation L1 := (loc any one).
(** A run that starts at a token in [q] consumes something. *)
Definition eats (q : kind -> bool) {A} (m : D A) : Prop := forall r F a r' F', q (hd0 r) = true -> m (mkDS r F) = Ok (a, mkDS r' F') -> length r' < length r.
Definition shrinks {A} (m : D A) : Prop := forall r F a r' F', m (mkDS r F) = Ok (a, mkDS r' F') -> r' = r \/ length r' < length r.
Lemma loc_shrinks n {A} (m : D A) : loc any n m -> shrinks m.
Proof. intros H r F a r' F' E. destruct (H _ _ _ _ _ E) as ([|k c] & -> & _); [now left|right]. cbn [app length]. rewrite app_length. lia. Qed.
Lemma loc_any q n {A} (m : D A) : loc any n m -> loc q n m.
Proof. intros H r F a r' F' E. destruct (H _ _ _ _ _ E) as (c & Ec & K). exists c. split; [exact Ec|]. intros N _. exact (K N eq_refl). Qed.
Lemma loc_le q n n' {A} (m : D A) : (forall k, n k <= n' k) -> loc q n m -> loc q n' m.
Proof. intros L H r F a r' F' E. destruct (H _ _ _ _ _ E) as (c & Ec & K). exists c. split; [exact Ec|]. intros N Q v x y Ev Nv Lv. apply (K N Q v x y Ev Nv). specialize (L (hd0 v)). lia. Qed.
Lemma loc_ret q n {A} (a : A) : loc q n (@ret TO A a).
Proof. intros r F b r' F' H. cbn [ret tree_ops] in H. unfold tr_ret in H. injection H as -> -> ->. exists []. split; [reflexivity|]. intros _ _ v x y _ _ _. reflexivity. Qed.
Lemma loc_out q n {A} : loc q n (@out TO A).
Proof. intros r F b r' F' H. discriminate H. Qed.
Lemma loc_panic q n {A} : loc q n (@panic TO A).
Proof. intros r F b r' F' H. discriminate H. Qed.
(** The first part may look further than the whole, if then the second part consumes something. *)
Lemma loc_bind_g q n1 n2 {A B} (m : D A) (f : A -> D B) : loc q n1 m -> (forall a, loc any n2 (f a)) -> (forall k, n1 k <= 2) ->
  (forall a, eats (fun k => (n2 k <? n1 k) && negb (kind_eqb k KEof)) (f a)) -> loc q n2 (@bind TO A B m f).
Proof.
  intros H1 H2 LE HX r F b r' F' H. cbn [bind tree_ops] in *. unfold tr_bind in *. destruct (m (mkDS r F)) as [[a [r1 F1]]| |] eqn:E; cbn [rbind fst snd] in H; try discriminate H.
  destruct (H1 _ _ _ _ _ E) as (c1 & E1 & K1). destruct (H2 a _ _ _ _ _ H) as (c2 & E2 & K2). exists (c1 ++ c2). split; [now rewrite E1, E2, app_assoc|].
  intros N Q v x y Ev Nv Lv. rewrite <- app_assoc. pose proof (K1 N Q (c2 ++ v) x y) as K. rewrite <- !app_assoc in K.
  assert (N1 : NEof r1) by (rewrite E1 in N; exact (ParserTotal.NEof_app _ _ N)).
  rewrite K; [cbn [rbind fst snd]; exact (K2 N1 eq_refl v x y Ev Nv Lv)|now rewrite E2, Ev| |].
  - intros E0. apply app_eq_nil in E0 as [_ E0]. contradiction.
  - destruct c2 as [|k c2].
    + cbn [app] in *. destruct (n2 (hd0 v) <? n1 (hd0 v)) eqn:L; [|apply Nat.ltb_ge in L; lia]. exfalso.
      assert (HH : hd0 r1 = hd0 v) by (rewrite E2, Ev; destruct v; [contradiction|reflexivity]). rewrite <- HH in L.
      assert (HE : kind_eqb (hd0 r1) KEof = false).
      { destruct r1 as [|k r1]; [rewrite <- E2 in Ev; destruct v; [contradiction|discriminate Ev]|]. apply kind_eqb_neq. exact (NEof_hd _ _ N1). }
      assert (LQ : (n2 (hd0 r1) <? n1 (hd0 r1)) && negb (kind_eqb (hd0 r1) KEof) = true) by (rewrite L, HE; reflexivity).
      pose proof (HX a _ _ _ _ _ LQ H) as X. rewrite E2 in X. lia.
    + specialize (LE (hd0 ((k :: c2) ++ v))). rewrite app_length. cbn [length]. destruct v; [contradiction|cbn [length]; lia].
Qed.
Lemma eats_none {A} (m : D A) d : eats (fun k => (cst d k <? cst d k) && negb (kind_eqb k KEof)) m.
Proof. intros r F a r' F' Q. unfold cst in Q. rewrite Nat.ltb_irrefl in Q. discriminate Q. Qed.
Lemma loc_bind q d {A B} (m : D A) (f : A -> D B) : d <= 2 -> loc q (cst d) m -> (forall a, loc any (cst d) (f a)) -> loc q (cst d) (@bind TO A B m f).
Proof. intros Ld H1 H2. apply (loc_bind_g q (cst d) (cst d)); auto. intros a. apply eats_none. Qed.
Lemma loc_nth n d : n < d -> loc any (cst d) (@p_nth TO n).
Proof.
  intros L r F a r' F' H. cbn [p_nth tree_ops] in *. unfold tr_nth in *. cbn [ds_rem] in *. injection H as <- <- <-. exists []. split; [reflexivity|].
  intros _ _ v x y -> Nv Lv. unfold cst in Lv. cbn [app]. do 2 f_equal. rewrite !app_nth1 by lia. reflexivity.
Qed.
Lemma loc_adv : L1 (@p_adv TO).
Proof.
  intros r F a r' F' H. cbn [p_adv tree_ops] in *. unfold tr_adv in *. cbn [ds_rem ds_for] in *. destruct r as [|k r]; [discriminate H|]. destruct (kind_eqb k KEof) eqn:E; [discriminate H|].
  injection H as <- <- <-. exists [k]. split; [reflexivity|]. intros _ _ v x y _ _ _. cbn [app]. now rewrite E.
Qed.
Lemma loc_error e : L1 (@p_push_error TO e).
Proof. intros r F a r' F' H. cbn [p_push_error tree_ops] in *. unfold tr_error in *. cbn [ds_rem ds_for] in *. injection H as <- <- <-. exists []. split; [reflexivity|]. intros _ _ v x y _ _ _. reflexivity. Qed.
Lemma loc_node_by q n (m : D kind) : loc q n m -> loc q n (@node_by TO m).
Proof.
  intros H r F a r' F' E. cbn [node_by tree_ops] in *. unfold tr_node in *. cbn [ds_rem ds_for] in *. destruct (m (mkDS r [])) as [[k [r1 F1]]| |] eqn:E1; cbn [rbind] in E; try discriminate E.
  cbn [ds_rem ds_for] in E. injection E as <- <- <-. destruct (H _ _ _ _ _ E1) as (c & Ec & K). exists c. split; [exact Ec|]. intros N Q v x y Ev Nv Lv. rewrite (K N Q v x y Ev Nv Lv). reflexivity.
Qed.
Lemma loc_pre_by q n i (m : D kind) : loc q n m -> loc q n (@pre_node_by TO i m).
Proof.
  intros H r F a r' F' E. cbn [pre_node_by tree_ops] in *. unfold tr_pre in *. cbn [ds_rem ds_for] in *. destruct (skipn i F) as [|[| | |kt ft] pre]; try discriminate E.
  destruct (m (mkDS r [])) as [[k [r1 F1]]| |] eqn:E1; cbn [rbind] in E; try discriminate E.
  cbn [ds_rem ds_for] in E. injection E as <- <- <-. destruct (H _ _ _ _ _ E1) as (c & Ec & K). exists c. split; [exact Ec|]. intros N Q v x y Ev Nv Lv. rewrite (K N Q v x y Ev Nv Lv). reflexivity.
Qed.
Lemma loc_err_node q n (m : D perr) : loc q n m -> loc q n (@err_node TO m).
Proof.
  intros H r F a r' F' E. cbn [err_node tree_ops] in *. unfold tr_err_node in *. cbn [ds_rem ds_for] in *. destruct (m (mkDS r [])) as [[k [r1 F1]]| |] eqn:E1; cbn [rbind] in E; try discriminate E.
  cbn [ds_rem ds_for] in E. injection E as <- <- <-. destruct (H _ _ _ _ _ E1) as (c & Ec & K). exists c. split; [exact Ec|]. intros N Q v x y Ev Nv Lv. rewrite (K N Q v x y Ev Nv Lv). reflexivity.
Qed.
Lemma loc_bind_ret q n {A B} (m : D A) (f : A -> B) : loc q n m -> loc q n (@bind TO A B m (fun a => @ret TO B (f a))).
Proof.
  intros H r F a r' F' E. cbn [bind ret tree_ops] in *. unfold tr_bind, tr_ret in *. destruct (m (mkDS r F)) as [[k [r1 F1]]| |] eqn:E1; cbn [rbind fst snd] in E; try discriminate E.
  injection E as <- <- <-. destruct (H _ _ _ _ _ E1) as (c & Ec & K). exists c. split; [exact Ec|]. intros N Q v x y Ev Nv Lv. rewrite (K N Q v x y Ev Nv Lv). reflexivity.
Qed.
Lemma loc_node q n {A} k (m : D A) : loc q n m -> loc q n (@node TO A k m).
Proof. intros H. unfold node. apply loc_node_by, (loc_bind_ret q n m (fun _ => k)). exact H. Qed.
Lemma loc_node_ q n {A} k (m : D A) : loc q n m -> loc q n (@node_ TO A k m).
Proof. intros H. unfold node_. apply (loc_bind_ret q n (@node TO A k m) (fun _ => tt)). now apply loc_node. Qed.
Lemma loc_pre q n {A} i k (m : D A) : loc q n m -> loc q n (@pre_node TO A i k m).
Proof. intros H. unfold pre_node. apply loc_pre_by, (loc_bind_ret q n m (fun _ => k)). exact H. Qed.
Lemma loc_loop d (b : D bool) : d <= 2 -> loc any (cst d) b -> forall n, loc any (cst d) (@p_loop TO n b).
Proof. intros Ld H. induction n as [|n IH]; cbn [p_loop]; [apply loc_out|]. apply loc_bind; [exact Ld|exact H|]. intros [|]; [exact IH|apply loc_ret]. Qed.
Lemma loc_while (c : D bool) (b : D unit) n : L1 c -> L1 b -> L1 (@p_while TO n c b).
Proof. intros Hc Hb. unfold p_while. apply loc_loop; [lia|]. apply loc_bind; [lia|exact Hc|]. intros [|]; [|apply loc_ret]. apply loc_bind; [lia|exact Hb|]. intros a. apply loc_ret. Qed.
(** Looking at the next token, and going on accordingly. *)
Lemma loc_cur n {A} (f : kind -> D A) : (forall k, loc (kind_eqb k) n (f k)) -> loc any n (@bind TO _ _ (@p_current TO) f).
Proof.
  intros H r F a r' F' E. unfold p_current in *. cbn [bind tree_ops p_nth] in *. unfold tr_bind, tr_nth in *. cbn [rbind fst snd ds_rem] in *.
  destruct (H (nth 0 r KEof) _ _ _ _ _ E) as (c & Ec & K). exists c. split; [exact Ec|]. intros N _ v x y Ev Nv Lv. rewrite <- (K N (kind_eqb_refl _) v x y Ev Nv Lv). f_equal.
  rewrite Ec, Ev. destruct c as [|k c]; [|reflexivity]. destruct v as [|k v]; [contradiction|reflexivity].
Qed.
Lemma loc_head n a {A} (f : bool -> D A) : (forall k, loc (kind_eqb k) n (f (pacc_test a k))) -> loc any n (@bind TO _ _ (@p_at TO a) f).
Proof.
  intros H r F b r' F' E. unfold p_at, p_current in *. cbn [bind tree_ops p_nth ret] in *. unfold tr_bind, tr_nth, tr_ret in *. cbn [rbind fst snd ds_rem] in *.
  destruct (H (nth 0 r KEof) _ _ _ _ _ E) as (c & Ec & K). exists c. split; [exact Ec|]. intros N _ v x y Ev Nv Lv. rewrite <- (K N (kind_eqb_refl _) v x y Ev Nv Lv). do 2 f_equal.
  rewrite Ec, Ev. destruct c as [|k c]; [|reflexivity]. destruct v as [|k v]; [contradiction|reflexivity].
Qed.
(** Looking one further, when what follows consumes something. *)
Lemma loc_peek q n {A} (f : kind -> D A) : (forall k, loc any n (f k)) -> (forall k, eats q (f k)) -> loc q n (@bind TO _ _ (@p_nth TO 1) f).
Proof.
  intros H HX r F a r' F' E. cbn [bind tree_ops p_nth] in *. unfold tr_bind, tr_nth in *. cbn [rbind fst snd ds_rem] in *.
  destruct (H _ _ _ _ _ _ E) as (c & Ec & K). exists c. split; [exact Ec|]. intros N Q. pose proof (HX _ _ _ _ _ _ Q E) as X. intros v x y Ev Nv Lv. rewrite <- (K N eq_refl v x y Ev Nv Lv). f_equal.
  rewrite Ec in X |- *. rewrite Ev. rewrite app_length in X. destruct c as [|k c]; [cbn [length] in X; lia|]. destruct c as [|k' c]; [|reflexivity]. destruct v as [|k' v]; [contradiction|reflexivity].
Qed.
Lemma loc_drop q n {A} (m : D A) : loc q n m -> loc q n (@bind TO _ _ (@p_nth TO 1) (fun _ => m)).
Proof.
  intros H r F a r' F' E. cbn [bind tree_ops p_nth] in *. unfold tr_bind, tr_nth in *. cbn [rbind fst snd ds_rem] in *. exact (H _ _ _ _ _ E).
Qed.

(** ** Consuming *)
Lemma eats_bind q {A B} (m : D A) (f : A -> D B) : eats q m -> (forall a, shrinks (f a)) -> eats q (@bind TO A B m f).
Proof.
  intros H HS r F b r' F' Q E. cbn [bind tree_ops] in *. unfold tr_bind in *. destruct (m (mkDS r F)) as [[a [r1 F1]]| |] eqn:E1; cbn [rbind fst snd] in E; try discriminate E.
  pose proof (H _ _ _ _ _ Q E1). destruct (HS _ _ _ _ _ _ E) as [->|]; lia.
Qed.
Lemma eats_skip q {A B} (m : D A) (f : A -> D B) : shrinks m -> (forall a, eats q (f a)) -> (forall a, shrinks (f a)) -> eats q (@bind TO A B m f).
Proof.
  intros H HX HS r F b r' F' Q E. cbn [bind tree_ops] in *. unfold tr_bind in *. destruct (m (mkDS r F)) as [[a [r1 F1]]| |] eqn:E1; cbn [rbind fst snd] in E; try discriminate E.
  destruct (H _ _ _ _ _ E1) as [->|X]; [exact (HX _ _ _ _ _ _ Q E)|]. destruct (HS _ _ _ _ _ _ E) as [->|]; lia.
Qed.
Lemma eats_at k a {A} (f : bool -> D A) : eats (kind_eqb k) (f (pacc_test a k)) -> eats (kind_eqb k) (@bind TO _ _ (@p_at TO a) f).
Proof.
  intros H r F b r' F' Q E. unfold p_at, p_current in E. cbn [bind tree_ops p_nth ret] in E. unfold tr_bind, tr_nth, tr_ret in E. cbn [rbind fst snd ds_rem] in E.
  apply kind_eqb_eq in Q as Q'. unfold hd0 in Q'. rewrite <- Q' in E. exact (H _ _ _ _ _ Q E).
Qed.
Lemma eats_cur k {A} (f : kind -> D A) : eats (kind_eqb k) (f k) -> eats (kind_eqb k) (@bind TO _ _ (@p_current TO) f).
Proof.
  intros H r F b r' F' Q E. unfold p_current in E. cbn [bind tree_ops p_nth ret] in E. unfold tr_bind, tr_nth, tr_ret in E. cbn [rbind fst snd ds_rem] in E.
  apply kind_eqb_eq in Q as Q'. unfold hd0 in Q'. rewrite <- Q' in E. exact (H _ _ _ _ _ Q E).
Qed.
Lemma eats_panic q {A} : eats q (@panic TO A).
Proof. intros r F b r' F' _ H. discriminate H. Qed.
Lemma eats_out q {A} : eats q (@out TO A).
Proof. intros r F b r' F' _ H. discriminate H. Qed.
Lemma eats_adv q : eats q (@p_adv TO).
Proof.
  intros r F a r' F' _ H. cbn [p_adv tree_ops] in *. unfold tr_adv in *. cbn [ds_rem ds_for] in *. destruct r as [|k r]; [discriminate H|]. destruct (kind_eqb k KEof) eqn:E; [discriminate H|].
  injection H as <- <- <-. cbn [length]. lia.
Qed.
Lemma eats_node_by q (m : D kind) : eats q m -> eats q (@node_by TO m).
Proof.
  intros H r F a r' F' Q E. cbn [node_by tree_ops] in *. unfold tr_node in *. cbn [ds_rem ds_for] in *. destruct (m (mkDS r [])) as [[k [r1 F1]]| |] eqn:E1; cbn [rbind] in E; try discriminate E.
  cbn [ds_rem ds_for] in E. injection E as <- <- <-. exact (H _ _ _ _ _ Q E1).
Qed.
Lemma eats_pre_by q i (m : D kind) : eats q m -> eats q (@pre_node_by TO i m).
Proof.
  intros H r F a r' F' Q E. cbn [pre_node_by tree_ops] in *. unfold tr_pre in *. cbn [ds_rem ds_for] in *. destruct (skipn i F) as [|[| | |kt ft] pre]; try discriminate E.
  destruct (m (mkDS r [])) as [[k [r1 F1]]| |] eqn:E1; cbn [rbind] in E; try discriminate E.
  cbn [ds_rem ds_for] in E. injection E as <- <- <-. exact (H _ _ _ _ _ Q E1).
Qed.
Lemma eats_err_node q (m : D perr) : eats q m -> eats q (@err_node TO m).
Proof.
  intros H r F a r' F' Q E. cbn [err_node tree_ops] in *. unfold tr_err_node in *. cbn [ds_rem ds_for] in *. destruct (m (mkDS r [])) as [[k [r1 F1]]| |] eqn:E1; cbn [rbind] in E; try discriminate E.
  cbn [ds_rem ds_for] in E. injection E as <- <- <-. exact (H _ _ _ _ _ Q E1).
Qed.
Lemma shrinks_ret {A} (a : A) : shrinks (@ret TO A a).
Proof. exact (loc_shrinks one _ (loc_ret any one a)). Qed.
Lemma shrinks_bind {A B} (m : D A) (f : A -> D B) : shrinks m -> (forall a, shrinks (f a)) -> shrinks (@bind TO A B m f).
Proof.
  intros H HS r F b r' F' E. cbn [bind tree_ops] in *. unfold tr_bind in *. destruct (m (mkDS r F)) as [[a [r1 F1]]| |] eqn:E1; cbn [rbind fst snd] in E; try discriminate E.
  destruct (H _ _ _ _ _ E1) as [->|X]; [exact (HS _ _ _ _ _ _ E)|]. destruct (HS _ _ _ _ _ _ E) as [->|]; right; lia.
Qed.
Lemma eats_node q {A} k (m : D A) : eats q m -> eats q (@node TO A k m).
Proof. intros H. unfold node. apply eats_node_by, eats_bind; [exact H|]. intros a. apply shrinks_ret. Qed.
Lemma eats_node_ q {A} k (m : D A) : eats q m -> eats q (@node_ TO A k m).
Proof. intros H. unfold node_. apply eats_bind; [now apply eats_node|]. intros a. apply shrinks_ret. Qed.
Lemma eats_accept k a : pacc_test a k = true -> eats (kind_eqb k) (@p_accept TO a).
Proof. intros H. unfold p_accept. apply eats_at. rewrite H. apply eats_bind; [apply eats_adv|]. intros x. apply shrinks_ret. Qed.
Lemma eats_bump a q : eats q (@p_bump TO a).
Proof.
  intros r F b r' F' _ E. unfold p_bump, p_accept, p_at, p_current in E. cbn [bind tree_ops p_nth ret p_adv] in E. unfold tr_bind, tr_nth, tr_ret, tr_adv in E. cbn [rbind fst snd ds_rem ds_for] in E.
  destruct (pacc_test a (nth 0 r KEof)); [|cbn [rbind fst snd] in E; discriminate E]. destruct r as [|k r]; [discriminate E|]. cbn [ds_rem ds_for] in E. destruct (kind_eqb k KEof); [discriminate E|]. cbn [rbind fst snd passert] in E.
  cbn [ret tree_ops] in E. unfold tr_ret in E. injection E as <- <- <-. cbn [length]. lia.
Qed.
Lemma eats_or q q1 q2 {A} (m : D A) : (forall k, q k = true -> q1 k = true \/ q2 k = true) -> eats q1 m -> eats q2 m -> eats q m.
Proof. intros HQ H1 H2 r F a r' F' Q E. destruct (HQ _ Q) as [X|X]; eauto. Qed.
Lemma eats_each q {A} (m : D A) : (forall k, q k = true -> eats (kind_eqb k) m) -> eats q m.
Proof. intros H r F a r' F' Q E. exact (H _ Q _ _ _ _ _ (kind_eqb_refl _) E). Qed.

Lemma loc_passert b : L1 (@passert TO b).
Proof. unfold passert. destruct b; [apply loc_ret|apply loc_panic]. Qed.
Lemma loc_current : L1 (@p_current TO).
Proof. apply loc_nth. lia. Qed.
Lemma loc_at a : L1 (@p_at TO a).
Proof. unfold p_at. apply loc_bind; [lia|apply loc_current|]. intros k. apply loc_ret. Qed.
Lemma loc_accept a : L1 (@p_accept TO a).
Proof. unfold p_accept. apply loc_bind; [lia|apply loc_at|]. intros [|]; [|apply loc_ret]. apply loc_bind; [lia|apply loc_adv|]. intros _. apply loc_ret. Qed.
Lemma loc_bump a : L1 (@p_bump TO a).
Proof. unfold p_bump. apply loc_bind; [lia|apply loc_accept|]. intros b. apply loc_passert. Qed.
#[export] Hint Resolve loc_passert loc_current loc_at loc_accept loc_bump loc_error loc_adv : loc.

(** One step: sequences, nodes, loops, and cases. *)
Ltac loc1 := first
  [ lazymatch goal with
    | |- loc any (cst 1) (@ret _ _ _) => apply loc_ret
    | |- loc any (cst 1) (@panic _ _) => apply loc_panic
    | |- loc any (cst 1) (@out _ _) => apply loc_out
    | |- loc any (cst 1) (@p_nth _ _) => apply loc_nth; lia
    | |- loc any (cst 1) (@bind _ _ _ _ _) => apply loc_bind; [lia| |intros ?]
    | |- loc any (cst 1) (@node_ _ _ _ _) => apply loc_node_
    | |- loc any (cst 1) (@node _ _ _ _) => apply loc_node
    | |- loc any (cst 1) (@pre_node _ _ _ _ _) => apply loc_pre
    | |- loc any (cst 1) (@pre_node_by _ _ _) => apply loc_pre_by
    | |- loc any (cst 1) (@node_by _ _) => apply loc_node_by
    | |- loc any (cst 1) (@err_node _ _) => apply loc_err_node
    | |- loc any (cst 1) (@p_while _ _ _ _) => apply loc_while
    | |- loc any (cst 1) (@p_loop _ _ _) => apply loc_loop; [lia|]
    | |- loc any (cst 1) (if ?b then _ else _) => destruct b
    | |- loc any (cst 1) (match ?o with Some _ => _ | None => _ end) => destruct o
    | |- loc any (cst 1) (let (_, _) := ?o in _) => destruct o
    | |- loc any (cst 1) (match ?o with pair _ _ => _ end) => destruct o
    end
  | solve [auto 3 with loc nocore] ].
Ltac locs := repeat loc1.
Lemma loc_err_recover m s : L1 (@p_err_recover TO m s).
Proof. unfold p_err_recover, p_error. locs. Qed.
Lemma loc_err_and_bump m : L1 (@p_err_and_bump TO m).
Proof. unfold p_err_and_bump. apply loc_err_recover. Qed.
Lemma loc_err_until n m s : L1 (@p_err_until TO n m s).
Proof. unfold p_err_until. cbv zeta. locs. Qed.
Lemma loc_bump_ts s : L1 (@p_bump_ts TO s).
Proof. unfold p_bump_ts. locs. Qed.
Lemma loc_expect k : L1 (@p_expect TO k).
Proof. unfold p_expect. locs. Qed.
Lemma loc_msg m : L1 (@p_error TO m).
Proof. apply loc_error. Qed.
#[export] Hint Resolve loc_err_recover loc_err_and_bump loc_err_until loc_bump_ts loc_expect loc_msg : loc.

Lemma loc_name_unchecked : L1 (@name_unchecked TO).
Proof. unfold name_unchecked. locs. Qed.
#[export] Hint Resolve loc_name_unchecked : loc.
Lemma loc_name_r s : L1 (@name_r TO s).
Proof. unfold name_r. locs. Qed.
Lemma loc_name_ref_r s : L1 (@name_ref_r TO s).
Proof. unfold name_ref_r, name_ref_unchecked. locs. Qed.
#[export] Hint Resolve loc_name_r loc_name_ref_r : loc.
Lemma loc_name : L1 (@name TO).
Proof. unfold name. locs. Qed.
Lemma loc_name_ref : L1 (@name_ref TO).
Proof. unfold name_ref. locs. Qed.
#[export] Hint Resolve loc_name loc_name_ref : loc.
Lemma loc_multi_name n s v : L1 (@multi_name_r TO n s v).
Proof. unfold multi_name_r. cbv zeta. locs. Qed.
#[export] Hint Resolve loc_multi_name : loc.
Lemma loc_params n : L1 (@param_list TO n).
Proof. unfold param_list. locs. Qed.
Lemma loc_literal : L1 (@literal TO).
Proof. unfold literal. locs. Qed.
Lemma loc_table_sep : L1 (@table_sep TO).
Proof. unfold table_sep. locs. Qed.
Lemma loc_table_correct n : L1 (@table_correct TO n).
Proof. unfold table_correct. locs. Qed.
Lemma loc_dot l : L1 (@dot_expr TO l).
Proof. unfold dot_expr. locs. Qed.
Lemma loc_goto : L1 (@goto_stmt TO).
Proof. unfold goto_stmt. locs. Qed.
Lemma loc_label : L1 (@label_stmt TO).
Proof. unfold label_stmt, label_delim. locs. Qed.
Lemma loc_break : L1 (@break_stmt TO).
Proof. unfold break_stmt. locs. Qed.
Lemma two {A} (m : D A) : L1 m -> loc any (cst 2) m.
Proof. apply loc_le. intros k. unfold cst. lia. Qed.
Lemma loc_path n : loc any (cst 2) (@index_path TO n).
Proof.
  unfold index_path. cbv zeta. apply loc_node, loc_bind; [lia|apply two; locs|intros _]. apply loc_loop; [lia|]. apply loc_bind; [lia|apply two; locs|intros [|]; [apply loc_ret|]].
  apply loc_bind; [lia|apply two; locs|intros [|]; [|apply loc_ret]]. apply loc_bind; [lia|apply two; locs|intros _]. apply loc_bind; [lia|apply loc_nth; lia|intros k]. apply two. locs.
Qed.
#[export] Hint Resolve loc_params loc_literal loc_table_sep loc_table_correct loc_dot loc_goto loc_label loc_break : loc.
(** Where the name of a function may end although two tokens were looked at. *)
Definition after_name : token_set := ts_new [KLParen; KFunctionKw; KDoKw; KDoubleColon; KEndKw].
Definition nd (k : kind) : nat := if ts_contains after_name k then 2 else 1.
Lemma eats_err_recover m s k : kind_eqb k KEof = false -> kind_eqb k KEndKw = false -> ts_contains s k = false -> eats (kind_eqb k) (@p_err_recover TO m s).
Proof.
  intros H1 H2 H3. unfold p_err_recover. apply eats_cur. rewrite H2. apply eats_at. cbn [pacc_test]. rewrite H3. apply eats_err_node, eats_bind; [|intros a; apply shrinks_ret].
  apply eats_accept. cbn [pacc_test]. now rewrite H1.
Qed.
Lemma eats_name_r s k : kind_eqb k KEof = false -> kind_eqb k KEndKw = false -> ts_contains s k = false -> eats (kind_eqb k) (@name_r TO s).
Proof.
  intros H1 H2 H3. unfold name_r. apply eats_at. cbn [pacc_test]. destruct (kind_eqb k KIdent); [|now apply eats_err_recover]. unfold name_unchecked. apply eats_node_, eats_bump.
Qed.
Lemma eats_name_r_ident s : eats (kind_eqb KIdent) (@name_r TO s).
Proof. unfold name_r. apply eats_at. cbn [pacc_test kind_eqb]. unfold name_unchecked. apply eats_node_, eats_bump. Qed.
Lemma after_name_all k : ts_contains after_name k = false -> kind_eqb k KEndKw = false /\ ts_contains (ts_union (ts_new [KLParen]) STMT_RECOVERY) k = false.
Proof. destruct k; vm_compute; auto. Qed.
Lemma sh {A} (m : D A) : L1 m -> shrinks m.
Proof. apply loc_shrinks. Qed.
Definition fname_tail (c : nat) : D unit :=
  @pre_node_by TO c (b <- @p_at TO (PKind KColon) ;; if b then @p_bump TO (PKind KColon) ;; @name_r TO (ts_union (ts_new [KLParen]) STMT_RECOVERY) ;; @ret TO _ KFunctionMethod
      else @name_r TO (ts_union (ts_new [KLParen]) STMT_RECOVERY) ;; @ret TO _ KFunctionStatic) ;; @ret TO _ tt.
Lemma loc_fname_tail c : L1 (fname_tail c).
Proof. unfold fname_tail. locs. Qed.
Lemma nd_one k : one k <= nd k.
Proof. unfold cst, nd. destruct (ts_contains after_name k); lia. Qed.
Lemma nd_eq k : nd k = if ts_contains after_name k then 2 else 1.
Proof. reflexivity. Qed.
Lemma nd_lt k : (nd k <? cst 2 k) && negb (kind_eqb k KEof) = true -> kind_eqb k KEof = false /\ ts_contains after_name k = false.
Proof.
  intros Q. apply andb_true_iff in Q as [Q1 Q2]. apply negb_true_iff in Q2. split; [exact Q2|]. rewrite nd_eq in Q1. destruct (ts_contains after_name k); [discriminate Q1|reflexivity].
Qed.
Lemma eats_fname_tail c k : kind_eqb k KEof = false -> kind_eqb k KEndKw = false -> ts_contains (ts_union (ts_new [KLParen]) STMT_RECOVERY) k = false -> eats (kind_eqb k) (fname_tail c).
Proof.
  intros Q2 A1 A2.
  unfold fname_tail. apply eats_bind; [|intros a; apply shrinks_ret]. apply eats_pre_by, eats_at. destruct (pacc_test (PKind KColon) k).
  - apply eats_bind; [apply eats_bump|]. intros a. apply sh. locs.
  - apply eats_bind; [|intros a; apply shrinks_ret]. exact (eats_name_r _ _ Q2 A1 A2).
Qed.
Definition fname_path (n : nat) : D unit := c <- @index_path TO n ;; fname_tail c.
Lemma loc_fname_path n : loc any nd (fname_path n).
Proof.
  unfold fname_path. apply (loc_bind_g any (cst 2) nd); [apply loc_path|intros c; exact (loc_le any one nd _ nd_one (loc_fname_tail c))|intros k; unfold cst; lia|].
  intros c. apply eats_each. intros k Q. destruct (nd_lt _ Q) as [Q1 Q2]. destruct (after_name_all _ Q2) as [A1 A2]. exact (eats_fname_tail c k Q1 A1 A2).
Qed.
Lemma test_ident : pacc_test (PKind KIdent) KIdent = true.
Proof. reflexivity. Qed.
Lemma eats_path n : eats (kind_eqb KIdent) (@index_path TO n).
Proof.
  unfold index_path. cbv zeta. apply eats_node, eats_bind.
  - unfold name_ref_r. apply eats_at. rewrite test_ident. unfold name_ref_unchecked. apply eats_node_, eats_bump.
  - intros _. apply (loc_shrinks (cst 2)). apply loc_loop; [lia|]. apply loc_bind; [lia|apply two; locs|intros [|]; [apply loc_ret|]].
    apply loc_bind; [lia|apply two; locs|intros [|]; [|apply loc_ret]]. apply loc_bind; [lia|apply two; locs|intros _]. apply loc_bind; [lia|apply loc_nth; lia|intros k']. apply two. locs.
Qed.
Lemma content_eq n : @function_def_content TO n = @node_ TO _ KFunctionDefContent (b <- @p_at TO (PKind KIdent) ;; n0 <- @p_nth TO 1 ;;
  if b && kind_eqb n0 KLParen then @name_r TO (ts_union (ts_new [KLParen]) (ts_union (ts_new [KLParen]) STMT_RECOVERY)) else fname_path n).
Proof. reflexivity. Qed.
Lemma loc_fname n : loc any nd (@function_def_content TO n).
Proof.
  rewrite content_eq. apply loc_node_, loc_head. intros k. destruct (pacc_test (PKind KIdent) k) eqn:EK.
  - cbn [pacc_test] in EK. apply kind_eqb_eq in EK. subst k. apply loc_peek.
    + intros k. destruct (true && kind_eqb k KLParen); [apply (loc_le any one nd _ nd_one); locs|apply loc_fname_path].
    + intros k. destruct (true && kind_eqb k KLParen); [apply eats_name_r_ident|]. unfold fname_path. apply eats_bind; [apply eats_path|intros c; exact (sh _ (loc_fname_tail c))].
  - cbn [andb]. apply loc_drop, loc_any. apply loc_fname_path.
Qed.
Section Open.
Variable n : nat.
Variable stmt : D unit.
Variable ex : nat -> D (option nat).
Hypothesis HS : L1 stmt.
Hypothesis HE : forall b, L1 (ex b).
Hypothesis XE : forall b, eats (kind_eqb KIdent) (ex b).
Hypothesis XS : forall k, In k [KFunctionKw; KDoKw; KDoubleColon] -> eats (kind_eqb k) stmt.
Hint Resolve HS HE : loc.
Lemma loc_block_raw s : L1 (@block_raw TO n stmt s).
Proof. unfold block_raw. locs. Qed.
Lemma loc_block : L1 (@block TO n stmt).
Proof. apply loc_block_raw. Qed.
Hint Resolve loc_block : loc.
Lemma loc_single : L1 (@expr_single TO ex).
Proof. apply HE. Qed.
Hint Resolve loc_single : loc.
Lemma loc_expr : L1 (@expr TO n ex).
Proof. unfold expr, expr_multi. locs. Qed.
Lemma loc_paren : L1 (@paren_expr TO ex).
Proof. unfold paren_expr. locs. Qed.
Lemma loc_index : L1 (@index TO ex).
Proof. unfold index. locs. Qed.
Hint Resolve loc_expr loc_paren loc_index : loc.
Lemma loc_table_content : L1 (@table_content TO ex).
Proof.
  unfold table_content. apply loc_node_, loc_cur. intros k. destruct (kind_eqb k KIdent) eqn:EK; [|apply loc_any; locs]. apply kind_eqb_eq in EK. subst k. apply loc_peek; [intros k; locs|].
  intros k. destruct (kind_eqb k KEq); apply eats_node_; [|apply XE]. apply eats_bind; [|intros a; apply sh; locs]. apply eats_node_. unfold name_unchecked. apply eats_node_, eats_bump.
Qed.
Lemma loc_table_inner : L1 (@table_inner TO n).
Proof. unfold table_inner. locs. Qed.
Hint Resolve loc_table_content loc_table_inner : loc.
Lemma loc_table : L1 (@table_expr TO n ex).
Proof. unfold table_expr. locs. Qed.
Lemma loc_function : L1 (@function_expr TO n stmt).
Proof. unfold function_expr. locs. Qed.
Lemma loc_arg_list : L1 (@arg_list TO n ex).
Proof. unfold arg_list. locs. Qed.
Hint Resolve loc_table loc_function loc_arg_list : loc.
Lemma loc_call_args : L1 (@call_args TO n ex).
Proof. unfold call_args. locs. Qed.
Hint Resolve loc_call_args : loc.
Lemma loc_call l : L1 (@call_expr TO n ex l).
Proof. unfold call_expr. locs. Qed.
Lemma loc_index_expr l : L1 (@index_expr TO ex l).
Proof. unfold index_expr. locs. Qed.
Lemma loc_method l : L1 (@method_call_expr TO n ex l).
Proof. unfold method_call_expr. locs. Qed.
Hint Resolve loc_call loc_index_expr loc_method : loc.
Lemma loc_postfix : forall m l c, L1 (@postfix_expr TO n ex m l c).
Proof. induction m as [|m IH]; intros l c; cbn [postfix_expr]; [apply loc_out|]. locs. Qed.
Lemma loc_prefix r : L1 (@prefix_expr TO ex r).
Proof. unfold prefix_expr. locs. Qed.
Hint Resolve loc_postfix loc_prefix : loc.
Lemma loc_atom : L1 (@atom_expr TO n stmt ex).
Proof. unfold atom_expr. locs. Qed.
Hint Resolve loc_atom : loc.
Lemma loc_lhs : L1 (@lhs TO n stmt ex).
Proof. unfold lhs. locs. Qed.
Hint Resolve loc_lhs : loc.
Lemma loc_infix b : forall m l, L1 (@infix_loop TO ex m b l).
Proof. induction m as [|m IH]; intros l; cbn [infix_loop]; [apply loc_out|]. locs. Qed.
Hint Resolve loc_infix : loc.
Lemma loc_expr_bp b : L1 (@expr_bp_body TO n stmt ex b).
Proof. unfold expr_bp_body. locs. Qed.
Lemma loc_else : L1 (@else_branch TO n stmt).
Proof. unfold else_branch. locs. Qed.
Hint Resolve loc_else : loc.
Lemma loc_elseif : forall m, L1 (@elseif_branch TO n stmt ex m).
Proof. induction m as [|m IH]; cbn [elseif_branch]; [apply loc_out|]. locs. Qed.
Hint Resolve loc_elseif : loc.
Lemma eats_expect k : eats (kind_eqb k) (@p_expect TO k).
Proof. unfold p_expect. apply eats_cur. rewrite kind_eqb_refl. apply eats_bind; [apply eats_bump|]. intros a. apply shrinks_ret. Qed.
Lemma eats_expr_bp b : eats (kind_eqb KIdent) (@expr_bp_body TO n stmt ex b).
Proof.
  unfold expr_bp_body. apply eats_bind; [|intros o; apply sh; locs]. unfold lhs. apply eats_cur. cbn [prefix_binding_power NOT_AN_OP Nat.ltb Nat.leb].
  apply eats_bind; [|intros o; apply sh; locs]. unfold atom_expr. apply eats_cur. cbn [prefix_binding_power Nat.ltb Nat.leb]. apply eats_at.
  replace (pacc_test (PSet LITERAL_FIRST) KIdent) with false by reflexivity. apply eats_cur. cbn [kind_eqb]. apply eats_bind; [|intros o; apply sh; locs].
  unfold name_ref. apply eats_node, eats_expect.
Qed.
Definition fun_rest : D bool := @param_list TO n ;; @block TO n stmt ;; @p_expect TO KEndKw.
Lemma loc_fun_rest : L1 fun_rest.
Proof. unfold fun_rest. locs. Qed.
Lemma end_no k : In k [KFunctionKw; KDoKw; KDoubleColon] -> pacc_test (PSet BLOCK_END) k = false.
Proof. intros [<-|[<-|[<-|[]]]]; reflexivity. Qed.
Lemma eats_not q a {A} (f : bool -> D A) : eats q (@bind TO _ _ (@p_at TO a) (fun b => f (negb b))) -> eats q (@bind TO _ _ (@bind TO _ _ (@p_at TO a) (fun b => @ret TO _ (negb b))) f).
Proof. intros H r F b r' F' Q E. exact (H r F b r' F' Q E). Qed.
Lemma eats_block k : In k [KFunctionKw; KDoKw; KDoubleColon] -> eats (kind_eqb k) (@block TO n stmt).
Proof.
  intros I. unfold block, block_raw. apply eats_node_. unfold p_while. destruct n as [|n']; cbn [p_loop]; [apply eats_out|].
  apply eats_bind; [|intros [|]; [|apply shrinks_ret]; apply sh, (loc_while _ _ n'); locs].
  apply eats_not, eats_at. rewrite (end_no _ I). cbn [negb]. apply eats_bind; [exact (XS _ I)|]. intros a. apply shrinks_ret.
Qed.
Lemma eats_fun_rest k : ts_contains after_name k = true -> eats (kind_eqb k) fun_rest.
Proof.
  intros H. assert (C : k = KLParen \/ In k [KFunctionKw; KDoKw; KDoubleColon] \/ k = KEndKw).
  { clear -H. destruct k; vm_compute in H; try discriminate H; cbn; tauto. }
  unfold fun_rest. destruct C as [->|[I| ->]].
  - apply eats_bind; [|intros a; apply sh; locs]. unfold param_list. apply eats_node_, eats_bind; [apply eats_expect|intros a; apply sh; locs].
  - apply eats_skip; [apply sh; locs| |intros a; apply sh; locs]. intros _. apply eats_bind; [exact (eats_block _ I)|intros a; apply sh; locs].
  - apply eats_skip; [apply sh; locs| |intros a; apply sh; locs]. intros _. apply eats_skip; [apply sh; locs| |intros a; apply sh; locs]. intros _.
    apply eats_expect.
Qed.
Lemma loc_fun_def : L1 (@function_def_stmt TO n stmt).
Proof.
  unfold function_def_stmt. apply loc_node_, loc_bind; [lia|locs|intros _].
  apply (loc_bind_g any nd one); [apply loc_fname|intros a; apply loc_fun_rest| |].
  - intros k. rewrite nd_eq. destruct (ts_contains after_name k); lia.
  - intros a. apply eats_each. intros k Q. apply eats_fun_rest. apply andb_true_iff in Q as [Q _]. rewrite nd_eq in Q. destruct (ts_contains after_name k); [reflexivity|discriminate Q].
Qed.
Lemma loc_for : L1 (@for_content TO n ex).
Proof.
  unfold for_content. apply loc_node_, loc_head. intros k. destruct (pacc_test (PKind KIdent) k) eqn:EK; [|apply loc_any; locs]. cbn [pacc_test] in EK. apply kind_eqb_eq in EK. subst k.
  apply loc_peek; [intros k; unfold numeric_for, generic_for; locs|]. intros k. destruct (kind_eqb k KEq).
  - unfold numeric_for. apply eats_skip; [apply sh; locs| |intros a; apply sh; locs]. intros _. apply eats_node_. apply eats_bind; [|intros a; apply sh; locs].
    unfold name. apply eats_at. rewrite test_ident. apply eats_node_, eats_bump.
  - unfold generic_for. apply eats_skip; [apply sh; locs| |intros a; apply sh; locs]. intros _. apply eats_node_. apply eats_bind; [|intros a; apply sh; locs].
    unfold multi_name_r. cbv zeta. apply eats_node_, eats_at. cbn [andb]. apply eats_bind; [apply eats_name_r_ident|intros a; apply sh; locs].
Qed.
Lemma loc_local : loc (kind_eqb KLocalKw) one (@local_stmt TO n stmt ex).
Proof.
  unfold local_stmt. apply loc_peek; [intros k; unfold local_function_def_stmt, local_assign_stmt; locs|]. intros k. unfold local_function_def_stmt, local_assign_stmt.
  destruct (kind_eqb k KFunctionKw); apply eats_node_, eats_bind; try apply eats_bump; intros a; apply sh; locs.
Qed.
Hint Resolve loc_fun_def loc_for : loc.
Lemma loc_stmt : L1 (@stmt_body TO n stmt ex).
Proof.
  unfold stmt_body. apply loc_bind; [lia| |intros a; locs]. apply loc_cur. intros k.
  destruct (kind_eqb k KLocalKw) eqn:EL.
  - apply kind_eqb_eq in EL. subst k. cbn [kind_eqb]. exact loc_local.
  - apply loc_any. unfold if_stmt, repeat_until_stmt, return_stmt, do_stmt, while_stmt, for_stmt, expr_stmt. locs.
Qed.
Lemma eats_stmt k : In k [KFunctionKw; KDoKw; KDoubleColon] -> eats (kind_eqb k) (@stmt_body TO n stmt ex).
Proof.
  intros I. unfold stmt_body. apply eats_bind; [|intros a; apply sh; locs]. apply eats_cur. destruct I as [<-|[<-|[<-|[]]]]; cbn [kind_eqb].
  - unfold function_def_stmt. apply eats_node_, eats_bind; [apply eats_expect|]. intros a. apply shrinks_bind; [exact (loc_shrinks nd _ (loc_fname n))|]. intros b. apply sh. locs.
  - unfold do_stmt. apply eats_node_, eats_bind; [apply eats_bump|]. intros a. apply sh. locs.
  - unfold label_stmt. apply eats_skip; [apply sh; locs| |intros a; apply sh; unfold label_delim; locs]. intros _. apply eats_node_, eats_bind; [|intros a; apply sh; unfold label_delim; locs].
    unfold label_delim. apply eats_node_, eats_expect.
Qed.
End Open.

Theorem loc_knot : forall n, L1 (@stmt_f TO n) /\ forall b, L1 (@expr_f TO n b).
Proof.
  assert (H : forall n, (L1 (@stmt_f TO n) /\ forall b, L1 (@expr_f TO n b)) /\ (forall b, eats (kind_eqb KIdent) (@expr_f TO n b)) /\ forall k, In k [KFunctionKw; KDoKw; KDoubleColon] -> eats (kind_eqb k) (@stmt_f TO n));
    [|intros n; exact (proj1 (H n))].
  induction n as [|n [[IS IE] [XE XS]]]; cbn [stmt_f expr_f].
  - split; [split; intros; apply loc_out|split; intros; apply eats_out].
  - split; [split; [now apply loc_stmt|intros b; now apply loc_expr_bp]|split; [intros b; now apply eats_expr_bp|intros k I; now apply eats_stmt]].
Qed.
