(** PropsTextEdit.v — text edits, C37–C39. *)
From Coq Require Import Permutation Sorted.
From Verif Require Import Base TextEdit.

(** * Vocabulary *)

(** A TextRange: start <= end. *)
Definition wf (i : indel) : Prop := i_start i <= i_end i.
(** Two replacements overlap unless one ends before the other starts. *)
Definition overlap (a b : indel) : Prop := ~ (i_end a <= i_start b \/ i_end b <= i_start a).
(** No two entries of the list (at different positions) overlap. *)
Definition no_overlap (l : list indel) : Prop := forall p a m b q, l = p ++ a :: m ++ b :: q -> ~ overlap a b.
(** In increasing order and disjoint. *)
Definition in_order (l : list indel) : Prop := forall p a m b q, l = p ++ a :: m ++ b :: q -> i_end a <= i_start b.
(** The range lies in the text, on character boundaries. *)
Definition fits (t : text) (i : indel) : Prop := wf i /\ is_boundary t (i_start i) /\ is_boundary t (i_end i).

(** [Edited pos e t u]: [u] is the text [t], which starts at byte [pos], with the replacements
    [e] made: pieces of [t] between the replaced ranges are kept. *)
Inductive Edited : nat -> text_edit -> text -> text -> Prop :=
| Ed_nil pos t : Edited pos [] t t
| Ed_cons pos i e keep del t u :
    i_start i = pos + blen keep -> i_end i = i_start i + blen del ->
    Edited (i_end i) e t u ->
    Edited pos (i :: e) (keep ++ del ++ t) (keep ++ i_insert i ++ u).

(** Applying the replacements one at a time, the last first. *)
Fixpoint right_to_left (e : text_edit) (t : text) : res text :=
  match e with [] => Ok t | i :: e' => let? t' := right_to_left e' t in indel_apply i t' end.

Definition inserted (e : text_edit) : nat := list_sum (map (fun i => blen (i_insert i)) e).

(** * Order *)
Lemma key_leb_total a b : key_leb a b = false -> key_leb b a = true.
Proof.
  unfold key_leb. destruct (Nat.ltb_spec (i_start a) (i_start b)), (Nat.ltb_spec (i_start b) (i_start a)); cbn; try discriminate; auto; try lia.
  destruct (Nat.eqb_spec (i_start a) (i_start b)), (Nat.eqb_spec (i_start b) (i_start a)); cbn; try lia.
  destruct (Nat.leb_spec (i_end a) (i_end b)); [discriminate|]. intros _. apply Nat.leb_le. lia.
Qed.
Definition key_le (a b : indel) : Prop := i_start a < i_start b \/ i_start a = i_start b /\ i_end a <= i_end b.
Lemma key_leb_le a b : key_leb a b = true <-> key_le a b.
Proof. unfold key_leb, key_le. rewrite orb_true_iff, andb_true_iff, Nat.ltb_lt, Nat.eqb_eq, Nat.leb_le. reflexivity. Qed.
Lemma key_le_trans a b c : key_le a b -> key_le b c -> key_le a c.
Proof. unfold key_le. lia. Qed.
Lemma key_le_refl a : key_le a a.
Proof. unfold key_le. lia. Qed.

Lemma insert_perm x l : Permutation (insert_key x l) (x :: l).
Proof.
  induction l as [|y l IH]; cbn [insert_key]; [reflexivity|]. destruct (key_leb x y); [reflexivity|].
  rewrite IH. apply perm_swap.
Qed.
Lemma sort_perm l : Permutation (sort_key l) l.
Proof. induction l as [|x l IH]; cbn; [constructor|]. rewrite insert_perm. now constructor. Qed.
Lemma insert_sorted x l : StronglySorted key_le l -> StronglySorted key_le (insert_key x l).
Proof.
  induction 1 as [|y l HS IH HF]; cbn [insert_key]; [repeat constructor|]. destruct (key_leb x y) eqn:E.
  - apply key_leb_le in E. constructor; [now constructor|]. constructor; [exact E|]. eapply Forall_impl; [|exact HF]. intros z. now apply key_le_trans.
  - apply key_leb_total, key_leb_le in E. constructor; [exact IH|]. eapply Permutation_Forall; [symmetry; apply insert_perm|]. now constructor.
Qed.
Lemma sort_sorted l : StronglySorted key_le (sort_key l).
Proof. induction l as [|x l IH]; cbn; [constructor|]. now apply insert_sorted. Qed.

Lemma insert_comm x y l : key_leb x y = false -> insert_key y (insert_key x l) = insert_key x (insert_key y l).
Proof.
  intros H. assert (Hxy : ~ key_le x y) by (rewrite <- key_leb_le; congruence). pose proof (proj1 (key_leb_le _ _) (key_leb_total _ _ H)) as Hyx.
  induction l as [|z l IH]; cbn [insert_key].
  - rewrite H. rewrite (key_leb_total _ _ H). reflexivity.
  - destruct (key_leb x z) eqn:Exz.
    + apply key_leb_le in Exz. assert (Eyz : key_leb y z = true) by (apply key_leb_le; eapply key_le_trans; eauto).
      cbn [insert_key]. rewrite Eyz. rewrite (key_leb_total _ _ H). cbn [insert_key]. rewrite H. apply key_leb_le in Exz. rewrite Exz. reflexivity.
    + destruct (key_leb y z) eqn:Eyz; cbn [insert_key]; rewrite Eyz; cbn [insert_key].
      * rewrite H. rewrite Exz. reflexivity.
      * rewrite Exz. now rewrite IH.
Qed.
Lemma fold_insert S x l : fold_right insert_key S (insert_key x l) = insert_key x (fold_right insert_key S l).
Proof.
  induction l as [|y l IH]; cbn [insert_key]; [reflexivity|]. destruct (key_leb x y) eqn:E; [reflexivity|].
  cbn [fold_right]. rewrite IH. now apply insert_comm.
Qed.
Lemma fold_sort S l : fold_right insert_key S (sort_key l) = fold_right insert_key S l.
Proof. induction l as [|x l IH]; [reflexivity|]. change (sort_key (x :: l)) with (insert_key x (sort_key l)). rewrite fold_insert, IH. reflexivity. Qed.
Lemma sort_sort_app l m : sort_key (sort_key l ++ m) = sort_key (l ++ m).
Proof. unfold sort_key at 1 3. rewrite !fold_right_app. apply fold_sort. Qed.
Lemma sort_sort l : sort_key (sort_key l) = sort_key l.
Proof. pose proof (sort_sort_app l []). now rewrite !app_nil_r in H. Qed.

(** * Disjointness *)
Lemma in_order_cons a l : in_order (a :: l) <-> (forall b, In b l -> i_end a <= i_start b) /\ in_order l.
Proof.
  split.
  - intros H. split.
    + intros b Hb. apply in_split in Hb as (m & q & ->). exact (H [] a m b q eq_refl).
    + intros p x m y q ->. exact (H (a :: p) x m y q eq_refl).
  - intros [H1 H2] [|z p] x m y q E; cbn in E; injection E as <- E; [apply H1; rewrite E; apply in_app_iff; right; now left|eapply H2; exact E].
Qed.
Lemma in_order_nil : in_order [].
Proof. intros [|] ? ? ? ?; discriminate. Qed.
Lemma adjacent_in_order l : Forall wf l -> adjacent_ok l = true -> in_order l.
Proof.
  induction l as [|a [|b l] IH]; intros HW H.
  - apply in_order_nil.
  - apply in_order_cons. split; [intros ? []|apply in_order_nil].
  - cbn [adjacent_ok] in H. apply andb_true_iff in H as [H1 H2]. apply Nat.leb_le in H1. inversion HW as [|a' l' Wa Wl]; subst.
    specialize (IH Wl H2). apply in_order_cons. split; [|exact IH]. intros c [->|Hc]; [exact H1|].
    apply in_order_cons in IH as [IH _]. specialize (IH c Hc). inversion Wl; subst. unfold wf in *. lia.
Qed.
Lemma in_order_adjacent l : in_order l -> adjacent_ok l = true.
Proof.
  induction l as [|a [|b l] IH]; intros H; [reflexivity|reflexivity|]. apply in_order_cons in H as [H1 H2].
  cbn [adjacent_ok]. apply andb_true_iff. split; [apply Nat.leb_le, H1; now left|exact (IH H2)].
Qed.
Lemma in_order_no_overlap l : in_order l -> no_overlap l.
Proof. intros H p a m b q E O. apply O. left. eapply H; eauto. Qed.

(** no_overlap is about pairs, so it does not depend on the order. *)
Lemma no_overlap_pairs l : no_overlap l <-> ForallOrdPairs (fun a b => ~ overlap a b) l.
Proof.
  split.
  - induction l as [|a l IH]; intros H; constructor.
    + apply Forall_forall. intros b Hb. apply in_split in Hb as (m & q & ->). exact (H [] a m b q eq_refl).
    + apply IH. intros p x m y q ->. exact (H (a :: p) x m y q eq_refl).
  - induction 1 as [|a l HF HP IH]; intros p x m y q E; [destruct p; discriminate|].
    destruct p as [|z p]; cbn in E; injection E as -> E; [|exact (IH p x m y q E)].
    rewrite Forall_forall in HF. apply HF. rewrite E. apply in_app_iff. right. now left.
Qed.
Lemma overlap_sym a b : overlap a b -> overlap b a.
Proof. unfold overlap. tauto. Qed.
Lemma no_overlap_perm l l' : Permutation l l' -> no_overlap l -> no_overlap l'.
Proof.
  rewrite !no_overlap_pairs. induction 1 as [|x l l' P IH|x y l|l l' l'' _ IH1 _ IH2]; intros H; auto.
  - inversion H; subst. constructor; [|auto]. eapply Permutation_Forall; eauto.
  - inversion H as [|? ? H1 H2]; subst. inversion H2 as [|? ? H3 H4]; subst. inversion H1 as [|? ? H5 H6]; subst.
    constructor; [constructor; [|exact H3]|constructor; [exact H6|exact H4]]. intros O. now apply H5, overlap_sym.
Qed.
Lemma sorted_in_order l : StronglySorted key_le l -> Forall wf l -> no_overlap l -> in_order l.
Proof.
  rewrite no_overlap_pairs. induction 1 as [|a l HS IH HF]; intros HW H; [apply in_order_nil|]. inversion H as [|? ? H1 H2]; subst. inversion HW as [|? ? Wa Wl]; subst.
  apply in_order_cons. split; [|auto]. intros b Hb. rewrite Forall_forall in HF, H1, Wl. specialize (HF b Hb). specialize (H1 b Hb). specialize (Wl b Hb).
  unfold overlap, key_le, wf in *. lia.
Qed.
Lemma Forall_sort P l : Forall P l -> Forall P (sort_key l).
Proof. intros H. eapply Permutation_Forall; [symmetry; apply sort_perm|exact H]. Qed.
Lemma check_spec l : Forall wf l -> snd (check_disjoint l) = true <-> no_overlap l.
Proof.
  intros HW. cbn. split; intros H.
  - eapply no_overlap_perm; [apply sort_perm|]. apply in_order_no_overlap, adjacent_in_order; [now apply Forall_sort|exact H].
  - apply in_order_adjacent, sorted_in_order; [apply sort_sorted|now apply Forall_sort|].
    eapply no_overlap_perm; [symmetry; apply sort_perm|exact H].
Qed.
Lemma assert_ok l : Forall wf l -> no_overlap l -> assert_disjoint l = Ok (sort_key l).
Proof. intros HW H. apply check_spec in H; [|exact HW]. unfold assert_disjoint. cbn in *. now rewrite H. Qed.
Lemma assert_panic l : Forall wf l -> ~ no_overlap l -> assert_disjoint l = Panic.
Proof. intros HW H. rewrite <- check_spec in H by exact HW. unfold assert_disjoint. cbn in *. now destruct (adjacent_ok (sort_key l)). Qed.
Lemma no_overlap_app l m : no_overlap (l ++ m) -> no_overlap l.
Proof. intros H p a k b q E. apply (H p a k b (q ++ m)). rewrite E. now rewrite <- !app_assoc, <- app_comm_cons, <- app_assoc. Qed.

(** * The builder *)
Lemma no_overlap_dec l : Forall wf l -> no_overlap l \/ ~ no_overlap l.
Proof. intros HW. rewrite <- check_spec by exact HW. destruct (snd (check_disjoint l)); auto. Qed.
Lemma builder_calls_spec is : forall done b, Permutation b done -> sort_key b = sort_key done -> Forall wf (done ++ is) ->
  (no_overlap (done ++ is) -> exists b', builder_calls b is = Ok b' /\ Permutation b' (done ++ is) /\ sort_key b' = sort_key (done ++ is)) /\
  (forall b', builder_calls b is = Ok b' -> Permutation b' (done ++ is) /\ sort_key b' = sort_key (done ++ is)) /\ builder_calls b is <> OutOfFuel.
Proof.
  induction is as [|i is IH]; intros done b Hp Hs HW.
  - rewrite app_nil_r. cbn [builder_calls]. repeat split; [eauto|now injection H as <-|now injection H as <-|discriminate].
  - assert (E : done ++ i :: is = (done ++ [i]) ++ is) by (rewrite <- app_assoc; reflexivity). rewrite E in *.
    cbn [builder_calls]. unfold builder_indel.
    assert (P1 : Permutation (b ++ [i]) (done ++ [i])) by now apply Permutation_app_tail.
    assert (S1 : sort_key (b ++ [i]) = sort_key (done ++ [i])) by (rewrite <- (sort_sort_app b), Hs; apply sort_sort_app).
    assert (W1 : Forall wf (done ++ [i])) by (apply Forall_app in HW; tauto).
    assert (W2 : Forall wf (b ++ [i])) by (eapply Permutation_Forall; [symmetry; exact P1|exact W1]).
    destruct (length (b ++ [i]) <=? 16).
    + destruct (no_overlap_dec _ W2) as [N|N].
      * rewrite assert_ok by assumption. cbn [rbind]. apply IH; [|rewrite sort_sort; exact S1|exact HW]. rewrite sort_perm. exact P1.
      * rewrite assert_panic by assumption. cbn [rbind]. repeat split; try discriminate. intros Hn. exfalso. apply N.
        apply no_overlap_app in Hn. eapply no_overlap_perm; [symmetry; exact P1|exact Hn].
    + cbn [rbind]. apply IH; assumption.
Qed.

Theorem C39_builder : forall is, Forall wf is ->
  (no_overlap is -> exists e, build is = Ok e /\ Permutation e is /\ in_order e) /\ (~ no_overlap is -> build is = Panic).
Proof.
  intros is HW. destruct (builder_calls_spec is [] [] (Permutation_refl _) eq_refl HW) as (H1 & H2 & H3). cbn [app] in *. unfold build, builder_finish. split.
  - intros N. destruct (H1 N) as (b & -> & P & S). cbn [rbind].
    assert (W : Forall wf b) by (eapply Permutation_Forall; [symmetry; exact P|exact HW]).
    assert (Nb : no_overlap b) by (eapply no_overlap_perm; [symmetry; exact P|exact N]).
    rewrite assert_ok by assumption. eexists. split; [reflexivity|]. split; [now rewrite sort_perm|].
    apply sorted_in_order; [apply sort_sorted|now apply Forall_sort|]. eapply no_overlap_perm; [symmetry; apply sort_perm|exact Nb].
  - intros N. destruct (builder_calls [] is) as [b| |] eqn:E; cbn [rbind]; [|reflexivity|now elim H3].
    destruct (H2 _ eq_refl) as [P S]. apply assert_panic; [eapply Permutation_Forall; [symmetry; exact P|exact HW]|].
    intros Hb. apply N. eapply no_overlap_perm; eauto.
Qed.
Print Assumptions C39_builder.

(** Replacements with the same range are kept in the order in which they were given. *)
Definition same_range (r : range) (i : indel) : bool := (i_start i =? r_start r) && (i_end i =? r_end r).
Lemma insert_filter r x l : filter (same_range r) (insert_key x l) = filter (same_range r) (x :: l).
Proof.
  induction l as [|y l IH]; cbn [insert_key]; [reflexivity|]. destruct (key_leb x y) eqn:E; [reflexivity|].
  cbn [filter] in *. rewrite IH. destruct (same_range r x) eqn:Ex, (same_range r y) eqn:Ey; try reflexivity. exfalso.
  unfold same_range in *. apply andb_true_iff in Ex as [E1 E2]. apply andb_true_iff in Ey as [E3 E4].
  apply Nat.eqb_eq in E1, E2, E3, E4. assert (key_leb x y = true) by (apply key_leb_le; unfold key_le; lia). congruence.
Qed.
Theorem C39_builder_stable : forall is e, Forall wf is -> build is = Ok e -> forall r, filter (same_range r) e = filter (same_range r) is.
Proof.
  intros is e HW H r. destruct (builder_calls_spec is [] [] (Permutation_refl _) eq_refl HW) as (_ & H2 & _). cbn [app] in *. unfold build, builder_finish in H.
  apply rbind_ok in H as (b & Hb & H). destruct (H2 _ Hb) as [_ S]. unfold assert_disjoint in H. cbn in H. destruct (adjacent_ok _); [|discriminate]. injection H as <-.
  rewrite S. clear. induction is as [|x l IH]; [reflexivity|]. change (sort_key (x :: l)) with (insert_key x (sort_key l)). rewrite insert_filter. cbn [filter]. now rewrite IH.
Qed.
Print Assumptions C39_builder_stable.

(** * Application *)
Lemma split_at t a b n m : t = a ++ b -> is_boundary t m -> blen a = n -> n <= m -> exists k r, b = k ++ r /\ m = n + blen k.
Proof.
  intros E (x & y & E2 & Hm) Ha Hle. subst n m.
  assert (G : forall a b x y, a ++ b = x ++ y -> blen a <= blen x -> exists k, x = a ++ k).
  { clear. induction a as [|c a IH]; intros b x y E H; [exists x; reflexivity|]. destruct x as [|c' x]; cbn in *; [pose proof (utf8_len_pos c); lia|].
    injection E as <- E. destruct (IH b x y E) as (k & ->); [lia|]. now exists k. }
  rewrite E in E2. destruct (G _ _ _ _ E2 Hle) as (k & ->). exists k, y. rewrite <- app_assoc in E2. apply app_inv_head in E2. split; [exact E2|apply blen_app].
Qed.
Lemma edited_exists e : forall t pre rest pos, t = pre ++ rest -> blen pre = pos -> in_order e -> Forall (fits t) e ->
  (forall i, In i e -> pos <= i_start i) -> exists u, Edited pos e rest u.
Proof.
  induction e as [|i e IH]; intros t pre rest pos E Hp HO HF Hle; [exists rest; constructor|].
  inversion HF as [|? ? (Wi & Bs & Be) HF']; subst x l. apply in_order_cons in HO as [HO1 HO2].
  destruct (split_at t pre rest pos (i_start i) E Bs Hp (Hle i (or_introl eq_refl))) as (k & r & Er & Es). subst rest. rewrite app_assoc in E.
  destruct (split_at t (pre ++ k) r (i_start i) (i_end i) E Be) as (d & r' & Ed & Ee); [rewrite blen_app; lia|exact Wi|]. subst r.
  destruct (IH t ((pre ++ k) ++ d) r' (i_end i)) as (u & Hu); auto; [now rewrite <- app_assoc|rewrite !blen_app; lia|].
  exists (k ++ i_insert i ++ u). constructor; [lia|lia|exact Hu].
Qed.
Lemma edited_apply_loop t : forall pos e rest u, Edited pos e rest u -> forall pre buf, t = pre ++ rest -> blen pre = pos -> apply_loop t buf pos e = Ok (buf ++ u).
Proof.
  induction 1 as [pos rest|pos i e keep del rest u Hs He H IH]; intros pre buf E Hp; cbn [apply_loop].
  - subst t. replace (blen (pre ++ rest)) with (blen pre + blen rest) by (rewrite blen_app; reflexivity).
    rewrite <- Hp. replace (pre ++ rest) with (pre ++ rest ++ []) at 1 by now rewrite app_nil_r. rewrite bslice_app. reflexivity.
  - destruct (Nat.ltb_spec pos (i_start i)) as [L|L].
    + assert (B : bslice t pos (i_start i) = Ok keep) by (rewrite E, Hs, <- Hp; apply bslice_app). rewrite B. cbn [rbind].
      rewrite (IH ((pre ++ keep) ++ del) ((buf ++ keep) ++ i_insert i)); [now rewrite <- !app_assoc|now rewrite E, <- !app_assoc|rewrite !blen_app; lia].
    + cbn [rbind]. assert (K : keep = []) by (destruct keep as [|c k]; [reflexivity|cbn in Hs; pose proof (utf8_len_pos c); lia]). subst keep. cbn [app] in *.
      rewrite (IH (pre ++ del) (buf ++ i_insert i)); [now rewrite <- !app_assoc|now rewrite E, <- !app_assoc|rewrite !blen_app; cbn in Hs; lia].
Qed.
Lemma edited_len pos e t u : Edited pos e t u -> forall acc B, fits_u32 B = true -> acc + inserted e <= B -> blen t <= acc ->
  exists n, total_len acc e = Ok n /\ n + blen t = acc + blen u.
Proof.
  induction 1 as [pos t|pos i e keep del t u Hs He H IH]; intros acc B HB Ha Ht; cbn [total_len]; [exists acc; auto|].
  unfold inserted in Ha. cbn [map list_sum fold_right] in Ha. fold (list_sum (map (fun i => blen (i_insert i)) e)) in Ha. fold (inserted e) in Ha.
  assert (LE : forall n, n <= B -> fits_u32 n = true) by (intros n Hn; unfold fits_u32 in *; apply N.ltb_lt in HB; apply N.ltb_lt; lia).
  unfold size_of. rewrite (LE (blen (i_insert i))) by lia. cbn [rbind]. unfold uadd. rewrite (LE (acc + blen (i_insert i))) by lia. cbn [rbind].
  rewrite !blen_app in Ht |- *. unfold usub. destruct (Nat.leb_spec (i_start i) (i_end i)); [|lia]. cbn [rbind].
  destruct (Nat.leb_spec (i_end i - i_start i) (acc + blen (i_insert i))); [|lia]. cbn [rbind].
  destruct (IH (acc + blen (i_insert i) - (i_end i - i_start i)) B HB) as (n & -> & Hn); [lia|lia|]. exists n. split; [reflexivity|]. rewrite ?blen_app in *. lia.
Qed.
Lemma indel_apply_at i a del b : i_start i = blen a -> i_end i = blen a + blen del -> indel_apply i (a ++ del ++ b) = Ok (a ++ i_insert i ++ b).
Proof.
  intros H1 H2. unfold indel_apply. destruct (Nat.ltb_spec (i_end i) (i_start i)); [lia|]. rewrite H1, bsplit_app.
  rewrite H2, <- blen_app, app_assoc, bsplit_app. reflexivity.
Qed.
Lemma edited_rtl pos e t u : Edited pos e t u -> forall pre, blen pre = pos -> right_to_left e (pre ++ t) = Ok (pre ++ u).
Proof.
  induction 1 as [pos t|pos i e keep del t u Hs He H IH]; intros pre Hp; cbn [right_to_left]; [reflexivity|].
  replace (pre ++ keep ++ del ++ t) with (((pre ++ keep) ++ del) ++ t) by now rewrite <- !app_assoc. rewrite IH by (rewrite !blen_app; lia). cbn [rbind].
  rewrite <- (app_assoc (pre ++ keep)). rewrite indel_apply_at; [now rewrite <- !app_assoc|rewrite blen_app; lia|rewrite blen_app; lia].
Qed.
Lemma Edited_fun pos e t u : Edited pos e t u -> forall u', Edited pos e t u' -> u = u'.
Proof.
  intros H u' H'. assert (blen (repeat 32%N pos) = pos) by (induction pos; cbn in *; auto; clear; induction pos; cbn; auto).
  pose proof (edited_rtl _ _ _ _ H _ H0) as E1. pose proof (edited_rtl _ _ _ _ H' _ H0) as E2. rewrite E1 in E2. injection E2 as E2. now apply app_inv_head in E2.
Qed.
Lemma edited_apply e t u : Edited 0 e t u -> fits_u32 (blen t + inserted e) = true -> edit_apply e t = Ok u.
Proof.
  intros H Hf. unfold edit_apply. destruct e as [|i [|j e]].
  - inversion H; subst. reflexivity.
  - inversion H as [|? ? ? keep del t' u' Hs He H']; subst. inversion H'; subst. apply indel_apply_at; [cbn in Hs; lia|lia].
  - set (e' := i :: j :: e) in *.
    assert (LE : forall n, n <= blen t + inserted e' -> fits_u32 n = true) by (intros n Hn; unfold fits_u32 in *; apply N.ltb_lt in Hf; apply N.ltb_lt; lia).
    unfold size_of at 1. rewrite (LE (blen t)) by lia. cbn [rbind].
    destruct (edited_len _ _ _ _ H (blen t) _ Hf (le_n _) (le_n _)) as (n & -> & Hn). cbn [rbind].
    rewrite (edited_apply_loop t _ _ _ _ H [] [] eq_refl eq_refl). cbn [rbind app].
    assert (Hu : blen u <= blen t + inserted e').
    { clear -H. clearbody e'. clear i j e. induction H as [pos t|pos i e keep del t u Hs He H IH]; [lia|]. rewrite !blen_app. unfold inserted in *. cbn [map list_sum fold_right].
      fold (list_sum (map (fun i => blen (i_insert i)) e)). lia. }
    unfold size_of. rewrite (LE (blen u) Hu). cbn [rbind]. assert (n = blen u) by lia. subst n. rewrite Nat.eqb_refl. reflexivity.
Qed.

(** Every edit a builder returns applies to every text it fits: no panic, and the result is the
    text with exactly those ranges replaced. *)
Theorem C37_apply : forall is e t, Forall wf is -> build is = Ok e -> Forall (fits t) is -> fits_u32 (blen t + inserted is) = true ->
  exists u, edit_apply e t = Ok u /\ Edited 0 e t u /\ (forall u', Edited 0 e t u' -> u' = u).
Proof.
  intros is e t HW H HF Hs. destruct (C39_builder is HW) as [B1 B2].
  destruct (no_overlap_dec is HW) as [N|N]; [|rewrite (B2 N) in H; discriminate]. destruct (B1 N) as (e' & E & P & O). rewrite E in H. injection H as ->.
  destruct (edited_exists e t [] t 0) as (u & Hu); auto; [eapply Permutation_Forall; [symmetry; exact P|exact HF]|intros; lia|].
  exists u. split; [|split; [exact Hu|intros u' Hu'; symmetry; eapply Edited_fun; eauto]]. apply edited_apply; [exact Hu|].
  assert (I : inserted e = inserted is). { unfold inserted, list_sum. clear -P. induction P; cbn; lia. } now rewrite I.
Qed.
Print Assumptions C37_apply.

Theorem C37_right_to_left : forall is e t, Forall wf is -> build is = Ok e -> Forall (fits t) is -> fits_u32 (blen t + inserted is) = true ->
  exists u, edit_apply e t = Ok u /\ right_to_left e t = Ok u.
Proof.
  intros is e t HW H HF Hs. destruct (C37_apply is e t HW H HF Hs) as (u & H1 & H2 & _). exists u. split; [exact H1|].
  exact (edited_rtl _ _ _ _ H2 [] eq_refl).
Qed.
Print Assumptions C37_right_to_left.

Example C37_case : let is := [mkIndel (txt "XY") (mkRange 5 8); mkIndel (txt "_") (mkRange 1 1); mkIndel [] (mkRange 2 3)] in
  Forall wf is /\ Forall (fits (txt "hello world")) is /\
  exists e, build is = Ok e /\ edit_apply e (txt "hello world") = Ok (txt "h_eloXYrld").
Proof.
  cbn zeta. split; [repeat constructor; unfold wf; cbn; lia|]. split; [|eexists; split; reflexivity].
  assert (B : forall n, n <= 11 -> is_boundary (txt "hello world") n).
  { intros n Hn. apply is_boundary_iff. do 12 (destruct n as [|n]; [eexists; reflexivity|]). lia. }
  repeat constructor; unfold wf; cbn; try lia; apply B; cbn; lia.
Qed.

(** * C38 *)

Lemma app_prefix (a : text) : forall b x y, a ++ b = x ++ y -> blen a <= blen x -> exists k, x = a ++ k /\ b = k ++ y.
Proof.
  induction a as [|c a IH]; intros b x y E H; [exists x; auto|]. destruct x as [|c' x]; cbn in *; [pose proof (utf8_len_pos c); lia|].
  injection E as <- E. destruct (IH b x y E) as (k & -> & ->); [lia|]. now exists k.
Qed.
Lemma Edited_start pos e t u : Edited pos e t u -> forall i, In i e -> pos <= i_start i.
Proof. induction 1 as [|pos i e keep del t u Hs He H IH]; intros j Hj; [destruct Hj|]. destruct Hj as [<-|Hj]; [lia|]. specialize (IH j Hj). lia. Qed.
Lemma offset_spec pos e t u : Edited pos e t u -> forall x b o r B, t = x ++ b -> o = pos + blen x -> blen x <= r -> r + inserted e <= B -> fits_u32 B = true ->
  ((exists i, In i e /\ i_start i < o < i_end i) /\ offset_loop o r e = Ok None) \/
  (~ (exists i, In i e /\ i_start i < o < i_end i) /\ exists l1 l2 x' b', e = l1 ++ l2 /\ (forall i, In i l1 -> i_start i < o) /\ (forall i, In i l2 -> o <= i_start i) /\
     Edited pos l1 x x' /\ Edited o l2 b b' /\ u = x' ++ b' /\ offset_loop o r e = Ok (Some (r - blen x + blen x'))).
Proof.
  induction 1 as [pos t|pos i e keep del t u Hs He H IH]; intros x b o r B E Ho Hr HB HF.
  - right. split; [intros (i & [] & _)|]. exists [], [], x, b. subst. repeat split; try (intros ? []); try constructor. cbn. do 2 f_equal. lia.
  - cbn [offset_loop]. destruct (Nat.leb_spec o (i_start i)) as [L|L].
    + right. assert (HS : forall j, In j (i :: e) -> o <= i_start j) by (intros j [<-|Hj]; [exact L|pose proof (Edited_start _ _ _ _ H j Hj); lia]). split.
      * intros (j & Hj & L2). specialize (HS j Hj). lia.
      * destruct (app_prefix x b keep (del ++ t)) as (k & -> & ->); [now rewrite E|lia|].
        exists [], (i :: e), x, (k ++ i_insert i ++ u). split; [reflexivity|]. split; [intros ? []|]. split; [exact HS|]. split; [constructor|].
        split; [constructor; [rewrite blen_app in Hs; lia|exact He|exact H]|]. split; [now rewrite <- app_assoc|]. do 2 f_equal. lia.
    + destruct (Nat.ltb_spec o (i_end i)) as [L2|L2]; [left; split; [exists i; split; [now left|lia]|reflexivity]|].
      destruct (app_prefix (keep ++ del) t x b) as (x2 & -> & ->); [now rewrite <- app_assoc|rewrite blen_app; lia|].
      unfold inserted in HB. cbn [map list_sum fold_right] in HB. fold (list_sum (map (fun i => blen (i_insert i)) e)) in HB. fold (inserted e) in HB.
      assert (LE : forall n, n <= B -> fits_u32 n = true) by (intros n Hn; unfold fits_u32 in *; apply N.ltb_lt in HF; apply N.ltb_lt; lia).
      rewrite !blen_app in *. unfold size_of. rewrite (LE (blen (i_insert i))) by lia. cbn [rbind]. unfold uadd. rewrite LE by lia. cbn [rbind].
      unfold usub, range_len. fold (i_start i) (i_end i). destruct (Nat.leb_spec (i_end i - i_start i) (r + blen (i_insert i))); [|lia]. cbn [rbind].
      destruct (IH x2 b o (r + blen (i_insert i) - (i_end i - i_start i)) B eq_refl) as [[(j & Hj & Lj) R]|(N & l1 & l2 & x' & b' & -> & F1 & F2 & E1 & E2 & -> & R)]; try lia; auto.
      * left. split; [exists j; split; [now right|exact Lj]|exact R].
      * right. split; [intros (j & [<-|Hj] & Lj); [lia|apply N; eauto]|]. exists (i :: l1), l2, (keep ++ i_insert i ++ x'), b'. split; [reflexivity|].
        split; [intros j [<-|Hj]; auto|]. split; [exact F2|]. split; [rewrite <- app_assoc; constructor; auto|]. split; [exact E2|]. split; [now rewrite <- !app_assoc|].
        rewrite R, !blen_app. do 2 f_equal. lia.
Qed.

(** For an offset on a boundary of the text: None exactly when it is strictly inside a deleted
    range. Otherwise the edit splits at the offset: the replacements that start before it turn
    the prefix [a] into [a'], the others turn the suffix [b] into [b'], the edited text is
    [a' ++ b'] and the offset returned is the length of [a']. *)
Theorem C38_apply_to_offset : forall is e a b, Forall wf is -> build is = Ok e -> Forall (fits (a ++ b)) is -> fits_u32 (blen (a ++ b) + inserted is) = true ->
  (apply_to_offset e (blen a) = Ok None /\ exists i, In i e /\ i_start i < blen a < i_end i) \/
  ((forall i, In i e -> ~ (i_start i < blen a < i_end i)) /\
   exists before after a' b', e = before ++ after /\ (forall i, In i before -> i_start i < blen a) /\ (forall i, In i after -> blen a <= i_start i) /\
     Edited 0 before a a' /\ Edited (blen a) after b b' /\ edit_apply e (a ++ b) = Ok (a' ++ b') /\
     apply_to_offset e (blen a) = Ok (Some (blen a'))).
Proof.
  intros is e a b HW H HF Hs. destruct (C37_apply is e (a ++ b) HW H HF Hs) as (u & H1 & H2 & _).
  assert (I : inserted e = inserted is).
  { destruct (C39_builder is HW) as [B1 B2]. destruct (no_overlap_dec is HW) as [N|N]; [|rewrite (B2 N) in H; discriminate]. destruct (B1 N) as (e' & E & P & O).
    rewrite E in H. injection H as ->. unfold inserted, list_sum. clear -P. induction P; cbn; lia. }
  destruct (offset_spec _ _ _ _ H2 a b (blen a) (blen a) (blen (a ++ b) + inserted is) eq_refl eq_refl (le_n _)) as [[X R]|(N & l1 & l2 & x' & b' & E & F1 & F2 & E1 & E2 & Eu & R)].
  - rewrite I, blen_app. lia.
  - exact Hs.
  - left. split; [exact R|exact X].
  - right. split; [intros i Hi L; apply N; eauto|]. exists l1, l2, x', b'. repeat (split; [assumption|]). split; [now rewrite <- Eu|].
    unfold apply_to_offset. rewrite R. do 2 f_equal. lia.
Qed.
Print Assumptions C38_apply_to_offset.

(** The character at the offset, if no replacement starts there, is found at the new offset. *)
Theorem C38_same_character : forall is e a c b o, Forall wf is -> build is = Ok e -> Forall (fits (a ++ c :: b)) is -> fits_u32 (blen (a ++ c :: b) + inserted is) = true ->
  (forall i, In i is -> i_start i <> blen a) -> apply_to_offset e (blen a) = Ok (Some o) ->
  exists a' b', edit_apply e (a ++ c :: b) = Ok (a' ++ c :: b') /\ blen a' = o.
Proof.
  intros is e a c b o HW H HF Hs Hn Ho. destruct (C38_apply_to_offset is e a (c :: b) HW H HF Hs) as [[R _]|(_ & l1 & l2 & a' & b' & E & F1 & F2 & E1 & E2 & Eu & R)]; [congruence|].
  rewrite R in Ho. injection Ho as <-.
  assert (P : Permutation e is). { destruct (C39_builder is HW) as [B1 B2]. destruct (no_overlap_dec is HW) as [N|N]; [|rewrite (B2 N) in H; discriminate]. destruct (B1 N) as (e' & E' & P & _). rewrite E' in H. now injection H as ->. }
  assert (B' : exists r, b' = c :: r).
  { inversion E2 as [|? i l keep del t u Hi He HE Q1 Q2 Q3]; subst; [eauto|]. destruct keep as [|k keep].
    - exfalso. apply (Hn i); [|cbn in Hi; lia]. eapply Permutation_in; [exact P|]. apply in_app_iff. right. now left.
    - cbn in Q3. injection Q3 as -> _. cbn. eauto. }
  destruct B' as (r & ->). eauto.
Qed.
Print Assumptions C38_same_character.

Example C38_case : let is := [mkIndel (txt "XY") (mkRange 5 8); mkIndel (txt "_") (mkRange 1 1); mkIndel [] (mkRange 2 3)] in
  exists e, build is = Ok e /\ apply_to_offset e 4 = Ok (Some 4) /\ apply_to_offset e 6 = Ok None /\ apply_to_offset e 9 = Ok (Some 8) /\ apply_to_offset e 1 = Ok (Some 1).
Proof. cbn zeta. eexists. repeat split; reflexivity. Qed.

(** The builder's invalidates_offset says exactly whether the offset touches one of the ranges
    given so far; an offset it does not touch is always mapped. *)
Theorem C38_invalidates : forall is b o, Forall wf is -> builder_calls [] is = Ok b ->
  (invalidates_offset b o = true <-> exists i, In i is /\ i_start i <= o <= i_end i).
Proof.
  intros is b o HW H. destruct (builder_calls_spec is [] [] (Permutation_refl _) eq_refl HW) as (_ & H2 & _). destruct (H2 _ H) as [P _]. cbn [app] in P. unfold invalidates_offset. rewrite existsb_exists. split.
  - intros (i & Hi & E). exists i. split; [eapply Permutation_in; eauto|]. apply andb_true_iff in E as [A B]. apply Nat.leb_le in A, B. lia.
  - intros (i & Hi & E). exists i. split; [eapply Permutation_in; [symmetry; exact P|exact Hi]|]. apply andb_true_iff. rewrite !Nat.leb_le. lia.
Qed.
Example C38_invalidates_case : exists b, builder_calls [] [mkIndel (txt "XY") (mkRange 5 8); mkIndel (txt "_") (mkRange 1 1)] = Ok b /\ map (invalidates_offset b) [0; 1; 2; 4; 5; 8; 9] = [false; true; false; false; true; true; false].
Proof. eexists. split; reflexivity. Qed.
Print Assumptions C38_invalidates.

(** * C39 *)
Lemma sort_distinct l l' : Permutation l l' -> (forall a b, In a l -> In b l -> i_delete a = i_delete b -> a = b) -> NoDup l -> sort_key l = sort_key l'.
Proof.
  intros P HD ND.
  assert (G : forall s s', StronglySorted key_le s -> StronglySorted key_le s' -> Permutation s s' -> (forall a b, In a s -> In b s -> i_delete a = i_delete b -> a = b) -> NoDup s -> s = s').
  { clear. induction s as [|a s IH]; intros s' H1 H2 P HD ND; [apply Permutation_nil in P; now subst|]. destruct s' as [|b s']; [symmetry in P; apply Permutation_nil in P; discriminate|].
    inversion H1 as [|? ? S1 F1]; subst. inversion H2 as [|? ? S2 F2]; subst. assert (a = b) as <-.
    { rewrite Forall_forall in F1, F2. assert (Ha : In a (b :: s')) by (eapply Permutation_in; [exact P|now left]). assert (Hb : In b (a :: s)) by (eapply Permutation_in; [symmetry; exact P|now left]).
      destruct Ha as [Ha|Ha]; [congruence|]. destruct Hb as [Hb|Hb]; [congruence|]. apply HD; [now left|now right|]. specialize (F1 b Hb). specialize (F2 a Ha). unfold key_le in *.
      destruct a as [ia [sa ea]], b as [ib [sb eb]]. unfold i_start, i_end in *. cbn in *. f_equal; lia. }
    apply Permutation_cons_inv in P. inversion ND; subst. f_equal. apply IH; auto. intros x y Hx Hy. apply HD; now right. }
  apply G; try apply sort_sorted.
  - rewrite !sort_perm. exact P.
  - intros a b Ha Hb. apply HD; eapply Permutation_in; try apply sort_perm; assumption.
  - eapply Permutation_NoDup; [symmetry; apply sort_perm|exact ND].
Qed.

Theorem C39_union : forall a b, Forall wf (a ++ b) ->
  (no_overlap (a ++ b) -> exists e, edit_union a b = Ok (e, inl tt) /\ Permutation e (a ++ b) /\ in_order e) /\
  (~ no_overlap (a ++ b) -> edit_union a b = Ok (a, inr b)).
Proof.
  intros a b HW. pose proof (check_spec _ HW) as C. unfold edit_union. destruct (check_disjoint (a ++ b)) as [s ok] eqn:E. cbn [snd] in C. split; intros N.
  - apply C in N as N'. rewrite N'. rewrite assert_ok by assumption. cbn [rbind]. eexists. split; [reflexivity|]. split; [apply sort_perm|].
    apply sorted_in_order; [apply sort_sorted|now apply Forall_sort|]. eapply no_overlap_perm; [symmetry; apply sort_perm|exact N].
  - destruct ok; [elim N; now apply C|reflexivity].
Qed.
Print Assumptions C39_union.

(** With pairwise distinct ranges the order of the two edits does not matter. *)
Theorem C39_union_commutes : forall a b, Forall wf (a ++ b) -> NoDup (map i_delete (a ++ b)) -> no_overlap (a ++ b) ->
  exists e, edit_union a b = Ok (e, inl tt) /\ edit_union b a = Ok (e, inl tt).
Proof.
  intros a b HW ND N. pose proof (check_spec _ HW) as C.
  assert (P : Permutation (a ++ b) (b ++ a)) by apply Permutation_app_comm.
  assert (HW' : Forall wf (b ++ a)) by (eapply Permutation_Forall; eauto). assert (N' : no_overlap (b ++ a)) by (eapply no_overlap_perm; eauto).
  pose proof (check_spec _ HW') as C'. exists (sort_key (a ++ b)). unfold edit_union.
  destruct (check_disjoint (a ++ b)) as [s ok] eqn:E. destruct (check_disjoint (b ++ a)) as [s' ok'] eqn:E'. cbn [snd] in C, C'.
  rewrite (proj2 C N), (proj2 C' N'). rewrite !assert_ok by assumption. cbn [rbind]. split; [reflexivity|]. do 2 f_equal. symmetry. apply sort_distinct; [exact P| |now apply NoDup_map_inv in ND].
  intros x y Hx Hy Hd. apply in_split in Hx as (p & q & Hpq). rewrite Hpq in *. rewrite map_app in ND. cbn [map] in ND. apply NoDup_remove_2 in ND.
  apply in_app_iff in Hy as [Hy|[Hy|Hy]]; [|exact Hy|]; exfalso; apply ND, in_app_iff; rewrite Hd; [left|right]; now apply in_map.
Qed.
Print Assumptions C39_union_commutes.

Example C39_case : let a := [mkIndel (txt "x") (mkRange 0 2)] in let b := [mkIndel [] (mkRange 2 4)] in let c := [mkIndel [] (mkRange 1 1)] in
  edit_union b a = Ok (a ++ b, inl tt) /\ edit_union a c = Ok (a, inr c) /\ build (a ++ c) = Panic.
Proof. repeat split; reflexivity. Qed.

(** ** One-replacement edits *)
(** The constructors never panic on a proper range, and say what their names say: insert puts the
    text at the offset, delete takes the range out, replace does both. *)
Lemma build_one i : build [i] = Ok [i].
Proof. unfold build. cbn. reflexivity. Qed.
Lemma replace_apply p d q s : exists e, edit_replace (mkRange (blen p) (blen p + blen d)) s = Ok e /\ edit_apply e (p ++ d ++ q) = Ok (p ++ s ++ q).
Proof.
  unfold edit_replace. rewrite build_one. eexists; split; [reflexivity|]. cbn [edit_apply]. unfold indel_apply, i_start, i_end. cbn [i_delete r_start r_end i_insert].
  destruct (Nat.ltb_spec (blen p + blen d) (blen p)); [lia|]. rewrite bsplit_app. rewrite <- blen_app, app_assoc, bsplit_app. reflexivity.
Qed.
Theorem C37_constructors :
  (forall p d q s, exists e, edit_replace (mkRange (blen p) (blen p + blen d)) s = Ok e /\ edit_apply e (p ++ d ++ q) = Ok (p ++ s ++ q)) /\
  (forall p d q, exists e, edit_delete (mkRange (blen p) (blen p + blen d)) = Ok e /\ edit_apply e (p ++ d ++ q) = Ok (p ++ q)) /\
  (forall p q s, exists e, edit_insert (blen p) s = Ok e /\ edit_apply e (p ++ q) = Ok (p ++ s ++ q)).
Proof.
  split; [exact replace_apply|split].
  - intros p d q. destruct (replace_apply p d q []) as (e & H1 & H2). exists e. split; [exact H1|exact H2].
  - intros p q s. destruct (replace_apply p [] q s) as (e & H1 & H2). exists e. split; [|exact H2]. revert H1. unfold edit_replace, edit_insert. cbn [blen]. rewrite Nat.add_0_r. auto.
Qed.
Print Assumptions C37_constructors.
Example C37_constructors_ex :
  match edit_delete (mkRange 2 4), edit_insert 2 (txt "xy"), edit_replace (mkRange 0 2) (txt "q") with
  | Ok d, Ok i, Ok r => (edit_apply d (txt "abcde"), edit_apply i (txt "abcde"), edit_apply r (txt "abcde")) = (Ok (txt "abe"), Ok (txt "abxycde"), Ok (txt "qcde"))
  | _, _, _ => False end.
Proof. vm_compute. reflexivity. Qed.

(** How far a replacement moves what follows it: the difference of the lengths, when the text does
    not get shorter; the subtraction of unsigned sizes panics exactly when it does. *)
Theorem C38_offset : forall i, wf i -> fits_u32 (blen (i_insert i)) = true ->
  (i_end i - i_start i <= blen (i_insert i) -> indel_offset i = Ok (blen (i_insert i) - (i_end i - i_start i))) /\
  (blen (i_insert i) < i_end i - i_start i -> indel_offset i = Panic).
Proof.
  intros i W F. unfold indel_offset, size_of. rewrite F. cbn [rbind]. unfold usub, range_len. fold (i_end i) (i_start i). split; intros H.
  - destruct (Nat.leb_spec (i_end i - i_start i) (blen (i_insert i))); [reflexivity|lia].
  - destruct (Nat.leb_spec (i_end i - i_start i) (blen (i_insert i))); [lia|reflexivity].
Qed.
Print Assumptions C38_offset.
