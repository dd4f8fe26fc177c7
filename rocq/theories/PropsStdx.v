(** PropsStdx.v — C44 partition_point, C59 path normalization. *)
From Verif Require Import Base Stdx.

(** * C44 *)
Lemma pp_spec {T} (slice : list T) pred fuel : forall left right, left <= right -> right <= length slice -> right - left < fuel ->
  (forall x, 0 < left -> nth_error slice (left - 1) = Some x -> pred x = true) ->
  (forall x, nth_error slice right = Some x -> pred x = false) ->
  exists idx, pp_loop fuel slice pred left right = Ok idx /\ left <= idx <= right /\
    (forall x, 0 < idx -> nth_error slice (idx - 1) = Some x -> pred x = true) /\ (forall x, nth_error slice idx = Some x -> pred x = false).
Proof.
  induction fuel as [|fuel IH]; intros left right H1 H2 H3 HL HR; [lia|]. cbn [pp_loop]. destruct (Nat.eqb_spec left right) as [->|Hne]; [exists right; auto|].
  pose proof (Nat.div_lt (right - left) 2). set (mid := left + (right - left) / 2) in *. assert (left <= mid < right) by (unfold mid; lia).
  destruct (nth_error slice mid) as [v|] eqn:E; [|apply nth_error_None in E; lia]. destruct (pred v) eqn:P.
  - destruct (IH (mid + 1) right) as (i & R & B & L); try lia; auto.
    + intros x _ Hx. replace (mid + 1 - 1) with mid in Hx by lia. congruence.
    + exists i. repeat split; try tauto; lia.
  - destruct (IH left mid) as (i & R & B & L); try lia; auto.
    + intros x Hx. congruence.
    + exists i. repeat split; try tauto; lia.
Qed.

(** On any slice: terminates, in bounds, at an index before which the predicate holds and at
    which it fails. *)
Theorem C44_total : forall T (slice : list T) pred, exists idx, partition_point slice pred = Ok idx /\ idx <= length slice /\
  (forall x, 0 < idx -> nth_error slice (idx - 1) = Some x -> pred x = true) /\ (forall x, nth_error slice idx = Some x -> pred x = false).
Proof.
  intros T slice pred. destruct (pp_spec slice pred (S (length slice)) 0 (length slice)) as (i & H & B & L & R); try lia.
  - intros x Hx. assert (N : nth_error slice (length slice) = None) by now apply nth_error_None. congruence.
  - exists i. repeat split; auto. lia.
Qed.
Print Assumptions C44_total.

Theorem C44_partition_point : forall T (pre post : list T) pred, (forall x, In x pre -> pred x = true) -> (forall x, In x post -> pred x = false) ->
  partition_point (pre ++ post) pred = Ok (length pre).
Proof.
  intros T pre post pred H1 H2. destruct (C44_total T (pre ++ post) pred) as (i & -> & B & L & R). f_equal.
  rewrite app_length in B. destruct (lt_eq_lt_dec i (length pre)) as [[Hlt| ->]|Hgt]; [|reflexivity|]; exfalso.
  - destruct (nth_error pre i) as [x|] eqn:E; [|apply nth_error_None in E; lia]. specialize (R x). rewrite nth_error_app1 in R by lia. specialize (R E).
    rewrite (H1 x (nth_error_In _ _ E)) in R. discriminate.
  - destruct (nth_error post (i - 1 - length pre)) as [x|] eqn:E; [|apply nth_error_None in E; lia]. specialize (L x). rewrite nth_error_app2 in L by lia.
    specialize (L ltac:(lia) E). rewrite (H2 x (nth_error_In _ _ E)) in L. discriminate.
Qed.
Print Assumptions C44_partition_point.

Example C44_case : partition_point [1; 3; 4; 8; 9] (fun x => x <? 5) = Ok 3.
Proof. reflexivity. Qed.

(** * C59 *)

(** Where a path leads, starting at the directory [d] (the list of names below the root): the
    ordinary reading of "/", ".", ".." and names. *)
Fixpoint walk (d : list text) (cs : list component) : list text :=
  match cs with
  | [] => d
  | RootDir :: cs' => walk [] cs'
  | CurDir :: cs' => walk d cs'
  | ParentDir :: cs' => walk (removelast d) cs'
  | Normal s :: cs' => walk (d ++ [s]) cs'
  end.

(** A name that can occur in a path. *)
Definition name_ok (s : text) : Prop := s <> [] /\ s <> txt "." /\ s <> txt ".." /\ ~ In 47%N s.

Lemma pop_names d : path_pop (RootDir :: map Normal d) = RootDir :: map Normal (removelast d).
Proof.
  unfold path_pop. destruct d as [|x d] using rev_ind; [reflexivity|]. rewrite map_app. cbn [map].
  rewrite app_comm_cons, rev_app_distr. cbn [rev app]. rewrite removelast_last. change (match Normal x with RootDir => RootDir :: map Normal d ++ [Normal x] | _ => rev (rev (map Normal d) ++ [RootDir]) end) with (rev (rev (map Normal d) ++ [RootDir])).
  rewrite rev_app_distr, rev_involutive. reflexivity.
Qed.
Lemma normalize_walk cs : forall d, fold_left normalize_step cs (RootDir :: map Normal d) = RootDir :: map Normal (walk d cs).
Proof.
  induction cs as [|c cs IH]; intros d; [reflexivity|]. cbn [fold_left walk]. destruct c; cbn [normalize_step].
  - apply (IH []).
  - apply IH.
  - rewrite pop_names. apply IH.
  - rewrite <- IH, map_app. reflexivity.
Qed.

(** Names of the components of a text contain no separator. *)
Lemma split_no_sep t : forall cur, ~ In 47%N cur -> Forall (fun p => ~ In 47%N p) (split_sep cur t).
Proof.
  induction t as [|c t IH]; intros cur H; cbn [split_sep]; [repeat constructor; exact H|]. destruct (N.eqb_spec c 47) as [->|Hc].
  - constructor; [exact H|]. apply IH. intros [].
  - apply IH. rewrite in_app_iff. intros [X|[X|[]]]; [auto|congruence].
Qed.
Lemma parts_names t : Forall (fun c => match c with Normal s => name_ok s | ParentDir => True | _ => False end) (flat_map part_component (parts t)).
Proof.
  unfold parts. pose proof (split_no_sep t [] (fun x => x)) as H. change (@Forall text (fun p => ~ In 47%N p) (split_sep [] t)) in H.
  revert H. generalize (split_sep [] t). intros l. induction l as [|p ps IH]; intros H; [constructor|].
  inversion H; subst. cbn [flat_map]. apply Forall_app. split; [|auto]. unfold part_component.
  destruct (text_eqb p []) eqn:E1; [constructor|]. destruct (text_eqb p (txt ".")) eqn:E2; [constructor|]. destruct (text_eqb p (txt "..")) eqn:E3; [repeat constructor|].
  constructor; [|constructor]. split; [|split; [|split; [|assumption]]]; intros ->; discriminate.
Qed.
Lemma walk_names cs : forall d, Forall name_ok d -> Forall (fun c => match c with Normal s => name_ok s | ParentDir => True | _ => False end) cs -> Forall name_ok (walk d cs).
Proof.
  induction cs as [|c cs IH]; intros d Hd H; [exact Hd|]. inversion H as [|? ? Hc Hcs]; subst. cbn [walk]. destruct c; try contradiction.
  - apply IH; [|exact Hcs]. destruct d as [|x d] using rev_ind; [constructor|]. rewrite removelast_last. apply Forall_app in Hd. tauto.
  - apply IH; [|exact Hcs]. apply Forall_app. split; [exact Hd|]. repeat constructor; apply Hc.
Qed.

(** The components of the rendered path are the components it was built from. *)
Lemma split_app a : forall cur b, ~ In 47%N a -> split_sep cur (a ++ 47%N :: b) = (cur ++ a) :: split_sep [] b.
Proof.
  induction a as [|c a IH]; intros cur b H; cbn [app split_sep].
  - rewrite N.eqb_refl, app_nil_r. reflexivity.
  - destruct (N.eqb_spec c 47) as [->|Hc]; [elim H; now left|]. rewrite IH by (intros X; apply H; now right). now rewrite <- app_assoc.
Qed.
Lemma split_end a : forall cur, ~ In 47%N a -> split_sep cur a = [cur ++ a].
Proof.
  induction a as [|c a IH]; intros cur H; cbn [split_sep]; [now rewrite app_nil_r|].
  destruct (N.eqb_spec c 47) as [->|Hc]; [elim H; now left|]. rewrite IH by (intros X; apply H; now right). now rewrite <- app_assoc.
Qed.
Definition joined (d : list text) : text := flat_map (fun s => 47%N :: s) d.
Lemma parts_joined d : Forall name_ok d -> parts (joined d) = [] :: d \/ d = [].
Proof.
  induction d as [|s d IH]; intros H; [now right|]. left. inversion H as [|? ? (N1 & N2 & N3 & N4) Hd]; subst. unfold parts, joined in *. cbn [flat_map app split_sep]. rewrite N.eqb_refl. f_equal.
  destruct d as [|s' d]; [cbn [flat_map]; rewrite app_nil_r; now apply split_end|].
  destruct (IH Hd) as [E|]; [|discriminate]. cbn [flat_map app split_sep] in E |- *. rewrite N.eqb_refl in E. injection E as E.
  rewrite split_app by exact N4. cbn [app]. f_equal. exact E.
Qed.
Lemma last_app_ne {A} (a b : list A) x : b <> [] -> last (a ++ b) x = last b x.
Proof.
  intros H. induction a as [|y a IH]; [reflexivity|]. cbn [app]. destruct (a ++ b) as [|z l] eqn:E; [apply app_eq_nil in E as [_ E]; contradiction|].
  transitivity (last (z :: l) x); [reflexivity|exact IH].
Qed.
Lemma last_in {A} (l : list A) x : l <> [] -> In (last l x) l.
Proof. induction l as [|y [|z l] IH]; intros H; [easy|now left|]. right. apply IH. discriminate. Qed.
Lemma push_name (b s : text) : name_ok s -> b <> [] -> last b 0%N <> 47%N -> path_push b s = b ++ 47%N :: s.
Proof.
  intros (N1 & N2 & N3 & N4) Hb Hl. unfold path_push. destruct s as [|c s]; [easy|]. unfold is_absolute. destruct (N.eqb_spec c 47) as [->|Hc]; [elim N4; now left|].
  destruct b as [|x b]; [easy|]. destruct (N.eqb_spec (last (x :: b) 0%N) 47); [contradiction|]. reflexivity.
Qed.
Lemma render_more (d : list text) : forall b : text, Forall name_ok d -> b <> [] -> last b 0%N <> 47%N -> fold_left (fun b c => path_push b (component_str c)) (map Normal d) b = b ++ joined d.
Proof.
  induction d as [|s d IH]; intros b H Hb Hl; cbn [map fold_left component_str]; [now rewrite app_nil_r|]. inversion H as [|? ? Hs Hd]; subst.
  rewrite (push_name b s Hs Hb Hl). rewrite IH; [unfold joined; cbn [flat_map]; now rewrite <- !app_assoc|exact Hd|now destruct b|].
  destruct Hs as (N1 & _ & _ & N4). change (b ++ 47%N :: s) with (b ++ [47%N] ++ s). rewrite app_assoc, last_app_ne by exact N1. intros E. apply N4. rewrite <- E. now apply last_in.
Qed.
Lemma render_root d : Forall name_ok d -> d <> [] -> render (RootDir :: map Normal d) = joined d.
Proof.
  intros H Hd. destruct d as [|s d]; [easy|]. inversion H as [|? ? Hs Hd']; subst. unfold render. cbn [map fold_left component_str].
  assert (E : path_push (path_push [] (txt "/")) s = 47%N :: s).
  { destruct Hs as (N1 & _ & _ & N4). unfold path_push at 1. destruct s as [|c s]; [easy|]. unfold is_absolute. destruct (N.eqb_spec c 47) as [->|]; [elim N4; now left|]. reflexivity. }
  rewrite E. rewrite render_more; [unfold joined; reflexivity|exact Hd'|discriminate|]. destruct Hs as (N1 & _ & _ & N4). intros L. apply N4. rewrite <- L.
  change (47%N :: s) with ([47%N] ++ s). rewrite last_app_ne by exact N1. now apply last_in.
Qed.
Lemma names_back d : Forall name_ok d -> flat_map part_component d = map Normal d.
Proof.
  induction 1 as [|s d (N1 & N2 & N3 & N4) _ IH]; [reflexivity|]. cbn [flat_map map]. rewrite IH. unfold part_component.
  assert (F : forall x, s <> x -> text_eqb s x = false) by (intros x Hx; destruct (text_eqb s x) eqn:E; [apply text_eqb_eq in E; contradiction|reflexivity]).
  rewrite (F _ N1), (F _ N2), (F _ N3). reflexivity.
Qed.
Lemma components_render d : Forall name_ok d -> components (render (RootDir :: map Normal d)) = RootDir :: map Normal d.
Proof.
  intros H. destruct d as [|s d]; [reflexivity|]. rewrite render_root by (auto; discriminate).
  destruct (parts_joined (s :: d) H) as [E|]; [|discriminate]. unfold components.
  change (joined (s :: d)) with (47%N :: (s ++ joined d)) in *. change (RootDir :: flat_map part_component (parts (47%N :: (s ++ joined d))) = RootDir :: map Normal (s :: d)). rewrite E. change (flat_map part_component ([] :: s :: d)) with (flat_map part_component (s :: d)). now rewrite (names_back _ H).
Qed.

(** Normalizing an absolute path gives the absolute path of the place it leads to, spelled with
    names only, one separator between them. *)
Theorem C59_normalize : forall t, is_absolute t = true ->
  let d := walk [] (components t) in
  Forall name_ok d /\ components (normalize_path t) = RootDir :: map Normal d /\
  is_absolute (normalize_path t) = true /\ (normalize_path t = joined d \/ d = [] /\ normalize_path t = txt "/").
Proof.
  intros t0 Ht d. assert (H0 : exists t : text, t0 = 47%N :: t) by (destruct t0 as [|c t]; [discriminate|]; apply N.eqb_eq in Ht as ->; eauto).
  destruct H0 as (t & ->). clear Ht.
  assert (E : components (47%N :: t) = RootDir :: flat_map part_component (parts (47%N :: t))) by reflexivity.
  assert (Hd : Forall name_ok d) by exact (walk_names _ [] (Forall_nil _) (parts_names (47%N :: t))).
  assert (EN : normalize_components (components (47%N :: t)) = RootDir :: map Normal d).
  { rewrite E. exact (normalize_walk _ []). }
  assert (EP : normalize_path (47%N :: t) = render (RootDir :: map Normal d)) by (unfold normalize_path; now rewrite EN).
  split; [exact Hd|]. rewrite EP. split; [now apply components_render|].
  clearbody d. destruct d as [|s d]; [split; [reflexivity|right; split; reflexivity]|].
  rewrite render_root by (auto; discriminate). split; [reflexivity|now left].
Qed.
Print Assumptions C59_normalize.

Lemma walk_normal d : forall d0, walk d0 (map Normal d) = d0 ++ d.
Proof. induction d as [|s d IH]; intros d0; cbn [map walk]; [now rewrite app_nil_r|]. rewrite IH. now rewrite <- app_assoc. Qed.
Theorem C59_idempotent : forall t, is_absolute t = true -> normalize_path (normalize_path t) = normalize_path t.
Proof.
  intros t Ht. destruct (C59_normalize t Ht) as (H1 & H2 & H3 & _). unfold normalize_path at 1. rewrite H2.
  unfold normalize_components. cbn [fold_left normalize_step]. rewrite (normalize_walk _ []), walk_normal. cbn [app].
  destruct (C59_normalize t Ht) as (_ & _ & _ & [E|[E1 E2]]).
  - destruct (walk [] (components t)) as [|s d] eqn:Ed; [|rewrite render_root by (auto; discriminate); now rewrite E].
    rewrite E in H3. discriminate.
  - rewrite E1, E2. reflexivity.
Qed.
Print Assumptions C59_idempotent.

Example C59_case : normalize_path (txt "/a/../../b/.//c//") = txt "/b/c".
Proof. reflexivity. Qed.
