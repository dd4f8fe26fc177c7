(** PropsDiag.v — published diagnostics (C52). *)
From Coq Require Import ZArith.
From Verif Require Import Base TextEdit LineIndex Vfs Ide Server PropsTextEdit PropsLineIndex PropsVfs PropsIde ServerInv PropsServer PropsRequests.

(** * Specification *)

(** The diagnostics the client shows for a file: those of the last message about it. *)
Fixpoint last_published (p : path) (l : list output) : option (list lsp_diagnostic) :=
  match l with
  | [] => None
  | OutDiagnostics (UFile q) ds _ :: l' => match last_published p l' with Some x => Some x | None => if String.eqb p q then Some ds else None end
  | _ :: l' => last_published p l'
  end.
Definition closed_in (es : list event) (p : path) : Prop := In (ELsp (MNot (NClose (UFile p)))) es.

(** * Proofs *)
Lemma last_published_app p a b : last_published p (a ++ b) = match last_published p b with Some x => Some x | None => last_published p a end.
Proof.
  induction a as [|o a IH]; cbn [app last_published]; [destruct (last_published p b); reflexivity|]. destruct o as [| [q|] |]; try exact IH. rewrite IH. destruct (last_published p b); [reflexivity|destruct (last_published p a); reflexivity].
Qed.

(** The collection, for diagnostics without additional fields. *)
Definition plain (l : list lsp_diagnostic) : Prop := Forall (fun d => ld_rest d = 0%N) l.
Lemma sv_plain a : forall b, Forall2 same_visible a b -> plain a -> plain b -> a = b.
Proof.
  intros b H. induction H as [|x y a b (H1 & H2 & H3 & H4) _ IH]; intros Pa Pb; [reflexivity|]. inversion Pa; subst. inversion Pb; subst. rewrite (IH H6 H8). f_equal. destruct x, y; cbn in *. congruence.
Qed.
Definition clean (c : collection) : Prop := co_check c = [] /\ forall i ds, aget Nat.eq_dec i (co_native c) = Some ds -> plain ds.
Lemma set_native_spec c f ds : clean c -> plain ds ->
  clean (set_native c f ds) /\ (forall i, aget Nat.eq_dec i (co_native (set_native c f ds)) = if Nat.eq_dec i f then Some ds else aget Nat.eq_dec i (co_native c)) /\
  (forall i, In i (co_changes (set_native c f ds)) <-> In i (co_changes c) \/ i = f /\ aget Nat.eq_dec f (co_native c) <> Some ds).
Proof.
  intros [C P] H. set (put := mkColl (aset Nat.eq_dec f ds (co_native c)) (co_check c) (set_insert f (co_changes c))).
  assert (Q : aget Nat.eq_dec f (co_native c) <> Some ds -> clean put /\ (forall i, aget Nat.eq_dec i (co_native put) = if Nat.eq_dec i f then Some ds else aget Nat.eq_dec i (co_native c)) /\
    (forall i, In i (co_changes put) <-> In i (co_changes c) \/ i = f /\ aget Nat.eq_dec f (co_native c) <> Some ds)).
  { intros N. split; [|split].
    - split; [exact C|]. cbn. intros i d. rewrite aget_aset. destruct (Nat.eq_dec i f); [intros E; injection E as <-; exact H|apply P].
    - intros i. cbn. apply aget_aset.
    - intros i. cbn. rewrite in_set_insert. intuition. }
  unfold set_native. fold put. destruct (aget Nat.eq_dec f (co_native c)) as [old|] eqn:E; [|apply Q; discriminate].
  destruct (all_equal ds old) eqn:A.
  - apply all_equal_iff in A. assert (ds = old) by (apply sv_plain; eauto). subst old. split; [split; auto|]. split.
    + intros i. destruct (Nat.eq_dec i f) as [->|]; auto.
    + intros i. intuition.
  - apply Q. intros X. injection X as ->. assert (all_equal ds ds = true) by (apply all_equal_iff, sv_refl). congruence.
Qed.
(** Last entry of a list of settings. *)
Fixpoint last_of (i : nat) (l : list (nat * list lsp_diagnostic)) : option (list lsp_diagnostic) :=
  match l with [] => None | (j, ds) :: l' => match last_of i l' with Some x => Some x | None => if Nat.eq_dec i j then Some ds else None end end.
Definition set_all (l : list (nat * list lsp_diagnostic)) (c : collection) : collection := fold_left (fun c fd => set_native c (fst fd) (snd fd)) l c.
Definition plains (l : list (nat * list lsp_diagnostic)) : Prop := forall i ds, In (i, ds) l -> plain ds.
Lemma set_all_spec l : forall c, clean c -> plains l ->
  clean (set_all l c) /\ (forall i, aget Nat.eq_dec i (co_native (set_all l c)) = match last_of i l with Some ds => Some ds | None => aget Nat.eq_dec i (co_native c) end) /\
  (forall i, In i (co_changes c) -> In i (co_changes (set_all l c))) /\
  (forall i, ~ In i (co_changes (set_all l c)) -> aget Nat.eq_dec i (co_native (set_all l c)) = aget Nat.eq_dec i (co_native c)) /\
  (forall i, In i (co_changes (set_all l c)) -> In i (co_changes c) \/ last_of i l <> None).
Proof.
  induction l as [|[j ds] l IH]; intros c C P; cbn [set_all fold_left last_of].
  - split; [exact C|]. repeat split; auto.
  - destruct (set_native_spec c j ds C (P j ds (or_introl eq_refl))) as (C1 & G1 & H1). destruct (IH _ C1 (fun i d X => P i d (or_intror X))) as (C2 & G2 & H2 & K2 & L2).
    cbn [fst snd]. change (fold_left (fun c fd => set_native c (fst fd) (snd fd)) l (set_native c j ds)) with (set_all l (set_native c j ds)). split; [exact C2|]. split; [|split; [|split]].
    + intros i. rewrite G2. destruct (last_of i l); [reflexivity|]. rewrite G1. destruct (Nat.eq_dec i j); reflexivity.
    + intros i Hi. apply H2, H1. now left.
    + intros i Hi. rewrite (K2 i Hi), G1. destruct (Nat.eq_dec i j) as [->|]; [|reflexivity]. destruct (aget Nat.eq_dec j (co_native c)) as [o|] eqn:E.
      * destruct (list_eq_dec (fun a b : lsp_diagnostic => ltac:(repeat decide equality) : {a = b} + {a <> b}) o ds) as [->|N]; [reflexivity|]. elim Hi. apply H2, H1. right. split; [reflexivity|congruence].
      * elim Hi. apply H2, H1. right. split; [reflexivity|congruence].
    + intros i Hi. apply L2 in Hi as [Hi|Hi]; [apply H1 in Hi as [Hi|[-> _]]; [now left|]|]; right; destruct (last_of _ l); try discriminate; [destruct (Nat.eq_dec j j); [discriminate|contradiction]|congruence].
Qed.
Fixpoint settings (l : list task) : list (nat * list lsp_diagnostic) := match l with [] => [] | TDiagnostics ds :: l' => ds ++ settings l' | _ :: l' => settings l' end.
Lemma settings_app a b : settings (a ++ b) = settings a ++ settings b.
Proof. induction a as [|[]a IH]; cbn [app settings]; [reflexivity|exact IH|now rewrite IH, app_assoc]. Qed.
Lemma last_of_app i a b : last_of i (a ++ b) = match last_of i b with Some x => Some x | None => last_of i a end.
Proof. induction a as [|[j d] a IH]; cbn [app last_of]; [destruct (last_of i b); reflexivity|]. rewrite IH. destruct (last_of i b); [reflexivity|destruct (last_of i a); reflexivity]. Qed.
Lemma last_of_in i l ds : last_of i l = Some ds -> In (i, ds) l.
Proof. induction l as [|[j d] l IH]; cbn [last_of]; [discriminate|]. destruct (last_of i l); [intros H; right; auto|]. destruct (Nat.eq_dec i j) as [->|]; [|discriminate]. intros H. injection H as ->. now left. Qed.
Lemma last_of_fun i l ds : In (i, ds) l -> (forall d, In (i, d) l -> d = ds) -> last_of i l = Some ds.
Proof.
  intros H F. destruct (last_of i l) as [x|] eqn:E; [apply last_of_in in E; now rewrite (F x E)|]. exfalso. clear F. induction l as [|[j d] l IH]; [contradiction|]. cbn [last_of] in E. destruct (last_of i l); [discriminate|]. destruct H as [H|H]; [injection H as -> ->; destruct (Nat.eq_dec i i); [discriminate|contradiction]|auto].
Qed.
Lemma handle_task_diag g : g_diagnostics (handle_task g) = set_all (settings (g_tasks g)) (g_diagnostics g).
Proof.
  unfold handle_task. change (g_diagnostics g) with (g_diagnostics (with_tasks [] g)) at 1. generalize (with_tasks [] g) as g0. induction (g_tasks g) as [|t l IH]; intros g0; cbn [fold_left settings]; [reflexivity|]. rewrite IH.
  destruct t as [id o|ds]; cbn [run_task].
  - f_equal. unfold respond. destruct (aget _ _ _); reflexivity.
  - cbn. unfold set_all. now rewrite fold_left_app.
Qed.
(** What the collection will have when the tasks are done. *)
Definition due (g : gstate) (i : nat) : option (list lsp_diagnostic) :=
  match last_of i (settings (g_tasks g)) with Some ds => Some ds | None => aget Nat.eq_dec i (co_native (g_diagnostics g)) end.

Lemma publish_plain t ds : publish_diagnostics t = Ok ds -> plain ds.
Proof.
  intros H. apply rbind_inv in H as (li & _ & H). apply rbind_inv in H as (is & _ & H). revert ds H. induction is as [|d is IH]; intros ds H; cbn [lsp_diags] in H; [injection H as <-; constructor|].
  apply rbind_inv in H as (r & _ & H). apply rbind_inv in H as (ds' & H1 & H). injection H as <-. constructor; [reflexivity|]. apply IH, H1.
Qed.
Lemma subs_spec v m mem : vinv v m -> forall s, subscriptions v mem = Ok s -> forall i, In i s <-> exists p, In p (map fst mem) /\ v_file_id v p = Ok (Some i).
Proof.
  intros I. induction mem as [|[p z] mem IH]; intros s H i; cbn [subscriptions] in H; [injection H as <-; split; [intros []|intros (p & [] & _)]|].
  apply rbind_inv in H as (o & Ho & H). apply rbind_inv in H as (j & Hj & H). apply rbind_inv in H as (r & Hr & H). injection H as <-. destruct o as [o|]; [|discriminate]. injection Hj as ->. cbn [In map fst]. rewrite (IH _ Hr). split.
  - intros [<-|(q & H1 & H2)]; [exists p; auto|exists q; auto].
  - intros (q & [<-|H1] & H2); [left; congruence|right; eauto].
Qed.
Lemma compute_spec db s : forall ds, compute_diagnostics db s = Ok ds -> map fst ds = s /\ forall i x, In (i, x) ds -> exists t, aget Nat.eq_dec i db = Some t /\ publish_diagnostics t = Ok x.
Proof.
  induction s as [|f s IH]; intros ds H; cbn [compute_diagnostics] in H; [injection H as <-; split; [reflexivity|intros i x []]|].
  apply rbind_inv in H as (t & Ht & H). apply rbind_inv in H as (x & Hx & H). apply rbind_inv in H as (r & Hr & H). injection H as <-. destruct (IH _ Hr) as [E F]. cbn [map fst]. rewrite E. split; [reflexivity|].
  intros i y [H|H]; [|eauto]. injection H as <- <-. exists t. split; [|exact Hx]. destruct (aget Nat.eq_dec f db); [now injection Ht as ->|discriminate].
Qed.

(** Every open document is up to date once the tasks are done. *)
Definition fresh (g : gstate) (m : fmap) : Prop :=
  forall p z t i, aget string_dec p (g_mem_docs g) = Some z -> m p = Some (CText t) -> index_of p (v_paths (g_vfs g)) = Some i -> exists ds, publish_diagnostics t = Ok ds /\ due g i = Some ds.
(** Well-formedness of the diagnostics; [K]: files that were closed. *)
Record dinv (g : gstate) : Prop := mkDI {
  di_clean : clean (g_diagnostics g);
  di_tasks : plains (settings (g_tasks g));
  di_native : forall i ds, aget Nat.eq_dec i (co_native (g_diagnostics g)) = Some ds -> i < length (v_paths (g_vfs g));
  di_ids : forall i ds, In (i, ds) (settings (g_tasks g)) -> i < length (v_paths (g_vfs g)) }.
Definition native_of (g : gstate) (p : path) : option (list lsp_diagnostic) :=
  match index_of p (v_paths (g_vfs g)) with Some i => aget Nat.eq_dec i (co_native (g_diagnostics g)) | None => None end.
Definition shown (g : gstate) (K : path -> Prop) (p : path) : Prop := last_published p (g_sent g) = native_of g p \/ last_published p (g_sent g) = Some [] /\ K p.

Lemma minv_get v mem db m p i : minv v mem db m -> index_of p (v_paths v) = Some i -> m p = nth i (v_data v) None.
Proof. intros M H. rewrite (vi_map _ _ (mi_vfs _ _ _ _ M)), H. reflexivity. Qed.
Lemma minv_unique v mem db mem' db' m m' : minv v mem db m -> minv v mem' db' m' -> forall p, m p = m' p.
Proof. intros M M' p. rewrite (vi_map _ _ (mi_vfs _ _ _ _ M)), (vi_map _ _ (mi_vfs _ _ _ _ M')). reflexivity. Qed.
Lemma open_index v mem db m p z : minv v mem db m -> aget string_dec p mem = Some z -> exists i t, index_of p (v_paths v) = Some i /\ m p = Some (CText t).
Proof.
  intros M H. destruct (mi_open _ _ _ _ M p z H) as [t Ht]. pose proof Ht as Ht'. rewrite (vi_map _ _ (mi_vfs _ _ _ _ M)) in Ht'. destruct (index_of p (v_paths v)) as [i|]; [eauto|discriminate].
Qed.
Lemma aget_in {V} p (l : list (path * V)) : In p (map fst l) <-> exists z, aget string_dec p l = Some z.
Proof.
  induction l as [|[q v] l IH]; cbn [map fst In aget]; [split; [intros []|intros [z H]; discriminate]|]. destruct (string_dec p q) as [->|N]; [split; eauto|]. rewrite IH. split; [intros [H|H]; [congruence|exact H]|auto].
Qed.

Lemma maybe_spec g g' m : maybe_update_diagnostics g = Ok g' -> minv (g_vfs g) (g_mem_docs g) (g_db g) m -> v_changes (g_vfs g) = [] -> dinv g ->
  fresh g' m /\ dinv g' /\ g_sent g' = g_sent g /\ g_diagnostics g' = g_diagnostics g /\ core g' = core g.
Proof.
  intros H M Ch [D1 D2 D3 D4]. apply rbind_inv in H as (s & Hs & H). apply rbind_inv in H as (ds & Hds & H). injection H as <-. pose proof (subs_spec _ _ _ (mi_vfs _ _ _ _ M) _ Hs) as S. destruct (compute_spec _ _ _ Hds) as [E F].
  split; [|split; [|auto]].
  - intros p z t i Hp Hm Hi. cbn in Hp, Hi. pose proof (mi_db _ _ _ _ M p i Hi) as B. rewrite Ch in B. cbn [last_kind] in B. rewrite Hm in B. destruct B as [B|[_ B]]; [cbn [db_text] in B|discriminate].
    assert (Fi : v_file_id (g_vfs g) p = Ok (Some i)). { pose proof (lookup_inv _ _ p (mi_vfs _ _ _ _ M)) as L. rewrite Hm in L. destruct L as (j & L & _). rewrite L. unfold v_file_id, interner_get in L. rewrite Hi in L. destruct (v_get (g_vfs g) i) as [[x|]| |]; cbn in L; congruence. }
    assert (In i s) by (apply S; exists p; split; [apply aget_in; eauto|exact Fi]). rewrite <- E in H. apply in_map_iff in H as ([i' x] & Ei & Hx). cbn in Ei. subst i'. destruct (F i x Hx) as (t' & Ht' & Px). assert (t' = t) by congruence. subst t'.
    exists x. split; [exact Px|]. unfold due. cbn. rewrite settings_app, last_of_app. cbn [settings]. rewrite app_nil_r. rewrite (last_of_fun i ds x Hx); [reflexivity|]. intros d Hd. destruct (F i d Hd) as (t2 & Ht2 & P2). congruence.
  - split; cbn; [exact D1| |exact D3|]; rewrite settings_app; cbn [settings]; rewrite app_nil_r.
    + intros i x Hx. apply in_app_iff in Hx as [Hx|Hx]; [eauto|]. destruct (F i x Hx) as (t & _ & P). eapply publish_plain; eauto.
    + intros i x Hx. apply in_app_iff in Hx as [Hx|Hx]; [eauto|]. destruct (F i x Hx) as (t & Ht & P). eapply mi_dom; eauto.
Qed.

(** Changes of the state that leave the diagnostics of open documents alone. *)
Lemma fresh_keep g g' m m' : fresh g m -> minv (g_vfs g) (g_mem_docs g) (g_db g) m -> NoDup (v_paths (g_vfs g')) -> same_paths (g_vfs g) (g_vfs g') ->
  (forall p z, aget string_dec p (g_mem_docs g') = Some z -> m' p = m p /\ exists z', aget string_dec p (g_mem_docs g) = Some z') -> (forall i, due g' i = due g i) -> fresh g' m'.
Proof.
  intros F M N P O D p z t i Hp Hm Hi. destruct (O p z Hp) as [E [z' Hz]]. destruct (open_index _ _ _ _ _ _ M Hz) as (j & u & Hj & _). pose proof (index_of_same _ _ _ _ P Hj N) as X. assert (j = i) by congruence. subst j. rewrite D. apply (F p z' t i Hz); [congruence|exact Hj].
Qed.
Lemma dinv_keep g g' : dinv g -> same_paths (g_vfs g) (g_vfs g') -> g_diagnostics g' = g_diagnostics g -> settings (g_tasks g') = settings (g_tasks g) -> dinv g'.
Proof. intros [D1 D2 D3 D4] [r E] G T. split; rewrite ?G, ?T, ?E, ?app_length; auto; [intros i ds H; apply D3 in H|intros i ds H; apply D4 in H]; lia. Qed.
Lemma set_paths v m p c v' b : vinv v m -> set_file_contents v p c = Ok (v', b) -> same_paths v v' /\ NoDup (v_paths v') /\ (b = false -> m p = c /\ v_changes v' = v_changes v) /\ (b = true -> v_changes v' <> []).
Proof.
  intros I H. destruct (set_cases v m p c I) as [[X _]|(v1 & b1 & E & I1 & S1 & _ & _ & Hc)]; [congruence|]. rewrite H in E. injection E as <- <-. split; [exact S1|]. split; [apply (vi_nodup _ _ I1)|]. destruct Hc as [(-> & H1 & H2)|(id & k & -> & _ & H2 & _)].
  - split; [auto|discriminate].
  - split; [discriminate|]. intros _. rewrite H2. destruct (v_changes v); discriminate.
Qed.
Lemma load_files_more l : forall g g' m, load_files g l = Ok g' -> minv (g_vfs g) (g_mem_docs g) (g_db g) m -> same_paths (g_vfs g) (g_vfs g') /\ g_diagnostics g' = g_diagnostics g /\ g_tasks g' = g_tasks g /\ g_sent g' = g_sent g.
Proof.
  induction l as [|[p c] l IH]; intros g g' m H M; cbn [load_files] in H; [injection H as <-; repeat split; apply same_paths_refl|]. destruct (aget string_dec p (g_mem_docs g)) eqn:E; [eauto|].
  apply rbind_inv in H as ([v b] & H1 & H). pose proof (minv_set _ _ _ _ _ _ _ _ M H1 (or_introl E)) as M1. destruct (IH _ _ _ H M1) as (P & D & T & S). destruct (set_paths _ _ _ _ _ _ (mi_vfs _ _ _ _ M) H1) as (P1 & _). cbn in P, D, T, S. split; [eapply same_paths_trans; eauto|auto].
Qed.
Lemma handle_vfs_more ms : forall g g' m, handle_vfs g ms = Ok g' -> minv (g_vfs g) (g_mem_docs g) (g_db g) m -> same_paths (g_vfs g) (g_vfs g') /\ g_diagnostics g' = g_diagnostics g /\ g_tasks g' = g_tasks g /\ g_sent g' = g_sent g.
Proof.
  induction ms as [|[|l] ms IH]; intros g g' m H M; cbn [handle_vfs] in H; [injection H as <-; repeat split; apply same_paths_refl|eauto|].
  apply rbind_inv in H as (g1 & H1 & H). destruct (load_files_minv _ _ _ _ H1 M) as (m1 & M1 & _). destruct (load_files_more _ _ _ _ H1 M) as (P1 & D1 & T1 & S1). destruct (IH _ _ _ H M1) as (P & D & T & S). split; [eapply same_paths_trans; eauto|]. repeat split; congruence.
Qed.
Lemma respond_diag id o g : g_diagnostics (respond id o g) = g_diagnostics g /\ g_tasks (respond id o g) = g_tasks g /\ forall p, last_published p (g_sent (respond id o g)) = last_published p (g_sent g).
Proof. unfold respond. destruct (aget _ _ _); repeat split. intros p. cbn. rewrite last_published_app. reflexivity. Qed.
Lemma on_request_diag g q : g_diagnostics (on_request g q) = g_diagnostics g /\ settings (g_tasks (on_request g q)) = settings (g_tasks g) /\ forall p, last_published p (g_sent (on_request g q)) = last_published p (g_sent g).
Proof.
  assert (R : forall id o g0, g_diagnostics g0 = g_diagnostics g -> g_tasks g0 = g_tasks g -> g_sent g0 = g_sent g -> g_diagnostics (respond id o g0) = g_diagnostics g /\ settings (g_tasks (respond id o g0)) = settings (g_tasks g) /\ forall p, last_published p (g_sent (respond id o g0)) = last_published p (g_sent g)).
  { intros id o g0 E1 E2 E3. destruct (respond_diag id o g0) as (-> & -> & H). rewrite E1, E2. split; [reflexivity|]. split; [reflexivity|]. intros p. now rewrite H, E3. }
  unfold on_request. destruct (g_shutdown _); [now apply R|]. destruct (String.eqb _ _); [destruct (q_params q); now apply R|]. destruct (String.eqb _ _); [destruct (q_params q); [|now apply R]|now apply R]. cbn. rewrite settings_app, app_nil_r. auto.
Qed.
Lemma handle_task_sent g p : last_published p (g_sent (handle_task g)) = last_published p (g_sent g).
Proof.
  unfold handle_task. change (g_sent g) with (g_sent (with_tasks [] g)). generalize (with_tasks [] g) as g0. induction (g_tasks g) as [|t l IH]; intros g0; cbn [fold_left]; [reflexivity|]. rewrite IH. destruct t; cbn [run_task]; [apply respond_diag|reflexivity].
Qed.
Lemma complete_diag r g g' : complete_request r g = Ok g' -> g_diagnostics g' = g_diagnostics g /\ g_tasks g' = g_tasks g /\ g_sent g' = g_sent g.
Proof.
  intros H. apply rbind_inv in H as (? & _ & H). unfold on_config_response in H. destruct (s_error r); [injection H as <-; auto|]. destruct (s_result r) as [[| | |[|j l]|]|]; try (injection H as <-; auto).
  unfold update_configuration in H. destruct (list_eq_dec _ _ _); [injection H as <-; auto|]. apply rbind_inv in H as (? & _ & H). apply rbind_inv in H as (k1 & _ & H). injection H as <-. auto.
Qed.

(** One event, before the changes are processed. [hush]: nothing new to publish except after a
    task event. *)
Definition changed_ids (g : gstate) (p : path) : Prop := exists i, index_of p (v_paths (g_vfs g)) = Some i /\ In i (co_changes (g_diagnostics g)).
Lemma shown_keep g g' (K K' : path -> Prop) p : dinv g -> same_paths (g_vfs g) (g_vfs g') -> NoDup (v_paths (g_vfs g')) -> g_diagnostics g' = g_diagnostics g -> last_published p (g_sent g') = last_published p (g_sent g) -> (K p -> K' p) -> shown g K p -> shown g' K' p.
Proof.
  intros D S N E1 E2 HK H. assert (NE : native_of g' p = native_of g p).
  { unfold native_of. rewrite E1. destruct (index_of p (v_paths (g_vfs g))) as [i|] eqn:I; [now rewrite (index_of_same _ _ _ _ S I N)|]. destruct (index_of p (v_paths (g_vfs g'))) as [j|] eqn:J; [|reflexivity].
    destruct (aget Nat.eq_dec j (co_native (g_diagnostics g))) eqn:A; [|reflexivity]. apply (di_native _ D) in A. exfalso. apply index_of_none in I. apply I. apply index_of_some in J as [J _]. destruct S as [r S]. rewrite S, nth_error_app1 in J by exact A. eapply nth_error_In; eauto. }
  unfold shown. rewrite E2, NE. destruct H as [H|[H1 H2]]; auto.
Qed.
Definition adds (K : path -> Prop) (e : event) : path -> Prop := fun p => K p \/ e = ELsp (MNot (NClose (UFile p))).
Lemma dispatch_diag g e g1 m m1 K : dispatch_event g e = Ok g1 -> inv g m -> minv (g_vfs g1) (g_mem_docs g1) (g_db g1) m1 -> dinv g -> fresh g m -> co_changes (g_diagnostics g) = [] -> (forall p, shown g K p) ->
  dinv g1 /\ (v_changes (g_vfs g1) = [] -> fresh g1 m1) /\ (forall p, shown g1 (adds K e) p \/ changed_ids g1 p) /\ (forall i, In i (co_changes (g_diagnostics g1)) -> aget Nat.eq_dec i (co_native (g_diagnostics g1)) <> None) /\
  (e <> ETask -> co_changes (g_diagnostics g1) = []) /\ (e = ETask -> g_tasks g1 = [] /\ v_changes (g_vfs g1) = []).
Proof.
  intros H [M Ch] M1 D F C S. pose proof (vi_nodup _ _ (mi_vfs _ _ _ _ M1)) as N1.
  (* events that keep the collection and the queued settings *)
  assert (Q : e <> ETask -> same_paths (g_vfs g) (g_vfs g1) -> g_diagnostics g1 = g_diagnostics g -> dinv g1 -> (forall p, last_published p (g_sent g1) = last_published p (g_sent g) \/ last_published p (g_sent g1) = Some [] /\ adds K e p) -> (v_changes (g_vfs g1) = [] -> fresh g1 m1) ->
    dinv g1 /\ (v_changes (g_vfs g1) = [] -> fresh g1 m1) /\ (forall p, shown g1 (adds K e) p \/ changed_ids g1 p) /\ (forall i, In i (co_changes (g_diagnostics g1)) -> aget Nat.eq_dec i (co_native (g_diagnostics g1)) <> None) /\
    (e <> ETask -> co_changes (g_diagnostics g1) = []) /\ (e = ETask -> g_tasks g1 = [] /\ v_changes (g_vfs g1) = [])).
  { intros T P E D1 L F1. split; [exact D1|]. split; [exact F1|]. split; [|split; [|split]].
    - intros p. left. destruct (L p) as [X|[X1 X2]]; [|right; auto]. apply (shown_keep g g1 K); auto. now left.
    - rewrite E, C. intros i [].
    - now rewrite E, C.
    - contradiction. }
  assert (D' : forall i, g_diagnostics g1 = g_diagnostics g -> settings (g_tasks g1) = settings (g_tasks g) -> due g1 i = due g i) by (intros i E1 E2; unfold due; now rewrite E1, E2).
  destruct e as [[q|n|r]| |v vs]; cbn [dispatch_event handle_lsp] in H.
  - injection H as <-. destruct (on_request_diag g q) as (E1 & E2 & E3). pose proof (on_request_core g q) as EC. injection EC as C1 C2 C3.
    assert (P : same_paths (g_vfs g) (g_vfs (on_request g q))) by (rewrite C1; apply same_paths_refl).
    apply Q; auto; [discriminate|eapply dinv_keep; eauto|]. intros _. apply (fresh_keep g _ m); auto. rewrite C2. intros p z Hp. split; [|eauto]. rewrite C1 in M1. symmetry. eapply minv_unique; eauto.
  - assert (Same : g1 = g -> dinv g1 /\ (v_changes (g_vfs g1) = [] -> fresh g1 m1) /\ (forall p, shown g1 (adds K (ELsp (MNot n))) p \/ changed_ids g1 p) /\ (forall i, In i (co_changes (g_diagnostics g1)) -> aget Nat.eq_dec i (co_native (g_diagnostics g1)) <> None) /\
    (ELsp (MNot n) <> ETask -> co_changes (g_diagnostics g1) = []) /\ (ELsp (MNot n) = ETask -> g_tasks g1 = [] /\ v_changes (g_vfs g1) = [])).
    { intros ->. apply Q; auto; [discriminate|apply same_paths_refl|]. intros _. apply (fresh_keep g _ m); auto; [apply same_paths_refl|]. intros p z Hp. split; [|eauto]. eapply minv_unique; eauto. }
    destruct n as [u z t|u z cs|u|u| | | |k]; cbn [on_notification] in H; try discriminate; try (injection H as <-; now apply Same).
    + destruct u as [p|s]; [|injection H as <-; now apply Same]. cbn [did_open abs_path] in H. apply rbind_inv in H as ([v b] & H1 & H). destruct (set_paths _ _ _ _ _ _ (mi_vfs _ _ _ _ M) H1) as (P & N & Bf & Bt).
      pose proof (minv_set _ _ _ _ _ _ _ _ M H1 (or_intror (ex_intro _ t eq_refl))) as M2.
      destruct b.
      * injection H as <-. apply Q; auto; [discriminate|eapply dinv_keep; eauto|]. intros X. elim (Bt eq_refl X).
      * destruct (Bf eq_refl) as [Em Ev]. set (g0 := with_vfs v (with_mem_docs (aset string_dec p z (g_mem_docs g)) g)) in *.
        assert (M3 : minv (g_vfs g0) (g_mem_docs g0) (g_db g0) (fset m p (Some (CText t)))) by (cbn; apply minv_mem_set with t; [exact M2|unfold fset; now rewrite String.eqb_refl]).
        destruct (maybe_spec g0 g1 _ H M3) as (F1 & D1 & S1 & E1 & EC); [cbn; congruence|eapply dinv_keep; eauto|]. injection EC as C1 C2 C3. apply Q; auto; [discriminate|rewrite C1; exact P|intros q; left; now rewrite S1|].
        intros _ q zz tt i Hq Hm Hi. apply (F1 q zz tt i Hq); [|exact Hi]. rewrite <- Hm. rewrite C1 in M1. eapply minv_unique; eauto.
    + destruct u as [p|s]; [|injection H as <-; now apply Same]. cbn [did_change abs_path] in H. destruct (aget string_dec p (g_mem_docs g)) as [z0|] eqn:Ep; [|injection H as <-; now apply Same].
      apply rbind_inv in H as (? & _ & H). apply rbind_inv in H as (? & _ & H). apply rbind_inv in H as (? & _ & H). apply rbind_inv in H as (? & _ & H). apply rbind_inv in H as (t' & _ & H). apply rbind_inv in H as ([v b] & H1 & H). injection H as <-.
      destruct (set_paths _ _ _ _ _ _ (mi_vfs _ _ _ _ M) H1) as (P & N & Bf & Bt). pose proof (minv_set _ _ _ _ _ _ _ _ M H1 (or_intror (ex_intro _ t' eq_refl))) as M2.
      apply Q; auto; [discriminate|eapply dinv_keep; eauto|]. intros X. destruct b; [elim (Bt eq_refl X)|]. destruct (Bf eq_refl) as [Em Ev]. apply (fresh_keep g _ m); auto. cbn. intros q y Hq. split.
      * cbn in M1. rewrite (minv_unique _ _ _ _ _ _ _ M1 M2 q). unfold fset. destruct (String.eqb_spec q p) as [->|]; auto.
      * rewrite aget_aset in Hq. destruct (string_dec q p) as [->|]; eauto.
    + injection H as <-. assert (P : same_paths (g_vfs g) (g_vfs (did_close u g))) by (unfold did_close; destruct (abs_path u); apply same_paths_refl).
      assert (E1 : g_diagnostics (did_close u g) = g_diagnostics g) by (unfold did_close; destruct (abs_path u); reflexivity).
      assert (E2 : g_tasks (did_close u g) = g_tasks g) by (unfold did_close; destruct (abs_path u); reflexivity).
      apply Q; auto; [discriminate|eapply dinv_keep; eauto; now rewrite E2| |].
      * intros q. unfold did_close. destruct u as [p|s]; cbn [abs_path send g_sent with_mem_docs]; rewrite last_published_app; cbn [last_published]; [|now left]. destruct (String.eqb_spec q p) as [->|]; [|now left]. right. split; [reflexivity|]. right. reflexivity.
      * intros _. apply (fresh_keep g _ m); auto; [|intros i; apply D'; congruence]. intros q y Hq. assert (EV : g_vfs (did_close u g) = g_vfs g) by (unfold did_close; destruct (abs_path u); reflexivity). rewrite EV in M1. split; [eapply minv_unique; eauto|].
        unfold did_close in Hq. destruct u as [p|s]; cbn in Hq; [|eauto]. rewrite aget_adel in Hq. destruct (string_dec q p); [discriminate|eauto].
    + injection H as <-. apply Q; [discriminate|apply same_paths_refl|reflexivity|apply dinv_keep with g; auto; apply same_paths_refl|intros q; cbn; rewrite last_published_app; now left|].
      intros _. apply (fresh_keep g _ m); auto; [apply same_paths_refl|]. cbn. intros q y Hq. split; [|eauto]. cbn in M1. eapply minv_unique; eauto.
  - apply complete_core in H as EC. injection EC as C1 C2 C3. apply complete_diag in H as (E1 & E2 & E3). assert (P : same_paths (g_vfs g) (g_vfs g1)) by (rewrite C1; apply same_paths_refl).
    apply Q; auto; [discriminate|eapply dinv_keep; eauto; congruence|intros p; left; congruence|]. intros _. apply (fresh_keep g _ m); auto; [|intros i; apply D'; congruence]. rewrite C2. intros p z Hp. split; [|eauto]. rewrite C1 in M1. eapply minv_unique; eauto.
  - clear Q. injection H as <-. pose proof (handle_task_core g) as EC. injection EC as C1 C2 C3. pose proof (handle_task_diag g) as ED. pose proof (handle_task_pending g) as ET.
    destruct (set_all_spec (settings (g_tasks g)) (g_diagnostics g) (di_clean _ D) (di_tasks _ D)) as (J1 & J2 & J3 & J4 & J5). rewrite <- ED in J1, J2, J3, J4, J5.
    split; [|split; [|split; [|split; [|split]]]].
    + split; [exact J1|rewrite ET; intros i ds []| |rewrite ET; intros i ds []]. rewrite C1. intros i ds. rewrite J2. destruct (last_of i (settings (g_tasks g))) eqn:L; [intros _; apply last_of_in in L; eapply di_ids; eauto|apply (di_native _ D)].
    + intros _. apply (fresh_keep g _ m); auto; [rewrite C1; apply same_paths_refl| |].
      * rewrite C2. intros p z Hp. split; [|eauto]. rewrite C1 in M1. eapply minv_unique; eauto.
      * intros i. unfold due at 1. rewrite ET. cbn [settings last_of]. rewrite J2. reflexivity.
    + intros p. destruct (index_of p (v_paths (g_vfs g))) as [i|] eqn:I.
      * destruct (in_dec Nat.eq_dec i (co_changes (g_diagnostics (handle_task g)))) as [X|X]; [right; exists i; rewrite C1; auto|left].
        unfold shown, native_of. rewrite C1, I, (J4 i X), handle_task_sent. destruct (S p) as [Sp|[S1 S2]]; [left|right; split; [exact S1|now left]]. unfold native_of in Sp. now rewrite I in Sp.
      * left. unfold shown, native_of. rewrite C1, I, handle_task_sent. destruct (S p) as [Sp|[S1 S2]]; [left|right; split; [exact S1|now left]]. unfold native_of in Sp. now rewrite I in Sp.
    + intros i Hi. apply J5 in Hi as [Hi|Hi]; [rewrite C in Hi; destruct Hi|]. rewrite J2. destruct (last_of i _); [discriminate|congruence].
    + congruence.
    + intros _. split; [exact ET|]. rewrite C1. exact Ch.
  - destruct (handle_vfs_minv _ _ _ _ H M) as (m2 & M2 & E4 & K2). apply handle_vfs_more with (m := m) in H as (P & E1 & E2 & E3); [|exact M]. apply Q; auto; [discriminate|eapply dinv_keep; eauto; congruence|intros p; left; congruence|].
    intros _. apply (fresh_keep g _ m); auto; [|intros i; apply D'; congruence]. rewrite E4. intros p z Hp. split; [|eauto]. rewrite <- (K2 p z Hp). eapply minv_unique; eauto.
Qed.

(** Publishing. *)
Lemma publish_spec l : forall g g', NoDup (v_paths (g_vfs g)) -> publish g l = Ok g' -> exists new, g_sent g' = g_sent g ++ new /\
  (forall o, In o new -> exists i p, In i l /\ index_of p (v_paths (g_vfs g)) = Some i /\ o = OutDiagnostics (UFile p) (diagnostics_for (g_diagnostics g) i) (aget string_dec p (g_mem_docs g))) /\
  (forall p i, index_of p (v_paths (g_vfs g)) = Some i -> In i l -> last_published p new = Some (diagnostics_for (g_diagnostics g) i)).
Proof.
  induction l as [|f l IH]; intros g g' N H; cbn [publish] in H; [injection H as <-; exists []; rewrite app_nil_r; split; [reflexivity|]; split; [intros o []|intros p i _ []]|].
  apply rbind_inv in H as (q & Hq & H). unfold v_file_path, interner_lookup in Hq. destruct (nth_error (v_paths (g_vfs g)) f) as [q'|] eqn:E; [|discriminate]. injection Hq as ->. apply (index_of_nth _ _ _ N) in E as Ei.
  apply IH in H as (new & S & A & B); [|exact N]. cbn in S, A, B. exists (OutDiagnostics (UFile q) (diagnostics_for (g_diagnostics g) f) (aget string_dec q (g_mem_docs g)) :: new). rewrite <- app_assoc in S. split; [exact S|]. split.
  - intros o [<-|Ho]; [exists f, q; split; [now left|auto]|]. destruct (A o Ho) as (i & p & H1 & H2 & H3). exists i, p. split; [now right|auto].
  - intros p i Hi Hin. cbn [last_published]. destruct (in_dec Nat.eq_dec i l) as [X|X]; [now rewrite (B p i Hi X)|]. destruct Hin as [->|Hin]; [|contradiction].
    assert (p = q) as -> by (apply index_of_some in Hi as [Hi _]; congruence). destruct (last_published q new) as [x|] eqn:L; [|now rewrite String.eqb_refl].
    exfalso. assert (G : exists o, In o new /\ exists ds z, o = OutDiagnostics (UFile q) ds z).
    { clear -L. induction new as [|o new IH]; [discriminate|]. cbn [last_published] in L. destruct o as [a b|[q'|s] ds z|a]; try (destruct (IH L) as (o & H1 & H2); exists o; split; [now right|exact H2]; fail).
      destruct (last_published q new) eqn:L'; [destruct (IH L) as (o & H1 & H2); exists o; split; [now right|exact H2]|]. destruct (String.eqb_spec q q') as [->|]; [|discriminate]. eexists. split; [now left|eauto]. }
    destruct G as (o & Ho & ds & z & ->). destruct (A _ Ho) as (j & p' & H1 & H2 & H3). injection H3 as <- _ _. congruence.
Qed.
Definition DI (g : gstate) (m : fmap) (K : path -> Prop) : Prop := inv g m /\ dinv g /\ fresh g m /\ co_changes (g_diagnostics g) = [] /\ forall p, shown g K p.
Lemma after_diag g g' m K : after_event g = Ok g' -> minv (g_vfs g) (g_mem_docs g) (g_db g) m -> dinv g -> (v_changes (g_vfs g) = [] -> fresh g m) -> (forall p, shown g K p \/ changed_ids g p) ->
  (forall i, In i (co_changes (g_diagnostics g)) -> aget Nat.eq_dec i (co_native (g_diagnostics g)) <> None) ->
  DI g' m K /\ exists new, g_sent g' = g_sent g ++ new /\ (co_changes (g_diagnostics g) = [] -> new = []) /\ (v_changes (g_vfs g) = [] -> g_tasks g' = g_tasks g) /\
    forall o, In o new -> exists i p, index_of p (v_paths (g_vfs g)) = Some i /\ exists ds, aget Nat.eq_dec i (co_native (g_diagnostics g)) = Some ds /\ o = OutDiagnostics (UFile p) ds (aget string_dec p (g_mem_docs g)).
Proof.
  intros H M D F S C. destruct (after_inv _ _ _ H M) as (I' & Em & Ep). unfold after_event in H. apply rbind_inv in H as ([g1 b] & H1 & H). destruct (minv_process _ _ _ _ H1 M) as (M1 & C1 & E1 & P1 & _ & B1).
  assert (Q1 : g_diagnostics g1 = g_diagnostics g /\ g_tasks g1 = g_tasks g /\ g_sent g1 = g_sent g /\ (v_changes (g_vfs g) = [] -> b = false)).
  { clear -H1. unfold process_changes, v_take_changes in H1. destruct (v_changes (g_vfs g)) as [|f l]; [injection H1 as <- <-; auto|]. apply rbind_inv in H1 as (ch & _ & H1). injection H1 as <- <-. repeat split. discriminate. }
  destruct Q1 as (Qd & Qt & Qs & Qb). apply rbind_inv in H as (g2 & H2 & H).
  assert (SP : same_paths (g_vfs g) (g_vfs g1)) by (exists []; now rewrite app_nil_r).
  assert (N1 : NoDup (v_paths (g_vfs g1))) by apply (vi_nodup _ _ (mi_vfs _ _ _ _ M1)).
  assert (D1 : dinv g1) by (eapply dinv_keep; eauto; congruence).
  assert (G2 : dinv g2 /\ fresh g2 m /\ g_sent g2 = g_sent g /\ g_diagnostics g2 = g_diagnostics g /\ core g2 = core g1 /\ (b = false -> g_tasks g2 = g_tasks g)).
  { destruct b.
    - destruct (maybe_spec _ _ _ H2 M1 C1 D1) as (F2 & D2 & S2 & E2 & EC). repeat split; auto; try apply D2; try congruence; discriminate.
    - injection H2 as <-. split; [exact D1|]. split; [|auto]. destruct (B1 eq_refl) as [_ Ch]. apply (fresh_keep g _ m); auto; [intros p z Hp; rewrite E1 in Hp; eauto|]. intros i. unfold due. now rewrite Qd, Qt. }
  destruct G2 as (D2 & F2 & S2 & E2 & EC & T2). injection EC as X1 X2 X3.
  unfold coll_take_changes in H. rewrite E2 in H. set (ch := co_changes (g_diagnostics g)) in *.
  assert (W : ch = [] /\ g' = with_diagnostics (g_diagnostics g) g2 \/ publish (with_diagnostics (mkColl (co_native (g_diagnostics g)) (co_check (g_diagnostics g)) []) g2) ch = Ok g') by (destruct ch; [left; injection H as <-; auto|right; exact H]).
  clear H. destruct W as [[Ec ->]|H].
  - split.
    + split; [exact I'|]. split; [|split; [|split]]; cbn.
      * eapply dinv_keep; eauto. apply same_paths_refl.
      * intros p z t i Hp Hm Hi. destruct (F2 p z t i Hp Hm Hi) as (ds & P & U). exists ds. split; [exact P|]. unfold due in *. cbn. now rewrite E2 in U.
      * exact Ec.
      * intros p. destruct (S p) as [Sp|(i & _ & Hi)]; [|unfold ch in Ec; rewrite Ec in Hi; destruct Hi]. unfold shown, native_of in *. cbn. now rewrite S2, X1, P1.
    + exists []. cbn. rewrite app_nil_r. split; [congruence|]. split; [auto|]. split; [intros Ch; apply T2, Qb, Ch|intros o []].
  - set (c := mkColl (co_native (g_diagnostics g)) (co_check (g_diagnostics g)) []) in *. set (g3 := with_diagnostics c g2) in *.
    assert (N3 : NoDup (v_paths (g_vfs g3))) by (cbn; now rewrite X1). destruct (publish_core _ _ _ H) as (EC & ET & ED & _). injection EC as Y1 Y2 Y3.
    destruct (publish_spec _ _ _ N3 H) as (new & Sn & A & B). cbn [g3 with_diagnostics g_sent g_vfs g_diagnostics g_mem_docs g_tasks g_db] in Sn, A, B, ET, Y1, Y2, Y3.
    assert (DF : forall i ds, aget Nat.eq_dec i (co_native (g_diagnostics g)) = Some ds -> diagnostics_for c i = ds) by (intros i ds X; unfold diagnostics_for; cbn; rewrite X, (proj1 (di_clean _ D)); apply app_nil_r).
    split.
    + split; [exact I'|]. split; [|split; [|split]].
      * destruct D2 as [A1 A2 A3 A4]. split; rewrite ?ED, ?ET, ?Y1; [exact (di_clean _ D)|exact A2| |exact A4]. cbn. intros i ds X. apply (di_native _ D) in X. now rewrite X1, P1.
      * intros p z t i Hp Hm Hi. rewrite Y2 in Hp. rewrite Y1 in Hi. destruct (F2 p z t i Hp Hm Hi) as (ds & P & U). exists ds. split; [exact P|]. unfold due in *. rewrite ET, ED. cbn. now rewrite E2 in U.
      * now rewrite ED.
      * intros p. unfold shown, native_of. rewrite Sn, last_published_app, ED, Y1. cbn [co_native g3 with_diagnostics g_diagnostics c].
        destruct (index_of p (v_paths (g_vfs g2))) as [i|] eqn:Ei.
        -- destruct (in_dec Nat.eq_dec i ch) as [X|X].
           ++ rewrite (B p i Ei X). left. specialize (C i X). destruct (aget Nat.eq_dec i (co_native (g_diagnostics g))) as [ds|] eqn:Ea; [|contradiction]. f_equal. now apply DF.
           ++ assert (L : last_published p new = None).
              { destruct (last_published p new) eqn:L; [|reflexivity]. exfalso. clear -L A X Ei. induction new as [|o new IH]; [discriminate|]. cbn [last_published] in L. destruct o as [a b|[q'|s] ds z|a].
                - apply IH; [intros o Ho; apply A; now right|exact L].
                - destruct (last_published p new) eqn:L'; [apply IH; [intros o Ho; apply A; now right|exact L]|]. destruct (String.eqb_spec p q') as [->|]; [|discriminate]. destruct (A _ (or_introl eq_refl)) as (j & p' & J1 & J2 & J3). injection J3 as <- _ _. congruence.
                - apply IH; [intros o Ho; apply A; now right|exact L].
                - apply IH; [intros o Ho; apply A; now right|exact L]. }
              rewrite L, S2. destruct (S p) as [Sp|(j & Hj & X')]; [|rewrite X1, P1 in Ei; fold ch in X'; congruence]. unfold shown, native_of in Sp. rewrite X1, P1 in Ei. rewrite Ei in Sp. exact Sp.
        -- assert (L : last_published p new = None).
           { destruct (last_published p new) eqn:L; [|reflexivity]. exfalso. clear -L A Ei. induction new as [|o new IH]; [discriminate|]. cbn [last_published] in L. destruct o as [a b|[q'|s] ds z|a].
             - apply IH; [intros o Ho; apply A; now right|exact L].
             - destruct (last_published p new) eqn:L'; [apply IH; [intros o Ho; apply A; now right|exact L]|]. destruct (String.eqb_spec p q') as [->|]; [|discriminate]. destruct (A _ (or_introl eq_refl)) as (j & p' & J1 & J2 & J3). injection J3 as <- _ _. congruence.
             - apply IH; [intros o Ho; apply A; now right|exact L].
             - apply IH; [intros o Ho; apply A; now right|exact L]. }
           rewrite L, S2. destruct (S p) as [Sp|(j & Hj & X')]; [|rewrite X1, P1 in Ei; congruence]. unfold shown, native_of in Sp. rewrite X1, P1 in Ei. rewrite Ei in Sp. exact Sp.
    + exists new. split; [congruence|]. split; [|split].
      * intros Ec. rewrite Ec in A. destruct new as [|o new]; [reflexivity|]. destruct (A o (or_introl eq_refl)) as (i & p & [] & _).
      * intros Ch. rewrite ET. apply T2, Qb, Ch.
      * intros o Ho. destruct (A o Ho) as (i & p & J1 & J2 & J3). rewrite X1, P1 in J2. exists i, p. split; [exact J2|]. specialize (C i J1). destruct (aget Nat.eq_dec i (co_native (g_diagnostics g))) as [ds|] eqn:Ea; [|contradiction]. exists ds. split; [reflexivity|]. rewrite J3, (DF _ _ Ea), X2, E1. reflexivity.
Qed.

Lemma handle_DI g e g' m K d d' : handle_event g e = Ok g' -> DI g m K -> mirrors g m d -> Client d e d' ->
  exists m', DI g' m' (adds K e) /\ mirrors g' m' d' /\ (e = ETask -> g_tasks g' = []) /\
    exists g1 new, dispatch_event g e = Ok g1 /\ g_sent g' = g_sent g1 ++ new /\ forall p ds ver v t, In (OutDiagnostics (UFile p) ds ver) new -> d' p = Some (v, t) -> ver = Some v /\ publish_diagnostics t = Ok ds.
Proof.
  intros H (I & D & F & C & S) R Cl. apply rbind_inv in H as (g1 & H1 & H). destruct (dispatch_mirrors _ _ _ _ _ _ H1 (proj1 I) R Cl) as (m1 & M1 & R1).
  destruct (dispatch_diag g e g1 m m1 K H1 I M1 D F C S) as (D1 & F1 & S1 & C1 & T1 & T2). destruct (after_inv _ _ _ H M1) as (_ & Em & _). destruct (after_diag g1 g' m1 (adds K e) H M1 D1 F1 S1 C1) as (J & new & Sn & Nn & Tn & A).
  exists m1. split; [exact J|]. split; [intros p; rewrite Em; apply R1|]. split; [intros E; destruct (T2 E) as [X Y]; rewrite (Tn Y); exact X|].
  exists g1, new. split; [exact H1|]. split; [exact Sn|]. intros p ds ver v t Hin Hd. destruct (A _ Hin) as (i & q & Hi & ds' & Ha & E). injection E as <- <- ->. specialize (R1 p). rewrite Hd in R1. destruct R1 as [R1 R2]. split; [exact R1|].
  assert (T : e = ETask \/ e <> ETask) by (destruct e as [| |]; try (right; discriminate); now left). destruct T as [E|E]; [|rewrite (Nn (T1 E)) in Hin; destruct Hin].
  destruct (T2 E) as [X Y]. destruct (F1 Y p v t i R1 R2 Hi) as (ds' & P & U). unfold due in U. rewrite X in U. cbn [settings last_of] in U. rewrite Ha in U. injection U as ->. exact P.
Qed.
Lemma DI_weaken g m (K K' : path -> Prop) : (forall p, K p -> K' p) -> DI g m K -> DI g m K'.
Proof. intros H (I & D & F & C & S). repeat (split; [assumption|]). intros p. destruct (S p) as [X|[X Y]]; [now left|right; auto]. Qed.
Lemma run_DI es : forall g g' m K d d', run g es = Ok g' -> DI g m K -> mirrors g m d -> ClientRun d es d' -> exists m', DI g' m' (fun p => K p \/ closed_in es p) /\ mirrors g' m' d'.
Proof.
  induction es as [|e es IH]; intros g g' m K d d' H I R C; inversion C; subst; [injection H as <-; exists m; split; [eapply DI_weaken; [|exact I]; auto|exact R]|]. rewrite run_cons in H by (eapply Client_not_exit; eauto).
  apply rbind_inv in H as (g1 & H1 & H). destruct (handle_DI _ _ _ _ _ _ _ H1 I R H3) as (m1 & I1 & R1 & _). destruct (IH _ _ _ _ _ _ H I1 R1 H5) as (m2 & I2 & R2). exists m2. split; [|exact R2].
  eapply DI_weaken; [|exact I2]. unfold adds, closed_in. cbn [In]. intros p [[X|X]|X]; auto.
Qed.
Lemma new_DI c : DI (g_new c) no_files (fun _ => False) /\ mirrors (g_new c) no_files no_docs.
Proof.
  destruct (new_inv c) as [I R]. split; [|exact R]. split; [exact I|]. split; [|split; [|split; [reflexivity|]]].
  - split; [split; [reflexivity|discriminate]|intros i ds []|discriminate|intros i ds []].
  - intros p z t i X. discriminate.
  - intros p. left. reflexivity.
Qed.
Lemma ClientRun_app d es1 : forall es2 d2, ClientRun d (es1 ++ es2) d2 -> exists d1, ClientRun d es1 d1 /\ ClientRun d1 es2 d2.
Proof. revert d. induction es1 as [|e es1 IH]; intros d es2 d2 H; [exists d; split; [constructor|exact H]|]. inversion H; subst. destruct (IH _ _ _ H5) as (da & X1 & X2). exists da. split; [econstructor; eauto|exact X2]. Qed.
Lemma ClientRun_exit d es d' : ClientRun d es d' -> ~ In (ELsp (MNot NExit)) es.
Proof. intros C. induction C as [|d e d1 es d2 H _ IH]; [intros []|]; intros [->|X]; [now apply Client_not_exit in H|auto]. Qed.

(** * C52 *)
(** The full claim, and that it fails: reopening a file that had errors shows none. *)
Definition C52_claim : Prop := forall c es g d p v t, run (g_new c) (es ++ [ETask]) = Ok g -> ClientRun no_docs es d -> d p = Some (v, t) ->
  exists ds, publish_diagnostics t = Ok ds /\ last_published p (g_sent g) = Some ds.
Definition C52_events : list event := [ELsp (MNot (NOpen (UFile "/a"%string) 1 (txt "x ="))); ETask; ELsp (MNot (NClose (UFile "/a"%string))); ELsp (MNot (NOpen (UFile "/a"%string) 1 (txt "x =")))].
Lemma C52_events_client : exists d, ClientRun no_docs C52_events d /\ d "/a"%string = Some (1%Z, txt "x =").
Proof. eexists. split; [repeat (eapply CR_cons; [first [apply Cl_open|apply Cl_close|apply Cl_other; exact I]|]); apply CR_nil|reflexivity]. Qed.
Theorem C52_refuted : ~ C52_claim.
Proof.
  intros H. destruct C52_events_client as (d & C & Hd). specialize (H [] C52_events). match type of H with forall g d p v t, run ?a ?b = _ -> _ => destruct (run a b) as [g| |] eqn:E; vm_compute in E; try discriminate end. injection E as <-.
  destruct (H _ d _ _ _ eq_refl C Hd) as (ds & P & L). vm_compute in P. injection P as <-. vm_compute in L. discriminate.
Qed.
Print Assumptions C52_refuted.
(** What holds: this is the only way it fails, and it needs that the file was closed before. *)
Theorem C52_published_partial : forall c es g d p v t, run (g_new c) (es ++ [ETask]) = Ok g -> ClientRun no_docs es d -> d p = Some (v, t) ->
  exists ds, publish_diagnostics t = Ok ds /\ (last_published p (g_sent g) = Some ds \/ last_published p (g_sent g) = Some [] /\ closed_in es p).
Proof.
  intros c es g d p v t H C Hd. destruct (run_app _ _ _ _ (ClientRun_exit _ _ _ C) H) as (g1 & H1 & H2). destruct (new_DI c) as [I R]. destruct (run_DI _ _ _ _ _ _ _ H1 I R C) as (m & I1 & R1).
  rewrite run_cons in H2 by discriminate. apply rbind_inv in H2 as (g2 & H2 & H3). injection H3 as ->.
  destruct (handle_DI _ _ _ _ _ _ _ H2 I1 R1 (Cl_other d ETask Logic.I)) as (m' & (I2 & D2 & F2 & C2 & S2) & R2 & T & _). specialize (T eq_refl). specialize (R2 p). rewrite Hd in R2. destruct R2 as [Ra Rb].
  destruct (open_index _ _ _ _ _ _ (proj1 I2) Ra) as (i & t' & Hi & _). destruct (F2 p v t i Ra Rb Hi) as (ds & P & U). exists ds. split; [exact P|]. unfold due in U. rewrite T in U. cbn [settings last_of] in U.
  destruct (S2 p) as [X|[X Y]]; [left; rewrite X; unfold native_of; now rewrite Hi|right]. split; [exact X|]. unfold adds in Y. cbn in Y. intuition discriminate.
Qed.
Print Assumptions C52_published_partial.
(** A document that was never closed has exactly its diagnostics. *)
Theorem C52_never_closed : forall c es g d p v t, run (g_new c) (es ++ [ETask]) = Ok g -> ClientRun no_docs es d -> d p = Some (v, t) -> ~ closed_in es p ->
  exists ds, publish_diagnostics t = Ok ds /\ last_published p (g_sent g) = Some ds.
Proof. intros c es g d p v t H C Hd N. destruct (C52_published_partial _ _ _ _ _ _ _ H C Hd) as (ds & P & [X|[_ X]]); [eauto|contradiction]. Qed.
Print Assumptions C52_never_closed.
(** Diagnostics published for an open document are never out of date, and carry its version. *)
Lemma dispatch_sent g e g1 : dispatch_event g e = Ok g1 -> exists new, g_sent g1 = g_sent g ++ new /\ forall p ds ver, In (OutDiagnostics (UFile p) ds ver) new -> e = ELsp (MNot (NClose (UFile p))).
Proof.
  intros H. assert (Same : g_sent g1 = g_sent g -> exists new, g_sent g1 = g_sent g ++ new /\ forall p ds ver, In (OutDiagnostics (UFile p) ds ver) new -> e = ELsp (MNot (NClose (UFile p)))) by (intros ->; exists []; rewrite app_nil_r; split; [reflexivity|intros p ds ver []]).
  assert (Rs : forall id o g s, g_sent g = s -> exists new, g_sent (respond id o g) = s ++ new /\ forall p ds ver, ~ In (OutDiagnostics (UFile p) ds ver) new).
  { intros id o g0 s <-. unfold respond. destruct (aget _ _ _); [eexists; split; [reflexivity|]; intros p ds ver [X|[]]; discriminate|exists []; rewrite app_nil_r; split; [reflexivity|intros p ds ver []]]. }
  destruct e as [[q|n|r]| |v vs]; cbn [dispatch_event handle_lsp] in H.
  - injection H as <-. enough (G : exists new, g_sent (on_request g q) = g_sent g ++ new /\ forall p ds ver, ~ In (OutDiagnostics (UFile p) ds ver) new) by (destruct G as (new & G1 & G2); exists new; split; [exact G1|intros p ds ver X; elim (G2 _ _ _ X)]).
    unfold on_request. destruct (g_shutdown _); [now apply Rs|]. destruct (String.eqb _ _); [destruct (q_params q); now apply Rs|]. destruct (String.eqb _ _); [destruct (q_params q); [|now apply Rs]|now apply Rs]. exists []. cbn. rewrite app_nil_r. auto.
  - destruct n as [u z t|u z cs|u|u| | | |k]; cbn [on_notification] in H; try discriminate; try (injection H as <-; now apply Same).
    + apply Same. unfold did_open in H. destruct (abs_path u); [|now injection H as <-]. apply rbind_inv in H as ([v b] & _ & H). destruct b; [now injection H as <-|]. now apply maybe_update_core in H as (_ & _ & H & _).
    + apply Same. unfold did_change in H. destruct (abs_path u) as [p|]; [|now injection H as <-]. destruct (aget _ _ _); [|now injection H as <-].
      apply rbind_inv in H as (? & _ & H). apply rbind_inv in H as (? & _ & H). apply rbind_inv in H as (? & _ & H). apply rbind_inv in H as (? & _ & H). apply rbind_inv in H as (? & _ & H). apply rbind_inv in H as ([v b] & _ & H). now injection H as <-.
    + injection H as <-. unfold did_close. destruct u as [p|s]; cbn [abs_path]; (eexists; split; [reflexivity|]); intros q ds ver [X|[]]; congruence.
    + injection H as <-. eexists. split; [reflexivity|]. intros p ds ver [X|[]]. discriminate.
  - apply Same. now apply complete_diag in H.
  - injection H as <-. enough (G : exists new, g_sent (handle_task g) = g_sent g ++ new /\ forall p ds ver, ~ In (OutDiagnostics (UFile p) ds ver) new) by (destruct G as (new & G1 & G2); exists new; split; [exact G1|intros p ds ver X; elim (G2 _ _ _ X)]).
    unfold handle_task. change (g_sent g) with (g_sent (with_tasks [] g)). generalize (with_tasks [] g) as g0. induction (g_tasks g) as [|t l IH]; intros g0; cbn [fold_left]; [exists []; rewrite app_nil_r; auto|].
    destruct (IH (run_task g0 t)) as (n2 & E2 & F2). assert (X : exists n1, g_sent (run_task g0 t) = g_sent g0 ++ n1 /\ forall p ds ver, ~ In (OutDiagnostics (UFile p) ds ver) n1) by (destruct t; cbn [run_task]; [now apply Rs|exists []; cbn; rewrite app_nil_r; auto]).
    destruct X as (n1 & E1 & F1). exists (n1 ++ n2). rewrite E2, E1, app_assoc. split; [reflexivity|]. intros p ds ver X. apply in_app_iff in X as [X|X]; [eapply F1|eapply F2]; eauto.
  - apply Same. revert H. generalize (v :: vs). intros l. clear Same Rs. revert g. induction l as [|[|fs] l IH]; intros g H; cbn [handle_vfs] in H; [now injection H as <-|eauto|]. apply rbind_inv in H as (g2 & H2 & H). rewrite (IH _ H). clear IH H. revert g H2. induction fs as [|[p c] fs IH]; intros g H; cbn [load_files] in H; [now injection H as <-|]. destruct (aget _ _ _); [eauto|]. apply rbind_inv in H as ([w b] & _ & H). now apply IH in H.
Qed.
Theorem C52_never_stale : forall c es e g g' d p ds ver v t, run (g_new c) es = Ok g -> handle_event g e = Ok g' -> ClientRun no_docs (es ++ [e]) d ->
  In (OutDiagnostics (UFile p) ds ver) (skipn (length (g_sent g)) (g_sent g')) -> d p = Some (v, t) -> ver = Some v /\ publish_diagnostics t = Ok ds.
Proof.
  intros c es e g g' d p ds ver v t H He C Hin Hd. apply ClientRun_app in C as (d1 & C1 & C2). inversion C2 as [|x y d2 z w C3 C4]; subst. inversion C4; subst. destruct (new_DI c) as [I R]. destruct (run_DI _ _ _ _ _ _ _ H I R C1) as (m & I1 & R1).
  destruct (handle_DI _ _ _ _ _ _ _ He I1 R1 C3) as (m' & _ & _ & _ & g1 & new & H1 & Sn & A). destruct (dispatch_sent _ _ _ H1) as (n1 & E1 & F1). rewrite Sn, E1, <- app_assoc, skipn_app, skipn_all, Nat.sub_diag in Hin. cbn [skipn app] in Hin. apply in_app_iff in Hin as [X|X]; [|eauto].
  apply F1 in X. subst e. inversion C3; subst; [|contradiction]. unfold dset in Hd. rewrite String.eqb_refl in Hd. discriminate.
Qed.
Print Assumptions C52_never_stale.
(** Changed before its first diagnostics are out: one message, for the newer text. *)
Example C52_case : match run (g_new []) ([ELsp (MNot (NOpen (UFile "/a"%string) 1 (txt "x ="))); ELsp (MNot (NChange (UFile "/a"%string) 2 [mkChange None (txt "f( )) x")]))] ++ [ETask]) with
  | Ok g => exists ds, g_sent g = [OutDiagnostics (UFile "/a"%string) ds (Some 2%Z)] /\ publish_diagnostics (txt "f( )) x") = Ok ds /\ ds <> [] | _ => False end.
Proof. vm_compute. eexists. split; [reflexivity|]. split; [reflexivity|discriminate]. Qed.
