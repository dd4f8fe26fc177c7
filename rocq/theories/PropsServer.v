(** PropsServer.v — the main loop: open documents, database, panics, closing (C48–C50, C53). *)
From Coq Require Import ZArith.
From Verif Require Import Base TextEdit LineIndex Vfs Ide Server PropsTextEdit PropsLineIndex PropsVfs PropsIde ServerInv PropsParser.

(** * The client's documents *)

(** The documents the client has open, with version and text. *)
Definition docs := path -> option (Z * text).
Definition no_docs : docs := fun _ => None.
Definition dset (d : docs) (p : path) (x : option (Z * text)) : docs := fun q => if String.eqb q p then x else d q.
(** Events that are not about a document of the client. Exit is not a handled event. *)
Definition not_doc (e : event) : Prop :=
  match e with
  | ELsp (MNot (NOpen (UFile _) _ _)) | ELsp (MNot (NChange (UFile _) _ _)) | ELsp (MNot (NClose (UFile _))) | ELsp (MNot NExit) => False
  | _ => True
  end.
(** What an event does to them: a change applies its edits one after the other ([Changes], C43). *)
Inductive Client : docs -> event -> docs -> Prop :=
| Cl_open d p v t : Client d (ELsp (MNot (NOpen (UFile p) v t))) (dset d p (Some (v, t)))
| Cl_change d p v cs v0 t u : d p = Some (v0, t) -> Changes t cs u -> Client d (ELsp (MNot (NChange (UFile p) v cs))) (dset d p (Some (v, u)))
| Cl_orphan d p v cs : d p = None -> Client d (ELsp (MNot (NChange (UFile p) v cs))) d
| Cl_close d p : Client d (ELsp (MNot (NClose (UFile p)))) (dset d p None)
| Cl_other d e : not_doc e -> Client d e d.
Inductive ClientRun : docs -> list event -> docs -> Prop :=
| CR_nil d : ClientRun d [] d
| CR_cons d e d1 es d2 : Client d e d1 -> ClientRun d1 es d2 -> ClientRun d (e :: es) d2.

(** * Preservation *)
Definition inv (g : gstate) (m : fmap) : Prop := minv (g_vfs g) (g_mem_docs g) (g_db g) m /\ v_changes (g_vfs g) = [].
Definition core (g : gstate) := (g_vfs g, g_mem_docs g, g_db g).

Lemma respond_core id o g : core (respond id o g) = core g.
Proof. unfold respond. destruct (aget _ _ _); reflexivity. Qed.
Lemma run_task_core g t : core (run_task g t) = core g.
Proof. destruct t; [apply respond_core|reflexivity]. Qed.
Lemma handle_task_core g : core (handle_task g) = core g.
Proof.
  unfold handle_task. enough (G : forall l g, core (fold_left run_task l g) = core g) by (rewrite G; reflexivity).
  induction l as [|t l IH]; intros g'; cbn [fold_left]; [reflexivity|]. now rewrite IH, run_task_core.
Qed.
Lemma on_request_core g q : core (on_request g q) = core g.
Proof.
  unfold on_request. destruct (g_shutdown _); [now rewrite respond_core|]. destruct (String.eqb _ _); [destruct (q_params q); now rewrite respond_core|].
  destruct (String.eqb _ _); [destruct (q_params q); [reflexivity|now rewrite respond_core]|now rewrite respond_core].
Qed.
Lemma maybe_update_core g g' : maybe_update_diagnostics g = Ok g' -> core g' = core g /\ g_diagnostics g' = g_diagnostics g /\ g_sent g' = g_sent g /\ g_incoming g' = g_incoming g /\ g_shutdown g' = g_shutdown g.
Proof. intros H. apply rbind_inv in H as (s & _ & H). apply rbind_inv in H as (ds & _ & H). injection H as <-. auto. Qed.
Lemma publish_core l : forall g g', publish g l = Ok g' -> core g' = core g /\ g_tasks g' = g_tasks g /\ g_diagnostics g' = g_diagnostics g /\ g_incoming g' = g_incoming g /\ g_shutdown g' = g_shutdown g.
Proof.
  induction l as [|f l IH]; intros g g' H; cbn [publish] in H; [injection H as <-; auto|]. apply rbind_inv in H as (p & _ & H). apply IH in H. exact H.
Qed.
Lemma core_minv g g' m : core g' = core g -> minv (g_vfs g) (g_mem_docs g) (g_db g) m -> minv (g_vfs g') (g_mem_docs g') (g_db g') m.
Proof. intros H. injection H as -> -> ->. auto. Qed.
Lemma after_inv g g' m : after_event g = Ok g' -> minv (g_vfs g) (g_mem_docs g) (g_db g) m -> inv g' m /\ g_mem_docs g' = g_mem_docs g /\ v_paths (g_vfs g') = v_paths (g_vfs g).
Proof.
  intros H M. unfold after_event in H. apply rbind_inv in H as ([g1 b] & H1 & H). destruct (minv_process _ _ _ _ H1 M) as (M1 & C1 & E1 & P1 & _ & _).
  apply rbind_inv in H as (g2 & H2 & H). assert (E2 : core g2 = core g1) by (destruct b; [now apply maybe_update_core in H2|now injection H2 as <-]).
  destruct (coll_take_changes (g_diagnostics g2)) as [c l]. assert (E3 : core g' = core g2) by (destruct l as [l|]; [apply publish_core in H as (-> & _); reflexivity|injection H as <-; reflexivity]).
  rewrite E2 in E3. split; [split; [now apply (core_minv g1)|]|]; injection E3 as X1 X2 X3; rewrite ?X1, ?X2; auto.
Qed.

(** The server's contents are the client's. *)
Definition mirrors (g : gstate) (m : fmap) (d : docs) : Prop :=
  forall p, match d p with Some (v, t) => aget string_dec p (g_mem_docs g) = Some v /\ m p = Some (CText t) | None => aget string_dec p (g_mem_docs g) = None end.

Lemma aset_keys {K V} dec (k : K) (v : V) l : forall x, In x (map fst (aset dec k v l)) <-> x = k \/ In x (map fst l).
Proof. induction l as [|[k2 v2] l IH]; intros x; cbn [aset map fst In]; [intuition congruence|]. destruct (dec k k2) as [->|]; cbn [map fst In]; [intuition congruence|rewrite IH; tauto]. Qed.
Lemma aset_nodup {K V} dec (k : K) (v : V) l : NoDup (map fst l) -> NoDup (map fst (aset dec k v l)).
Proof.
  induction l as [|[k2 v2] l IH]; intros H; cbn [aset map fst]; [constructor; [intros []|constructor]|]. inversion H; subst. destruct (dec k k2) as [->|]; cbn [map fst]; constructor; auto.
  rewrite aset_keys. intros [X|X]; [congruence|contradiction].
Qed.
Lemma adel_keys {K V} dec (k : K) (l : list (K * V)) : forall x, In x (map fst (adel dec k l)) -> In x (map fst l).
Proof. induction l as [|[k2 v2] l IH]; intros x; cbn [adel map fst In]; [auto|]. destruct (dec k k2); cbn [map fst In]; [auto|]. intros [H|H]; auto. Qed.
Lemma adel_nodup {K V} dec (k : K) (l : list (K * V)) : NoDup (map fst l) -> NoDup (map fst (adel dec k l)).
Proof. induction l as [|[k2 v2] l IH]; intros H; cbn [adel map fst]; [constructor|]. inversion H; subst. destruct (dec k k2); cbn [map fst]; auto. constructor; auto. intros X. apply adel_keys in X. contradiction. Qed.

Lemma minv_mem_set v mem db m p z t : minv v mem db m -> m p = Some (CText t) -> minv v (aset string_dec p z mem) db m.
Proof.
  intros [I N O D R B] H. split; auto; [now apply aset_nodup|]. intros q y. rewrite aget_aset. destruct (string_dec q p) as [->|]; eauto.
Qed.
Lemma minv_mem_del v mem db m p : minv v mem db m -> minv v (adel string_dec p mem) db m.
Proof. intros [I N O D R B]. split; auto; [now apply adel_nodup|]. intros q y. rewrite aget_adel. destruct (string_dec q p); [discriminate|eauto]. Qed.

(** Opening and changing. *)
Lemma did_open_minv p z t g g' m : did_open (UFile p) z t g = Ok g' -> minv (g_vfs g) (g_mem_docs g) (g_db g) m ->
  minv (g_vfs g') (g_mem_docs g') (g_db g') (fset m p (Some (CText t))) /\ g_mem_docs g' = aset string_dec p z (g_mem_docs g).
Proof.
  intros H M. cbn [did_open abs_path] in H. apply rbind_inv in H as ([v b] & H1 & H). pose proof (minv_set _ _ _ _ _ _ _ _ M H1 (or_intror (ex_intro _ t eq_refl))) as M1.
  assert (M2 : minv v (aset string_dec p z (g_mem_docs g)) (g_db g) (fset m p (Some (CText t)))) by (apply minv_mem_set with t; [exact M1|unfold fset; now rewrite String.eqb_refl]).
  destruct b; [injection H as <-; auto|]. apply maybe_update_core in H as (H & _). injection H as -> -> ->. auto.
Qed.
Lemma did_change_minv p z cs g g' m : did_change (UFile p) z cs g = Ok g' -> minv (g_vfs g) (g_mem_docs g) (g_db g) m ->
  aget string_dec p (g_mem_docs g) = None /\ g' = g \/
  aget string_dec p (g_mem_docs g) <> None /\ exists t u, m p = Some (CText t) /\ apply_document_changes t cs = Ok u /\ minv (g_vfs g') (g_mem_docs g') (g_db g') (fset m p (Some (CText u))) /\ g_mem_docs g' = aset string_dec p z (g_mem_docs g).
Proof.
  intros H M. cbn [did_change abs_path] in H. destruct (aget string_dec p (g_mem_docs g)) as [z0|] eqn:E; [right|left; injection H as <-; auto].
  split; [discriminate|]. destruct (mi_open _ _ _ _ M p z0 E) as (t & Ht). exists t. pose proof (lookup_inv _ _ p (mi_vfs _ _ _ _ M)) as L. rewrite Ht in L. destruct L as (id & L1 & L2 & _).
  rewrite L1 in H. cbn [rbind runwrap] in H. rewrite L2 in H. cbn [rbind runwrap as_utf8] in H. apply rbind_inv in H as (u & Hu & H). exists u. split; [exact Ht|]. split; [exact Hu|].
  apply rbind_inv in H as ([v b] & H1 & H). injection H as <-. cbn. split; [|reflexivity]. apply minv_mem_set with u; [|unfold fset; now rewrite String.eqb_refl].
  exact (minv_set _ _ _ _ _ _ _ _ M H1 (or_intror (ex_intro _ u eq_refl))).
Qed.
(** Loading: only files that are not open. *)
Lemma load_files_minv l : forall g g' m, load_files g l = Ok g' -> minv (g_vfs g) (g_mem_docs g) (g_db g) m ->
  exists m', minv (g_vfs g') (g_mem_docs g') (g_db g') m' /\ g_mem_docs g' = g_mem_docs g /\ forall p z, aget string_dec p (g_mem_docs g) = Some z -> m' p = m p.
Proof.
  induction l as [|[p c] l IH]; intros g g' m H M; cbn [load_files] in H; [injection H as <-; eauto|]. destruct (aget string_dec p (g_mem_docs g)) eqn:E; [eauto|].
  apply rbind_inv in H as ([v b] & H1 & H). pose proof (minv_set _ _ _ _ _ _ _ _ M H1 (or_introl E)) as M1. destruct (IH _ _ _ H M1) as (m' & M' & E' & K). exists m'. split; [exact M'|]. split; [exact E'|].
  intros q z Hq. rewrite (K q z Hq). unfold fset. destruct (String.eqb_spec q p) as [->|]; [congruence|reflexivity].
Qed.
Lemma handle_vfs_minv ms : forall g g' m, handle_vfs g ms = Ok g' -> minv (g_vfs g) (g_mem_docs g) (g_db g) m ->
  exists m', minv (g_vfs g') (g_mem_docs g') (g_db g') m' /\ g_mem_docs g' = g_mem_docs g /\ forall p z, aget string_dec p (g_mem_docs g) = Some z -> m' p = m p.
Proof.
  induction ms as [|[|l] ms IH]; intros g g' m H M; cbn [handle_vfs] in H; [injection H as <-; eauto|eauto|].
  apply rbind_inv in H as (g1 & H1 & H). destruct (load_files_minv _ _ _ _ H1 M) as (m1 & M1 & E1 & K1). destruct (IH _ _ _ H M1) as (m2 & M2 & E2 & K2). exists m2. split; [exact M2|]. split; [congruence|].
  intros p z Hp. rewrite <- (K1 p z Hp). apply (K2 p z). now rewrite E1.
Qed.
Lemma complete_core r g g' : complete_request r g = Ok g' -> core g' = core g.
Proof.
  intros H. apply rbind_inv in H as (? & _ & H). unfold on_config_response in H. destruct (s_error r); [injection H as <-; reflexivity|]. destruct (s_result r) as [[| | |[|j l]|]|]; try (injection H as <-; reflexivity).
  unfold update_configuration in H. destruct (list_eq_dec _ _ _); [injection H as <-; reflexivity|]. apply rbind_inv in H as (? & _ & H). apply rbind_inv in H as (k1 & _ & H). injection H as <-. reflexivity.
Qed.
(** Any event keeps the invariant. *)
Lemma dispatch_minv g e g' m : dispatch_event g e = Ok g' -> minv (g_vfs g) (g_mem_docs g) (g_db g) m -> exists m', minv (g_vfs g') (g_mem_docs g') (g_db g') m'.
Proof.
  intros H M. destruct e as [[q|n|r]| |v vs]; cbn [dispatch_event handle_lsp] in H.
  - injection H as <-. exists m. apply (core_minv g); [apply on_request_core|exact M].
  - destruct n as [u z t|u z cs|u|u| | | |k]; cbn [on_notification] in H; try discriminate; try (injection H as <-; eauto; fail).
    + destruct u as [p|s]; [apply did_open_minv with (m := m) in H as [H _]; eauto|injection H as <-; eauto].
    + destruct u as [p|s]; [|injection H as <-; eauto]. apply did_change_minv with (m := m) in H as [[_ ->]|(_ & t & w & _ & _ & H & _)]; eauto.
    + injection H as <-. exists m. unfold did_close. destruct (abs_path u); cbn; [now apply minv_mem_del|exact M].
  - exists m. apply (core_minv g); [now apply (complete_core r)|exact M].
  - injection H as <-. exists m. apply (core_minv g); [apply handle_task_core|exact M].
  - apply handle_vfs_minv with (m := m) in H as (m' & H & _); eauto.
Qed.
Lemma dispatch_mirrors g e g' m d d' : dispatch_event g e = Ok g' -> minv (g_vfs g) (g_mem_docs g) (g_db g) m -> mirrors g m d -> Client d e d' ->
  exists m', minv (g_vfs g') (g_mem_docs g') (g_db g') m' /\ mirrors g' m' d'.
Proof.
  intros H M R C. destruct C as [d p z t|d p z cs z0 t u Hd Hch|d p z cs Hd|d p|d e N]; cbn [dispatch_event handle_lsp on_notification] in H.
  - apply did_open_minv with (m := m) in H as [H E]; [|exact M]. eexists. split; [exact H|]. intros q. specialize (R q). rewrite E, aget_aset. unfold dset, fset.
    destruct (String.eqb_spec q p) as [->|]; destruct (string_dec _ _); try congruence; auto.
  - apply did_change_minv with (m := m) in H; [|exact M]. pose proof (R p) as Rp. rewrite Hd in Rp. destruct Rp as [R1 R2]. destruct H as [[H _]|(_ & t' & u' & Ht & Hu & H & E)]; [congruence|].
    assert (t' = t) by congruence. subst t'. assert (F : fits_u32 (blen t) = true) by (apply C40_new_total; unfold apply_document_changes in Hu; apply rbind_inv in Hu as (li & Hli & _); eauto).
    rewrite (C43_sequential t cs u F Hch) in Hu. injection Hu as <-. eexists. split; [exact H|]. intros q. specialize (R q). rewrite E, aget_aset. unfold dset, fset.
    destruct (String.eqb_spec q p) as [->|]; destruct (string_dec _ _); try congruence; auto.
  - apply did_change_minv with (m := m) in H; [|exact M]. pose proof (R p) as Rp. rewrite Hd in Rp. destruct H as [[_ ->]|(X & _)]; [eauto|contradiction].
  - injection H as <-. exists m. cbn. split; [now apply minv_mem_del|]. intros q. specialize (R q). cbn. rewrite aget_adel. unfold dset. destruct (String.eqb_spec q p) as [->|]; destruct (string_dec _ _); try congruence; auto.
  - destruct e as [[q|n|r]| |v vs]; cbn [dispatch_event handle_lsp] in H.
    + injection H as <-. exists m. pose proof (on_request_core g q) as E. split; [now apply (core_minv g)|]. injection E as E1 E2 E3. intros x. rewrite E2. apply R.
    + destruct n as [u z t|u z cs|u|u| | | |k]; cbn [on_notification] in H; cbn in N; try discriminate; try contradiction; try (injection H as <-; eauto; fail); destruct u as [p|s]; try contradiction; injection H as <-; eauto.
    + apply complete_core in H as E. exists m. split; [now apply (core_minv g)|]. injection E as E1 E2 E3. intros x. rewrite E2. apply R.
    + injection H as <-. exists m. pose proof (handle_task_core g) as E. split; [now apply (core_minv g)|]. injection E as E1 E2 E3. intros x. rewrite E2. apply R.
    + apply handle_vfs_minv with (m := m) in H as (m' & H & E & K); [|exact M]. exists m'. split; [exact H|]. intros x. specialize (R x). rewrite E. destruct (d x) as [[z t]|]; [|exact R]. destruct R as [R1 R2]. split; [exact R1|]. now rewrite (K x z R1).
Qed.

Lemma run_cons g e es : e <> ELsp (MNot NExit) -> run g (e :: es) = let? g := handle_event g e in run g es.
Proof. intros N. destruct e as [[q|[]|r]| |v vs]; try reflexivity. contradiction. Qed.
Lemma run_app es1 : forall g es2 g2, ~ In (ELsp (MNot NExit)) es1 -> run g (es1 ++ es2) = Ok g2 -> exists g1, run g es1 = Ok g1 /\ run g1 es2 = Ok g2.
Proof.
  induction es1 as [|e es1 IH]; intros g es2 g2 N H; [exists g; auto|]. cbn [app] in H. rewrite run_cons in H |- * by (intros ->; apply N; now left). apply rbind_inv in H as (g1 & H1 & H). rewrite H1. cbn [rbind]. apply IH; [|exact H]. intros X. apply N. now right.
Qed.
Lemma Client_not_exit d e d' : Client d e d' -> e <> ELsp (MNot NExit).
Proof. intros H E. subst e. inversion H; subst. contradiction. Qed.
Lemma new_inv c : inv (g_new c) no_files /\ mirrors (g_new c) no_files no_docs.
Proof. split; [|intros p; reflexivity]. split; [|reflexivity]. split; cbn; [apply default_inv|constructor|discriminate|discriminate|intros i k []|discriminate]. Qed.
Lemma handle_inv g e g' m : handle_event g e = Ok g' -> inv g m -> exists m', inv g' m'.
Proof. intros H [M _]. apply rbind_inv in H as (g1 & H1 & H). destruct (dispatch_minv _ _ _ _ H1 M) as (m1 & M1). apply after_inv with (m := m1) in H as (H & _); eauto. Qed.
Lemma handle_mirrors g e g' m d d' : handle_event g e = Ok g' -> inv g m -> mirrors g m d -> Client d e d' -> exists m', inv g' m' /\ mirrors g' m' d'.
Proof.
  intros H [M _] R C. apply rbind_inv in H as (g1 & H1 & H). destruct (dispatch_mirrors _ _ _ _ _ _ H1 M R C) as (m1 & M1 & R1). apply after_inv with (m := m1) in H as (H & E & _); [|exact M1]. exists m1. split; [exact H|]. intros p. rewrite E. apply R1.
Qed.
Lemma run_inv es : forall g g' m, run g es = Ok g' -> inv g m -> exists m', inv g' m'.
Proof.
  induction es as [|e es IH]; intros g g' m H I; [injection H as <-; eauto|].
  assert (D : e = ELsp (MNot NExit) \/ e <> ELsp (MNot NExit)) by (destruct e as [[q|[]|r]| |v vs]; try (right; discriminate); now left).
  destruct D as [->|D]; [injection H as <-; eauto|]. rewrite run_cons in H by exact D. apply rbind_inv in H as (g1 & H1 & H). destruct (handle_inv _ _ _ _ H1 I) as (m1 & I1). eauto.
Qed.
Lemma run_mirrors es : forall g g' m d d', run g es = Ok g' -> inv g m -> mirrors g m d -> ClientRun d es d' -> exists m', inv g' m' /\ mirrors g' m' d'.
Proof.
  induction es as [|e es IH]; intros g g' m d d' H I R C; inversion C; subst; [injection H as <-; eauto|]. rewrite run_cons in H by (eapply Client_not_exit; eauto).
  apply rbind_inv in H as (g1 & H1 & H). destruct (handle_mirrors _ _ _ _ _ _ H1 I R H3) as (m1 & I1 & R1). eauto.
Qed.

(** * C48 *)
Theorem C48_open_documents : forall c es g d, run (g_new c) es = Ok g -> ClientRun no_docs es d -> forall p,
  match d p with
  | Some (v, t) => aget string_dec p (g_mem_docs g) = Some v /\ exists id, v_file_id (g_vfs g) p = Ok (Some id) /\ v_file_contents (g_vfs g) id = Ok (CText t)
  | None => aget string_dec p (g_mem_docs g) = None
  end.
Proof.
  intros c es g d H C p. destruct (new_inv c) as [I R]. destruct (run_mirrors _ _ _ _ _ _ H I R C) as (m & [M _] & R'). specialize (R' p). destruct (d p) as [[v t]|]; [|exact R'].
  destruct R' as [R1 R2]. split; [exact R1|]. pose proof (lookup_inv _ _ p (mi_vfs _ _ _ _ M)) as L. rewrite R2 in L. destruct L as (id & L1 & L2 & _). eauto.
Qed.
Print Assumptions C48_open_documents.
(** Opened, edited while the loader reports the file's contents on disk, edited again. *)
Definition C48_events : list event :=
  [ELsp (MNot (NOpen (UFile "/a"%string) 1 (txt "x = 1"))); EVfs (VLoaded [("/a"%string, Some (CText (txt "disk"))); ("/b"%string, Some (CRaw 3))]) [];
   ELsp (MNot (NChange (UFile "/a"%string) 2 [mkChange (Some (mkLC 0 4, mkLC 0 5)) (txt "22")])); ETask].
Example C48_case : (exists d, ClientRun no_docs C48_events d /\ d "/a"%string = Some (2%Z, txt "x = 22")) /\
  match run (g_new []) C48_events with Ok g => v_file_contents (g_vfs g) 0 = Ok (CText (txt "x = 22")) /\ g_sent g = [OutDiagnostics (UFile "/a"%string) [] (Some 2%Z)] | _ => False end.
Proof.
  split; [|vm_compute; auto]. eexists. split.
  - unfold C48_events. eapply CR_cons; [apply Cl_open|]. eapply CR_cons; [apply Cl_other; exact I|]. eapply CR_cons; [|eapply CR_cons; [apply Cl_other; exact I|apply CR_nil]].
    eapply Cl_change; [reflexivity|]. apply Chs_cons with (txt "x = 22"); [reflexivity| |constructor]. apply (Ch_range _ _ (txt "22") (txt "x = ") (txt "1") []).
    + exists [], (txt "x = "). split; [|split; reflexivity]. split; [reflexivity|]. split; [now left|]. vm_compute. intuition discriminate.
    + exists [], (txt "x = 1"). split; [|split; reflexivity]. split; [reflexivity|]. split; [now left|]. vm_compute. intuition discriminate.
  - reflexivity.
Qed.

(** * C49 *)
Theorem C49_database : forall c es g p id t, run (g_new c) es = Ok g -> v_file_id (g_vfs g) p = Ok (Some id) -> v_file_contents (g_vfs g) id = Ok (CText t) -> aget Nat.eq_dec id (g_db g) = Some t.
Proof.
  intros c es g p id t H Hid Hc. destruct (new_inv c) as [I _]. destruct (run_inv _ _ _ _ H I) as (m & M & Ch). pose proof (lookup_inv _ _ p (mi_vfs _ _ _ _ M)) as L.
  unfold v_file_id, interner_get in Hid. destruct (index_of p (v_paths (g_vfs g))) as [i|] eqn:E; [|discriminate]. pose proof (mi_db _ _ _ _ M p i E) as B. rewrite Ch in B. cbn [last_kind] in B.
  assert (i = id) by (destruct (v_get (g_vfs g) i) as [[x|]| |]; cbn in Hid; try discriminate; now injection Hid). subst i.
  destruct (m p) as [x|] eqn:Em; [|unfold v_file_id, interner_get in L; rewrite E in L; congruence]. destruct L as (id' & L1 & L2 & _). unfold v_file_id, interner_get in L1. rewrite E in L1. rewrite Hid in L1. injection L1 as <-.
  rewrite Hc in L2. injection L2 as <-. destruct B as [B|[_ B]]; [exact B|discriminate].
Qed.
Print Assumptions C49_database.
(** Files that are not UTF-8 have the empty text. *)
Theorem C49_invalid_utf8 : forall c es g p id n, run (g_new c) es = Ok g -> v_file_id (g_vfs g) p = Ok (Some id) -> v_file_contents (g_vfs g) id = Ok (CRaw n) -> aget Nat.eq_dec id (g_db g) = Some [].
Proof.
  intros c es g p id t H Hid Hc. destruct (new_inv c) as [I _]. destruct (run_inv _ _ _ _ H I) as (m & M & Ch). pose proof (lookup_inv _ _ p (mi_vfs _ _ _ _ M)) as L.
  unfold v_file_id, interner_get in Hid. destruct (index_of p (v_paths (g_vfs g))) as [i|] eqn:E; [|discriminate]. pose proof (mi_db _ _ _ _ M p i E) as B. rewrite Ch in B. cbn [last_kind] in B.
  assert (i = id) by (destruct (v_get (g_vfs g) i) as [[x|]| |]; cbn in Hid; try discriminate; now injection Hid). subst i.
  destruct (m p) as [x|] eqn:Em; [|unfold v_file_id, interner_get in L; rewrite E in L; congruence]. destruct L as (id' & L1 & L2 & _). unfold v_file_id, interner_get in L1. rewrite E in L1. rewrite Hid in L1. injection L1 as <-.
  rewrite Hc in L2. injection L2 as <-. destruct B as [B|[_ B]]; [exact B|discriminate].
Qed.
Print Assumptions C49_invalid_utf8.
Example C49_case : match run (g_new []) C48_events with Ok g => v_file_id (g_vfs g) "/a"%string = Ok (Some 0) /\ aget Nat.eq_dec 0 (g_db g) = Some (txt "x = 22") /\ aget Nat.eq_dec 1 (g_db g) = Some [] | _ => False end.
Proof. vm_compute. auto. Qed.

(** * C53 *)
(** The claim: after a close, and once everything is handled, the file has the contents that were
    last reported from disk. It fails. *)
Theorem C53_refuted : ~ (forall c es p t g id, run (g_new c) ([EVfs (VLoaded [(p, Some (CText t))]) []] ++ es ++ [ELsp (MNot (NClose (UFile p))); ETask]) = Ok g ->
  (forall m ms, ~ In (EVfs m ms) es) -> v_file_id (g_vfs g) p = Ok (Some id) -> v_file_contents (g_vfs g) id = Ok (CText t)).
Proof.
  intros H. specialize (H [] [ELsp (MNot (NOpen (UFile "/a"%string) 1 (txt "x = 1"))); ELsp (MNot (NChange (UFile "/a"%string) 2 [mkChange None (txt "y = 2")]))] "/a"%string (txt "x = 1")).
  cbn [app] in H. match type of H with forall g id, run ?a ?b = _ -> _ => destruct (run a b) as [g| |] eqn:E; vm_compute in E; try discriminate end. injection E as <-. specialize (H _ 0 eq_refl). assert (X : v_file_contents _ 0 = Ok (CText (txt "x = 1"))) by (apply H; [intros m ms [X|[X|[]]]; discriminate|reflexivity]). vm_compute in X. discriminate.
Qed.
Print Assumptions C53_refuted.
(** What holds: the text stays what the client had, until the loader reports the file again; the
    next report is taken. *)
Theorem C53_close_partial : forall c es p v t g d, run (g_new c) (es ++ [ELsp (MNot (NClose (UFile p)))]) = Ok g -> ClientRun no_docs es d -> d p = Some (v, t) ->
  (exists id, v_file_id (g_vfs g) p = Ok (Some id) /\ v_file_contents (g_vfs g) id = Ok (CText t)) /\
  forall x g', handle_event g (EVfs (VLoaded [(p, Some x)]) []) = Ok g' -> exists id, v_file_id (g_vfs g') p = Ok (Some id) /\ v_file_contents (g_vfs g') id = Ok x.
Proof.
  intros c es p v t g d H C Hd. destruct (new_inv c) as [I R].
  assert (N : ~ In (ELsp (MNot NExit)) es) by (clear -C; induction C as [|d e d1 es d2 H _ IH]; [intros []|]; intros [->|X]; [now apply Client_not_exit in H|auto]).
  destruct (run_app _ _ _ _ N H) as (g1 & H1 & H2). destruct (run_mirrors _ _ _ _ _ _ H1 I R C) as (m & I1 & R1). rewrite run_cons in H2 by discriminate. apply rbind_inv in H2 as (g2 & H2 & H3). injection H3 as ->.
  pose proof (R1 p) as Rp. rewrite Hd in Rp. destruct Rp as [_ Rp].
  assert (I2 : inv g m /\ aget string_dec p (g_mem_docs g) = None).
  { apply rbind_inv in H2 as (g3 & H3 & H2). cbn in H3. injection H3 as <-. destruct (after_inv _ _ m H2) as (J2 & E2 & _); [cbn; apply minv_mem_del, I1|]. split; [exact J2|]. rewrite E2. cbn. rewrite aget_adel. destruct (string_dec p p); [reflexivity|contradiction]. }
  destruct I2 as [I2 Cl]. split.
  - pose proof (lookup_inv _ _ p (mi_vfs _ _ _ _ (proj1 I2))) as L. rewrite Rp in L. destruct L as (id & L1 & L2 & _). eauto.
  - intros x g' Hg. apply rbind_inv in Hg as (g3 & H3 & Hg). cbn [dispatch_event handle_vfs load_files] in H3. apply rbind_inv in H3 as (g4 & H4 & H3). injection H3 as ->. rewrite Cl in H4. apply rbind_inv in H4 as ([w b] & H5 & H4). injection H4 as <-.
    pose proof (minv_set _ _ _ _ _ _ _ _ (proj1 I2) H5 (or_introl Cl)) as M3. apply after_inv with (m := fset m p (Some x)) in Hg as ([M4 _] & _); [|exact M3].
    pose proof (lookup_inv _ _ p (mi_vfs _ _ _ _ M4)) as L. unfold fset in L. rewrite String.eqb_refl in L. destruct L as (id & L1 & L2 & _). eauto.
Qed.
Print Assumptions C53_close_partial.
