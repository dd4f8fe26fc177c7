(** PropsClosed.v — diagnostics of documents that are not open (C64). *)
From Coq Require Import ZArith.
From Verif Require Import Base TextEdit LineIndex Vfs Ide Server PropsVfs PropsIde ServerInv PropsServer PropsDiag PropsLoader PropsFiles.

(** The claim: after any history, the client shows no diagnostics for a document that is not open. *)
Definition C64_claim : Prop := forall c es g d p ds, run (g_new c) es = Ok g -> ClientRun no_docs es d -> d p = None -> last_published p (g_sent g) = Some ds -> ds = [].
(** REFUTED: diagnostics computed before the document was closed are published after. *)
Definition C64_events : list event := [ELsp (MNot (NOpen (UFile "/a"%string) 1 (txt "x ="))); ELsp (MNot (NClose (UFile "/a"%string))); ETask].
Lemma C64_events_client : exists d, ClientRun no_docs C64_events d /\ d "/a"%string = None.
Proof.
  eexists. split.
  - unfold C64_events. eapply CR_cons; [apply Cl_open; reflexivity|]. eapply CR_cons; [eapply Cl_close; reflexivity|]. eapply CR_cons; [apply Cl_other; reflexivity|]. apply CR_nil.
  - reflexivity.
Qed.
Theorem C64_refuted : ~ C64_claim.
Proof.
  intros H. destruct C64_events_client as (d & C & Hd). specialize (H [] C64_events). match type of H with forall g d p ds, run ?a ?b = _ -> _ => destruct (run a b) as [g| |] eqn:E; vm_compute in E; try discriminate end. injection E as <-.
  specialize (H _ d _ _ eq_refl C Hd eq_refl). discriminate.
Qed.

(** * Nothing pending for a path that is not open *)
Definition others (p : path) (paths : list path) (j : nat) : Prop := exists q, nth_error paths j = Some q /\ q <> p.
Record quiet (p : path) (g : gstate) : Prop := mkQ {
  qu_mem : aget string_dec p (g_mem_docs g) = None;
  qu_tasks : forall j ds, In (j, ds) (settings (g_tasks g)) -> others p (v_paths (g_vfs g)) j;
  qu_changes : forall j, In j (co_changes (g_diagnostics g)) -> others p (v_paths (g_vfs g)) j }.
Lemma others_grow p v v' j : same_paths v v' -> others p (v_paths v) j -> others p (v_paths v') j.
Proof. intros [r ->] (q & A & B). exists q. split; [|exact B]. rewrite nth_error_app1; [exact A|]. apply nth_error_Some. congruence. Qed.
Lemma quiet_keep p g g' : quiet p g -> same_paths (g_vfs g) (g_vfs g') -> aget string_dec p (g_mem_docs g') = None -> settings (g_tasks g') = settings (g_tasks g) -> g_diagnostics g' = g_diagnostics g -> quiet p g'.
Proof. intros [A B C] S1 M T D. split; [exact M|rewrite T|rewrite D]; intros; eapply others_grow; eauto. Qed.
Lemma maybe_quiet p g g' m : maybe_update_diagnostics g = Ok g' -> vinv (g_vfs g) m -> quiet p g -> quiet p g'.
Proof.
  intros H I [A B C]. apply rbind_inv in H as (s & Hs & H). apply rbind_inv in H as (ds & Hds & H). injection H as <-. pose proof (subs_spec _ _ _ I _ Hs) as S0. destruct (compute_spec _ _ _ Hds) as [E _]. split; cbn; [exact A| |exact C].
  intros j x Hx. rewrite settings_app in Hx. apply in_app_iff in Hx as [Hx|Hx]; [eauto|]. cbn [settings] in Hx. rewrite app_nil_r in Hx. apply (in_map fst) in Hx. rewrite E in Hx. apply S0 in Hx as (q & Hq & F). exists q. cbn [fst] in F.
  unfold v_file_id, interner_get in F. destruct (index_of q (v_paths (g_vfs g))) as [i|] eqn:Ei; [|discriminate]. apply rbind_inv in F as (y & _ & F). destruct y; [|discriminate]. injection F as ->. apply index_of_some in Ei as [Ei _]. split; [exact Ei|]. intros ->. apply aget_in in Hq as [z Hq]. congruence.
Qed.
Lemma set_native_changes c f ds i : In i (co_changes (set_native c f ds)) -> In i (co_changes c) \/ i = f.
Proof.
  unfold set_native. assert (G : In i (set_insert f (co_changes c)) -> In i (co_changes c) \/ i = f) by (unfold set_insert; destruct (existsb _ _); [auto|]; rewrite in_app_iff; cbn; intuition).
  destruct (aget _ _ _); [destruct (all_equal _ _); [auto|exact G]|exact G].
Qed.
Lemma set_all_changes l : forall c i, In i (co_changes (set_all l c)) -> In i (co_changes c) \/ In i (map fst l).
Proof.
  induction l as [|[f ds] l IH]; intros c i H; [auto|]. cbn [set_all fold_left fst snd] in H. apply (IH (set_native c f ds)) in H as [H|H]; [|cbn; auto]. apply set_native_changes in H as [H| ->]; cbn; auto.
Qed.
Lemma dispatch_quiet p g e g' m : (forall z t, e <> ELsp (MNot (NOpen (UFile p) z t))) -> dispatch_event g e = Ok g' -> minv (g_vfs g) (g_mem_docs g) (g_db g) m -> quiet p g -> quiet p g'.
Proof.
  intros NO H M Q. destruct e as [[q|n|r]| |v vs]; cbn [dispatch_event handle_lsp] in H.
  - injection H as <-. destruct (on_request_diag g q) as (A & B & _). pose proof (on_request_core g q) as E. injection E as E1 E2 E3. apply (quiet_keep p g); auto; [rewrite E1; apply same_paths_refl|rewrite E2; apply Q].
  - destruct n as [u z t|u z cs|u|u| | | |k]; cbn [on_notification] in H; try discriminate; try (injection H as <-; exact Q).
    + destruct u as [q|s]; [|injection H as <-; exact Q]. assert (Nq : p <> q) by (intros ->; eapply NO; reflexivity). destruct (did_open_minv _ _ _ _ _ _ H M) as [M1 E]. cbn [did_open abs_path] in H. apply rbind_inv in H as ([v b] & H1 & H).
      assert (Q1 : quiet p (with_vfs v (with_mem_docs (aset string_dec q z (g_mem_docs g)) g))).
      { apply (quiet_keep p g); auto; cbn; [apply (set_paths _ _ _ _ _ _ (mi_vfs _ _ _ _ M) H1)|]. rewrite aget_aset. destruct (string_dec p q); [contradiction|]. apply Q. }
      destruct b; [injection H as <-; exact Q1|]. eapply maybe_quiet; [exact H| |exact Q1]. cbn. pose proof (minv_set _ _ _ _ _ _ _ _ M H1 (or_intror (ex_intro _ t eq_refl))) as M2. exact (mi_vfs _ _ _ _ M2).
    + destruct u as [q|s]; [|injection H as <-; exact Q]. cbn [did_change abs_path] in H. destruct (aget string_dec q (g_mem_docs g)) eqn:A; [|injection H as <-; exact Q]. assert (Nq : p <> q) by (intros ->; rewrite (qu_mem _ _ Q) in A; discriminate).
      do 5 (apply rbind_inv in H as (? & _ & H)). apply rbind_inv in H as ([v b] & H1 & H). injection H as <-. apply (quiet_keep p g); auto; cbn; [apply (set_paths _ _ _ _ _ _ (mi_vfs _ _ _ _ M) H1)|]. rewrite aget_aset. destruct (string_dec p q); [contradiction|]. apply Q.
    + injection H as <-. unfold did_close. destruct (abs_path u); [|apply (quiet_keep p g); auto; [apply same_paths_refl|apply Q]]. apply (quiet_keep p g); auto; cbn; [apply same_paths_refl|]. rewrite aget_adel. destruct (string_dec _ _); [reflexivity|apply Q].
    + injection H as <-. apply (quiet_keep p g); auto; [apply same_paths_refl|apply Q].
  - destruct (complete_diag _ _ _ H) as (A & B & _). apply complete_core in H. injection H as E1 E2 E3. apply (quiet_keep p g); auto; [rewrite E1; apply same_paths_refl|rewrite E2; apply Q|now rewrite B].
  - injection H as <-. pose proof (handle_task_core g) as E. injection E as E1 E2 E3. assert (T : g_tasks (handle_task g) = []).
    { unfold handle_task. change (@nil task) with (g_tasks (with_tasks [] g)) at 2. generalize (with_tasks [] g) as g0. induction (g_tasks g) as [|t l IH]; intros g0; cbn [fold_left]; [reflexivity|]. rewrite IH. destruct t; cbn [run_task]; [apply respond_diag|reflexivity]. }
    split; [rewrite E2; apply Q|rewrite T; intros j ds []|]. intros j Hj. rewrite handle_task_diag in Hj. rewrite E1. apply set_all_changes in Hj as [Hj|Hj]; [apply Q, Hj|]. apply in_map_iff in Hj as ([j' ds] & <- & Hj). exact (qu_tasks _ _ Q _ _ Hj).
  - destruct (handle_vfs_more _ _ _ _ H M) as (P & D & T & _). destruct (handle_vfs_minv _ _ _ _ H M) as (m' & _ & E & _). apply (quiet_keep p g); auto; [rewrite E; apply Q|now rewrite T].
Qed.
Lemma after_quiet p g g' m : after_event g = Ok g' -> minv (g_vfs g) (g_mem_docs g) (g_db g) m -> quiet p g ->
  quiet p g' /\ co_changes (g_diagnostics g') = [] /\ exists new, g_sent g' = g_sent g ++ new /\ forall ds ver, ~ In (OutDiagnostics (UFile p) ds ver) new.
Proof.
  intros H M Q. unfold after_event in H. apply rbind_inv in H as ([g1 b] & H1 & H). apply rbind_inv in H as (g2 & H2 & H). destruct (minv_process _ _ _ _ H1 M) as (M1 & _).
  assert (X1 : quiet p g1 /\ g_sent g1 = g_sent g).
  { unfold process_changes, v_take_changes in H1. destruct (v_changes (g_vfs g)); [injection H1 as <- <-|apply rbind_inv in H1 as (ch & _ & H1); injection H1 as <- <-]; (split; [|reflexivity]); (apply (quiet_keep p g); auto; [exists []; cbn; now rewrite app_nil_r|apply Q]). }
  destruct X1 as [Q1 S1]. assert (X2 : quiet p g2 /\ g_sent g2 = g_sent g1).
  { destruct b; [|injection H2 as <-; auto]. split; [eapply maybe_quiet; eauto; apply (mi_vfs _ _ _ _ M1)|now apply maybe_update_core in H2]. }
  destruct X2 as [Q2 S2]. assert (N2 : NoDup (v_paths (g_vfs g2))) by (destruct b; [apply maybe_update_core in H2 as (E & _); injection E as -> _ _|injection H2 as <-]; apply (vi_nodup _ _ (mi_vfs _ _ _ _ M1))).
  unfold coll_take_changes in H. destruct (co_changes (g_diagnostics g2)) as [|j l] eqn:Ec.
  - injection H as <-. split; [split; cbn; apply Q2|]. split; [exact Ec|]. exists []. rewrite app_nil_r. cbn. split; [congruence|intros ds ver []].
  - destruct (publish_core _ _ _ H) as (E & T & D & _). destruct (publish_spec (j :: l) (with_diagnostics (mkColl (co_native (g_diagnostics g2)) (co_check (g_diagnostics g2)) []) g2) g' N2 H) as (new & Sn & A & _). injection E as E1 E2 E3.
    split; [split; [rewrite E2; apply Q2|rewrite T, E1; apply Q2|rewrite D; intros i []]|]. split; [now rewrite D|]. exists new. split; [cbn in Sn; congruence|]. intros ds ver X. destruct (A _ X) as (i & q & Hi & Hq & Eo). injection Eo as -> _ _. cbn in Hq. rewrite <- Ec in Hi. destruct (qu_changes _ _ Q2 i Hi) as (q' & Y & Nq). apply index_of_some in Hq as [Hq _]. congruence.
Qed.
Lemma handle_quiet p g e g' m : (forall z t, e <> ELsp (MNot (NOpen (UFile p) z t))) -> handle_event g e = Ok g' -> inv g m -> quiet p g ->
  quiet p g' /\ exists new, g_sent g' = g_sent g ++ new /\ forall ds ver, In (OutDiagnostics (UFile p) ds ver) new -> e = ELsp (MNot (NClose (UFile p))) /\ ds = [].
Proof.
  intros NO H [M _] Q. apply rbind_inv in H as (g1 & H1 & H2). destruct (dispatch_minv _ _ _ _ H1 M) as (m1 & M1). pose proof (dispatch_quiet _ _ _ _ _ NO H1 M Q) as Q1. destruct (after_quiet _ _ _ _ H2 M1 Q1) as (Q2 & _ & n2 & S2 & F2).
  split; [exact Q2|]. destruct (dispatch_sent _ _ _ H1) as (n1 & S1 & F1). exists (n1 ++ n2). rewrite S2, S1, app_assoc. split; [reflexivity|]. intros ds ver X. apply in_app_iff in X as [X|X]; [|elim (F2 _ _ X)]. pose proof (F1 _ _ _ X) as ->. split; [reflexivity|].
  cbn [dispatch_event handle_lsp on_notification] in H1. injection H1 as <-. cbn in S1. apply app_inv_head in S1. subst n1. destruct X as [X|[]]. congruence.
Qed.
Definition opened_in (es : list event) (p : path) : Prop := exists z t, In (ELsp (MNot (NOpen (UFile p) z t))) es.
Lemma run_quiet p es : forall g g' m, ~ opened_in es p -> run g es = Ok g' -> inv g m -> quiet p g ->
  exists new, g_sent g' = g_sent g ++ new /\ forall ds ver, In (OutDiagnostics (UFile p) ds ver) new -> closed_in es p /\ ds = [].
Proof.
  induction es as [|e es IH]; intros g g' m NO H I Q; [injection H as <-; exists []; rewrite app_nil_r; split; [reflexivity|intros ds ver []]|].
  assert (D : e = ELsp (MNot NExit) \/ e <> ELsp (MNot NExit)) by (destruct e as [[q|[]|r]| |v vs]; try (right; discriminate); now left). destruct D as [->|D]; [injection H as <-; exists []; rewrite app_nil_r; split; [reflexivity|intros ds ver []]|].
  rewrite run_cons in H by exact D. apply rbind_inv in H as (g1 & H1 & H). assert (NO1 : forall z t, e <> ELsp (MNot (NOpen (UFile p) z t))) by (intros z t ->; apply NO; exists z, t; now left).
  destruct (handle_quiet _ _ _ _ _ NO1 H1 I Q) as (Q1 & n1 & S1 & F1). destruct (handle_inv _ _ _ _ H1 I) as (m1 & I1). destruct (IH g1 g' m1) as (n2 & S2 & F2); auto; [intros (z & t & X); apply NO; exists z, t; now right|].
  exists (n1 ++ n2). rewrite S2, S1, app_assoc. split; [reflexivity|]. intros ds ver X. apply in_app_iff in X as [X|X]; [destruct (F1 _ _ X) as [-> ->]; split; [now left|reflexivity]|]. destruct (F2 _ _ X) as [A ->]. split; [now right|reflexivity].
Qed.
Lemma new_quiet c p : quiet p (g_new c).
Proof. split; cbn; [reflexivity|intros j ds []|intros j []]. Qed.

(** Diagnostics are only ever published for documents that were opened; an empty list also for one
    that is closed. *)
Theorem C64_only_opened : forall c es g p ds ver, run (g_new c) es = Ok g -> In (OutDiagnostics (UFile p) ds ver) (g_sent g) -> opened_in es p \/ closed_in es p /\ ds = [].
Proof.
  intros c es g p ds ver H X. assert (Dc : opened_in es p \/ ~ opened_in es p).
  { clear. induction es as [|e es IH]; [right; intros (z & t & [])|]. destruct IH as [(z & t & IH)|IH]; [left; exists z, t; now right|].
    assert (D : (exists z t, e = ELsp (MNot (NOpen (UFile p) z t))) \/ forall z t, e <> ELsp (MNot (NOpen (UFile p) z t))).
    { destruct e as [[q|[[q|s] z t| | | | | | |]|r]| |v vs]; try (right; discriminate). destruct (string_dec q p) as [->|N]; [left; eauto|right; intros z' t' E; congruence]. }
    destruct D as [(z & t & ->)|D]; [left; exists z, t; now left|]. right. intros (z & t & [E|E]); [exact (D z t E)|]. apply IH. exists z, t. exact E. }
  destruct Dc as [Dc|Dc]; [now left|]. right. destruct (run_quiet p es _ _ _ Dc H (proj1 (new_inv c)) (new_quiet c p)) as (new & S1 & F). cbn in S1. rewrite S1 in X. eauto.
Qed.
(** If no diagnostics are being computed when a document is closed, it shows none until it is opened
    again. *)
Theorem C64_close_partial : forall c es1 es2 g p, ~ In (ELsp (MNot NExit)) es1 -> run (g_new c) (es1 ++ [ETask; ELsp (MNot (NClose (UFile p)))] ++ es2) = Ok g -> ~ opened_in es2 p -> last_published p (g_sent g) = Some [].
Proof.
  intros c es1 es2 g p NE H NO. destruct (run_app es1 (g_new c) _ _ NE H) as (g1 & H1 & H2). cbn [app] in H2. rewrite run_cons in H2 by discriminate. apply rbind_inv in H2 as (g2 & H2 & H3). rewrite run_cons in H3 by discriminate. apply rbind_inv in H3 as (g3 & H3 & H4).
  destruct (run_inv _ _ _ _ H1 (proj1 (new_inv c))) as (m1 & I1). destruct (handle_inv _ _ _ _ H2 I1) as (m2 & I2). destruct (handle_inv _ _ _ _ H3 I2) as (m3 & I3).
  assert (T2 : g_tasks g2 = [] /\ co_changes (g_diagnostics g2) = []).
  { apply rbind_inv in H2 as (g' & E & A). injection E as <-. assert (T : g_tasks (handle_task g1) = []).
    { unfold handle_task. change (@nil task) with (g_tasks (with_tasks [] g1)) at 2. generalize (with_tasks [] g1) as g0. induction (g_tasks g1) as [|t l IH]; intros g0; cbn [fold_left]; [reflexivity|]. rewrite IH. destruct t; cbn [run_task]; [apply respond_diag|reflexivity]. }
    unfold after_event in A. pose proof (handle_task_core g1) as E. injection E as E1 E2 E3. unfold process_changes, v_take_changes in A. rewrite E1 in A. destruct I1 as [_ Ch]. rewrite Ch in A. cbn [rbind] in A.
    unfold coll_take_changes in A. cbn [g_diagnostics with_vfs] in A. destruct (co_changes (g_diagnostics (handle_task g1))) eqn:Ec; [injection A as <-; cbn; auto|]. apply publish_core in A as (_ & -> & -> & _). cbn. auto. }
  assert (Q3 : quiet p g3 /\ last_published p (g_sent g3) = Some []).
  { destruct T2 as [T2 C2]. apply rbind_inv in H3 as (g' & E & A). cbn [dispatch_event handle_lsp on_notification] in E. injection E as <-. assert (Q : quiet p (did_close (UFile p) g2)).
    { split; cbn; [rewrite aget_adel; destruct (string_dec p p); [reflexivity|contradiction]|rewrite T2; intros j ds []|rewrite C2; intros j []]. }
    assert (M : minv (g_vfs (did_close (UFile p) g2)) (g_mem_docs (did_close (UFile p) g2)) (g_db (did_close (UFile p) g2)) m2) by (cbn; apply minv_mem_del, I2).
    destruct (after_quiet _ _ _ _ A M Q) as (Q' & _ & new & Sn & F). split; [exact Q'|]. rewrite Sn. rewrite last_published_app.
    assert (L : last_published p new = None). { clear -F. induction new as [|o new IH]; [reflexivity|]. cbn [last_published]. assert (IH' : last_published p new = None) by (apply IH; intros ds ver X; eapply F; right; exact X). destruct o as [a b|[q|s] ds z|a]; auto. rewrite IH'. destruct (String.eqb_spec p q) as [->|]; [|reflexivity]. elim (F ds z). now left. }
    rewrite L. cbn. rewrite last_published_app. cbn. now rewrite String.eqb_refl. }
  destruct Q3 as [Q3 L3]. destruct (run_quiet p es2 _ _ _ NO H4 I3 Q3) as (new & S1 & F). rewrite S1, last_published_app. destruct (last_published p new) as [x|] eqn:L; [|exact L3].
  f_equal. assert (G : exists ver, In (OutDiagnostics (UFile p) x ver) new).
  { clear -L. induction new as [|o new IH]; [discriminate|]. cbn [last_published] in L. destruct o as [a b|[q|s] ds z|a]; try (destruct (IH L) as (v & X); exists v; now right). destruct (last_published p new) eqn:L'; [destruct (IH L) as (v & X); exists v; now right|]. destruct (String.eqb_spec p q) as [->|]; [|discriminate]. injection L as ->. exists z. now left. }
  destruct G as (ver & G). apply F in G. tauto.
Qed.
Example C64_ex : match run (g_new []) ([ELsp (MNot (NOpen (UFile "/a"%string) 1 (txt "x =")))] ++ [ETask; ELsp (MNot (NClose (UFile "/a"%string)))] ++ [ETask]) with
  | Ok g => last_published "/a"%string (g_sent g) = Some [] | _ => False end.
Proof. vm_compute. reflexivity. Qed.
Print Assumptions C64_refuted.
Print Assumptions C64_only_opened.
Print Assumptions C64_close_partial.
