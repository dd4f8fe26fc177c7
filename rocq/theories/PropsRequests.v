(** PropsRequests.v — requests and responses of the main loop (C51). *)
From Coq Require Import ZArith Permutation.
From Verif Require Import Base TextEdit LineIndex Vfs Ide Server PropsTextEdit PropsLineIndex PropsVfs PropsIde ServerInv PropsServer.

(** * Specification *)

(** The answer due to a request: [down] says whether a shutdown request was granted before. *)
Inductive Due : bool -> request -> outcome -> Prop :=
| Due_down q : Due true q (OError (-32600))
| Due_shutdown id : Due false (mkReq id "shutdown" true) OShutdownResult
| Due_completion id : Due false (mkReq id "textDocument/completion" true) OCompletionResult
| Due_params id m : m = "shutdown"%string \/ m = "textDocument/completion"%string -> Due false (mkReq id m false) (OError (-32602))
| Due_unknown id m b : m <> "shutdown"%string -> m <> "textDocument/completion"%string -> Due false (mkReq id m b) (OError (-32601)).
(** The answers due to the requests of a history, in the order of the requests. *)
Inductive Answers : bool -> list event -> list (rid * outcome) -> Prop :=
| An_nil d : Answers d [] []
| An_req d q o es l : Due d q o -> Answers (d || match o with OShutdownResult => true | _ => false end) es l -> Answers d (ELsp (MReq q) :: es) ((q_id q, o) :: l)
| An_other d e es l : (forall q, e <> ELsp (MReq q)) -> Answers d es l -> Answers d (e :: es) l.
(** The responses among the messages sent. *)
Fixpoint responses (l : list output) : list (rid * outcome) :=
  match l with [] => [] | OutResponse id o :: l' => (id, o) :: responses l' | _ :: l' => responses l' end.
Fixpoint requests (es : list event) : list request :=
  match es with [] => [] | ELsp (MReq q) :: es' => q :: requests es' | _ :: es' => requests es' end.

(** * Proofs *)
Fixpoint pending (l : list task) : list (rid * outcome) :=
  match l with [] => [] | TResponse id o :: l' => (id, o) :: pending l' | _ :: l' => pending l' end.
Lemma responses_app a b : responses (a ++ b) = responses a ++ responses b.
Proof. induction a as [|[]a IH]; cbn [app responses]; [reflexivity|now rewrite IH| |]; exact IH. Qed.
Lemma pending_app a b : pending (a ++ b) = pending a ++ pending b.
Proof. induction a as [|[]a IH]; cbn [app pending]; [reflexivity|now rewrite IH|]; exact IH. Qed.

(** What C51 is about. *)
Definition rview (g : gstate) := (g_incoming g, responses (g_sent g), pending (g_tasks g), g_shutdown g).
Lemma maybe_update_view g g' : maybe_update_diagnostics g = Ok g' -> rview g' = rview g.
Proof. intros H. apply rbind_inv in H as (s & _ & H). apply rbind_inv in H as (ds & _ & H). injection H as <-. unfold rview. cbn. now rewrite pending_app, app_nil_r. Qed.
Lemma publish_view l : forall g g', publish g l = Ok g' -> rview g' = rview g.
Proof.
  induction l as [|f l IH]; intros g g' H; cbn [publish] in H; [injection H as <-; auto|]. apply rbind_inv in H as (p & _ & H). apply IH in H. rewrite H. unfold rview. cbn. now rewrite responses_app, app_nil_r.
Qed.
Lemma after_view g g' : after_event g = Ok g' -> rview g' = rview g.
Proof.
  intros H. unfold after_event in H. apply rbind_inv in H as ([g1 b] & H1 & H). apply rbind_inv in H as (g2 & H2 & H).
  assert (E1 : rview g1 = rview g). { unfold process_changes in H1. destruct (v_take_changes (g_vfs g)) as [v [|f l]]; [injection H1 as <- _; reflexivity|]. apply rbind_inv in H1 as (ch & _ & H1). injection H1 as <- _. reflexivity. }
  assert (E2 : rview g2 = rview g1) by (destruct b; [now apply maybe_update_view|now injection H2 as <-]).
  destruct (coll_take_changes (g_diagnostics g2)) as [c [l|]]; [apply publish_view in H|injection H as <-]; [rewrite H|]; cbn; now rewrite <- E1, <- E2.
Qed.
Lemma load_files_view l : forall g g', load_files g l = Ok g' -> rview g' = rview g.
Proof. induction l as [|[p c] l IH]; intros g g' H; cbn [load_files] in H; [now injection H as <-|]. destruct (aget _ _ _); [eauto|]. apply rbind_inv in H as ([v b] & _ & H). now apply IH in H. Qed.
Lemma handle_vfs_view ms : forall g g', handle_vfs g ms = Ok g' -> rview g' = rview g.
Proof. induction ms as [|[|l] ms IH]; intros g g' H; cbn [handle_vfs] in H; [now injection H as <-|eauto|]. apply rbind_inv in H as (g1 & H1 & H). apply IH in H. apply load_files_view in H1. congruence. Qed.
Lemma complete_view r g g' : complete_request r g = Ok g' -> rview g' = rview g.
Proof.
  intros H. apply rbind_inv in H as (? & _ & H). unfold on_config_response in H. destruct (s_error r); [injection H as <-; reflexivity|]. destruct (s_result r) as [[| | |[|j l]|]|]; try (injection H as <-; reflexivity).
  unfold update_configuration in H. destruct (list_eq_dec _ _ _); [injection H as <-; reflexivity|]. apply rbind_inv in H as (? & _ & H). apply rbind_inv in H as (k1 & _ & H). injection H as <-. reflexivity.
Qed.
(** Events other than requests and tasks. *)
Lemma dispatch_view g e g' : dispatch_event g e = Ok g' -> (forall q, e <> ELsp (MReq q)) -> e <> ETask -> rview g' = rview g.
Proof.
  intros H N1 N2. destruct e as [[q|n|r]| |v vs]; [elim (N1 q); reflexivity| | |contradiction|]; cbn [dispatch_event handle_lsp] in H.
  - destruct n as [u z t|u z cs|u|u| | | |k]; cbn [on_notification] in H; try discriminate; try (injection H as <-; reflexivity).
    + unfold did_open in H. destruct (abs_path u); [|now injection H as <-]. apply rbind_inv in H as ([v b] & _ & H). destruct b; [now injection H as <-|]. apply maybe_update_view in H. exact H.
    + unfold did_change in H. destruct (abs_path u) as [p|]; [|now injection H as <-]. destruct (aget _ _ _); [|now injection H as <-].
      apply rbind_inv in H as (? & _ & H). apply rbind_inv in H as (? & _ & H). apply rbind_inv in H as (? & _ & H). apply rbind_inv in H as (? & _ & H). apply rbind_inv in H as (? & _ & H). apply rbind_inv in H as ([v b] & _ & H). injection H as <-. reflexivity.
    + injection H as <-. unfold did_close. destruct (abs_path u); unfold rview; cbn; now rewrite responses_app, app_nil_r.
    + injection H as <-. unfold rview. cbn. now rewrite responses_app, app_nil_r.
  - now apply complete_view in H.
  - now apply handle_vfs_view in H.
Qed.

(** Pending requests are registered, once. *)
Definition rinv (g : gstate) : Prop :=
  NoDup (map fst (pending (g_tasks g))) /\ forall id, aget rid_eq_dec id (g_incoming g) <> None <-> In id (map fst (pending (g_tasks g))).
Lemma respond_some id o g m : aget rid_eq_dec id (g_incoming g) = Some m ->
  rview (respond id o g) = (adel rid_eq_dec id (g_incoming g), responses (g_sent g) ++ [(id, o)], pending (g_tasks g), g_shutdown g).
Proof. intros H. unfold respond. rewrite H. unfold rview. cbn. now rewrite responses_app. Qed.

(** A fresh request. *)
Lemma due_total d q : exists o, Due d q o.
Proof.
  destruct q as [id m b]. destruct d; [eexists; constructor|]. destruct (string_dec m "shutdown") as [->|N1]; [destruct b; eexists; constructor; auto|].
  destruct (string_dec m "textDocument/completion") as [->|N2]; [destruct b; eexists; constructor; auto|]. eexists. now constructor.
Qed.
Lemma request_step g q o : rinv g -> aget rid_eq_dec (q_id q) (g_incoming g) = None -> Due (g_shutdown g) q o ->
  rinv (on_request g q) /\ Permutation (responses (g_sent (on_request g q)) ++ pending (g_tasks (on_request g q))) ((responses (g_sent g) ++ pending (g_tasks g)) ++ [(q_id q, o)]) /\
  g_shutdown (on_request g q) = (g_shutdown g || match o with OShutdownResult => true | _ => false end)%bool.
Proof.
  intros [ND IN] F D.
  assert (G : forall g2, rview g2 = (adel rid_eq_dec (q_id q) (aset rid_eq_dec (q_id q) (q_method q) (g_incoming g)), responses (g_sent g) ++ [(q_id q, o)], pending (g_tasks g), (g_shutdown g || match o with OShutdownResult => true | _ => false end)%bool) ->
    rinv g2 /\ Permutation (responses (g_sent g2) ++ pending (g_tasks g2)) ((responses (g_sent g) ++ pending (g_tasks g)) ++ [(q_id q, o)]) /\ g_shutdown g2 = (g_shutdown g || match o with OShutdownResult => true | _ => false end)%bool).
  { intros g2 E. injection E as E1 E2 E3 E4. split; [|split; [|exact E4]].
    - unfold rinv. rewrite E3, E1. split; [exact ND|]. intros id. rewrite aget_adel. destruct (rid_eq_dec id (q_id q)) as [->|N]; [rewrite <- IN, F; tauto|]. rewrite aget_aset. destruct (rid_eq_dec id (q_id q)); [contradiction|apply IN].
    - rewrite E2, E3. rewrite <- !app_assoc. apply Permutation_app_head. apply Permutation_app_comm. }
  set (gr := with_incoming (aset rid_eq_dec (q_id q) (q_method q) (g_incoming g)) g).
  assert (A : aget rid_eq_dec (q_id q) (g_incoming gr) = Some (q_method q)) by (cbn; rewrite aget_aset; destruct (rid_eq_dec _ _); [reflexivity|contradiction]).
  unfold on_request. fold gr. change (g_shutdown gr) with (g_shutdown g). remember (g_shutdown g) as down eqn:S. destruct D as [q|id|id|id m M|id m b M1 M2]; cbn [q_method q_params] in *.
  - apply G. rewrite (respond_some _ _ _ _ A). cbn. now rewrite <- S.
  - rewrite String.eqb_refl. apply G. erewrite respond_some by exact A. cbn. reflexivity.
  - change (String.eqb "textDocument/completion" "shutdown") with false. rewrite String.eqb_refl. cbn iota. cbn. rewrite pending_app. cbn [pending]. split; [|split; [now rewrite app_assoc|now rewrite <- S]].
    unfold rinv. cbn. rewrite pending_app, map_app. cbn. split.
    + apply NoDup_rev in ND. rewrite <- (rev_involutive (_ ++ _)). apply NoDup_rev. rewrite rev_app_distr. cbn. constructor; [|exact ND]. rewrite <- in_rev, <- IN. cbn [q_id] in F. rewrite F. auto.
    + intros i. rewrite aget_aset, in_app_iff, <- IN. cbn [In]. destruct (rid_eq_dec i id) as [->|N]; [split; [auto|discriminate]|]. split; [auto|]. intros [H|[H|[]]]; congruence.
  - destruct M as [-> | ->].
    + rewrite String.eqb_refl. apply G. rewrite (respond_some _ _ _ _ A). cbn. now rewrite <- S.
    + change (String.eqb "textDocument/completion" "shutdown") with false. rewrite String.eqb_refl. cbn iota. apply G. rewrite (respond_some _ _ _ _ A). cbn. now rewrite <- S.
  - apply String.eqb_neq in M1, M2. rewrite M1, M2. apply G. rewrite (respond_some _ _ _ _ A). cbn. now rewrite <- S.
Qed.
(** Tasks. *)
Lemma tasks_step l : forall g, NoDup (map fst (pending l)) -> (forall id, aget rid_eq_dec id (g_incoming g) <> None <-> In id (map fst (pending l))) ->
  (forall id, aget rid_eq_dec id (g_incoming (fold_left run_task l g)) = None) /\ responses (g_sent (fold_left run_task l g)) = responses (g_sent g) ++ pending l /\ g_tasks (fold_left run_task l g) = g_tasks g /\ g_shutdown (fold_left run_task l g) = g_shutdown g.
Proof.
  induction l as [|[id o|ds] l IH]; intros g ND IN; cbn [fold_left pending map fst] in *.
  - split; [|rewrite app_nil_r; auto]. intros id. destruct (aget _ _ _) eqn:E; [|reflexivity]. elim (IN id). intros X _. elim X. now rewrite E.
  - inversion ND as [|x y N1 N2]; subst. assert (A : exists m, aget rid_eq_dec id (g_incoming g) = Some m) by (destruct (aget rid_eq_dec id (g_incoming g)) eqn:E; [eauto|]; exfalso; apply (proj2 (IN id)); [now left|exact E]). destruct A as [m A].
    cbn [run_task]. pose proof (respond_some id o g m A) as V. injection V as V1 V2 V3 V4. destruct (IH (respond id o g) N2) as (J1 & J2 & J3 & J4).
    { intros i. rewrite V1, aget_adel. destruct (rid_eq_dec i id) as [->|N]; [tauto|]. rewrite IN. cbn. intuition congruence. }
    split; [exact J1|]. rewrite J2, V2, <- app_assoc. split; [reflexivity|]. rewrite J3, J4. unfold respond. rewrite A. auto.
  - exact (IH (run_task g (TDiagnostics ds)) ND IN).
Qed.
Lemma task_step g : rinv g -> rinv (handle_task g) /\ responses (g_sent (handle_task g)) = responses (g_sent g) ++ pending (g_tasks g) /\ g_tasks (handle_task g) = [] /\ g_shutdown (handle_task g) = g_shutdown g.
Proof.
  intros [ND IN]. unfold handle_task. destruct (tasks_step (g_tasks g) (with_tasks [] g) ND IN) as (J1 & J2 & J3 & J4). split; [|auto]. unfold rinv. rewrite J3. cbn. split; [constructor|]. intros id. rewrite J1. tauto.
Qed.

Lemma answers_det d es l : Answers d es l -> forall l', Answers d es l' -> l = l'.
Proof.
  assert (D : forall d q o o', Due d q o -> Due d q o' -> o = o') by (intros x q o o' H1 H2; destruct H1; inversion H2; subst; try reflexivity; try congruence; intuition congruence).
  induction 1 as [d|d q o es l Hd _ IH|d e es l N _ IH]; intros l' H'; inversion H'; subst; auto.
  - match goal with H : Due _ _ _ |- _ => pose proof (D _ _ _ _ Hd H) end. subst. f_equal. auto.
  - elim (H2 q). reflexivity.
  - elim (N q). reflexivity.
Qed.
Lemma answers_total es : forall d, exists l, Answers d es l.
Proof.
  induction es as [|e es IH]; intros d; [eexists; constructor|]. assert (Q : (exists q, e = ELsp (MReq q)) \/ forall q, e <> ELsp (MReq q)) by (destruct e as [[]| |]; try (right; discriminate); left; eauto).
  destruct Q as [[q ->]|N]; [|destruct (IH d) as [l H]; eexists; now apply An_other; eauto]. destruct (due_total d q) as [o D]. destruct (IH (d || match o with OShutdownResult => true | _ => false end)%bool) as [l H]. eexists. eapply An_req; eauto.
Qed.
Lemma answers_ids d es l : Answers d es l -> map fst l = map q_id (requests es).
Proof. induction 1 as [|d q o es l _ _ IH|d e es l N _ IH]; cbn [map fst requests]; [reflexivity|now rewrite IH|]. destruct e as [[q| |]| |]; auto. elim (N q). reflexivity. Qed.

Definition seen (g : gstate) := responses (g_sent g) ++ pending (g_tasks g).
Lemma seen_view g g' : rview g' = rview g -> seen g' = seen g.
Proof. intros H. injection H as _ E1 E2 _. unfold seen. now rewrite E1, E2. Qed.
Lemma run_answers es : forall g g' l, run g es = Ok g' -> ~ In (ELsp (MNot NExit)) es -> rinv g -> Answers (g_shutdown g) es l -> NoDup (map fst (seen g) ++ map fst l) ->
  rinv g' /\ Permutation (seen g') (seen g ++ l).
Proof.
  induction es as [|e es IH]; intros g g' l H N R A ND; [injection H as <-; inversion A; subst; split; [exact R|now rewrite app_nil_r]|].
  rewrite run_cons in H by (intros ->; apply N; now left). apply rbind_inv in H as (g2 & H2 & H). apply rbind_inv in H2 as (g1 & H1 & H2). apply after_view in H2 as V. pose proof (seen_view _ _ V) as VS.
  assert (N' : ~ In (ELsp (MNot NExit)) es) by (intros X; apply N; now right).
  assert (RV : forall a b, rview a = rview b -> rinv b -> rinv a) by (intros a b X; injection X as X1 _ X3 _; unfold rinv; now rewrite X1, X3).
  assert (SV : g_shutdown g2 = g_shutdown g1) by now injection V.
  inversion A as [|d q o es' l' HD HA|d e' es' l' NQ HA]; subst.
  - cbn in H1. injection H1 as <-. destruct (request_step g q o R) as (R1 & P1 & S1); [|exact HD|].
    { destruct (aget rid_eq_dec (q_id q) (g_incoming g)) eqn:E; [|reflexivity]. exfalso. assert (X : In (q_id q) (map fst (pending (g_tasks g)))) by (apply R; now rewrite E).
      apply NoDup_remove_2 in ND. apply ND. rewrite !in_app_iff. left. unfold seen. rewrite map_app, in_app_iff. now right. }
    assert (PS : Permutation (seen g2) (seen g ++ [(q_id q, o)])) by (rewrite VS; exact P1).
    destruct (IH g2 g' l' H N') as [J1 J2]; [now apply RV with (on_request g q)|now rewrite SV, S1| |].
    { eapply Permutation_NoDup; [|exact ND]. apply Permutation_sym. etransitivity; [apply Permutation_app_tail, Permutation_map; exact PS|]. rewrite map_app, <- app_assoc. reflexivity. }
    split; [exact J1|]. etransitivity; [exact J2|]. etransitivity; [apply Permutation_app_tail; exact PS|]. rewrite <- app_assoc. reflexivity.
  - assert (T : e = ETask \/ e <> ETask) by (destruct e as [| |]; try (right; discriminate); now left). destruct T as [->|T].
    + cbn in H1. injection H1 as <-. destruct (task_step g R) as (R1 & P1 & T1 & S1). assert (PS : seen g2 = seen g) by (rewrite VS; unfold seen; now rewrite P1, T1, app_nil_r).
      destruct (IH g2 g' l H N') as [J1 J2]; [now apply RV with (handle_task g)|now rewrite SV, S1|now rewrite PS|]. rewrite PS in J2. auto.
    + apply dispatch_view in H1; [|exact NQ|exact T]. pose proof (seen_view _ _ H1) as VS1. destruct (IH g2 g' l H N') as [J1 J2]; [apply RV with g1; [exact V|]; now apply RV with g|rewrite SV; injection H1 as _ _ _ ->; exact HA|now rewrite VS, VS1|].
      rewrite VS, VS1 in J2. auto.
Qed.

(** * C51 *)
(** With distinct ids, once the queued tasks are handled, the responses sent are exactly the
    answers due, each once. *)
Theorem C51_exactly_once : forall c es g l, run (g_new c) (es ++ [ETask]) = Ok g -> ~ In (ELsp (MNot NExit)) es -> NoDup (map q_id (requests es)) -> Answers false es l ->
  Permutation (responses (g_sent g)) l.
Proof.
  intros c es g l H N ND A. apply run_app in H as (g1 & H1 & H2); [|exact N].
  destruct (run_answers es (g_new c) g1 l H1 N) as [R P]; [split; cbn; [constructor|intros id; split; [intros X; now elim X|intros []]]|exact A|cbn; now rewrite (answers_ids _ _ _ A)|]. cbn in P.
  rewrite run_cons in H2 by discriminate. apply rbind_inv in H2 as (g2 & H2 & H3). injection H3 as ->. apply rbind_inv in H2 as (g3 & H3 & H2). cbn in H3. injection H3 as <-.
  destruct (task_step g1 R) as (_ & P1 & T1 & _). apply after_view in H2. injection H2 as _ E _ _. rewrite E, P1. exact P.
Qed.
Print Assumptions C51_exactly_once.
(** Every history has exactly one list of answers due, one for each request. *)
Theorem C51_answers_due : forall es, exists l, Answers false es l /\ map fst l = map q_id (requests es) /\ forall l', Answers false es l' -> l' = l.
Proof. intros es. destruct (answers_total es false) as [l H]. exists l. split; [exact H|]. split; [now apply answers_ids in H|]. intros l' H'. exact (answers_det _ _ _ H' _ H). Qed.
Print Assumptions C51_answers_due.

(** All but completion requests are answered at once. *)
Definition only_completion (l : list (rid * outcome)) : Prop := forall id o, In (id, o) l -> o = OCompletionResult.
Lemma on_request_pending g q : pending (g_tasks (on_request g q)) = pending (g_tasks g) \/ pending (g_tasks (on_request g q)) = pending (g_tasks g) ++ [(q_id q, OCompletionResult)].
Proof.
  assert (R : forall id o g, pending (g_tasks (respond id o g)) = pending (g_tasks g)) by (intros id o g0; unfold respond; destruct (aget _ _ _); reflexivity).
  unfold on_request. destruct (g_shutdown _); [left; now rewrite R|]. destruct (String.eqb _ _); [left; destruct (q_params q); now rewrite R|]. destruct (String.eqb _ _); [|left; now rewrite R]. destruct (q_params q); [right; cbn; now rewrite pending_app|left; now rewrite R].
Qed.
Lemma handle_task_pending g : g_tasks (handle_task g) = [].
Proof.
  unfold handle_task. enough (G : forall l g, g_tasks (fold_left run_task l g) = g_tasks g) by (rewrite G; reflexivity). induction l as [|t l IH]; intros g'; cbn [fold_left]; [reflexivity|]. rewrite IH. destruct t; cbn [run_task]; [|reflexivity]. unfold respond. destruct (aget _ _ _); reflexivity.
Qed.
Lemma handle_pending g e g' : handle_event g e = Ok g' -> only_completion (pending (g_tasks g)) -> only_completion (pending (g_tasks g')).
Proof.
  intros H C. apply rbind_inv in H as (g1 & H1 & H). apply after_view in H. injection H as _ _ E _. rewrite E. clear E.
  assert (Q : (exists q, e = ELsp (MReq q)) \/ forall q, e <> ELsp (MReq q)) by (destruct e as [[]| |]; try (right; discriminate); left; eauto). destruct Q as [[q ->]|N].
  - cbn in H1. injection H1 as <-. destruct (on_request_pending g q) as [-> | ->]; [exact C|]. intros id o X. apply in_app_iff in X as [X|[X|[]]]; [eauto|congruence].
  - assert (T : e = ETask \/ e <> ETask) by (destruct e as [| |]; try (right; discriminate); now left). destruct T as [->|T].
    + cbn in H1. injection H1 as <-. rewrite handle_task_pending. intros id o [].
    + apply dispatch_view in H1; auto. injection H1 as _ _ -> _. exact C.
Qed.
Theorem C51_immediate : forall c es g l id o, run (g_new c) es = Ok g -> ~ In (ELsp (MNot NExit)) es -> NoDup (map q_id (requests es)) -> Answers false es l ->
  In (id, o) l -> o <> OCompletionResult -> In (id, o) (responses (g_sent g)).
Proof.
  intros c es g l id o H N ND A I No.
  destruct (run_answers es (g_new c) g l H N) as [R P]; [split; cbn; [constructor|intros i; split; [intros X; now elim X|intros []]]|exact A|cbn; now rewrite (answers_ids _ _ _ A)|]. cbn in P.
  assert (C : only_completion (pending (g_tasks g))).
  { clear -H N. revert H. assert (C : only_completion (pending (g_tasks (g_new c)))) by (intros ? ? []). revert C. generalize (g_new c). induction es as [|e es IH]; intros g0 C H; [now injection H as <-|].
    rewrite run_cons in H by (intros ->; apply N; now left). apply rbind_inv in H as (g1 & H1 & H). apply IH with g1; [intros X; apply N; now right|now apply handle_pending in H1|exact H]. }
  apply (Permutation_in _ (Permutation_sym P)) in I. unfold seen in I. apply in_app_iff in I as [I|I]; [exact I|]. now apply C in I.
Qed.
Print Assumptions C51_immediate.

(** Even when ids are used again, no id gets more responses than it had requests. *)
Definition nresp (id : rid) (g : gstate) : nat := count_occ rid_eq_dec (map fst (responses (g_sent g))) id + match aget rid_eq_dec id (g_incoming g) with Some _ => 1 | None => 0 end.
Lemma respond_nresp id i o g : nresp id (respond i o g) = nresp id g.
Proof.
  unfold respond. destruct (aget rid_eq_dec i (g_incoming g)) eqn:E; [|reflexivity]. unfold nresp. cbn. rewrite responses_app, map_app, count_occ_app. cbn. rewrite aget_adel.
  destruct (rid_eq_dec i id) as [->|N]; [rewrite E|]; destruct (rid_eq_dec id _); try congruence; try contradiction; lia.
Qed.
Lemma on_request_nresp id g q : nresp id (on_request g q) <= nresp id g + (if rid_eq_dec (q_id q) id then 1 else 0).
Proof.
  set (gr := with_incoming (aset rid_eq_dec (q_id q) (q_method q) (g_incoming g)) g).
  assert (G : nresp id gr <= nresp id g + (if rid_eq_dec (q_id q) id then 1 else 0)).
  { unfold nresp. cbn. rewrite aget_aset. destruct (rid_eq_dec id (q_id q)), (rid_eq_dec (q_id q) id); try congruence; destruct (aget _ _ _); lia. }
  unfold on_request. fold gr. destruct (g_shutdown gr); [now rewrite respond_nresp|]. destruct (String.eqb _ _); [destruct (q_params q); now rewrite respond_nresp|]. destruct (String.eqb _ _); [destruct (q_params q); [exact G|now rewrite respond_nresp]|now rewrite respond_nresp].
Qed.
Lemma handle_task_nresp id g : nresp id (handle_task g) = nresp id g.
Proof.
  unfold handle_task. change (nresp id g) with (nresp id (with_tasks [] g)). generalize (with_tasks [] g) as g0. induction (g_tasks g) as [|t l IH]; intros g0; cbn [fold_left]; [reflexivity|]. rewrite IH. destruct t; cbn [run_task]; [apply respond_nresp|reflexivity].
Qed.
Lemma nresp_view id g g' : rview g' = rview g -> nresp id g' = nresp id g.
Proof. intros H. injection H as E1 E2 _ _. unfold nresp. now rewrite E1, E2. Qed.
Theorem C51_at_most_once : forall c es g id, run (g_new c) es = Ok g -> count_occ rid_eq_dec (map fst (responses (g_sent g))) id <= count_occ rid_eq_dec (map q_id (requests es)) id.
Proof.
  intros c es g id H. enough (G : nresp id g <= nresp id (g_new c) + count_occ rid_eq_dec (map q_id (requests es)) id) by (unfold nresp in G; cbn in G; lia).
  revert H. generalize (g_new c). induction es as [|e es IH]; intros g0 H; [injection H as <-; lia|].
  assert (D : e = ELsp (MNot NExit) \/ e <> ELsp (MNot NExit)) by (destruct e as [[q|[]|r]| |v vs]; try (right; discriminate); now left).
  destruct D as [->|D]; [injection H as <-; lia|]. rewrite run_cons in H by exact D. apply rbind_inv in H as (g1 & H1 & H). apply IH in H. apply rbind_inv in H1 as (g2 & H2 & H1). apply after_view in H1. rewrite (nresp_view _ _ _ H1) in H. clear IH D H1 g1.
  assert (Q : (exists q, e = ELsp (MReq q)) \/ forall q, e <> ELsp (MReq q)) by (destruct e as [[]| |]; try (right; discriminate); left; eauto). destruct Q as [[q ->]|N].
  - cbn in H2. injection H2 as <-. pose proof (on_request_nresp id g0 q) as X. cbn [requests map count_occ]. destruct (rid_eq_dec (q_id q) id); lia.
  - assert (R : requests (e :: es) = requests es) by (destruct e as [[q| |]| |]; try reflexivity; elim (N q); reflexivity). rewrite R. assert (T : e = ETask \/ e <> ETask) by (destruct e as [| |]; try (right; discriminate); now left). destruct T as [->|T].
    + cbn in H2. injection H2 as <-. rewrite handle_task_nresp in H. exact H.
    + apply dispatch_view in H2; auto. rewrite (nresp_view _ _ _ H2) in H. exact H.
Qed.
Print Assumptions C51_at_most_once.

(** A completion request waits for the task queue and is overtaken; later requests are refused. *)
Definition C51_events : list event :=
  [ELsp (MReq (mkReq (RNum 1) "textDocument/completion" true)); ELsp (MReq (mkReq (RStr "x"%string) "textDocument/hover" true)); ELsp (MReq (mkReq (RNum 2) "shutdown" false));
   ELsp (MReq (mkReq (RNum 3) "shutdown" true)); ELsp (MReq (mkReq (RNum 4) "shutdown" true))].
Example C51_case : NoDup (map q_id (requests C51_events)) /\ Answers false C51_events [(RNum 1, OCompletionResult); (RStr "x"%string, OError (-32601)); (RNum 2, OError (-32602)); (RNum 3, OShutdownResult); (RNum 4, OError (-32600))] /\
  match run (g_new []) (C51_events ++ [ETask]) with Ok g => responses (g_sent g) = [(RStr "x"%string, OError (-32601)); (RNum 2, OError (-32602)); (RNum 3, OShutdownResult); (RNum 4, OError (-32600)); (RNum 1, OCompletionResult)] | _ => False end.
Proof.
  split; [|split; [|vm_compute; reflexivity]].
  - cbn. repeat constructor; cbn; intuition discriminate.
  - apply (An_req false (mkReq _ _ _)); [apply Due_completion|]. apply (An_req _ (mkReq _ _ _)); [apply Due_unknown; discriminate|]. apply (An_req _ (mkReq _ _ _)); [apply Due_params; now left|].
    apply (An_req _ (mkReq _ _ _)); [apply Due_shutdown|]. apply (An_req _ (mkReq _ _ _)); [apply Due_down|]. constructor.
Qed.
