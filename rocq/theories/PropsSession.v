(** PropsSession.v — C82 how a session ends, C83 the announced capabilities. *)
From Coq Require Import ZArith Permutation.
From Verif Require Import Base TextEdit LineIndex Vfs Ide Server PropsTextEdit PropsLineIndex PropsVfs PropsIde ServerInv PropsServer PropsRequests Session.

(** * Specification *)

Definition exit_msg : message := MNot NExit.
(** How many times a schedule looks at the client's messages. *)
Definition looks (s : list turn) : nat := length (filter (fun t => match t with TurnInbox => true | _ => false end) s).
(** A shutdown request the protocol lets the server grant. *)
Definition is_shutdown (m : message) : Prop := exists id, m = MReq (mkReq id "shutdown" true).
(** The client's messages up to the first exit, if there is one. *)
Definition first_exit (w w1 : list message) : Prop := ~ In exit_msg w1 /\ exists w2, w = w1 ++ exit_msg :: w2.
(** The status the protocol asks for: 0 if a shutdown request came before the exit, 1 otherwise. *)
Definition lsp_status (w : list message) (n : nat) : Prop :=
  n = 0 /\ (exists w1, first_exit w w1 /\ Exists is_shutdown w1) \/ n = 1 /\ ~ (exists w1, first_exit w w1 /\ Exists is_shutdown w1).
(** The requests of the client. *)
Fixpoint sent_requests (w : list message) : list request :=
  match w with [] => [] | MReq q :: w' => q :: sent_requests w' | _ :: w' => sent_requests w' end.

(** * Proofs *)

(** The events a schedule makes of the client's messages. *)
Inductive Heard : list message -> list turn -> list event -> Prop :=
| H_nil w : Heard w [] []
| H_msg m w s es : Heard w s es -> Heard (m :: w) (TurnInbox :: s) (ELsp m :: es)
| H_task w s es : Heard w s es -> Heard w (TurnTask :: s) (ETask :: es)
| H_idle w s es : Heard w s es -> Heard w (TurnTask :: s) es
| H_loader m ms w s es : Heard w s es -> Heard w (TurnLoader m ms :: s) (EVfs m ms :: es).

Lemma exit_dec m : m = exit_msg \/ m <> exit_msg.
Proof. destruct m as [q|[]|r]; try (right; discriminate). now left. Qed.
Lemma inbox_cons g m w s : m <> exit_msg -> session g (m :: w) (TurnInbox :: s) = match handle_event g (ELsp m) with Ok g' => session g' w s | _ => Crashed end.
Proof. intros N. destruct m as [q|[]|r]; try reflexivity. now elim N. Qed.

Lemma session_heard s : forall g w g', session g w s = Running g' -> exists es, Heard w s es /\ run g es = Ok g' /\ ~ In (ELsp exit_msg) es /\ looks s <= length w /\ (looks s = length w -> ~ In exit_msg w /\ requests es = sent_requests w).
Proof.
  induction s as [|t s IH]; intros g w g' H.
  - injection H as <-. exists []. split; [constructor|]. split; [reflexivity|]. split; [intros []|]. split; [cbn; lia|]. intros E. destruct w; [|discriminate]. split; [intros []|reflexivity].
  - destruct t as [| |m ms].
    + destruct w as [|m w]; [discriminate|]. destruct (exit_dec m) as [->|N]; [discriminate|]. rewrite inbox_cons in H by exact N. destruct (handle_event g (ELsp m)) as [g1| |] eqn:E; try discriminate.
      destruct (IH _ _ _ H) as (es & H1 & H2 & H3 & H4 & H5). exists (ELsp m :: es). split; [now constructor|]. split; [rewrite run_cons by (intros X; apply N; now injection X); rewrite E; exact H2|]. split; [intros [X|X]; [congruence|contradiction]|].
      cbn [looks filter length] in *. unfold looks in *. cbn [filter length]. split; [lia|]. intros X. destruct H5 as [H5 H6]; [lia|]. split; [intros [Y|Y]; congruence|]. destruct m; cbn [requests sent_requests]; congruence.
    + cbn [session] in H. destruct (g_tasks g) as [|t l] eqn:T.
      * destruct (IH _ _ _ H) as (es & H1 & H2 & H3 & H4). exists es. split; [now apply H_idle|]. auto.
      * destruct (handle_event g ETask) as [g1| |] eqn:E; try discriminate. destruct (IH _ _ _ H) as (es & H1 & H2 & H3 & H4). exists (ETask :: es). split; [now apply H_task|]. split; [rewrite run_cons by discriminate; rewrite E; exact H2|]. split; [intros [X|X]; [discriminate|contradiction]|exact H4].
    + cbn [session] in H. destruct (handle_event g (EVfs m ms)) as [g1| |] eqn:E; try discriminate. destruct (IH _ _ _ H) as (es & H1 & H2 & H3 & H4). exists (EVfs m ms :: es). split; [now apply H_loader|]. split; [rewrite run_cons by discriminate; rewrite E; exact H2|]. split; [intros [X|X]; [discriminate|contradiction]|exact H4].
Qed.

(** What comes after the messages looked at does not matter. *)
Lemma session_more s : forall g w w' g', session g w s = Running g' -> session g (w ++ w') s = Running g'.
Proof.
  induction s as [|t s IH]; intros g w w' g' H; [exact H|]. destruct t as [| |m ms]; cbn [session] in *.
  - destruct w as [|m w]; [discriminate|]. cbn [app]. destruct (exit_dec m) as [->|N]; [discriminate|]. pose proof (inbox_cons g m w s N) as E. pose proof (inbox_cons g m (w ++ w') s N) as E'. cbn [session] in E, E'. rewrite E in H. rewrite E'. destruct (handle_event g (ELsp m)); try discriminate. eauto.
  - destruct (g_tasks g); [eauto|]. destruct (handle_event g ETask); try discriminate. eauto.
  - destruct (handle_event g (EVfs m ms)); try discriminate. eauto.
Qed.

(** * C82 *)

(** The process ends with status 0 exactly when it comes to read an exit of the client; what it has done
    by then is what it does for the messages before. *)
Theorem C82_exit : forall c w s g, session (g_new c) w s = Exited g <->
  exists w1 w2 s1 s2, w = w1 ++ exit_msg :: w2 /\ ~ In exit_msg w1 /\ s = s1 ++ TurnInbox :: s2 /\ looks s1 = length w1 /\ session (g_new c) w1 s1 = Running g.
Proof.
  intros c w s g. generalize (g_new c). revert w g. induction s as [|t s IH]; intros w g g0.
  { split; [discriminate|]. intros (w1 & w2 & [|? s1] & s2 & _ & _ & X & _); discriminate. }
  destruct t as [| |m ms].
  - destruct w as [|m w]; [split; [discriminate|intros ([|? w1] & ? & ? & ? & X & _); discriminate]|]. destruct (exit_dec m) as [->|N].
    + split.
      * intros H. exists [], w, [], s. split; [reflexivity|]. split; [intros []|]. split; [reflexivity|]. split; [reflexivity|]. injection H as <-. reflexivity.
      * intros (w1 & w2 & s1 & s2 & E1 & E2 & E3 & E4 & E5). destruct w1 as [|m1 w1]; [|injection E1 as <- _; elim E2; now left]. destruct s1 as [|t1 s1]; [injection E5 as <-; reflexivity|]. injection E3 as <- _. discriminate.
    + rewrite inbox_cons by exact N. split.
      * intros H. destruct (handle_event g0 (ELsp m)) as [g1| |] eqn:E; try discriminate. apply IH in H as (w1 & w2 & s1 & s2 & -> & E2 & -> & E4 & E5). exists (m :: w1), w2, (TurnInbox :: s1), s2. split; [reflexivity|]. split; [intros [X|X]; congruence|]. split; [reflexivity|]. split; [unfold looks in *; cbn [filter length]; lia|]. rewrite inbox_cons by exact N. now rewrite E.
      * intros (w1 & w2 & s1 & s2 & E1 & E2 & E3 & E4 & E5). destruct w1 as [|m1 w1]; [injection E1 as -> _; now elim N|]. injection E1 as <- ->. destruct s1 as [|t1 s1]; [discriminate|]. injection E3 as <- ->. rewrite inbox_cons in E5 by exact N. destruct (handle_event g0 (ELsp m)) as [g1| |]; try discriminate.
        apply IH. exists w1, w2, s1, s2. split; [reflexivity|]. split; [intros X; apply E2; now right|]. split; [reflexivity|]. split; [unfold looks in *; cbn [filter length] in E4; lia|exact E5].
  - assert (G : forall g1, session g1 w s = Exited g <-> exists w1 w2 s1 s2, w = w1 ++ exit_msg :: w2 /\ ~ In exit_msg w1 /\ TurnTask :: s = TurnTask :: s1 ++ TurnInbox :: s2 /\ looks (TurnTask :: s1) = length w1 /\ session g1 w1 s1 = Running g).
    { intros g1. rewrite IH. split; intros (w1 & w2 & s1 & s2 & E1 & E2 & E3 & E4); exists w1, w2, s1, s2; (split; [exact E1|]; split; [exact E2|]; split; [congruence|exact E4]). }
    cbn [session]. destruct (g_tasks g0) as [|t l] eqn:T; [|destruct (handle_event g0 ETask) as [g1| |] eqn:E]; try (rewrite G; clear G).
    + split; intros (w1 & w2 & s1 & s2 & E1 & E2 & E3 & E4 & E5); [exists w1, w2, (TurnTask :: s1), s2; repeat split; auto; cbn [session]; now rewrite T|].
      destruct s1 as [|t1 s1]; [discriminate|]. injection E3 as <- ->. cbn [session] in E5. rewrite T in E5. exists w1, w2, s1, s2. auto.
    + split; intros (w1 & w2 & s1 & s2 & E1 & E2 & E3 & E4 & E5); [exists w1, w2, (TurnTask :: s1), s2; repeat split; auto; cbn [session]; now rewrite T, E|].
      destruct s1 as [|t1 s1]; [discriminate|]. injection E3 as <- ->. cbn [session] in E5. rewrite T, E in E5. exists w1, w2, s1, s2. auto.
    + split; [discriminate|]. intros (w1 & w2 & s1 & s2 & E1 & E2 & E3 & E4 & E5). destruct s1 as [|t1 s1]; [discriminate|]. injection E3 as <- ->. cbn [session] in E5. rewrite T, E in E5. discriminate.
    + split; [discriminate|]. intros (w1 & w2 & s1 & s2 & E1 & E2 & E3 & E4 & E5). destruct s1 as [|t1 s1]; [discriminate|]. injection E3 as <- ->. cbn [session] in E5. rewrite T, E in E5. discriminate.
  - cbn [session]. destruct (handle_event g0 (EVfs m ms)) as [g1| |] eqn:E.
    + rewrite IH. split; intros (w1 & w2 & s1 & s2 & E1 & E2 & E3 & E4 & E5).
      * exists w1, w2, (TurnLoader m ms :: s1), s2. split; [exact E1|]. split; [exact E2|]. split; [now rewrite E3|]. split; [exact E4|]. cbn [session]. now rewrite E.
      * destruct s1 as [|t1 s1]; [discriminate|]. injection E3 as <- ->. cbn [session] in E5. rewrite E in E5. exists w1, w2, s1, s2. auto.
    + split; [discriminate|]. intros (w1 & w2 & s1 & s2 & E1 & E2 & E3 & E4 & E5). destruct s1 as [|t1 s1]; [discriminate|]. injection E3 as <- ->. cbn [session] in E5. rewrite E in E5. discriminate.
    + split; [discriminate|]. intros (w1 & w2 & s1 & s2 & E1 & E2 & E3 & E4 & E5). destruct s1 as [|t1 s1]; [discriminate|]. injection E3 as <- ->. cbn [session] in E5. rewrite E in E5. discriminate.
Qed.
Print Assumptions C82_exit.

(** Nothing after the exit is looked at. *)
Theorem C82_after_exit : forall g w1 w2 w2' s, session g (w1 ++ exit_msg :: w2) s = session g (w1 ++ exit_msg :: w2') s.
Proof.
  intros g w1 w2 w2' s. revert g w1. induction s as [|t s IH]; intros g w1; [reflexivity|]. destruct t as [| |m ms].
  - destruct w1 as [|m w1]; [reflexivity|]. cbn [app]. destruct (exit_dec m) as [->|N]; [reflexivity|]. rewrite !inbox_cons by exact N. destruct (handle_event g (ELsp m)); auto.
  - cbn [session]. destruct (g_tasks g); [apply IH|]. destruct (handle_event g ETask); auto.
  - cbn [session]. destruct (handle_event g (EVfs m ms)); auto.
Qed.
Print Assumptions C82_after_exit.

(** A client that closes the connection without an exit makes it end with status 1. *)
Lemma disconnect_split g s : forall w g0, session g0 w s = Disconnected g -> ~ In exit_msg w /\ exists s1 s2, s = s1 ++ TurnInbox :: s2 /\ looks s1 = length w /\ session g0 w s1 = Running g.
Proof.
  induction s as [|t s IH]; intros w g0 H; [discriminate|]. destruct t as [| |m ms].
  - destruct w as [|m w]; [injection H as <-; split; [intros []|]; exists [], s; auto|]. destruct (exit_dec m) as [->|N]; [discriminate|]. rewrite inbox_cons in H by exact N. destruct (handle_event g0 (ELsp m)) as [g1| |] eqn:E; try discriminate.
    apply IH in H as (H1 & s1 & s2 & -> & H2 & H3). split; [intros [X|X]; congruence|]. exists (TurnInbox :: s1), s2. split; [reflexivity|]. split; [unfold looks in *; cbn [filter length]; lia|]. rewrite inbox_cons by exact N. now rewrite E.
  - cbn [session] in H. destruct (g_tasks g0) as [|t l] eqn:T.
    + apply IH in H as (H1 & s1 & s2 & -> & H2 & H3). split; [exact H1|]. exists (TurnTask :: s1), s2. split; [reflexivity|]. split; [exact H2|]. cbn [session]. now rewrite T.
    + destruct (handle_event g0 ETask) as [g1| |] eqn:E; try discriminate. apply IH in H as (H1 & s1 & s2 & -> & H2 & H3). split; [exact H1|]. exists (TurnTask :: s1), s2. split; [reflexivity|]. split; [exact H2|]. cbn [session]. now rewrite T, E.
  - cbn [session] in H. destruct (handle_event g0 (EVfs m ms)) as [g1| |] eqn:E; try discriminate. apply IH in H as (H1 & s1 & s2 & -> & H2 & H3). split; [exact H1|]. exists (TurnLoader m ms :: s1), s2. split; [reflexivity|]. split; [exact H2|]. cbn [session]. now rewrite E.
Qed.
Lemma running_then s1 : forall g w g1 t s2, session g w s1 = Running g1 -> looks s1 = length w -> session g w (s1 ++ t :: s2) = session g1 [] (t :: s2).
Proof.
  induction s1 as [|u s1 IH]; intros g w g1 t s2 H L; [injection H as <-; destruct w; [reflexivity|discriminate]|]. cbn [app]. destruct u as [| |m ms].
  - destruct w as [|m w]; [discriminate|]. destruct (exit_dec m) as [->|N]; [discriminate|]. rewrite inbox_cons in H |- * by exact N. destruct (handle_event g (ELsp m)); try discriminate. apply IH; [exact H|]. unfold looks in *. cbn [filter length] in L. lia.
  - cbn [session] in H |- *. destruct (g_tasks g); [now apply IH|]. destruct (handle_event g ETask); try discriminate. now apply IH.
  - cbn [session] in H |- *. destruct (handle_event g (EVfs m ms)); try discriminate. now apply IH.
Qed.
Theorem C82_disconnect : forall c w s g, session (g_new c) w s = Disconnected g <->
  ~ In exit_msg w /\ exists s1 s2, s = s1 ++ TurnInbox :: s2 /\ looks s1 = length w /\ session (g_new c) w s1 = Running g.
Proof.
  intros c w s g. split; [apply disconnect_split|]. intros (N & s1 & s2 & -> & L & R). rewrite (running_then _ _ _ _ _ _ R L). reflexivity.
Qed.
Print Assumptions C82_disconnect.

(** It does not go on once it has had the chance to read everything up to the exit, or the end. *)
Theorem C82_ends : forall c w s, length w < looks s -> exists n, exit_status (session (g_new c) w s) = Some n.
Proof.
  intros c w s L. destruct (session (g_new c) w s) as [g|g|g|] eqn:E; cbn; eauto. apply session_heard in E as (es & _ & _ & _ & X & _). lia.
Qed.
Theorem C82_ends_at_exit : forall c w1 w2 s, length w1 < looks s -> exists n, exit_status (session (g_new c) (w1 ++ exit_msg :: w2) s) = Some n.
Proof.
  intros c w1 w2 s L. rewrite (C82_after_exit _ w1 w2 []). destruct (session (g_new c) (w1 ++ [exit_msg]) s) as [g|g|g|] eqn:E; cbn; eauto. apply session_heard in E as (es & _ & _ & _ & X & Y). rewrite app_length in *. cbn [length] in *. destruct Y as [Y _]; [lia|]. elim Y. apply in_app_iff. right. now left.
Qed.
Print Assumptions C82_ends.
Print Assumptions C82_ends_at_exit.

(** REFUTED: the status the protocol asks for. *)
Theorem C82_status_refuted : ~ (forall c w s n, exit_status (session (g_new c) w s) = Some n -> n <> 101 -> lsp_status w n).
Proof.
  intros H. destruct (H [] [exit_msg] [TurnInbox] 0 eq_refl) as [[_ (w1 & [N (w2 & E)] & X)]|[X _]]; [discriminate| |discriminate].
  destruct w1 as [|m w1]; [inversion X|]. destruct w1; discriminate.
Qed.
Print Assumptions C82_status_refuted.
(** What holds: a session that does not crash ends with the status the protocol asks for exactly when
    the client did not send an exit without asking for shutdown first. *)
Theorem C82_status_exact : forall c w s n, exit_status (session (g_new c) w s) = Some n -> n <> 101 ->
  (lsp_status w n <-> forall w1, first_exit w w1 -> Exists is_shutdown w1).
Proof.
  assert (U : forall w a b, first_exit w a -> first_exit w b -> a = b).
  { intros w a b [Na [a2 ->]] [Nb [b2 E]]. revert b Nb E. induction a as [|x a IH]; intros b Nb E; destruct b as [|y b]; [reflexivity|injection E as <- _; elim Nb; now left|injection E as -> _; elim Na; now left|]. injection E as -> E. f_equal. apply IH; [intros X; apply Na; now right|intros X; apply Nb; now right|exact E]. }
  intros c w s n H N. unfold lsp_status. destruct (session (g_new c) w s) as [g|g|g|] eqn:E; cbn in H; try discriminate; injection H as <-; [| |now elim N].
  - apply C82_exit in E as (w1 & w2 & s1 & s2 & -> & N1 & _ & _ & _). assert (F : first_exit (w1 ++ exit_msg :: w2) w1) by (split; eauto). split.
    + intros [[_ (w1' & F' & X)]|[X _]]; [|discriminate X]. intros w1'' F''. now rewrite (U _ _ _ F'' F').
    + intros X. left. split; [reflexivity|]. exists w1. auto.
  - apply C82_disconnect in E as (N1 & _). split; [|intros _; right; split; [reflexivity|]].
    + intros _ w1 [_ (w2 & ->)]. elim N1. apply in_app_iff. right. now left.
    + intros (w1 & [_ (w2 & ->)] & _). elim N1. apply in_app_iff. right. now left.
Qed.
Print Assumptions C82_status_exact.

(** When the session ends at an exit, every request before it has been answered as it should (C51), except
    that completion requests may still wait; none waits if the tasks were handled just before the exit. *)
Lemma answers_heard d es l : Answers d es l -> forall w s, Heard w s es -> looks s = length w -> Answers d (map ELsp w) l.
Proof.
  intros A w s H. revert d l A. induction H as [w|m w s es H IH|w s es H IH|w s es H IH|m ms w s es H IH]; intros d l A L.
  - destruct w; [|discriminate]. inversion A; subst; constructor.
  - unfold looks in *. cbn [filter length] in L. cbn [map]. inversion A; subst; [apply An_req|apply An_other]; auto.
  - inversion A; subst; auto.
  - auto.
  - inversion A; subst; auto.
Qed.
Lemma running_answers c w s g l : session (g_new c) w s = Running g -> looks s = length w -> NoDup (map q_id (sent_requests w)) -> Answers false (map ELsp w) l ->
  exists es, run (g_new c) es = Ok g /\ ~ In (ELsp exit_msg) es /\ NoDup (map q_id (requests es)) /\ Answers false es l.
Proof.
  intros R L ND A. apply session_heard in R as (es & H & R & N & _ & X). destruct (X L) as [_ Q]. exists es. rewrite Q. repeat split; auto. destruct (answers_total es false) as [l' A']. pose proof (answers_heard _ _ _ A' _ _ H L) as A2. now rewrite (answers_det _ _ _ A _ A2).
Qed.
Theorem C82_answered : forall c w1 w2 s g l, ~ In exit_msg w1 -> session (g_new c) (w1 ++ exit_msg :: w2) s = Exited g -> NoDup (map q_id (sent_requests w1)) -> Answers false (map ELsp w1) l ->
  (forall id o, In (id, o) l -> o <> OCompletionResult -> In (id, o) (responses (g_sent g))) /\
  (forall id o, In (id, o) (responses (g_sent g)) -> In (id, o) l) /\
  (forall s1 s2, s = s1 ++ TurnTask :: TurnInbox :: s2 -> looks s1 = length w1 -> Permutation (responses (g_sent g)) l).
Proof.
  intros c w1 w2 s g l N H ND A. apply C82_exit in H as (w1' & w2' & s1 & s2 & E & N' & -> & L & R).
  assert (w1' = w1). { clear -E N N'. revert w1' E N'. induction w1 as [|x w IH]; intros [|y w1'] E N'; [reflexivity|injection E as <- _; elim N'; now left|injection E as -> _; elim N; now left|]. injection E as <- E. f_equal. apply IH; auto; intros X; [apply N|apply N']; now right. }
  subst w1'. destruct (running_answers _ _ _ _ _ R L ND A) as (es & R' & Nx & ND' & A').
  assert (P : Permutation (seen g) l). { destruct (run_answers es (g_new c) g l R' Nx) as [_ P]; [split; cbn; [constructor|intros id; split; [intros X; now elim X|intros []]]|exact A'|cbn; now rewrite (answers_ids _ _ _ A')|]. exact P. }
  split; [|split].
  - intros id o I Ho. exact (C51_immediate _ _ _ _ _ _ R' Nx ND' A' I Ho).
  - intros id o I. apply (Permutation_in _ P). unfold seen. apply in_app_iff. now left.
  - intros s3 s4 E2 L3. assert (X : s1 = s3 ++ [TurnTask]).
    { clear -E2 L L3. assert (Q : s1 ++ TurnInbox :: s2 = (s3 ++ [TurnTask]) ++ TurnInbox :: s4) by (rewrite <- app_assoc; exact E2). assert (L3' : looks (s3 ++ [TurnTask]) = length w1) by (unfold looks in *; rewrite filter_app, app_length; cbn; lia).
      revert Q L3'. generalize (s3 ++ [TurnTask]) as s5. rewrite <- L. clear. revert s1. intros s1 s5. revert s1. induction s5 as [|t s5 IH]; intros [|u s1] E L; [reflexivity|injection E as E0 _; subst; unfold looks in L; cbn in L; discriminate L|injection E as E0 _; subst; unfold looks in L; cbn in L; discriminate L|]. injection E as -> E. f_equal. apply IH; [exact E|]. unfold looks in *. cbn [filter] in L. destruct t; cbn [length] in L; lia. }
    subst s1. assert (T : pending (g_tasks g) = []).
    { clear -R. revert R. generalize (g_new c). revert w1. induction s3 as [|t s3 IH]; intros w g0 H.
      - cbn [app session] in H. destruct (g_tasks g0) eqn:T; [injection H as <-; now rewrite T|]. destruct (handle_event g0 ETask) as [g1| |] eqn:E; try discriminate. injection H as <-. apply rbind_inv in E as (g2 & E1 & E2). cbn in E1. injection E1 as <-. apply after_view in E2. injection E2 as _ _ -> _. now rewrite handle_task_pending.
      - cbn [app] in H. destruct t as [| |m ms].
        + destruct w as [|m w]; [discriminate|]. destruct (exit_dec m) as [->|N]; [discriminate|]. rewrite inbox_cons in H by exact N. destruct (handle_event g0 (ELsp m)); try discriminate. eauto.
        + cbn [session] in H. destruct (g_tasks g0); [eauto|]. destruct (handle_event g0 ETask); try discriminate. eauto.
        + cbn [session] in H. destruct (handle_event g0 (EVfs m ms)); try discriminate. eauto. }
    unfold seen in P. now rewrite T, app_nil_r in P.
Qed.
Print Assumptions C82_answered.
(** REFUTED: all requests before the exit are answered. *)
Theorem C82_answered_refuted : ~ (forall c w1 w2 s g q, session (g_new c) (w1 ++ exit_msg :: w2) s = Exited g -> ~ In exit_msg w1 -> NoDup (map q_id (sent_requests w1)) -> In q (sent_requests w1) -> exists o, In (q_id q, o) (responses (g_sent g))).
Proof.
  intros H. set (q := mkReq (RNum 1) "textDocument/completion"%string true).
  destruct (H [] [MReq q] [] [TurnInbox; TurnInbox] (on_request (g_new []) q) q) as [o []]; [vm_compute; reflexivity|intros [X|[]]; discriminate|repeat constructor; intros []|now left].
Qed.
Print Assumptions C82_answered_refuted.

(** A session with a document, a completion request and an orderly end, and what was sent by then. *)
Definition C82_messages : list message :=
  [MNot (NOpen (UFile "/a.lua"%string) 1 (txt "x =")); MReq (mkReq (RNum 1) "textDocument/completion"%string true); MReq (mkReq (RNum 2) "shutdown"%string true); exit_msg; MReq (mkReq (RNum 3) "shutdown"%string true)].
Example C82_case : match session (g_new []) C82_messages [TurnInbox; TurnTask; TurnInbox; TurnInbox; TurnTask; TurnInbox; TurnInbox] with
  | Exited g => responses (g_sent g) = [(RNum 2, OShutdownResult); (RNum 1, OCompletionResult)] /\ length (g_sent g) = 3
  | _ => False end /\ lsp_status C82_messages 0 /\ exit_status (session (g_new []) [MResp (mkResp (RNum 7) false None)] [TurnInbox]) = Some 101.
Proof.
  split; [vm_compute; auto|]. split; [|reflexivity]. left. split; [reflexivity|]. exists (firstn 3 C82_messages). split.
  - split; [cbn; intuition discriminate|]. exists [MReq (mkReq (RNum 3) "shutdown"%string true)]. reflexivity.
  - do 2 apply Exists_cons_tl. apply Exists_cons_hd. now exists (RNum 2).
Qed.

(** * C83 *)

(** The requests the protocol lets a client send, given the announced capabilities; shutdown is always
    possible. *)
Inductive MayRequest (c : capabilities) : string -> Prop :=
| May_shutdown : MayRequest c "shutdown"
| May_complete l : completion_triggers c = Some l -> MayRequest c "textDocument/completion".

(** A request whose parameters decode is refused as unknown, before shutdown, exactly if the server did not
    announce its method. *)
Theorem C83_requests : forall c w s g l id m, session (g_new c) w s = Running g -> looks s = length w -> NoDup (map q_id (sent_requests w)) -> Answers false (map ELsp w) l ->
  ~ Exists is_shutdown w -> In (mkReq id m true) (sent_requests w) ->
  (In (id, OError (-32601)) (responses (g_sent g)) <-> ~ MayRequest server_capabilities m).
Proof.
  intros c w s g l id m R L ND A NS I. destruct (running_answers _ _ _ _ _ R L ND A) as (es & R' & Nx & ND' & A').
  assert (P : Permutation (seen g) l). { destruct (run_answers es (g_new c) g l R' Nx) as [_ P]; [split; cbn; [constructor|intros i; split; [intros X; now elim X|intros []]]|exact A'|cbn; now rewrite (answers_ids _ _ _ A')|]. exact P. }
  assert (D : exists o, In (id, o) l /\ Due false (mkReq id m true) o).
  { clear -A I NS. revert l A. induction w as [|x w IH]; intros l A; [destruct I|]. cbn [map] in A. inversion A as [|d q o es l' D A'|d e es l' Nq A']; subst.
    - cbn [sent_requests] in I. destruct I as [->|I]; [exists o; split; [now left|exact D]|].
      assert (o <> OShutdownResult). { intros ->. apply NS. apply Exists_cons_hd. inversion D; subst. eexists; reflexivity. }
      destruct (IH (fun X => NS (Exists_cons_tl _ X)) I l') as (o' & X & Y); [destruct o; [easy|exact A'|exact A']|]. exists o'. split; [now right|exact Y].
    - assert (I' : In (mkReq id m true) (sent_requests w)) by (destruct x as [q| |]; [elim (Nq q); reflexivity| |]; exact I). destruct (IH (fun X => NS (Exists_cons_tl _ X)) I' l A') as (o' & X & Y). eauto. }
  destruct D as (o & Il & D).
  assert (Uo : forall o', In (id, o') l -> o' = o).
  { intros o' I'. assert (NDl : NoDup (map fst l)) by (rewrite (answers_ids _ _ _ A'); exact ND'). clear -NDl Il I'. induction l as [|[i x] l IH]; [destruct Il|]. inversion NDl; subst. destruct Il as [Il|Il], I' as [I'|I']; [congruence| | |auto].
    - injection Il as -> ->. match goal with H : ~ In _ _ |- _ => elim H end. apply in_map_iff. exists (id, o'). auto.
    - injection I' as -> ->. match goal with H : ~ In _ _ |- _ => elim H end. apply in_map_iff. exists (id, o). auto. }
  assert (Ro : In (id, OError (-32601)) (responses (g_sent g)) <-> o = OError (-32601)).
  { split; [intros X; symmetry; apply Uo; apply (Permutation_in _ P); unfold seen; apply in_app_iff; now left|]. intros ->. apply (C51_immediate _ _ _ _ _ _ R' Nx ND' A' Il). discriminate. }
  rewrite Ro. inversion D; subst.
  - split; [discriminate|]. intros X. elim X. constructor.
  - split; [discriminate|]. intros X. elim X. eapply May_complete. reflexivity.
  - split; [intros _ Y; inversion Y; congruence|reflexivity].
Qed.
Print Assumptions C83_requests.

(** The announced document synchronization: the documents are opened, closed, and changed by the edits of
    the client, ranges (2 = incremental) or whole texts, one after the other ([Client], C48). *)
Lemma heard_client w s es : Heard w s es -> looks s = length w -> forall d d', ClientRun d (map ELsp w) d' -> ClientRun d es d'.
Proof.
  induction 1 as [w|m w s es H IH|w s es H IH|w s es H IH|m ms w s es H IH]; intros L d d' C.
  - destruct w; [exact C|discriminate].
  - unfold looks in *. cbn [filter length] in L. cbn [map] in C. inversion C; subst. econstructor; eauto.
  - econstructor; [|apply IH; eauto]. apply Cl_other. exact I.
  - auto.
  - econstructor; [|apply IH; eauto]. apply Cl_other. exact I.
Qed.
Theorem C83_documents : open_close server_capabilities = true /\ sync_change server_capabilities = 2 /\
  forall c w s g d, session (g_new c) w s = Running g -> looks s = length w -> ClientRun no_docs (map ELsp w) d -> forall p,
  match d p with
  | Some (v, t) => aget string_dec p (g_mem_docs g) = Some v /\ exists id, v_file_id (g_vfs g) p = Ok (Some id) /\ v_file_contents (g_vfs g) id = Ok (CText t)
  | None => aget string_dec p (g_mem_docs g) = None
  end.
Proof.
  split; [reflexivity|]. split; [reflexivity|]. intros c w s g d R L C. apply session_heard in R as (es & H & R & _ & _ & _). exact (C48_open_documents _ _ _ _ R (heard_client _ _ _ H L _ _ C)).
Qed.
Print Assumptions C83_documents.

(** Notifications that were not announced, and didSave, change nothing at all, at any point. *)
Definition quiet (g : gstate) : Prop := v_changes (g_vfs g) = [] /\ co_changes (g_diagnostics g) = [].
Lemma quiet_after g : quiet g -> after_event g = Ok g.
Proof. intros [Q1 Q2]. unfold after_event, process_changes, v_take_changes, coll_take_changes. rewrite Q1. cbn. rewrite Q2. destruct g as [? ? ? ? ? ? ? ? [] ? ? ? ?]. cbn in *. now subst. Qed.
Lemma publish_quiet l : forall g g', publish g l = Ok g' -> g_vfs g' = g_vfs g /\ g_diagnostics g' = g_diagnostics g.
Proof. induction l as [|f l IH]; intros g g' H; cbn [publish] in H; [injection H as <-; auto|]. apply rbind_inv in H as (p & _ & H). apply IH in H. exact H. Qed.
Lemma after_quiet g g' : after_event g = Ok g' -> quiet g'.
Proof.
  intros H. unfold after_event in H. apply rbind_inv in H as ([g1 b] & H1 & H). apply rbind_inv in H as (g2 & H2 & H).
  assert (V1 : v_changes (g_vfs g1) = []). { unfold process_changes, v_take_changes in H1. destruct (v_changes (g_vfs g)) as [|f l]; [injection H1 as <- _; reflexivity|]. apply rbind_inv in H1 as (ch & _ & H1). injection H1 as <- _. reflexivity. }
  assert (V2 : v_changes (g_vfs g2) = []). { destruct b; [|now injection H2 as <-]. apply rbind_inv in H2 as (su & _ & H2). apply rbind_inv in H2 as (ds & _ & H2). injection H2 as <-. exact V1. }
  unfold coll_take_changes in H. destruct (co_changes (g_diagnostics g2)) as [|f l] eqn:E.
  - injection H as <-. split; [exact V2|exact E].
  - apply publish_quiet in H as [E1 E2]. split; [now rewrite E1|now rewrite E2].
Qed.
Lemma handle_quiet g e g' : handle_event g e = Ok g' -> quiet g'.
Proof. intros H. apply rbind_inv in H as (g1 & _ & H). now apply after_quiet in H. Qed.
Lemma session_quiet s : forall g w g', quiet g -> session g w s = Running g' -> quiet g'.
Proof.
  induction s as [|t s IH]; intros g w g' Q H; [now injection H as <-|]. destruct t as [| |m ms].
  - destruct w as [|m w]; [discriminate|]. destruct (exit_dec m) as [->|N]; [discriminate|]. rewrite inbox_cons in H by exact N. destruct (handle_event g (ELsp m)) eqn:E; try discriminate. apply handle_quiet in E. eauto.
  - cbn [session] in H. destruct (g_tasks g); [eauto|]. destruct (handle_event g ETask) eqn:E; try discriminate. apply handle_quiet in E. eauto.
  - cbn [session] in H. destruct (handle_event g (EVfs m ms)) eqn:E; try discriminate. apply handle_quiet in E. eauto.
Qed.
Theorem C83_ignored : forall c w s g n, session (g_new c) w s = Running g -> (exists m, n = NOther m) \/ (exists u, n = NSave u) ->
  forall w' s', session g (MNot n :: w') (TurnInbox :: s') = session g w' s'.
Proof.
  intros c w s g n R Hn w' s'. apply session_quiet in R; [|split; reflexivity]. rewrite inbox_cons by (destruct Hn as [[m ->]|[u ->]]; discriminate).
  assert (E : handle_event g (ELsp (MNot n)) = Ok g) by (destruct Hn as [[m ->]|[u ->]]; exact (quiet_after _ R)). now rewrite E.
Qed.
Print Assumptions C83_ignored.

(** An incremental and a whole change of an announced document, an unknown request and notification. *)
Definition C83_messages : list message :=
  [MNot (NOpen (UFile "/a.lua"%string) 1 (txt "x = 1")); MNot (NOther "workspace/didRenameFiles"%string); MNot (NChange (UFile "/a.lua"%string) 2 [mkChange (Some (mkLC 0 4, mkLC 0 5)) (txt "23")]);
   MReq (mkReq (RNum 1) "textDocument/hover"%string true); MReq (mkReq (RNum 2) "textDocument/completion"%string true)].
Example C83_case : match session (g_new []) C83_messages [TurnInbox; TurnInbox; TurnTask; TurnInbox; TurnInbox; TurnInbox; TurnTask] with
  | Running g => aget string_dec "/a.lua"%string (g_mem_docs g) = Some 2%Z /\ v_file_contents (g_vfs g) 0 = Ok (CText (txt "x = 23")) /\ responses (g_sent g) = [(RNum 1, OError (-32601)); (RNum 2, OCompletionResult)]
  | _ => False end /\ ~ Exists is_shutdown C83_messages.
Proof.
  split; [vm_compute; auto|]. intros X. repeat (inversion X as [? ? [? Y]|? ? X']; subst; [discriminate|clear X; rename X' into X]). inversion X.
Qed.
