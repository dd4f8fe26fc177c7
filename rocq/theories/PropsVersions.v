(** PropsVersions.v — C87: the version that comes with diagnostics. *)
From Coq Require Import ZArith.
From Verif Require Import Base LineIndex Vfs Ide Server PropsIde ServerInv PropsServer PropsDiag PropsFiles PropsClosed PropsUri.

(** ** Specification *)

(** The version a client's document has after a message: the one it gave when it opened or last
    changed it; a document that is not open has none, and changing it does not open it. *)
Definition version_step (p : path) (v : option Z) (e : event) : option Z :=
  match e with
  | ELsp (MNot (NOpen (UFile q) z _)) => if String.eqb q p then Some z else v
  | ELsp (MNot (NChange (UFile q) z _)) => if String.eqb q p then match v with Some _ => Some z | None => None end else v
  | ELsp (MNot (NClose (UFile q))) => if String.eqb q p then None else v
  | _ => v
  end.
Definition client_version (p : path) (es : list event) : option Z := fold_left (version_step p) es None.

(** The versions a client gives a document never decrease. *)
Definition versions_rise (p : path) (es : list event) : Prop :=
  forall before between after a b, es = before ++ between ++ after ->
    client_version p before = Some a -> client_version p (before ++ between) = Some b -> (a <= b)%Z.

(** ** Proofs *)

Lemma load_files_docs l : forall g g', load_files g l = Ok g' -> g_mem_docs g' = g_mem_docs g.
Proof.
  induction l as [|[p c] l IH]; intros g g' H; cbn [load_files] in H; [now injection H as <-|].
  destruct (aget string_dec p (g_mem_docs g)); [eauto|]. apply rbind_inv in H as ([v b] & _ & H). now apply IH in H.
Qed.
Lemma handle_vfs_docs ms : forall g g', handle_vfs g ms = Ok g' -> g_mem_docs g' = g_mem_docs g.
Proof.
  induction ms as [|[|l] ms IH]; intros g g' H; cbn [handle_vfs] in H; [now injection H as <-|eauto|].
  apply rbind_inv in H as (g1 & H1 & H). apply load_files_docs in H1. apply IH in H. congruence.
Qed.
Lemma core_docs g g' : core g' = core g -> g_mem_docs g' = g_mem_docs g.
Proof. intros H. now injection H. Qed.

Lemma dispatch_version g e g1 p : dispatch_event g e = Ok g1 ->
  aget string_dec p (g_mem_docs g1) = version_step p (aget string_dec p (g_mem_docs g)) e.
Proof.
  intros H. destruct e as [[q|n|r]| |v vs]; cbn [dispatch_event handle_lsp] in H; cbn [version_step].
  - injection H as <-. rewrite (core_docs _ _ (on_request_core g q)). reflexivity.
  - destruct n as [u z t|u z cs|u|u| | | |k]; cbn [on_notification] in H; try discriminate; try (injection H as <-; reflexivity).
    + unfold did_open in H. destruct u as [q|s]; cbn [abs_path] in H; [|injection H as <-; reflexivity].
      apply rbind_inv in H as ([v b] & _ & H).
      assert (E : g_mem_docs g1 = aset string_dec q z (g_mem_docs g)).
      { destruct b; [injection H as <-; reflexivity|]. apply maybe_update_core in H as (H & _). now apply core_docs in H. }
      rewrite E, aget_aset. destruct (String.eqb_spec q p) as [->|]; destruct (string_dec _ _); congruence.
    + unfold did_change in H. destruct u as [q|s]; cbn [abs_path] in H; [|injection H as <-; reflexivity].
      destruct (aget string_dec q (g_mem_docs g)) as [z0|] eqn:E.
      * do 5 (apply rbind_inv in H as (? & _ & H)). apply rbind_inv in H as ([v b] & _ & H). injection H as <-. cbn.
        rewrite aget_aset. destruct (String.eqb_spec q p) as [->|]; destruct (string_dec _ _); try congruence. now rewrite E.
      * injection H as <-. destruct (String.eqb_spec q p) as [->|]; [now rewrite E|reflexivity].
    + injection H as <-. unfold did_close. destruct u as [q|s]; cbn; [|reflexivity].
      rewrite aget_adel. destruct (String.eqb_spec q p) as [->|]; destruct (string_dec _ _); congruence.
  - apply complete_core in H. now rewrite (core_docs _ _ H).
  - injection H as <-. now rewrite (core_docs _ _ (handle_task_core g)).
  - now rewrite (handle_vfs_docs _ _ _ H).
Qed.

Lemma publish_versions l : forall g g', publish g l = Ok g' ->
  exists new, g_sent g' = g_sent g ++ new /\ forall o, In o new -> exists p ds, o = OutDiagnostics (UFile p) ds (aget string_dec p (g_mem_docs g)).
Proof.
  induction l as [|f l IH]; intros g g' H; [injection H as <-; exists []; rewrite app_nil_r; split; [reflexivity|intros o []]|].
  cbn [publish] in H. apply rbind_inv in H as (p & _ & H). apply IH in H as (new & E & F). cbn in E, F. rewrite <- app_assoc in E.
  eexists. split; [exact E|]. intros o [<-|X]; [eauto|]. now apply F.
Qed.
Lemma after_versions g g' : after_event g = Ok g' ->
  g_mem_docs g' = g_mem_docs g /\
  exists new, g_sent g' = g_sent g ++ new /\ forall o, In o new -> exists p ds, o = OutDiagnostics (UFile p) ds (aget string_dec p (g_mem_docs g)).
Proof.
  intros H. unfold after_event in H. apply rbind_inv in H as ([g1 ch] & H1 & H). apply rbind_inv in H as (g2 & H2 & H).
  assert (S1 : g_sent g1 = g_sent g /\ g_mem_docs g1 = g_mem_docs g).
  { clear -H1. unfold process_changes in H1. destruct (v_take_changes (g_vfs g)) as [v l]. destruct l as [|x l]; [injection H1 as <- _; auto|].
    apply rbind_inv in H1 as (cg & _ & H1). injection H1 as <- _. auto. }
  assert (S2 : g_sent g2 = g_sent g1 /\ g_mem_docs g2 = g_mem_docs g1).
  { destruct ch; [|now injection H2 as <-]. apply maybe_update_core in H2 as (A & _ & B & _). apply core_docs in A. auto. }
  destruct S1 as [S1 D1], S2 as [S2 D2]. destruct (coll_take_changes (g_diagnostics g2)) as [cc [l|]].
  - pose proof (publish_core _ _ _ H) as (C & _). apply core_docs in C. apply publish_versions in H as (new & E & F). cbn in E, F, C.
    split; [congruence|]. exists new. rewrite E, S2, S1. split; [reflexivity|]. intros o X. destruct (F o X) as (p & ds & ->). rewrite D2, D1. eauto.
  - injection H as <-. cbn. split; [congruence|]. exists []. rewrite app_nil_r. split; [congruence|intros o []].
Qed.

Lemma handle_version g e g' p : handle_event g e = Ok g' ->
  aget string_dec p (g_mem_docs g') = version_step p (aget string_dec p (g_mem_docs g)) e.
Proof.
  intros H. unfold handle_event in H. apply rbind_inv in H as (g1 & H1 & H). apply after_versions in H as [-> _]. now apply dispatch_version.
Qed.
Lemma run_version es : forall g g' p, ~ In (ELsp (MNot NExit)) es -> run g es = Ok g' ->
  aget string_dec p (g_mem_docs g') = fold_left (version_step p) es (aget string_dec p (g_mem_docs g)).
Proof.
  induction es as [|e es IH]; intros g g' p N H; [injection H as <-; reflexivity|].
  rewrite run_cons in H by (intros ->; apply N; now left). apply rbind_inv in H as (g1 & H1 & H).
  cbn [fold_left]. rewrite <- (handle_version _ _ _ p H1). apply IH; [|exact H]. intros X. apply N. now right.
Qed.
Lemma new_version c es g p : ~ In (ELsp (MNot NExit)) es -> run (g_new c) es = Ok g -> aget string_dec p (g_mem_docs g) = client_version p es.
Proof. intros N H. now rewrite (run_version _ _ _ p N H). Qed.
Lemma client_version_snoc p es e : client_version p (es ++ [e]) = version_step p (client_version p es) e.
Proof. unfold client_version. now rewrite fold_left_app. Qed.

(** ** C87 *)

(** Closing a document sends first, for the URI given, no diagnostics with the version the document
    had; whatever else is sent for it then has no version. *)
Theorem C87_close : forall c es p g g', ~ In (ELsp (MNot NExit)) es -> run (g_new c) es = Ok g -> handle_event g (ELsp (MNot (NClose (UFile p)))) = Ok g' ->
  exists rest, g_sent g' = g_sent g ++ OutDiagnostics (UFile p) [] (client_version p es) :: rest /\
    forall ds v, In (OutDiagnostics (UFile p) ds v) rest -> v = None.
Proof.
  intros c es p g g' N H He. unfold handle_event in He. apply rbind_inv in He as (g1 & H1 & He). apply after_versions in He as (_ & new & E & F).
  pose proof (dispatch_version _ _ _ p H1) as D. cbn in H1, D. rewrite String.eqb_refl in D. injection H1 as <-. cbn in E. rewrite <- app_assoc in E.
  exists new. split; [rewrite E; cbn; now rewrite (new_version _ _ _ p N H)|].
  intros ds v X. apply F in X as (q & ds' & X). injection X as -> _ ->. exact D.
Qed.
Print Assumptions C87_close.

(** A URI that names no file: the one notification it ever gets is the answer to its closing. *)
Theorem C87_other_uri : forall g e g' s, handle_event g e = Ok g' ->
  forall ds v, In (OutDiagnostics (UOther s) ds v) (skipn (length (g_sent g)) (g_sent g')) -> e = ELsp (MNot (NClose (UOther s))) /\ ds = [] /\ v = None.
Proof.
  intros g e g' s H ds v X. unfold handle_event in H. apply rbind_inv in H as (g1 & H1 & H). apply after_versions in H as (_ & new & E & F).
  assert (R : forall id o g s0, g_sent g = s0 -> exists n, g_sent (respond id o g) = s0 ++ n /\ ~ In (OutDiagnostics (UOther s) ds v) n).
  { intros id o g0 s0 <-. unfold respond. destruct (aget _ _ _); [eexists; split; [reflexivity|intros [Y|[]]; discriminate]|exists []; rewrite app_nil_r; auto]. }
  assert (G : exists n, g_sent g1 = g_sent g ++ n /\ (In (OutDiagnostics (UOther s) ds v) n -> e = ELsp (MNot (NClose (UOther s))) /\ ds = [] /\ v = None)).
  { clear X E F. assert (Same : g_sent g1 = g_sent g -> exists n, g_sent g1 = g_sent g ++ n /\ (In (OutDiagnostics (UOther s) ds v) n -> e = ELsp (MNot (NClose (UOther s))) /\ ds = [] /\ v = None))
      by (intros ->; exists []; rewrite app_nil_r; split; [reflexivity|intros []]).
    destruct e as [[q|n|r]| |m ms]; cbn [dispatch_event handle_lsp] in H1.
    - injection H1 as <-. enough (G : exists n, g_sent (on_request g q) = g_sent g ++ n /\ ~ In (OutDiagnostics (UOther s) ds v) n) by (destruct G as (n & A & B); exists n; split; [exact A|intros Y; contradiction]).
      unfold on_request. destruct (g_shutdown _); [now apply R|]. destruct (String.eqb _ _); [destruct (q_params q); [now apply R|now apply R]|]. destruct (String.eqb _ _); [destruct (q_params q); [|now apply R]|now apply R]. exists []. cbn. rewrite app_nil_r. auto.
    - destruct n as [u z t|u z cs|u|u| | | |k]; cbn [on_notification] in H1; try discriminate; try (injection H1 as <-; now apply Same).
      + apply Same. unfold did_open in H1. destruct (abs_path u); [|now injection H1 as <-]. apply rbind_inv in H1 as ([w b] & _ & H1). destruct b; [now injection H1 as <-|]. now apply maybe_update_core in H1 as (_ & _ & H1 & _).
      + apply Same. unfold did_change in H1. destruct (abs_path u) as [p|]; [|now injection H1 as <-]. destruct (aget _ _ _); [|now injection H1 as <-].
        do 5 (apply rbind_inv in H1 as (? & _ & H1)). apply rbind_inv in H1 as ([w b] & _ & H1). now injection H1 as <-.
      + injection H1 as <-. unfold did_close. destruct u as [p|s']; cbn [abs_path]; (eexists; split; [reflexivity|]); intros [Y|[]]; [discriminate|]. injection Y as -> <- <-. auto.
      + injection H1 as <-. eexists. split; [reflexivity|]. intros [Y|[]]. discriminate.
    - apply Same. now apply complete_diag in H1.
    - injection H1 as <-. enough (G : exists n, g_sent (handle_task g) = g_sent g ++ n /\ ~ In (OutDiagnostics (UOther s) ds v) n) by (destruct G as (n & A & B); exists n; split; [exact A|intros Y; contradiction]).
      unfold handle_task. change (g_sent g) with (g_sent (with_tasks [] g)). generalize (with_tasks [] g) as g0. induction (g_tasks g) as [|t l IH]; intros g0; cbn [fold_left]; [exists []; rewrite app_nil_r; auto|].
      destruct (IH (run_task g0 t)) as (n2 & E2 & F2). assert (X : exists n1, g_sent (run_task g0 t) = g_sent g0 ++ n1 /\ ~ In (OutDiagnostics (UOther s) ds v) n1) by (destruct t; cbn [run_task]; [now apply R|exists []; cbn; rewrite app_nil_r; auto]).
      destruct X as (n1 & E1 & F1). exists (n1 ++ n2). rewrite E2, E1, app_assoc. split; [reflexivity|]. intros Y. apply in_app_iff in Y as [Y|Y]; tauto.
    - apply Same. clear Same R. revert g g1 H1. generalize (m :: ms). intros l. induction l as [|[|fs] l IH]; intros g g1 H; cbn [handle_vfs] in H; [now injection H as <-|eauto|]. apply rbind_inv in H as (g2 & H2 & H). rewrite (IH _ _ H). clear IH H. revert g H2. induction fs as [|[p c] fs IH]; intros g H; cbn [load_files] in H; [now injection H as <-|]. destruct (aget _ _ _); [eauto|]. apply rbind_inv in H as ([w b] & _ & H). now apply IH in H. }
  destruct G as (n & E1 & G). rewrite E, E1, <- app_assoc, skipn_app_length in X. apply in_app_iff in X as [X|X]; [auto|]. apply F in X as (p & d & X). discriminate.
Qed.
Print Assumptions C87_other_uri.

(** Every notification of diagnostics carries the version the client's document has when it is sent,
    and none when it is not open; only the one that answers the closing carries the version the
    document had. *)
Theorem C87_versions : forall c es e g g' p ds v, ~ In (ELsp (MNot NExit)) es -> run (g_new c) es = Ok g -> handle_event g e = Ok g' ->
  In (OutDiagnostics (UFile p) ds v) (skipn (length (g_sent g)) (g_sent g')) ->
  v = client_version p (es ++ [e]) \/ (e = ELsp (MNot (NClose (UFile p))) /\ ds = [] /\ v = client_version p es).
Proof.
  intros c es e g g' p ds v N H He X. assert (D : e = ELsp (MNot (NClose (UFile p))) \/ e <> ELsp (MNot (NClose (UFile p)))).
  { destruct e as [[q|n|r]| |m ms]; try (right; discriminate). destruct n as [u z t|u z cs|[q|s]|u| | | |k]; try (right; discriminate). destruct (string_dec q p) as [->|]; [now left|right; congruence]. }
  destruct D as [->|D].
  - destruct (C87_close _ _ _ _ _ N H He) as (rest & E & F). rewrite E, skipn_app_length in X. destruct X as [X|X].
    + injection X as <- <-. right. auto.
    + left. rewrite client_version_snoc. cbn. rewrite String.eqb_refl. eauto.
  - left. unfold handle_event in He. apply rbind_inv in He as (g1 & H1 & He). apply after_versions in He as (_ & new & E & F).
    destruct (dispatch_sent _ _ _ H1) as (n1 & E1 & F1). rewrite E, E1, <- app_assoc, skipn_app_length in X. apply in_app_iff in X as [X|X]; [now apply F1 in X|].
    apply F in X as (q & ds' & X). injection X as -> _ ->. rewrite (dispatch_version _ _ _ q H1), client_version_snoc. now rewrite (new_version _ _ _ q N H).
Qed.
Print Assumptions C87_versions.

(** So the versions published for a document never go back, as long as the client's do not. *)
Theorem C87_never_back : forall c es e1 es' e2 g1 g1' g2 g2' p ds1 ds2 v1 v2,
  ~ In (ELsp (MNot NExit)) (es ++ e1 :: es') -> run (g_new c) es = Ok g1 -> handle_event g1 e1 = Ok g1' -> run g1' es' = Ok g2 -> handle_event g2 e2 = Ok g2' ->
  In (OutDiagnostics (UFile p) ds1 (Some v1)) (skipn (length (g_sent g1)) (g_sent g1')) ->
  In (OutDiagnostics (UFile p) ds2 (Some v2)) (skipn (length (g_sent g2)) (g_sent g2')) ->
  versions_rise p (es ++ e1 :: es' ++ [e2]) ->
  (v1 <= v2)%Z.
Proof.
  intros c es e1 es' e2 g1 g1' g2 g2' p ds1 ds2 v1 v2 N H1 He1 H2 He2 X1 X2 M.
  assert (N1 : ~ In (ELsp (MNot NExit)) es) by (intros Y; apply N, in_app_iff; now left).
  assert (R2 : run (g_new c) (es ++ e1 :: es') = Ok g2).
  { clear -N H1 He1 H2. revert g1 g1' He1 H1 H2. generalize (g_new c) as g0. induction es as [|e es IH]; intros g0 g1 g1' He1 H1 H2.
    - injection H1 as <-. cbn [app]. rewrite run_cons by (intros ->; apply N; now left). now rewrite He1.
    - cbn [app] in *. rewrite run_cons in H1 |- * by (intros ->; apply N; now left). apply rbind_inv in H1 as (g' & A & B). rewrite A. cbn [rbind]. eapply IH; eauto. intros X. apply N. now right. }
  pose proof (C87_versions _ _ _ _ _ _ _ _ N1 H1 He1 X1) as V1. pose proof (C87_versions _ _ _ _ _ _ _ _ N R2 He2 X2) as V2.
  rewrite <- app_assoc in V2. cbn [app] in V2.
  assert (Fin : forall l1 l2, es ++ e1 :: es' = l1 ++ l2 -> client_version p l1 = Some v1 -> (v1 <= v2)%Z).
  { intros l1 l2 E V. assert (E' : es ++ e1 :: es' ++ [e2] = l1 ++ l2 ++ [e2]) by (rewrite app_assoc, <- E, <- app_assoc; reflexivity).
    destruct V2 as [V2|(_ & _ & V2)].
    + apply (M l1 (l2 ++ [e2]) []); [now rewrite app_nil_r|exact V|rewrite <- E'; now symmetry].
    + apply (M l1 l2 [e2]); [exact E'|exact V|rewrite <- E; now symmetry]. }
  destruct V1 as [V1|(-> & _ & V1)].
  - apply (Fin (es ++ [e1]) es'); [now rewrite <- app_assoc|now symmetry].
  - apply (Fin es (ELsp (MNot (NClose (UFile p))) :: es')); [reflexivity|now symmetry].
Qed.
Print Assumptions C87_never_back.

(** Changed, closed, and opened again with a higher version. The third message is the one of C64: diagnostics computed
    before the closing. *)
Definition C87_events : list event := [ELsp (MNot (NOpen (UFile "/a"%string) 1 (txt "x ="))); ETask; ELsp (MNot (NChange (UFile "/a"%string) 4 [mkChange None (txt "y")]));
  ELsp (MNot (NClose (UFile "/a"%string))); ETask; ELsp (MNot (NOpen (UFile "/a"%string) 7 (txt "x ="))); ETask].
Example C87_case : match run (g_new []) C87_events with
  | Ok g => map (fun o => match o with OutDiagnostics u ds v => (u, length ds, v) | _ => (UOther "?"%string, 0, None) end) (g_sent g) =
      [(UFile "/a"%string, 1, Some 1%Z); (UFile "/a"%string, 0, Some 4%Z); (UFile "/a"%string, 2, None); (UFile "/a"%string, 1, Some 7%Z)]
  | _ => False end.
Proof. vm_compute. reflexivity. Qed.
