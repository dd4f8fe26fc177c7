(** PropsShown.v — exactly which diagnostics an editor shows for a document, after every history
    (the exact forms of C52 and C64).  The server's state does not occur in the specification: the
    list shown for a path follows from the events and from the texts the document has had. *)
From Coq Require Import ZArith.
From Verif Require Import Base TextEdit LineIndex Vfs Ide Server PropsTextEdit PropsLineIndex PropsVfs PropsIde ServerInv PropsServer PropsRequests PropsDiag PropsLoader PropsFiles PropsClosed.

(** * Specification *)
Notation diags := (list lsp_diagnostic).
(** What there is to know about one path: the diagnostics delivered last, those computed since, one
    list for each event after which the document was open, and those the editor shows. *)
Record card := mkCard { delivered : option diags; waiting : list diags; seen : option diags }.
Definition blank : card := mkCard None [] None.
Fixpoint latest (n : option diags) (l : list diags) : option diags := match l with [] => n | x :: l' => latest (Some x) l' end.
(** Everything waiting is what was delivered last. *)
Definition no_news (n : option diags) (l : list diags) : Prop := Forall (fun x => Some x = n) l.
Definition closes (p : path) : event := ELsp (MNot (NClose (UFile p))).

(** How one event, after which the editor's documents are [d'], changes the card of [p]. *)
Inductive Step (p : path) (k : card) (d' : docs) : event -> card -> Prop :=
| St_close : Step p k d' (closes p) (mkCard (delivered k) (waiting k) (Some []))
| St_open e v t ds : e <> ETask -> d' p = Some (v, t) -> publish_diagnostics t = Ok ds -> Step p k d' e (mkCard (delivered k) (waiting k ++ [ds]) (seen k))
| St_away e : e <> ETask -> e <> closes p -> d' p = None -> Step p k d' e k
| St_same : no_news (delivered k) (waiting k) -> Step p k d' ETask (mkCard (delivered k) [] (seen k))
| St_news : ~ no_news (delivered k) (waiting k) -> Step p k d' ETask (mkCard (latest (delivered k) (waiting k)) [] (latest (delivered k) (waiting k))).
(** [Follows p es d k]: after the events [es], with the editor's documents [d], the card of [p] is [k]. *)
Inductive Follows (p : path) : list event -> docs -> card -> Prop :=
| Fo_start : Follows p [] no_docs blank
| Fo_step es d k e d' k' : Follows p es d k -> Client d e d' -> Step p k d' e k' -> Follows p (es ++ [e]) d' k'.

(** * Proofs *)
Lemma latest_app n a b : latest n (a ++ b) = latest (latest n a) b.
Proof. revert n. induction a as [|x a IH]; intros n; [reflexivity|apply IH]. Qed.
Lemma no_news_app n a b : no_news n (a ++ b) <-> no_news n a /\ no_news n b.
Proof. unfold no_news. rewrite Forall_app. reflexivity. Qed.
Lemma no_news_latest n l : no_news n l -> latest n l = n.
Proof. induction 1 as [|x l E _ IH]; [reflexivity|]. cbn [latest]. rewrite E. exact IH. Qed.
Definition diags_dec : forall a b : diags, {a = b} + {a <> b} := list_eq_dec (fun a b : lsp_diagnostic => ltac:(repeat decide equality) : {a = b} + {a <> b}).
Lemma no_news_dec n l : no_news n l \/ ~ no_news n l.
Proof.
  induction l as [|x l IH]; [left; constructor|]. assert (D : Some x = n \/ Some x <> n) by (destruct n as [y|]; [destruct (diags_dec x y) as [->|N]; [now left|right; congruence]|right; discriminate]).
  destruct D as [D|D]; [|right; intros X; inversion X; contradiction]. destruct IH as [IH|IH]; [left; constructor; auto|right; intros X; inversion X; contradiction].
Qed.
(** Two lists of computed diagnostics that lead to the same publications. *)
Definition alike (n : option diags) (a b : list diags) : Prop := latest n a = latest n b /\ (no_news n a <-> no_news n b).
Lemma alike_refl n a : alike n a a.
Proof. split; reflexivity. Qed.
Lemma alike_app n a b c : alike n a b -> alike n (a ++ c) (b ++ c).
Proof. intros [A B]. split; [now rewrite !latest_app, A|]. rewrite !no_news_app. tauto. Qed.
Lemma alike_trans n a b c : alike n a b -> alike n b c -> alike n a c.
Proof. intros [A B] [C D]. split; [congruence|tauto]. Qed.
(** One more copy of the diagnostics that come last. *)
Lemma alike_again n a x : latest n a = Some x -> alike n (a ++ [x]) a.
Proof.
  intros H. split; [now rewrite latest_app, H|]. rewrite no_news_app. split; [tauto|]. intros N. split; [exact N|]. rewrite (no_news_latest _ _ N) in H. constructor; [congruence|constructor].
Qed.
Lemma alike_copies n a x k : (forall y, In y k -> y = x) -> latest n (a ++ k) = Some x -> alike n (a ++ [x]) (a ++ k).
Proof.
  intros H L. destruct k as [|y k]; [rewrite app_nil_r in L; apply (alike_trans _ _ (a ++ [])); [rewrite app_nil_r; now apply alike_again|apply alike_refl]|].
  split; [rewrite L, latest_app; reflexivity|]. rewrite !no_news_app. assert (y = x) as -> by (apply H; now left).
  assert (A : no_news n [x] <-> no_news n (x :: k)); [|tauto]. split.
  - intros X. inversion X; subst. constructor; [reflexivity|]. apply Forall_forall. intros y Hy. rewrite (H y) by now right. reflexivity.
  - intros X. inversion X; subst. constructor; [reflexivity|constructor].
Qed.

Fixpoint ql (i : nat) (l : list (nat * diags)) : list diags := match l with [] => [] | (j, ds) :: l' => if Nat.eq_dec i j then ds :: ql i l' else ql i l' end.
Lemma ql_app i a b : ql i (a ++ b) = ql i a ++ ql i b.
Proof. induction a as [|[j d] a IH]; cbn [app ql]; [reflexivity|]. destruct (Nat.eq_dec i j); cbn [app]; now rewrite IH. Qed.
Lemma ql_in i l x : In x (ql i l) -> In (i, x) l.
Proof. induction l as [|[j d] l IH]; cbn [ql]; [intros []|]. destruct (Nat.eq_dec i j) as [->|]; [intros [->|H]; [now left|right; auto]|intros H; right; auto]. Qed.
Lemma ql_none i l : (forall x, ~ In (i, x) l) -> ql i l = [].
Proof. intros H. destruct (ql i l) as [|x r] eqn:E; [reflexivity|]. elim (H x). apply ql_in. rewrite E. now left. Qed.
Lemma last_of_ql i l : forall n, match last_of i l with Some x => Some x | None => n end = latest n (ql i l).
Proof.
  induction l as [|[j d] l IH]; intros n; cbn [last_of ql]; [reflexivity|]. destruct (Nat.eq_dec i j); cbn [latest]; [|rewrite <- IH; destruct (last_of i l); reflexivity]. rewrite <- IH. destruct (last_of i l); reflexivity.
Qed.
Lemma set_all_exact l : forall c i, clean c -> plains l -> (In i (co_changes (set_all l c)) <-> In i (co_changes c) \/ ~ no_news (aget Nat.eq_dec i (co_native c)) (ql i l)).
Proof.
  induction l as [|[j ds] l IH]; intros c i C P; cbn [set_all fold_left ql]; [split; [now left|intros [H|H]; [exact H|elim H; constructor]]|].
  destruct (set_native_spec c j ds C (P j ds (or_introl eq_refl))) as (C1 & G1 & H1). cbn [fst snd]. change (fold_left (fun c fd => set_native c (fst fd) (snd fd)) l (set_native c j ds)) with (set_all l (set_native c j ds)).
  rewrite (IH _ _ C1 (fun i d X => P i d (or_intror X))), H1, G1. destruct (Nat.eq_dec i j) as [->|Ne]; [|intuition congruence].
  destruct (aget Nat.eq_dec j (co_native c)) as [o|] eqn:E.
  - destruct (diags_dec o ds) as [->|Nd].
    + assert (A : no_news (Some ds) (ds :: ql j l) <-> no_news (Some ds) (ql j l)) by (split; [now inversion 1|constructor; auto]). rewrite A. intuition congruence.
    + split; [|intros _; left; right; split; congruence]. intros _. right. intros X. inversion X; congruence.
  - split; [|intros _; left; right; split; congruence]. intros _. right. intros X. inversion X; congruence.
Qed.

(** What an event other than a task adds to the diagnostics being computed: those of documents that
    are open, for their texts. *)
Definition of_open (g : gstate) (m : fmap) (k : list (nat * diags)) : Prop :=
  forall i x, In (i, x) k -> exists p z t, index_of p (v_paths (g_vfs g)) = Some i /\ aget string_dec p (g_mem_docs g) = Some z /\ m p = Some (CText t) /\ publish_diagnostics t = Ok x.
Lemma maybe_adds g g' m : maybe_update_diagnostics g = Ok g' -> minv (g_vfs g) (g_mem_docs g) (g_db g) m -> v_changes (g_vfs g) = [] ->
  exists k, settings (g_tasks g') = settings (g_tasks g) ++ k /\ of_open g m k.
Proof.
  intros H M Ch. apply rbind_inv in H as (s & Hs & H). apply rbind_inv in H as (ds & Hds & H). injection H as <-. pose proof (subs_spec _ _ _ (mi_vfs _ _ _ _ M) _ Hs) as S0. destruct (compute_spec _ _ _ Hds) as [E F].
  exists ds. split; [cbn; rewrite settings_app; cbn [settings]; now rewrite app_nil_r|]. intros i x Hx. destruct (F i x Hx) as (t & Ht & P). apply (in_map fst) in Hx. rewrite E in Hx. apply S0 in Hx as (p & Hp & Fi). cbn [fst] in Fi.
  apply aget_in in Hp as [z Hp]. destruct (open_index _ _ _ _ _ _ M Hp) as (j & t' & Hj & Hm). assert (j = i) as ->.
  { unfold v_file_id, interner_get in Fi. rewrite Hj in Fi. apply rbind_inv in Fi as (y & _ & Fi). destruct y; [|discriminate]. now injection Fi as ->. }
  exists p, z, t. split; [exact Hj|]. split; [exact Hp|]. split; [|exact P]. pose proof (mi_db _ _ _ _ M p i Hj) as B. rewrite Ch in B. cbn [last_kind] in B. rewrite Hm in B. destruct B as [B|[_ B]]; [cbn [db_text] in B; congruence|discriminate].
Qed.
Lemma dispatch_adds g e g1 m m1 : e <> ETask -> dispatch_event g e = Ok g1 -> inv g m -> minv (g_vfs g1) (g_mem_docs g1) (g_db g1) m1 ->
  g_diagnostics g1 = g_diagnostics g /\ same_paths (g_vfs g) (g_vfs g1) /\ exists k, settings (g_tasks g1) = settings (g_tasks g) ++ k /\ of_open g1 m1 k.
Proof.
  intros T H [M Ch] M1.
  assert (Q : g_diagnostics g1 = g_diagnostics g -> settings (g_tasks g1) = settings (g_tasks g) -> same_paths (g_vfs g) (g_vfs g1) ->
    g_diagnostics g1 = g_diagnostics g /\ same_paths (g_vfs g) (g_vfs g1) /\ exists k, settings (g_tasks g1) = settings (g_tasks g) ++ k /\ of_open g1 m1 k).
  { intros A B C. split; [exact A|]. split; [exact C|]. exists []. rewrite app_nil_r. split; [exact B|intros i x []]. }
  assert (Q0 : g1 = g -> g_diagnostics g1 = g_diagnostics g /\ same_paths (g_vfs g) (g_vfs g1) /\ exists k, settings (g_tasks g1) = settings (g_tasks g) ++ k /\ of_open g1 m1 k) by (intros ->; apply Q; auto; apply same_paths_refl).
  destruct e as [[q|n|r]| |v vs]; cbn [dispatch_event handle_lsp] in H; [| | |congruence|].
  - injection H as <-. destruct (on_request_diag g q) as (E1 & E2 & E3). pose proof (on_request_core g q) as EC. injection EC as C1 C2 C3. apply Q; auto. rewrite C1. apply same_paths_refl.
  - destruct n as [u z t|u z cs|u|u| | | |k]; cbn [on_notification] in H; try discriminate; try (injection H as <-; now apply Q0).
    + destruct u as [p|s]; [|injection H as <-; now apply Q0]. cbn [did_open abs_path] in H. apply rbind_inv in H as ([v b] & H1 & H). destruct (set_paths _ _ _ _ _ _ (mi_vfs _ _ _ _ M) H1) as (P & N & Bf & Bt).
      pose proof (minv_set _ _ _ _ _ _ _ _ M H1 (or_intror (ex_intro _ t eq_refl))) as M2. destruct b; [injection H as <-; now apply Q|]. destruct (Bf eq_refl) as [Em Ev].
      set (g0 := with_vfs v (with_mem_docs (aset string_dec p z (g_mem_docs g)) g)) in *.
      assert (M3 : minv (g_vfs g0) (g_mem_docs g0) (g_db g0) (fset m p (Some (CText t)))) by (cbn; apply minv_mem_set with t; [exact M2|unfold fset; now rewrite String.eqb_refl]).
      destruct (maybe_adds g0 g1 _ H M3) as (k & Ek & Ok); [cbn; congruence|]. apply maybe_update_core in H as (EC & E1 & _). injection EC as C1 C2 C3. split; [exact E1|]. split; [rewrite C1; exact P|]. exists k. split; [exact Ek|].
      intros i x Hx. destruct (Ok i x Hx) as (q & zz & tt & J1 & J2 & J3 & J4). exists q, zz, tt. rewrite C1, C2. split; [exact J1|]. split; [exact J2|]. split; [|exact J4]. rewrite <- J3. rewrite C1 in M1. eapply minv_unique; eauto.
    + destruct u as [p|s]; [|injection H as <-; now apply Q0]. cbn [did_change abs_path] in H. destruct (aget string_dec p (g_mem_docs g)) as [z0|] eqn:Ep; [|injection H as <-; now apply Q0].
      do 5 (apply rbind_inv in H as (? & _ & H)). apply rbind_inv in H as ([v b] & H1 & H). injection H as <-. apply Q; auto. apply (set_paths _ _ _ _ _ _ (mi_vfs _ _ _ _ M) H1).
    + injection H as <-. apply Q; unfold did_close; destruct (abs_path u); try reflexivity; apply same_paths_refl.
    + injection H as <-. apply Q; try reflexivity. apply same_paths_refl.
  - destruct (complete_diag _ _ _ H) as (A & B & _). apply complete_core in H. injection H as E1 E2 E3. apply Q; auto; [now rewrite B|rewrite E1; apply same_paths_refl].
  - destruct (handle_vfs_more _ _ _ _ H M) as (P & D & Tk & _). apply Q; auto. now rewrite Tk.
Qed.
Lemma after_adds g g' m : after_event g = Ok g' -> minv (g_vfs g) (g_mem_docs g) (g_db g) m -> co_changes (g_diagnostics g) = [] ->
  g_diagnostics g' = g_diagnostics g /\ g_sent g' = g_sent g /\ exists k, settings (g_tasks g') = settings (g_tasks g) ++ k /\ of_open g m k.
Proof.
  intros H M C. unfold after_event in H. apply rbind_inv in H as ([g1 b] & H1 & H). destruct (minv_process _ _ _ _ H1 M) as (M1 & C1 & E1 & P1 & _ & B1).
  assert (Q1 : g_diagnostics g1 = g_diagnostics g /\ g_tasks g1 = g_tasks g /\ g_sent g1 = g_sent g).
  { clear -H1. unfold process_changes, v_take_changes in H1. destruct (v_changes (g_vfs g)) as [|f l]; [injection H1 as <- <-; auto|]. apply rbind_inv in H1 as (ch & _ & H1). injection H1 as <- <-. auto. }
  destruct Q1 as (Qd & Qt & Qs). apply rbind_inv in H as (g2 & H2 & H).
  assert (X : g_diagnostics g2 = g_diagnostics g /\ g_sent g2 = g_sent g /\ exists k, settings (g_tasks g2) = settings (g_tasks g) ++ k /\ of_open g m k).
  { destruct b.
    - destruct (maybe_adds _ _ _ H2 M1 C1) as (k & Ek & Ok). apply maybe_update_core in H2 as (_ & D & S0 & _). split; [congruence|]. split; [congruence|]. exists k. split; [congruence|]. unfold of_open in *. now rewrite E1, P1 in Ok.
    - injection H2 as <-. split; [exact Qd|]. split; [exact Qs|]. exists []. rewrite app_nil_r, Qt. split; [reflexivity|intros i x []]. }
  destruct X as (D2 & S2 & k & K2 & O2). unfold coll_take_changes in H. rewrite D2, C in H. injection H as <-. cbn. split; [reflexivity|]. split; [exact S2|]. eauto.
Qed.

(** The card in the server's state. *)
Definition qlist (g : gstate) (p : path) : list diags := match index_of p (v_paths (g_vfs g)) with Some i => ql i (settings (g_tasks g)) | None => [] end.
Definition holds (g : gstate) (p : path) (k : card) : Prop := delivered k = native_of g p /\ alike (delivered k) (waiting k) (qlist g p) /\ seen k = last_published p (g_sent g).
Lemma grown_index g g1 p j : same_paths (g_vfs g) (g_vfs g1) -> index_of p (v_paths (g_vfs g)) = None -> index_of p (v_paths (g_vfs g1)) = Some j -> length (v_paths (g_vfs g)) <= j.
Proof.
  intros [r S0] I J. apply index_of_none in I. apply index_of_some in J as [J _]. destruct (Nat.le_gt_cases (length (v_paths (g_vfs g))) j) as [L|L]; [exact L|]. exfalso. apply I. rewrite S0, nth_error_app1 in J by exact L. eapply nth_error_In; eauto.
Qed.
Lemma native_keep g g1 p : dinv g -> same_paths (g_vfs g) (g_vfs g1) -> NoDup (v_paths (g_vfs g1)) -> g_diagnostics g1 = g_diagnostics g -> native_of g1 p = native_of g p.
Proof.
  intros D S0 N E. unfold native_of. rewrite E. destruct (index_of p (v_paths (g_vfs g))) as [i|] eqn:I; [now rewrite (index_of_same _ _ _ _ S0 I N)|]. destruct (index_of p (v_paths (g_vfs g1))) as [j|] eqn:J; [|reflexivity].
  destruct (aget Nat.eq_dec j (co_native (g_diagnostics g))) eqn:A; [|reflexivity]. apply (di_native _ D) in A. pose proof (grown_index _ _ _ _ S0 I J). lia.
Qed.
Lemma qlist_grow g g1 p k : dinv g -> same_paths (g_vfs g) (g_vfs g1) -> NoDup (v_paths (g_vfs g1)) -> settings (g_tasks g1) = settings (g_tasks g) ++ k ->
  qlist g1 p = qlist g p ++ match index_of p (v_paths (g_vfs g1)) with Some i => ql i k | None => [] end.
Proof.
  intros D S0 N E. unfold qlist. rewrite E. destruct (index_of p (v_paths (g_vfs g))) as [i|] eqn:I; [rewrite (index_of_same _ _ _ _ S0 I N); apply ql_app|]. destruct (index_of p (v_paths (g_vfs g1))) as [j|] eqn:J; [|reflexivity].
  rewrite ql_app. rewrite (ql_none j (settings (g_tasks g))); [reflexivity|]. intros x X. apply (di_ids _ D) in X. pose proof (grown_index _ _ _ _ S0 I J). lia.
Qed.

Lemma not_close_dec e p : e = closes p \/ e <> closes p.
Proof. destruct e as [[q|[u z t|u z cs|[q|s]|u| | | |k]|r]| |v vs]; try (right; discriminate). destruct (string_dec q p) as [->|N]; [now left|right; unfold closes; congruence]. Qed.
Lemma not_task_dec e : e = ETask \/ e <> ETask.
Proof. destruct e; try (right; discriminate); now left. Qed.
Lemma closed_doc d p d' : Client d (closes p) d' -> d' p = None.
Proof. intros C. inversion C; subst; [unfold dset; now rewrite String.eqb_refl|contradiction]. Qed.

Lemma step_card p g e g' m K d d' k : handle_event g e = Ok g' -> DI g m K -> mirrors g m d -> Client d e d' -> holds g p k ->
  exists k', Step p k d' e k' /\ holds g' p k'.
Proof.
  intros H J R Cl (K1 & K2 & K3). pose proof H as H0. destruct (handle_DI _ _ _ _ _ _ _ H J R Cl) as (m' & J' & R' & _). destruct J as (I & D & Fr & C & Sh). apply rbind_inv in H as (g1 & H1 & H2).
  destruct (dispatch_mirrors _ _ _ _ _ _ H1 (proj1 I) R Cl) as (m1 & M1 & R1). pose proof (vi_nodup _ _ (mi_vfs _ _ _ _ M1)) as N1. destruct (after_inv _ _ _ H2 M1) as (I1 & Em & Ep).
  destruct J' as (I' & D' & Fr' & C' & Sh'). pose proof (vi_nodup _ _ (mi_vfs _ _ _ _ (proj1 I'))) as N'.
  destruct (not_task_dec e) as [->|T].
  - (* a task *)
    inversion Cl; subst. cbn [dispatch_event] in H1. assert (g1 = handle_task g) by congruence. subst g1. clear H1. pose proof (handle_task_core g) as EC. injection EC as C1 C2 C3. pose proof (handle_task_diag g) as ED. pose proof (handle_task_pending g) as ET.
    destruct (set_all_spec (settings (g_tasks g)) (g_diagnostics g) (di_clean _ D) (di_tasks _ D)) as (J1 & J2 & _ & _ & J5). rewrite <- ED in J1, J2, J5.
    pose proof (fun i => set_all_exact (settings (g_tasks g)) (g_diagnostics g) i (di_clean _ D) (di_tasks _ D)) as JX. rewrite <- ED in JX. rewrite C in JX.
    unfold after_event in H2. unfold process_changes, v_take_changes in H2. rewrite C1 in H2. destruct I as [M Ch]. rewrite Ch in H2. cbn [rbind] in H2. unfold coll_take_changes in H2. cbn [g_diagnostics with_vfs] in H2.
    set (ch := co_changes (g_diagnostics (handle_task g))) in *. set (c0 := g_diagnostics (handle_task g)) in *.
    assert (W : exists new, g_sent g' = g_sent (handle_task g) ++ new /\ co_native (g_diagnostics g') = co_native c0 /\ g_tasks g' = [] /\ v_paths (g_vfs g') = v_paths (g_vfs g) /\
      forall i, index_of p (v_paths (g_vfs g)) = Some i -> last_published p new = if in_dec Nat.eq_dec i ch then aget Nat.eq_dec i (co_native c0) else None).
    { destruct ch as [|f l] eqn:Ec.
      - injection H2 as <-. exists []. rewrite app_nil_r. cbn. auto.
      - rewrite <- Ec in H2. match type of H2 with publish ?x _ = _ => set (g3 := x) in * end.
        assert (H3 : publish g3 (co_changes c0) = Ok g') by exact H2. destruct (publish_core _ _ _ H3) as (EC & Tk & Dg & _). injection EC as Y1 Y2 Y3. destruct (publish_spec (co_changes c0) g3 g' (vi_nodup _ _ (mi_vfs _ _ _ _ M)) H3) as (new & Sn & A & B).
        exists new. split; [exact Sn|]. split; [now rewrite Dg|]. split; [rewrite Tk; exact ET|]. split; [rewrite Y1; reflexivity|]. rewrite <- Ec. fold ch.
        assert (DF : forall i ds, aget Nat.eq_dec i (co_native c0) = Some ds -> diagnostics_for (g_diagnostics g3) i = ds).
        { intros i ds X. unfold diagnostics_for. cbn. rewrite X. destruct J1 as [J1 _]. rewrite J1. cbn. now rewrite ?app_nil_r. }
        intros i Hi. destruct (in_dec Nat.eq_dec i ch) as [X|X].
        + rewrite (B p i Hi X). destruct (aget Nat.eq_dec i (co_native c0)) as [ds|] eqn:Ea; [f_equal; now apply DF|]. exfalso. rewrite Ec in X. apply J5 in X as [X|X]; [rewrite C in X; destruct X|]. rewrite J2 in Ea. destruct (last_of i _); [discriminate|congruence].
        + destruct (last_published p new) eqn:L; [|reflexivity]. exfalso. clear -L A X Hi. induction new as [|o new IH]; [discriminate|]. cbn [last_published] in L. destruct o as [a b|[q'|s] ds z|a].
          * apply IH; [intros o Ho; apply A; now right|exact L].
          * destruct (last_published p new) eqn:L'; [apply IH; [intros o Ho; apply A; now right|exact L]|]. destruct (String.eqb_spec p q') as [->|]; [|discriminate]. destruct (A _ (or_introl eq_refl)) as (j & p' & J1 & J2 & J3). injection J3 as <- _ _. cbn in J2. assert (j = i) as -> by congruence. contradiction.
          * apply IH; [intros o Ho; apply A; now right|exact L].
          * apply IH; [intros o Ho; apply A; now right|exact L]. }
    destruct W as (new & Sn & Nn & Tn & Pn & Ln).
    assert (Bare : index_of p (v_paths (g_vfs g)) = None -> last_published p new = None).
    { intros Hi. pose proof (handle_task_sent g p) as HS. destruct (last_published p new) as [x|] eqn:L; [|reflexivity]. exfalso.
      specialize (Sh' p). unfold shown, native_of in Sh'. rewrite Pn, Hi, Sn, last_published_app, L in Sh'. destruct Sh' as [Z|[Z Z2]]; [discriminate|].
      assert (G : forall ds ver, ~ In (OutDiagnostics (UFile p) ds ver) new).
      { intros ds ver X. clear -H2 X Hi Sn Ch C1 M. destruct ch as [|f l] eqn:Ec; [injection H2 as <-; cbn in Sn; rewrite <- app_nil_r in Sn at 1; apply app_inv_head in Sn; subst new; destruct X|].
        apply publish_spec in H2 as (n2 & S2 & A & _); [|cbn; exact (vi_nodup _ _ (mi_vfs _ _ _ _ M))]. cbn in S2. rewrite S2 in Sn. apply app_inv_head in Sn. subst n2. destruct (A _ X) as (i & q & _ & Hq & Eo). injection Eo as <- _ _. cbn in Hq. congruence. }
      clear -L G. induction new as [|o new IH]; [discriminate|]. cbn [last_published] in L. destruct o as [a b|[q'|s] ds z|a]; try (apply IH; [exact L|intros ds' ver X; eapply G; right; exact X]).
      destruct (last_published p new) eqn:L'; [apply IH; [exact L|intros ds' ver X; eapply G; right; exact X]|]. destruct (String.eqb_spec p q') as [->|]; [|discriminate]. eapply G. left. reflexivity. }
    assert (Nat' : native_of g' p = latest (native_of g p) (qlist g p)).
    { unfold native_of, qlist. rewrite Pn, Nn. destruct (index_of p (v_paths (g_vfs g))) as [i|]; [|reflexivity]. rewrite J2. apply last_of_ql. }
    assert (Q' : qlist g' p = []) by (unfold qlist; rewrite Tn; destruct (index_of p (v_paths (g_vfs g'))); reflexivity).
    assert (S' : last_published p (g_sent g') = match last_published p new with Some x => Some x | None => seen k end) by (now rewrite Sn, last_published_app, handle_task_sent, K3).
    assert (NN : last_published p new = None /\ no_news (native_of g p) (qlist g p) \/ last_published p new = native_of g' p /\ ~ no_news (native_of g p) (qlist g p)).
    { unfold native_of at 1 3, qlist. unfold native_of. rewrite Pn, Nn. destruct (index_of p (v_paths (g_vfs g))) as [i|] eqn:Hi; [|left; split; [now apply Bare|constructor]]. rewrite (Ln i eq_refl).
      destruct (in_dec Nat.eq_dec i ch) as [X|X]; [right|left]; (split; [reflexivity|]).
      - apply (JX i) in X as [X|X]; [destruct X|exact X].
      - destruct (no_news_dec (aget Nat.eq_dec i (co_native (g_diagnostics g))) (ql i (settings (g_tasks g)))) as [Y|Y]; [exact Y|]. elim X. apply (JX i). now right. }
    destruct K2 as [Ka Kb]. rewrite K1 in Ka, Kb. destruct NN as [[L1 L2]|[L1 L2]].
    + eexists. split; [apply St_same; rewrite K1; now apply Kb|]. split; [|split]; cbn [delivered waiting seen].
      * rewrite Nat', (no_news_latest _ _ L2). exact K1.
      * rewrite Q'. apply alike_refl.
      * now rewrite S', L1.
    + eexists. split; [apply St_news; rewrite K1; tauto|]. split; [|split]; cbn [delivered waiting seen].
      * rewrite Nat', K1. exact Ka.
      * rewrite Q'. apply alike_refl.
      * rewrite S', L1, K1, Ka, Nat'. destruct (latest (native_of g p) (qlist g p)) as [x|] eqn:El; [reflexivity|]. exfalso. apply L2. destruct (qlist g p) as [|y q]; [constructor|]. exfalso. clear -El. cbn [latest] in El. revert y El. induction q as [|z q IH]; intros y El; [discriminate|]. cbn [latest] in El. eauto.
  - (* anything else *)
    destruct (dispatch_adds _ _ _ _ _ T H1 I M1) as (E1 & P1 & k1 & A1 & O1). assert (Cc : co_changes (g_diagnostics g1) = []) by (rewrite E1; exact C). destruct (after_adds _ _ _ H2 M1 Cc) as (E2 & S2 & k2 & A2 & O2).
    assert (P' : same_paths (g_vfs g) (g_vfs g')) by (unfold same_paths in *; now rewrite Ep). assert (E' : g_diagnostics g' = g_diagnostics g) by congruence. assert (A' : settings (g_tasks g') = settings (g_tasks g) ++ (k1 ++ k2)) by (now rewrite A2, A1, app_assoc).
    pose proof (native_keep g g' p D P' N' E') as Nk. pose proof (qlist_grow g g' p (k1 ++ k2) D P' N' A') as Qk. set (extra := match index_of p (v_paths (g_vfs g')) with Some i => ql i (k1 ++ k2) | None => [] end) in *.
    assert (X : forall x, In x extra -> exists z t, aget string_dec p (g_mem_docs g1) = Some z /\ m1 p = Some (CText t) /\ publish_diagnostics t = Ok x).
    { intros x Hx. unfold extra in Hx. destruct (index_of p (v_paths (g_vfs g'))) as [i|] eqn:Hi; [|destruct Hx]. apply ql_in in Hx. rewrite Ep in Hi. assert (O : of_open g1 m1 (k1 ++ k2)) by (intros j y Y; apply in_app_iff in Y as [Y|Y]; [apply O1, Y|apply O2, Y]).
      destruct (O i x Hx) as (q & z & t & Y1 & Y2 & Y3 & Y4). assert (q = p) as -> by (apply index_of_some in Hi as [Hi _]; apply index_of_some in Y1 as [Y1 _]; congruence). eauto. }
    pose proof (R1 p) as Rp. destruct (dispatch_sent _ _ _ H1) as (n1 & Sn & Fn).
    destruct (d' p) as [[v t]|] eqn:Hd.
    + destruct Rp as [Ra Rb]. assert (U : exists ds, publish_diagnostics t = Ok ds /\ latest (native_of g p) (qlist g p ++ extra) = Some ds).
      { pose proof (R' p) as Rp'. rewrite Hd in Rp'. destruct Rp' as [Ra' Rb']. destruct (open_index _ _ _ _ _ _ (proj1 I') Ra') as (i & t' & Hi & _). destruct (Fr' p v t i Ra' Rb' Hi) as (ds & Pd & Ud). exists ds. split; [exact Pd|]. rewrite <- Qk, <- Nk, <- Ud. unfold due, native_of, qlist. rewrite Hi, last_of_ql. reflexivity. }
      destruct U as (ds & Pd & Ud). eexists. split; [eapply St_open; eauto|]. split; [|split]; cbn [delivered waiting seen].
      * congruence.
      * rewrite Qk. eapply alike_trans; [apply alike_app; exact K2|]. rewrite K1. apply alike_copies; [|exact Ud]. intros y Hy. destruct (X y Hy) as (z & t' & _ & Y2 & Y3). congruence.
      * rewrite S2, Sn, last_published_app, K3. destruct (last_published p n1) as [x|] eqn:L; [|reflexivity]. exfalso.
        assert (G : exists x ver, In (OutDiagnostics (UFile p) x ver) n1). { clear -L. induction n1 as [|o n1 IH]; [discriminate|]. cbn [last_published] in L. destruct o as [a b|[q|s] ds z|a]; try (destruct (IH L) as (y & v & Y); exists y, v; now right). destruct (last_published p n1) eqn:L'; [destruct (IH L) as (y & v & Y); exists y, v; now right|]. destruct (String.eqb_spec p q) as [->|]; [|discriminate]. exists ds, z. now left. }
        destruct G as (y & ver & G). apply Fn in G. subst e. rewrite (closed_doc _ _ _ Cl) in Hd. discriminate.
    + assert (Ex : extra = []) by (destruct extra as [|x r] eqn:Ee; [reflexivity|]; destruct (X x (or_introl eq_refl)) as (z & t & Y & _); congruence). rewrite Ex, app_nil_r in Qk.
      destruct (not_close_dec e p) as [->|Nc].
      * eexists. split; [apply St_close|]. split; [|split]; cbn [delivered waiting seen]; [congruence|now rewrite Qk|]. rewrite S2. cbn [dispatch_event handle_lsp on_notification closes] in H1. injection H1 as <-. cbn. rewrite last_published_app. cbn. now rewrite String.eqb_refl.
      * exists k. split; [apply St_away; auto|]. split; [congruence|]. split; [now rewrite Qk|]. rewrite S2, Sn, last_published_app, K3. destruct (last_published p n1) as [x|] eqn:L; [|reflexivity]. exfalso.
        assert (G : exists x ver, In (OutDiagnostics (UFile p) x ver) n1). { clear -L. induction n1 as [|o n1 IH]; [discriminate|]. cbn [last_published] in L. destruct o as [a b|[q|s] ds z|a]; try (destruct (IH L) as (y & v & Y); exists y, v; now right). destruct (last_published p n1) eqn:L'; [destruct (IH L) as (y & v & Y); exists y, v; now right|]. destruct (String.eqb_spec p q) as [->|]; [|discriminate]. exists ds, z. now left. }
        destruct G as (y & ver & G). apply Fn in G. contradiction.
Qed.

Lemma Step_fun p k d d' e k1 k2 : Client d e d' -> Step p k d' e k1 -> Step p k d' e k2 -> k1 = k2.
Proof.
  intros C S1 S2. destruct S1; inversion S2; subst; try reflexivity; try contradiction; try congruence; exfalso; match goal with H : Client _ (closes _) _ |- _ => rewrite (closed_doc _ _ _ H) in *; discriminate end.
Qed.
Lemma ClientRun_snoc d es e d1 d2 : ClientRun d es d1 -> Client d1 e d2 -> ClientRun d (es ++ [e]) d2.
Proof. intros R C. induction R as [d|d e0 d1 es d3 H _ IH]; cbn [app]; econstructor; eauto. constructor. Qed.
Lemma Follows_client p es d k : Follows p es d k -> ClientRun no_docs es d.
Proof. induction 1 as [|es d k e d' k' _ IH C _]; [constructor|eapply ClientRun_snoc; eauto]. Qed.
Lemma Follows_holds p c es d k : Follows p es d k -> forall g, run (g_new c) es = Ok g -> holds g p k /\ exists m K, DI g m K /\ mirrors g m d.
Proof.
  induction 1 as [|es d k e d' k' F IH C S0]; intros g H.
  - injection H as <-. split; [split; [reflexivity|split; [apply alike_refl|reflexivity]]|]. destruct (new_DI c) as [I R]. eauto.
  - destruct (run_app _ _ _ _ (ClientRun_exit _ _ _ (Follows_client _ _ _ _ F)) H) as (g1 & H1 & H2). destruct (IH _ H1) as (Hk & m & K & I & R). rewrite run_cons in H2 by (eapply Client_not_exit; eauto). apply rbind_inv in H2 as (g2 & H2 & H3). injection H3 as ->.
    destruct (step_card _ _ _ _ _ _ _ _ _ H2 I R C Hk) as (k2 & S2 & Hk2). rewrite (Step_fun _ _ _ _ _ _ _ C S0 S2). split; [exact Hk2|]. destruct (handle_DI _ _ _ _ _ _ _ H2 I R C) as (m2 & I2 & R2 & _). eauto.
Qed.
Lemma Follows_exists p c es : forall d g, run (g_new c) es = Ok g -> ClientRun no_docs es d -> exists k, Follows p es d k.
Proof.
  induction es as [|e es IH] using rev_ind; intros d g H C; [inversion C; subst; exists blank; constructor|]. apply ClientRun_app in C as (d1 & C1 & C2). inversion C2 as [|x1 x2 d2 x3 x4 C3 C4]; subst. inversion C4; subst.
  destruct (run_app _ _ _ _ (ClientRun_exit _ _ _ C1) H) as (g1 & H1 & H2). destruct (IH _ _ H1 C1) as (k & F). destruct (Follows_holds _ c _ _ _ F _ H1) as (Hk & m & K & I & R). rewrite run_cons in H2 by (eapply Client_not_exit; eauto). apply rbind_inv in H2 as (g2 & H2 & H3).
  destruct (step_card _ _ _ _ _ _ _ _ _ H2 I R C3 Hk) as (k2 & S2 & _). exists k2. econstructor; eauto.
Qed.

(** * What an editor shows, after every history *)
Theorem C52_shown_exactly : forall p c es g d, run (g_new c) es = Ok g -> ClientRun no_docs es d ->
  (exists k, Follows p es d k) /\ forall k, Follows p es d k -> last_published p (g_sent g) = seen k.
Proof.
  intros p c es g d H C. split; [eapply Follows_exists; eauto|]. intros k F. destruct (Follows_holds _ c _ _ _ F _ H) as ((_ & _ & E) & _). now rewrite E.
Qed.
Print Assumptions C52_shown_exactly.

(** ** Continuing from a card *)
Inductive Goes (p : path) : docs -> card -> list event -> docs -> card -> Prop :=
| Go_nil d k : Goes p d k [] d k
| Go_cons d k e d1 k1 es d2 k2 : Client d e d1 -> Step p k d1 e k1 -> Goes p d1 k1 es d2 k2 -> Goes p d k (e :: es) d2 k2.
Lemma Goes_client p d k es d2 k2 : Goes p d k es d2 k2 -> ClientRun d es d2.
Proof. induction 1; econstructor; eauto. Qed.
Lemma Follows_split p es2 : forall es1 d2 k2, Follows p (es1 ++ es2) d2 k2 -> exists d1 k1, Follows p es1 d1 k1 /\ Goes p d1 k1 es2 d2 k2.
Proof.
  induction es2 as [|e es2 IH] using rev_ind; intros es1 d2 k2 F; [rewrite app_nil_r in F; exists d2, k2; split; [exact F|constructor]|]. rewrite app_assoc in F. inversion F as [Hn|es d k e0 d' k' F1 C S0 He Hd Hk].
  - exfalso. symmetry in Hn. destruct (app_eq_nil _ _ Hn) as [_ X]. discriminate.
  - apply app_inj_tail in He as [-> ->]. destruct (IH _ _ _ F1) as (d1 & k1 & F2 & G). exists d1, k1. split; [exact F2|]. clear - G C S0. induction G; cbn [app]; econstructor; eauto. constructor.
Qed.
Lemma Goes_app p d k a : forall b d2 k2, Goes p d k (a ++ b) d2 k2 -> exists d1 k1, Goes p d k a d1 k1 /\ Goes p d1 k1 b d2 k2.
Proof. revert d k. induction a as [|e a IH]; intros d k b d2 k2 G; [exists d, k; split; [constructor|exact G]|]. inversion G as [|? ? ? dx kx ? ? ? C S0 G2]; subst. destruct (IH _ _ _ _ _ G2) as (d3 & k3 & X & Y). exists d3, k3. split; [econstructor; eauto|exact Y]. Qed.

(** ** After a document is closed *)
Lemma away_client p d e d1 : Client d e d1 -> d p = None -> (forall z t, e <> ELsp (MNot (NOpen (UFile p) z t))) -> d1 p = None.
Proof.
  intros C N NO. destruct C as [d q z t|d q z cs z0 t u Hd Hch|d q z cs Hd|d q|d e Ne]; auto; unfold dset; destruct (String.eqb_spec p q) as [->|]; auto; [elim (NO z t eq_refl)|congruence].
Qed.
Lemma away_goes p d k es d2 k2 : Goes p d k es d2 k2 -> d p = None -> ~ opened_in es p -> ~ closed_in es p ->
  (In ETask es -> ~ no_news (delivered k) (waiting k) -> seen k2 = latest (delivered k) (waiting k)) /\ (no_news (delivered k) (waiting k) \/ ~ In ETask es -> seen k2 = seen k).
Proof.
  induction 1 as [d k|d k e d1 k1 es d2 k2 C S0 G IH]; intros N NO NC; [split; [intros []|reflexivity]|].
  assert (N1 : d1 p = None) by (eapply away_client; eauto; intros z t ->; apply NO; exists z, t; now left).
  specialize (IH N1 ltac:(intros (z & t & X); apply NO; exists z, t; now right) ltac:(intros X; apply NC; now right)). destruct IH as [IH1 IH2].
  destruct S0 as [|e v t ds T Hd P|e T Nc Hn|Hs|Hs].
  - elim NC. now left.
  - congruence.
  - split; [intros [X|X] Y; [congruence|auto]|intros [X|X]; apply IH2; [now left|right; intros Y; apply X; now right]].
  - cbn [delivered waiting seen] in *. split; [contradiction|]. intros _. apply IH2. left. constructor.
  - cbn [delivered waiting seen] in *. split; [|intros [X|X]; [contradiction|elim X; now left]]. intros _ _. apply IH2. left. constructor.
Qed.
Lemma goes_on p es : forall d0 k0 g0 g2 m0 K0 d', run g0 es = Ok g2 -> DI g0 m0 K0 -> mirrors g0 m0 d0 -> holds g0 p k0 -> ClientRun d0 es d' -> exists k2, Goes p d0 k0 es d' k2 /\ holds g2 p k2 /\ exists m K, DI g2 m K /\ mirrors g2 m d'.
Proof.
  induction es as [|e es IH]; intros d0 k0 g0 g2 m0 K0 d' H I R Hk Cr; inversion Cr as [|? ? dx ? ? C1 C2]; subst; [injection H as <-; exists k0; split; [constructor|]; eauto|].
  rewrite run_cons in H by (eapply Client_not_exit; eauto). apply rbind_inv in H as (g1 & H1 & H). destruct (step_card _ _ _ _ _ _ _ _ _ H1 I R C1 Hk) as (k1 & S1 & Hk1). destruct (handle_DI _ _ _ _ _ _ _ H1 I R C1) as (m1 & I1 & R1 & _).
  destruct (IH _ _ _ _ _ _ _ H I1 R1 Hk1 C2) as (k2 & G & E). exists k2. split; [econstructor; eauto|exact E].
Qed.
Lemma goes_from p c es1 es2 g d1 k1 d : run (g_new c) (es1 ++ es2) = Ok g -> Follows p es1 d1 k1 -> ClientRun d1 es2 d -> exists k2, Goes p d1 k1 es2 d k2 /\ last_published p (g_sent g) = seen k2.
Proof.
  intros H F C. destruct (run_app _ _ _ _ (ClientRun_exit _ _ _ (Follows_client _ _ _ _ F)) H) as (g1 & H1 & H2). destruct (Follows_holds _ c _ _ _ F _ H1) as (Hk & m & K & I & R). destruct (goes_on _ _ _ _ _ _ _ _ _ H2 I R Hk C) as (k2 & G & (_ & _ & E) & _). eauto.
Qed.
Lemma Goes_close p d k es d2 k2 : Goes p d k (closes p :: es) d2 k2 -> exists d1, d1 p = None /\ Goes p d1 (mkCard (delivered k) (waiting k) (Some [])) es d2 k2.
Proof.
  intros G. inversion G as [|? ? ? d1 k1 ? ? ? C S0 G2]; subst. exists d1. pose proof (closed_doc _ _ _ C) as N. split; [exact N|]. inversion S0; subst; try congruence; exact G2.
Qed.
(** Exactly when a document shows diagnostics after it was closed: a task has ended since, and when
    the document was closed, diagnostics were waiting that differ from those delivered last.  Then it
    shows those of its last text; otherwise it shows none. *)
Theorem C64_exactly : forall p c es1 es2 g d d1 k1, run (g_new c) (es1 ++ [closes p] ++ es2) = Ok g -> Follows p es1 d1 k1 -> ClientRun d1 ([closes p] ++ es2) d -> ~ opened_in es2 p -> ~ closed_in es2 p ->
  (In ETask es2 -> ~ no_news (delivered k1) (waiting k1) -> last_published p (g_sent g) = latest (delivered k1) (waiting k1)) /\
  (no_news (delivered k1) (waiting k1) \/ ~ In ETask es2 -> last_published p (g_sent g) = Some []).
Proof.
  intros p c es1 es2 g d d1 k1 H F C NO NC. destruct (goes_from _ _ _ _ _ _ _ _ H F C) as (k2 & G & ->). apply Goes_close in G as (d0 & N & G). destruct (away_goes _ _ _ _ _ _ G N NO NC) as [A B]. split; [exact A|exact B].
Qed.
Print Assumptions C64_exactly.

(** ** After a document is opened again *)
(** The texts of [p] on the way: after some of the events [es], from the documents [d]. *)
Definition text_on_way (p : path) (d : docs) (es : list event) (t : text) : Prop := exists a b d1 v, es = a ++ b /\ ClientRun d a d1 /\ d1 p = Some (v, t).
(** Something else than [ds] has been shown or will be before [ds]. *)
Definition moving (ds : diags) (k : card) : Prop := seen k = delivered k \/ ~ no_news (delivered k) (waiting k) \/ delivered k <> Some ds.
Definition still (ds : diags) (k : card) : Prop := delivered k = Some ds /\ Forall (eq ds) (waiting k) /\ seen k = Some [].
Lemma still_quiet ds k : still ds k -> no_news (delivered k) (waiting k).
Proof. intros (A & B & _). rewrite A. eapply Forall_impl; [|exact B]. cbn. congruence. Qed.
Lemma moving_step p ds k d' e k' : moving ds k -> e <> closes p -> Step p k d' e k' -> moving ds k'.
Proof.
  intros M N S0. destruct S0 as [|e v t x T Hd P|e T Nc Hn|Hs|Hs]; [contradiction| |exact M| |left; reflexivity]; unfold moving in *; cbn [delivered waiting seen] in *.
  - destruct M as [M|[M|M]]; auto. right. left. rewrite no_news_app. tauto.
  - destruct M as [M|[M|M]]; auto.
Qed.
Lemma moving_goes p ds d k es d2 k2 : Goes p d k es d2 k2 -> moving ds k -> ~ closed_in es p -> moving ds k2.
Proof. induction 1 as [d k|d k e d1 k1 es d2 k2 C S0 G IH]; intros M NC; [exact M|]. apply IH; [|intros X; apply NC; now right]. eapply moving_step; eauto. intros ->. apply NC. now left. Qed.
Lemma still_goes p ds d k es d2 k2 : Goes p d k es d2 k2 -> still ds k -> ~ closed_in es p -> (forall t x, text_on_way p d es t -> publish_diagnostics t = Ok x -> x = ds) -> still ds k2.
Proof.
  induction 1 as [d k|d k e d1 k1 es d2 k2 C S0 G IH]; intros M NC W; [exact M|]. apply IH; [|intros X; apply NC; now right|].
  - pose proof (still_quiet _ _ M) as Q. destruct M as (A & B & D). destruct S0 as [|e v t x T Hd P|e T Nc Hn|Hs|Hs]; unfold still; cbn [delivered waiting seen]; auto; [|contradiction].
    split; [exact A|]. split; [|exact D]. apply Forall_app. split; [exact B|]. constructor; [|constructor]. symmetry. apply (W t x); [|exact P]. exists [e], es, d1, v. split; [reflexivity|]. split; [econstructor; [exact C|constructor]|exact Hd].
  - intros t x (a & b & d3 & v & -> & Ca & Hd) P. apply (W t x); [|exact P]. exists (e :: a), b, d3, v. split; [reflexivity|]. split; [econstructor; eauto|exact Hd].
Qed.

Lemma still_or p ds d k es d2 k2 : Goes p d k es d2 k2 -> still ds k -> ~ closed_in es p -> still ds k2 \/ moving ds k2.
Proof.
  induction 1 as [d k|d k e d1 k1 es d2 k2 C S0 G IH]; intros M NC; [now left|]. assert (NC1 : ~ closed_in es p) by (intros X; apply NC; now right).
  assert (X : still ds k1 \/ moving ds k1); [|destruct X as [X|X]; [auto|right; eapply moving_goes; eauto]]. pose proof (still_quiet _ _ M) as Q. destruct S0 as [|e v t x T Hd P|e T Nc Hn|Hs|Hs]; [elim NC; now left| |now left| |contradiction]; destruct M as (A & B & D).
  - destruct (diags_dec ds x) as [<-|N]; [left|right; right; left].
    + split; [exact A|]. split; [|exact D]. cbn [waiting]. apply Forall_app. split; [exact B|]. constructor; [reflexivity|constructor].
    + cbn [delivered waiting]. rewrite no_news_app. intros [_ X]. inversion X. congruence.
  - left. split; [exact A|]. split; [constructor|exact D].
Qed.
Lemma start_dec ds n l : (n = Some ds /\ Forall (eq ds) l) \/ (~ no_news n l \/ n <> Some ds).
Proof.
  destruct n as [y|]; [destruct (diags_dec y ds) as [->|N]|]; [|right; right; congruence|right; right; discriminate]. destruct (no_news_dec (Some ds) l) as [X|X]; [left; split; [reflexivity|]|right; now left]. eapply Forall_impl; [|exact X]. cbn. congruence.
Qed.
(** An open document has its diagnostics delivered or waiting. *)
Lemma open_latest g m K p d k v t ds : DI g m K -> mirrors g m d -> holds g p k -> d p = Some (v, t) -> publish_diagnostics t = Ok ds -> latest (delivered k) (waiting k) = Some ds.
Proof.
  intros (I & D & Fr & _) R (K1 & [K2 _] & _) Hd P. specialize (R p). rewrite Hd in R. destruct R as [Ra Rb]. destruct (open_index _ _ _ _ _ _ (proj1 I) Ra) as (i & t' & Hi & _). destruct (Fr p v t i Ra Rb Hi) as (x & Px & U).
  rewrite K2, K1. unfold native_of, qlist. rewrite Hi, <- last_of_ql. change (due g i = Some ds). congruence.
Qed.
(** The documents are determined by the server's state. *)
Lemma mirrors_fun g m m' d d' p : inv g m -> inv g m' -> mirrors g m d -> mirrors g m' d' -> d p = d' p.
Proof.
  intros [M _] [M' _] R R'. pose proof (minv_unique _ _ _ _ _ _ _ M M' p) as E. specialize (R p). specialize (R' p). destruct (d p) as [[v t]|], (d' p) as [[v' t']|]; [|destruct R; congruence|destruct R'; congruence|reflexivity]. destruct R as [A B], R' as [A' B']. congruence.
Qed.

Lemma moving_way p ds es d0 k0 g0 g2 m0 K0 d' t x : run g0 es = Ok g2 -> DI g0 m0 K0 -> mirrors g0 m0 d0 -> holds g0 p k0 -> ClientRun d0 es d' -> ~ closed_in es p ->
  text_on_way p d0 es t -> publish_diagnostics t = Ok x -> x <> ds -> exists k2, Goes p d0 k0 es d' k2 /\ holds g2 p k2 /\ moving ds k2.
Proof.
  intros H I R Hk Cr NC (a & b & d3 & v & -> & Ca & Hd) P N. apply ClientRun_app in Cr as (d1 & C1 & C2). destruct (run_app _ _ _ _ (ClientRun_exit _ _ _ C1) H) as (g1 & H1 & H2).
  destruct (goes_on p _ _ _ _ _ _ _ _ H1 I R Hk C1) as (k1 & G1 & Hk1 & m1 & K1 & I1 & R1). destruct (goes_on p _ _ _ _ _ _ _ _ H1 I R Hk Ca) as (k3 & _ & _ & m3 & K3 & I3 & R3).
  pose proof (mirrors_fun _ _ _ _ _ p (proj1 I1) (proj1 I3) R1 R3) as E. rewrite Hd in E. pose proof (open_latest _ _ _ _ _ _ _ _ _ I1 R1 Hk1 E P) as L.
  assert (M1 : moving ds k1) by (destruct (no_news_dec (delivered k1) (waiting k1)) as [Y|Y]; [right; right; rewrite (no_news_latest _ _ Y) in L; congruence|right; now left]).
  destruct (goes_on p _ _ _ _ _ _ _ _ H2 I1 R1 Hk1 C2) as (k2 & G2 & Hk2 & _). exists k2. split; [|split; [exact Hk2|]].
  - clear - G1 G2. induction G1; cbn [app]; [exact G2|econstructor; eauto].
  - eapply moving_goes; eauto. intros X. apply NC. apply in_app_iff. now right.
Qed.
(** Exactly when a document that was closed and opened again shows its diagnostics.  It shows them,
    unless nothing has changed since it was closed for the last time: the diagnostics delivered when
    it was closed, all those that were waiting then, and those of every text it has had since, are
    the ones it should show.  Then it shows none. *)
Definition nothing_changed (p : path) (k1 : card) (d1 : docs) (es2 : list event) (ds : diags) : Prop :=
  delivered k1 = Some ds /\ Forall (eq ds) (waiting k1) /\ forall t x, text_on_way p (dset d1 p None) es2 t -> publish_diagnostics t = Ok x -> x = ds.
Theorem C52_exactly : forall p c es1 es2 g d1 k1 d v t ds, run (g_new c) (es1 ++ [closes p] ++ es2 ++ [ETask]) = Ok g -> Follows p es1 d1 k1 -> ClientRun d1 ([closes p] ++ es2) d -> ~ closed_in es2 p ->
  d p = Some (v, t) -> publish_diagnostics t = Ok ds ->
  (last_published p (g_sent g) = Some ds \/ last_published p (g_sent g) = Some []) /\ (last_published p (g_sent g) = Some [] <-> ds = [] \/ nothing_changed p k1 d1 es2 ds).
Proof.
  intros p c es1 es2 g d1 k1 d v t ds H F C NC Hd P.
  destruct (run_app _ _ _ _ (ClientRun_exit _ _ _ (Follows_client _ _ _ _ F)) H) as (g1 & H1 & H2). destruct (Follows_holds _ c _ _ _ F _ H1) as (Hk1 & m1 & K1 & I1 & R1). clear H H1.
  cbn [app] in H2, C. rewrite run_cons in H2 by discriminate. apply rbind_inv in H2 as (g0 & H0 & H2). inversion C as [|? ? d0 ? ? C0 C2]; subst. destruct (step_card _ _ _ _ _ _ _ _ _ H0 I1 R1 C0 Hk1) as (k0 & S0 & Hk0). destruct (handle_DI _ _ _ _ _ _ _ H0 I1 R1 C0) as (m0 & I0 & R0 & _). cbn in I0.
  assert (E0 : d0 = dset d1 p None) by (inversion C0; subst; [reflexivity|contradiction]). assert (Ek : k0 = mkCard (delivered k1) (waiting k1) (Some [])) by (eapply Step_fun; [exact C0|exact S0|apply St_close]). subst d0 k0. clear H0 S0 R1 I1 Hk1 C C0 F.
  destruct (run_app _ _ _ _ (ClientRun_exit _ _ _ C2) H2) as (g2 & H1 & H3). destruct (goes_on p _ _ _ _ _ _ _ _ H1 I0 R0 Hk0 C2) as (k2 & G & Hk2 & m2 & K2 & I2 & R2).
  pose proof (open_latest _ _ _ _ _ _ _ _ _ I2 R2 Hk2 Hd P) as L. rewrite run_cons in H3 by discriminate. apply rbind_inv in H3 as (g3 & H3 & H4). injection H4 as ->.
  destruct (step_card _ _ _ _ _ _ _ _ _ H3 I2 R2 (Cl_other d ETask Logic.I) Hk2) as (k3 & S3 & (_ & _ & E3)). rewrite <- E3.
  assert (Mv : forall k, holds g2 p k -> moving ds k -> seen k3 = Some ds).
  { intros k Hk M. pose proof (open_latest _ _ _ _ _ _ _ _ _ I2 R2 Hk Hd P) as L'. destruct (step_card _ _ _ _ _ _ _ _ _ H3 I2 R2 (Cl_other d ETask Logic.I) Hk) as (k5 & S5 & (_ & _ & E5)). rewrite E3, <- E5.
    inversion S5 as [X|e0 v0 t0 x0 X|e0 X|X|X]; subst; cbn [seen]; [congruence|congruence| |exact L']. rewrite (no_news_latest _ _ X) in L'. destruct M as [M|[M|M]]; [congruence|contradiction|contradiction]. }
  assert (St : still ds k2 -> seen k3 = Some []).
  { intros M. pose proof (still_quiet _ _ M) as Q. inversion S3 as [X|e0 v0 t0 x0 X|e0 X|X|X]; subst; cbn [seen]; [congruence|congruence|apply M|contradiction]. }
  set (k0 := mkCard (delivered k1) (waiting k1) (Some [])) in *.
  assert (B : still ds k0 /\ (still ds k2 \/ moving ds k2) \/ moving ds k0 /\ moving ds k2 /\ ~ still ds k0).
  { destruct (start_dec ds (delivered k1) (waiting k1)) as [[X Y]|X]; [left|right].
    - assert (S0 : still ds k0) by (repeat split; assumption). split; [exact S0|]. eapply still_or; eauto.
    - assert (M0 : moving ds k0) by (right; exact X). split; [exact M0|]. split; [eapply moving_goes; eauto|]. intros Z. pose proof (still_quiet _ _ Z) as Q. destruct Z as [Z _]. destruct X; contradiction. }
  assert (A : seen k3 = Some ds \/ seen k3 = Some []) by (destruct B as [[_ [B|B]]|(_ & B & _)]; [right; auto|left; eauto|left; eauto]).
  split; [exact A|]. split.
  - intros E. destruct (diags_dec ds []) as [->|N]; [now left|right]. assert (NM : ~ moving ds k2) by (intros M; apply (Mv _ Hk2) in M; congruence). destruct B as [[S0 _]|(_ & B & _)]; [|contradiction]. destruct S0 as (X & Y & _). split; [exact X|]. split; [exact Y|].
    intros t' x W Px. destruct (diags_dec x ds) as [->|Nx]; [reflexivity|]. exfalso. destruct (moving_way p ds _ _ _ _ _ _ _ _ _ _ H1 I0 R0 Hk0 C2 NC W Px Nx) as (k4 & G4 & Hk4 & M4).
    apply (Mv _ Hk4) in M4. congruence.
  - intros [->|(X & Y & W)]; [destruct A; auto|]. apply St. eapply still_goes; [exact G| |exact NC|exact W]. repeat split; assumption.
Qed.
Print Assumptions C52_exactly.

(** ** Cases *)
Definition bad : diags := Eval vm_compute in match publish_diagnostics (txt "x =") with Ok ds => ds | _ => [] end.
Lemma bad_of : publish_diagnostics (txt "x =") = Ok bad /\ bad <> [].
Proof. split; [vm_compute; reflexivity|discriminate]. Qed.
Definition opens (p : path) (t : text) : event := ELsp (MNot (NOpen (UFile p) 1 t)).
Definition doc1 : docs := dset no_docs "/a"%string (Some (1%Z, txt "x =")).
Lemma follows_open : Follows "/a"%string [opens "/a"%string (txt "x =")] doc1 (mkCard None [bad] None).
Proof. apply (Fo_step _ [] no_docs blank _ doc1); [constructor|apply Cl_open|]. apply (St_open _ blank doc1 _ 1%Z (txt "x =") bad); [discriminate|reflexivity|apply bad_of]. Qed.
Lemma follows_task : Follows "/a"%string ([opens "/a"%string (txt "x =")] ++ [ETask]) doc1 (mkCard (Some bad) [] (Some bad)).
Proof. apply (Fo_step _ _ doc1 (mkCard None [bad] None) _ doc1); [apply follows_open|now apply Cl_other|]. apply (St_news _ (mkCard None [bad] None)). intros X. inversion X; discriminate. Qed.
(** Closed before the task has ended: the document shows diagnostics that are not empty. *)
Example C64_exact_case : match run (g_new []) ([opens "/a"%string (txt "x =")] ++ [closes "/a"%string] ++ [ETask]) with
  | Ok g => last_published "/a"%string (g_sent g) = Some bad | _ => False end /\ ClientRun doc1 ([closes "/a"%string] ++ [ETask]) (dset doc1 "/a"%string None) /\ ~ no_news None [bad].
Proof.
  split; [vm_compute; reflexivity|]. split; [eapply CR_cons; [apply Cl_close|]; eapply CR_cons; [now apply Cl_other|]; constructor|]. intros X. inversion X; discriminate.
Qed.
(** Closed and opened again with the same text: it shows none. *)
Example C52_exact_case : match run (g_new []) (([opens "/a"%string (txt "x =")] ++ [ETask]) ++ [closes "/a"%string] ++ [opens "/a"%string (txt "x =")] ++ [ETask]) with
  | Ok g => last_published "/a"%string (g_sent g) = Some [] | _ => False end /\ exists d, ClientRun doc1 ([closes "/a"%string] ++ [opens "/a"%string (txt "x =")]) d /\ d "/a"%string = Some (1%Z, txt "x =").
Proof.
  split; [vm_compute; reflexivity|]. eexists. split; [eapply CR_cons; [apply Cl_close|]; eapply CR_cons; [apply Cl_open|]; constructor|reflexivity].
Qed.
(** Opened again with another text, then changed back: it shows its diagnostics. *)
Example C52_exact_case2 : match run (g_new []) (([opens "/a"%string (txt "x =")] ++ [ETask]) ++ [closes "/a"%string] ++ [opens "/a"%string (txt "x = 1"); ELsp (MNot (NChange (UFile "/a"%string) 2 [mkChange None (txt "x =")]))] ++ [ETask]) with
  | Ok g => last_published "/a"%string (g_sent g) = Some bad | _ => False end.
Proof. vm_compute. reflexivity. Qed.
