(** PropsTotal.v — panics of the main loop (C50). *)
From Coq Require Import ZArith.
From Verif Require Import Base TextEdit LineIndex Vfs Ide Server PropsTextEdit PropsLineIndex PropsVfs PropsIde ServerInv PropsServer PropsRequests PropsDiag.

(** * Specification *)

(** The files a loader event reports, in order. *)
Fixpoint loaded (ms : list vmsg) : list (path * option contents) := match ms with [] => [] | VProgress :: ms' => loaded ms' | VLoaded l :: ms' => l ++ loaded ms' end.
(** Within one event, no file that is not open is reported first with contents and then as
    missing. *)
Definition settled (d : docs) (l : list (path * option contents)) : Prop :=
  forall a p c b, l = a ++ (p, Some c) :: b -> d p = None -> ~ In (p, None) b.
(** The library paths in a configuration object. *)
Definition absolute_libraries (j : json) : Prop := Forall (fun s => exists r, s = String "/"%char r) (config_from_json j).
(** A client that follows the protocol: [d] its open documents, [out] the requests of the server
    it has not answered, [n] the number of requests the server has made. Texts have less than
    2^32 - 1 bytes. *)
Inductive Polite : docs -> nat -> list Z -> event -> docs -> nat -> list Z -> Prop :=
| Po_request d n out q : Polite d n out (ELsp (MReq q)) d n out
| Po_open d n out p v t : fits_u32 (S (blen t)) = true -> Polite d n out (ELsp (MNot (NOpen (UFile p) v t))) (dset d p (Some (v, t))) n out
| Po_change d n out p v cs v0 t u : d p = Some (v0, t) -> Changes t cs u -> fits_u32 (S (blen u)) = true -> Polite d n out (ELsp (MNot (NChange (UFile p) v cs))) (dset d p (Some (v, u))) n out
| Po_orphan d n out p v cs : d p = None -> Polite d n out (ELsp (MNot (NChange (UFile p) v cs))) d n out
| Po_close d n out p : Polite d n out (ELsp (MNot (NClose (UFile p)))) (dset d p None) n out
| Po_open_other d n out s v t : Polite d n out (ELsp (MNot (NOpen (UOther s) v t))) d n out
| Po_change_other d n out s v cs : Polite d n out (ELsp (MNot (NChange (UOther s) v cs))) d n out
| Po_close_other d n out s : Polite d n out (ELsp (MNot (NClose (UOther s)))) d n out
| Po_save d n out u : Polite d n out (ELsp (MNot (NSave u))) d n out
| Po_other d n out m : Polite d n out (ELsp (MNot (NOther m))) d n out
| Po_config d n out : Polite d n out (ELsp (MNot NConfig)) d (S n) (Z.of_nat n :: out)
| Po_response d n out id err r : In id out -> (forall j l, err = false -> r = Some (JArr (j :: l)) -> absolute_libraries j) -> Polite d n out (ELsp (MResp (mkResp (RNum id) err r))) d n (remove Z.eq_dec id out)
| Po_task d n out : Polite d n out ETask d n out
| Po_loaded d n out m ms : settled d (loaded (m :: ms)) -> Polite d n out (EVfs m ms) d n out.
Inductive PoliteRun : docs -> nat -> list Z -> list event -> Prop :=
| PR_nil d n out : PoliteRun d n out []
| PR_cons d n out e d' n' out' es : Polite d n out e d' n' out' -> PoliteRun d' n' out' es -> PoliteRun d n out (e :: es).
(** The number of messages, each loaded file counted. *)
Definition weight (e : event) : nat := match e with EVfs m ms => length (loaded (m :: ms)) | _ => 1 end.
Definition total (es : list event) : nat := list_sum (map weight es).

(** * Proofs *)
Lemma polite_client d n out e d' n' out' : Polite d n out e d' n' out' -> Client d e d'.
Proof. intros H. destruct H; try (apply Cl_other; exact I); [apply Cl_open|eapply Cl_change; eauto|now apply Cl_orphan|apply Cl_close]. Qed.

Lemma collect_total v l : (forall i k, In (i, k) l -> k <> Delete -> exists c, nth_error (v_data v) i = Some (Some c)) -> exists r, collect_changes v l = Ok r.
Proof.
  induction l as [|[i k] l IH]; intros H; cbn [collect_changes]; [eauto|]. destruct (IH (fun i k X => H i k (or_intror X))) as [r ->].
  assert (T : exists t, (if cf_exists (i, k) then let? c := v_file_contents v (fst (i, k)) in Ok (as_utf8 c) else Ok None) = Ok t).
  { destruct k; cbn [cf_exists snd]; [| |eauto]; (destruct (H i _ (or_introl eq_refl)) as [c Hc]; [discriminate|]); unfold v_file_contents, v_get; cbn [fst]; rewrite Hc; cbn; eauto. }
  destruct T as [t T]. rewrite T. cbn [rbind]. eauto.
Qed.
Lemma subs_total v m mem : vinv v m -> (forall p, In p (map fst mem) -> exists t, m p = Some (CText t)) -> exists s, subscriptions v mem = Ok s.
Proof.
  intros I. induction mem as [|[p z] mem IH]; intros H; cbn [subscriptions]; [eauto|]. destruct (H p (or_introl eq_refl)) as [t Ht]. pose proof (lookup_inv _ _ p I) as L. rewrite Ht in L. destruct L as (i & L & _). rewrite L. cbn [rbind runwrap]. destruct (IH (fun q X => H q (or_intror X))) as [s ->]. cbn [rbind]. eauto.
Qed.
Lemma compute_total db s : (forall i, In i s -> exists t, aget Nat.eq_dec i db = Some t /\ fits_u32 (S (blen t)) = true) -> exists ds, compute_diagnostics db s = Ok ds.
Proof.
  induction s as [|i s IH]; intros H; cbn [compute_diagnostics]; [eauto|]. destruct (H i (or_introl eq_refl)) as (t & Ht & F). rewrite Ht. cbn [runwrap rbind]. destruct (C54_published t F) as (_ & _ & ls & _ & _ & P & _). rewrite P. cbn [rbind]. destruct (IH (fun j X => H j (or_intror X))) as [ds ->]. cbn [rbind]. eauto.
Qed.
Lemma publish_total l : forall g, (forall i, In i l -> i < length (v_paths (g_vfs g))) -> exists g', publish g l = Ok g'.
Proof.
  induction l as [|f l IH]; intros g H; cbn [publish]; [eauto|]. unfold v_file_path, interner_lookup. destruct (nth_error (v_paths (g_vfs g)) f) as [q|] eqn:E; [|apply nth_error_None in E; specialize (H f (or_introl eq_refl)); lia]. cbn [runwrap rbind]. apply IH. intros i X. apply H. now right.
Qed.
(** Open documents are small enough. *)
Definition small (d : docs) : Prop := forall p v t, d p = Some (v, t) -> fits_u32 (S (blen t)) = true.
Lemma mirrors_open g m d p z : mirrors g m d -> aget string_dec p (g_mem_docs g) = Some z -> exists t, d p = Some (z, t) /\ m p = Some (CText t).
Proof. intros R H. specialize (R p). destruct (d p) as [[v t]|]; [|congruence]. destruct R as [R1 R2]. exists t. split; [|exact R2]. congruence. Qed.
Lemma maybe_total g m d : minv (g_vfs g) (g_mem_docs g) (g_db g) m -> v_changes (g_vfs g) = [] -> mirrors g m d -> small d -> exists g', maybe_update_diagnostics g = Ok g'.
Proof.
  intros M Ch R S. unfold maybe_update_diagnostics. destruct (subs_total _ _ (g_mem_docs g) (mi_vfs _ _ _ _ M)) as [s Hs].
  { intros p Hp. apply aget_in in Hp as [z Hz]. destruct (mirrors_open _ _ _ _ _ R Hz) as (t & _ & Ht). eauto. }
  rewrite Hs. cbn [rbind]. destruct (compute_total (g_db g) s) as [ds ->]; [|cbn [rbind]; eauto].
  intros i Hi. apply (subs_spec _ _ _ (mi_vfs _ _ _ _ M) _ Hs) in Hi as (p & Hp & Fi). apply aget_in in Hp as [z Hz]. destruct (mirrors_open _ _ _ _ _ R Hz) as (t & Hd & Ht). exists t. split; [|eauto].
  unfold v_file_id, interner_get in Fi. destruct (index_of p (v_paths (g_vfs g))) as [j|] eqn:E; [|discriminate]. assert (j = i) by (destruct (v_get (g_vfs g) j) as [[x|]| |]; cbn in Fi; congruence). subst j.
  pose proof (mi_db _ _ _ _ M p i E) as B. rewrite Ch in B. cbn [last_kind] in B. rewrite Ht in B. destruct B as [B|[_ B]]; [exact B|discriminate].
Qed.
(** Every recorded file that should exist does. *)
Definition recs_ok (v : vfs) (m : fmap) : Prop := forall i k, In (i, k) (v_changes v) -> k <> Delete -> exists p, index_of p (v_paths v) = Some i /\ m p <> None.
Lemma after_total g m d K : minv (g_vfs g) (g_mem_docs g) (g_db g) m -> recs_ok (g_vfs g) m -> mirrors g m d -> small d -> dinv g -> (forall p, shown g K p \/ changed_ids g p) ->
  (forall i, In i (co_changes (g_diagnostics g)) -> aget Nat.eq_dec i (co_native (g_diagnostics g)) <> None) -> exists g', after_event g = Ok g'.
Proof.
  intros M RO R S D _ C. unfold after_event. assert (P : exists g1 b, process_changes g = Ok (g1, b)).
  { unfold process_changes, v_take_changes. destruct (v_changes (g_vfs g)) as [|f l] eqn:E; [eauto|]. rewrite <- E. destruct (collect_total (mkVfs (v_paths (g_vfs g)) (v_data (g_vfs g)) []) (v_changes (g_vfs g))) as [r ->]; [|cbn [rbind]; eauto].
    intros i k X Nk. destruct (RO i k X Nk) as (p & Hp & Hm). cbn [v_data]. pose proof (minv_get _ _ _ _ _ _ M Hp) as G. destruct (mi_vfs _ _ _ _ M) as [N L _]. apply index_of_some in Hp as [_ Hl]. destruct (m p) as [c|]; [|contradiction]. exists c. rewrite (nth_error_nth' _ None) by lia. now rewrite <- G. }
  destruct P as (g1 & b & P). rewrite P. cbn [rbind]. destruct (minv_process _ _ _ _ P M) as (M1 & C1 & E1 & P1 & _ & _).
  assert (Q1 : g_diagnostics g1 = g_diagnostics g) by (clear -P; unfold process_changes in P; destruct (v_take_changes _) as [v [|f l]]; [now injection P as <- _|]; apply rbind_inv in P as (? & _ & P); now injection P as <- _).
  assert (U : exists g2, (if b then maybe_update_diagnostics g1 else Ok g1) = Ok g2 /\ g_diagnostics g2 = g_diagnostics g /\ v_paths (g_vfs g2) = v_paths (g_vfs g)).
  { destruct b; [|exists g1; auto]. destruct (maybe_total g1 m d M1 C1) as [g2 H2]; [intros p; rewrite E1; apply R|exact S|]. exists g2. apply maybe_update_core in H2 as X. destruct X as (EC & ED & _). injection EC as X1 _ _. rewrite X1. split; [exact H2|]. split; congruence. }
  destruct U as (g2 & -> & Q2 & P2). cbn [rbind]. destruct (coll_take_changes (g_diagnostics g2)) as [c l] eqn:T. destruct l as [l|]; [|eauto]. apply publish_total. cbn. rewrite P2. intros i Hi.
  unfold coll_take_changes in T. rewrite Q2 in T. assert (Hi' : In i (co_changes (g_diagnostics g))) by (destruct (co_changes (g_diagnostics g)); [discriminate|injection T as _ <-; exact Hi]). specialize (C i Hi'). destruct (aget Nat.eq_dec i (co_native (g_diagnostics g))) eqn:A; [|contradiction]. exact (di_native _ D _ _ A).
Qed.

(** Loading. *)
Ltac fits F := refine (fits_le _ _ _ F); clear F; lia.
Definition recs_kept (v : vfs) (m : fmap) (l : list (path * option contents)) : Prop := forall i k, In (i, k) (v_changes v) -> k <> Delete -> exists p, index_of p (v_paths v) = Some i /\ m p <> None /\ ~ In (p, None) l.
Lemma settled_tail d x l : settled d (x :: l) -> settled d l.
Proof. intros H a p c b E. subst l. exact (H (x :: a) p c b eq_refl). Qed.
Lemma load_total l : forall g m d rest, minv (g_vfs g) (g_mem_docs g) (g_db g) m -> mirrors g m d -> settled d (l ++ rest) -> recs_kept (g_vfs g) m (l ++ rest) -> fits_u32 (S (length (v_paths (g_vfs g)) + length l)) = true ->
  exists g' m', load_files g l = Ok g' /\ minv (g_vfs g') (g_mem_docs g') (g_db g') m' /\ mirrors g' m' d /\ recs_kept (g_vfs g') m' rest /\ length (v_paths (g_vfs g')) <= length (v_paths (g_vfs g)) + length l.
Proof.
  induction l as [|[p c] l IH]; intros g m d rest M R St RK F; cbn [load_files app length] in *; [exists g, m; split; [reflexivity|]; split; [exact M|]; split; [exact R|]; split; [exact RK|lia]|].
  assert (RT : recs_kept (g_vfs g) m (l ++ rest)) by (intros i k X Nk; destruct (RK i k X Nk) as (q & H1 & H2 & H3); exists q; repeat split; auto; intros Y; apply H3; now right).
  destruct (aget string_dec p (g_mem_docs g)) as [z|] eqn:Ep.
  - assert (F0 : fits_u32 (S (length (v_paths (g_vfs g)) + length l)) = true) by (fits F).
    destruct (IH g m d rest M R (settled_tail _ _ _ St) RT F0) as (g' & m' & H1 & H2 & H3 & H4 & H5). exists g', m'. split; [exact H1|]. split; [exact H2|]. split; [exact H3|]. split; [exact H4|lia].
  - assert (F1 : fits_u32 (S (length (v_paths (g_vfs g)))) = true) by (fits F).
    destruct (set_cases (g_vfs g) m p c (mi_vfs _ _ _ _ M)) as [[_ X]|(v & b & H1 & I1 & S1 & L1 & P1 & Hc)]; [congruence|]. rewrite H1. cbn [rbind].
    pose proof (minv_set _ _ _ _ _ _ _ _ M H1 (or_introl Ep)) as M1.
    assert (Dp : d p = None) by (pose proof (R p) as Rp; destruct (d p) as [[zz t]|]; [destruct Rp; congruence|reflexivity]).
    assert (R1 : mirrors (with_vfs v g) (fset m p c) d).
    { intros q. specialize (R q). cbn. unfold fset. destruct (String.eqb_spec q p) as [->|]; [now rewrite Dp|exact R]. }
    assert (RK1 : recs_kept v (fset m p c) (l ++ rest)).
    { assert (Old : forall i k, In (i, k) (v_changes (g_vfs g)) -> k <> Delete -> exists q, index_of q (v_paths v) = Some i /\ fset m p c q <> None /\ ~ In (q, None) (l ++ rest)).
      { intros i k X Nk. destruct (RK i k X Nk) as (q & J1 & J2 & J3). exists q. split; [exact (index_of_same _ _ _ _ S1 J1 (vi_nodup _ _ I1))|]. split; [|intros Y; apply J3; now right]. unfold fset. destruct (String.eqb_spec q p) as [->|]; [|exact J2]. destruct c as [c|]; [discriminate|]. elim J3. now left. }
      intros i k X Nk. destruct Hc as [(_ & _ & Hch)|(id & k' & _ & Hk & Hch & Hp)]; rewrite Hch in X; [eauto|]. apply in_app_iff in X as [X|[X|[]]]; [eauto|]. injection X as <- <-. exists p. unfold v_file_path, interner_lookup in Hp. destruct (nth_error (v_paths v) id) as [y|] eqn:Y; [|discriminate]. injection Hp as ->.
      split; [apply index_of_nth; [apply (vi_nodup _ _ I1)|exact Y]|]. unfold fset. rewrite String.eqb_refl. destruct c as [c|].
      - split; [discriminate|]. exact (St [] p c (l ++ rest) eq_refl Dp).
      - destruct k'; cbn in Hk; intuition congruence. }
    destruct (IH (with_vfs v g) (fset m p c) d rest M1 R1 (settled_tail _ _ _ St) RK1) as (g' & m' & J1 & J2 & J3 & J4 & J5); [cbn; fits F|]. cbn in J5. exists g', m'. split; [exact J1|]. split; [exact J2|]. split; [exact J3|]. split; [exact J4|lia].
Qed.
Lemma vfs_total ms : forall g m d, minv (g_vfs g) (g_mem_docs g) (g_db g) m -> mirrors g m d -> settled d (loaded ms) -> recs_kept (g_vfs g) m (loaded ms) -> fits_u32 (S (length (v_paths (g_vfs g)) + length (loaded ms))) = true ->
  exists g' m', handle_vfs g ms = Ok g' /\ minv (g_vfs g') (g_mem_docs g') (g_db g') m' /\ mirrors g' m' d /\ recs_ok (g_vfs g') m' /\ length (v_paths (g_vfs g')) <= length (v_paths (g_vfs g)) + length (loaded ms).
Proof.
  induction ms as [|[|l] ms IH]; intros g m d M R St RK F; cbn [handle_vfs loaded] in *.
  - exists g, m. split; [reflexivity|]. split; [exact M|]. split; [exact R|]. split; [|cbn; lia]. intros i k X Nk. destruct (RK i k X Nk) as (p & H1 & H2 & _). eauto.
  - eauto.
  - rewrite app_length in F. destruct (load_total l g m d (loaded ms) M R St RK) as (g1 & m1 & -> & M1 & R1 & RK1 & L1); [fits F|]. cbn [rbind].
    destruct (IH g1 m1 d M1 R1) as (g2 & m2 & H2 & M2 & R2 & RO & L2); [clear -St; induction l as [|x l IH]; [exact St|apply IH; now apply settled_tail in St]|exact RK1|fits F|]. exists g2, m2. rewrite app_length. split; [exact H2|]. split; [exact M2|]. split; [exact R2|]. split; [exact RO|lia].
Qed.

(** One event. *)
Definition misc (g : gstate) := (g_outgoing g, g_next_id g, g_config_version g).
Lemma maybe_misc g g' : maybe_update_diagnostics g = Ok g' -> misc g' = misc g.
Proof. intros H. apply rbind_inv in H as (s & _ & H). apply rbind_inv in H as (ds & _ & H). injection H as <-. auto. Qed.
Lemma publish_misc l : forall g g', publish g l = Ok g' -> misc g' = misc g.
Proof. induction l as [|f l IH]; intros g g' H; cbn [publish] in H; [now injection H as <-|]. apply rbind_inv in H as (p & _ & H). apply IH in H. exact H. Qed.
Lemma after_misc g g' : after_event g = Ok g' -> misc g' = misc g.
Proof.
  intros H. unfold after_event in H. apply rbind_inv in H as ([g1 b] & H1 & H). apply rbind_inv in H as (g2 & H2 & H).
  assert (E1 : misc g1 = misc g). { unfold process_changes in H1. destruct (v_take_changes (g_vfs g)) as [v [|f l]]; [now injection H1 as <- _|]. apply rbind_inv in H1 as (ch & _ & H1). now injection H1 as <- _. }
  assert (E2 : misc g2 = misc g1) by (destruct b; [now apply maybe_misc|now injection H2 as <-]).
  destruct (coll_take_changes (g_diagnostics g2)) as [c [l|]]; [apply publish_misc in H|injection H as <-]; [rewrite H|]; cbn; now rewrite <- E1, <- E2.
Qed.
Lemma respond_misc id o g : misc (respond id o g) = misc g.
Proof. unfold respond. destruct (aget _ _ _); reflexivity. Qed.
Lemma request_misc g q : misc (on_request g q) = misc g.
Proof. unfold on_request. destruct (g_shutdown _); [now rewrite respond_misc|]. destruct (String.eqb _ _); [destruct (q_params q); now rewrite respond_misc|]. destruct (String.eqb _ _); [destruct (q_params q); [reflexivity|now rewrite respond_misc]|now rewrite respond_misc]. Qed.
Lemma task_misc g : misc (handle_task g) = misc g.
Proof. unfold handle_task. change (misc g) with (misc (with_tasks [] g)). generalize (with_tasks [] g) as g0. induction (g_tasks g) as [|t l IH]; intros g0; cbn [fold_left]; [reflexivity|]. rewrite IH. destruct t; cbn [run_task]; [apply respond_misc|reflexivity]. Qed.
Lemma load_misc l : forall g g', load_files g l = Ok g' -> misc g' = misc g.
Proof. induction l as [|[p c] l IH]; intros g g' H; cbn [load_files] in H; [now injection H as <-|]. destruct (aget _ _ _); [eauto|]. apply rbind_inv in H as ([v b] & _ & H). now apply IH in H. Qed.
Lemma vfs_misc ms : forall g g', handle_vfs g ms = Ok g' -> misc g' = misc g.
Proof. induction ms as [|[|l] ms IH]; intros g g' H; cbn [handle_vfs] in H; [now injection H as <-|eauto|]. apply rbind_inv in H as (g1 & H1 & H). apply IH in H. apply load_misc in H1. congruence. Qed.

Definition asked (g : gstate) (out : list Z) : Prop := forall id, In id out -> aget rid_eq_dec (RNum id) (g_outgoing g) = Some tt.
Record TI (g : gstate) (m : fmap) (d : docs) (n : nat) (out : list Z) (w : nat) : Prop := mkTI {
  ti_di : exists K, DI g m K; ti_mir : mirrors g m d; ti_small : small d; ti_next : g_next_id g = n; ti_out : asked g out; ti_paths : length (v_paths (g_vfs g)) <= w; ti_ver : g_config_version g <= w }.
Lemma recs_set v m p c v' b : vinv v m -> set_file_contents v p (Some c) = Ok (v', b) -> v_changes v = [] -> recs_ok v' (fset m p (Some c)) /\ length (v_paths v') <= S (length (v_paths v)).
Proof.
  intros I H Ch. destruct (set_cases v m p (Some c) I) as [[X _]|(v1 & b1 & E & I1 & S1 & L1 & _ & Hc)]; [congruence|]. rewrite H in E. injection E as <- <-. split; [|exact L1]. intros i k X Nk. destruct Hc as [(_ & _ & Hch)|(id & k' & _ & Hk & Hch & Hp)]; rewrite Hch, Ch in X; [destruct X|].
  destruct X as [X|[]]. injection X as <- <-. unfold v_file_path, interner_lookup in Hp. destruct (nth_error (v_paths v') id) as [y|] eqn:Y; [|discriminate]. injection Hp as ->. exists p. split; [apply index_of_nth; [apply (vi_nodup _ _ I1)|exact Y]|]. unfold fset. rewrite String.eqb_refl. discriminate.
Qed.
Lemma mirrors_dset g g' m d p v t : mirrors g m d -> g_mem_docs g' = aset string_dec p v (g_mem_docs g) -> mirrors g' (fset m p (Some (CText t))) (dset d p (Some (v, t))).
Proof. intros R E q. specialize (R q). rewrite E, aget_aset. unfold dset, fset. destruct (String.eqb_spec q p) as [->|]; destruct (string_dec _ _); try congruence; auto. Qed.
Lemma absolute_iff l : Forall (fun s => exists r, s = String "/"%char r) l -> forallb is_absolute l = true.
Proof. induction 1 as [|s l (r & ->) _ IH]; cbn; [reflexivity|exact IH]. Qed.
Lemma dispatch_total g e m d n out w d' n' out' : TI g m d n out w -> Polite d n out e d' n' out' -> fits_u32 (S (w + weight e)) = true ->
  exists g1 m1, dispatch_event g e = Ok g1 /\ minv (g_vfs g1) (g_mem_docs g1) (g_db g1) m1 /\ recs_ok (g_vfs g1) m1 /\ small d' /\ g_next_id g1 = n' /\ asked g1 out' /\ length (v_paths (g_vfs g1)) <= w + weight e /\ g_config_version g1 <= w + weight e.
Proof.
  intros [[K (I & D & F & C & Sh)] R Sm Nx Ou LP LV] P W. pose proof (proj1 I) as M. pose proof (proj2 I) as Ch.
  assert (Same : forall g1, core g1 = core g -> misc g1 = misc g -> minv (g_vfs g1) (g_mem_docs g1) (g_db g1) m /\ recs_ok (g_vfs g1) m /\ g_next_id g1 = n /\ asked g1 out /\ length (v_paths (g_vfs g1)) <= w + weight e /\ g_config_version g1 <= w + weight e).
  { intros g1 E1 E2. split; [now apply (core_minv g)|]. injection E1 as X1 X2 X3. injection E2 as Y1 Y2 Y3. unfold recs_ok, asked. rewrite X1, Ch, Y1, Y2, Y3. split; [intros i k []|]. split; [exact Nx|]. split; [exact Ou|]. split; clear -LP LV; lia. }
  assert (W1 : weight e = 1 -> fits_u32 (S (length (v_paths (g_vfs g)))) = true) by (intros E; refine (fits_le _ _ _ W); clear W; lia).
  destruct P as [d n out q|d n out p v t Ft|d n out p v cs v0 t u Hd Hc Fu|d n out p v cs Hd|d n out p|d n out s v t|d n out s v cs|d n out s|d n out u|d n out mm|d n out|d n out id err r Hin Habs|d n out|d n out mm ms St]; cbn [dispatch_event handle_lsp on_notification weight] in *.
  - exists (on_request g q), m. destruct (Same _ (on_request_core g q) (request_misc g q)) as (A1 & A2 & A3 & A4 & A5 & A6). split; [reflexivity|]. split; [exact A1|]. split; [exact A2|]. split; [exact Sm|]. auto.
  - destruct (set_spec (g_vfs g) m p (Some (CText t)) (mi_vfs _ _ _ _ M) (W1 eq_refl)) as (v' & b & H1 & I1 & S1 & L1 & Hb). cbn [did_open abs_path]. rewrite H1. cbn [rbind].
    pose proof (minv_set _ _ _ _ _ _ _ _ M H1 (or_intror (ex_intro _ t eq_refl))) as M2. destruct (recs_set _ _ _ _ _ _ (mi_vfs _ _ _ _ M) H1 Ch) as [RO L2].
    set (g0 := with_vfs v' (with_mem_docs (aset string_dec p v (g_mem_docs g)) g)). assert (M3 : minv (g_vfs g0) (g_mem_docs g0) (g_db g0) (fset m p (Some (CText t)))) by (cbn; apply minv_mem_set with t; [exact M2|unfold fset; now rewrite String.eqb_refl]).
    assert (Sm' : small (dset d p (Some (v, t)))) by (intros q vv tt; unfold dset; destruct (String.eqb q p); [intros X; injection X as _ <-; exact Ft|apply Sm]).
    assert (G : exists g1, (if b then Ok g0 else maybe_update_diagnostics g0) = Ok g1 /\ core g1 = core g0 /\ misc g1 = misc g0).
    { destruct b; [eauto|]. destruct Hb as [(_ & _ & Hv)|(id & k & X & _)]; [|discriminate]. destruct (maybe_total g0 _ (dset d p (Some (v, t))) M3) as [g1 H2]; [cbn; congruence|now apply (mirrors_dset g)|exact Sm'|]. exists g1. split; [exact H2|]. split; [now apply maybe_update_core in H2|now apply maybe_misc]. }
    destruct G as (g1 & -> & E1 & E2). exists g1, (fset m p (Some (CText t))). split; [reflexivity|]. split; [now apply (core_minv g0)|]. injection E1 as X1 X2 X3. injection E2 as Y1 Y2 Y3. unfold asked. rewrite X1, Y1, Y2, Y3. cbn. split; [exact RO|]. split; [exact Sm'|]. split; [exact Nx|]. split; [exact Ou|]. split; clear -LP LV L2; lia.
  - pose proof (R p) as Rp. rewrite Hd in Rp. destruct Rp as [R1 R2]. cbn [did_change abs_path]. rewrite R1. pose proof (lookup_inv _ _ p (mi_vfs _ _ _ _ M)) as L. rewrite R2 in L. destruct L as (id & L1 & L2 & _). rewrite L1. cbn [rbind runwrap]. rewrite L2. cbn [rbind runwrap as_utf8].
    assert (Ft : fits_u32 (blen t) = true) by (refine (fits_le _ _ _ (Sm _ _ _ Hd)); clear; lia). rewrite (C43_sequential t cs u Ft Hc). cbn [rbind].
    destruct (set_spec (g_vfs g) m p (Some (CText u)) (mi_vfs _ _ _ _ M) (W1 eq_refl)) as (v' & b & H1 & I1 & S1 & L3 & Hb). rewrite H1. cbn [rbind]. pose proof (minv_set _ _ _ _ _ _ _ _ M H1 (or_intror (ex_intro _ u eq_refl))) as M2. destruct (recs_set _ _ _ _ _ _ (mi_vfs _ _ _ _ M) H1 Ch) as [RO L4].
    eexists. exists (fset m p (Some (CText u))). split; [reflexivity|]. cbn. split; [apply minv_mem_set with u; [exact M2|unfold fset; now rewrite String.eqb_refl]|]. split; [exact RO|]. split; [intros q vv tt; unfold dset; destruct (String.eqb q p); [intros X; injection X as _ <-; exact Fu|apply Sm]|]. split; [exact Nx|]. split; [exact Ou|]. split; clear -LP LV L4; lia.
  - pose proof (R p) as Rp. rewrite Hd in Rp. cbn [did_change abs_path]. rewrite Rp. exists g, m. destruct (Same g eq_refl eq_refl) as (A1 & A2 & A3 & A4 & A5 & A6). split; [reflexivity|]. split; [exact A1|]. auto 10.
  - eexists. exists m. split; [reflexivity|]. cbn. split; [now apply minv_mem_del|]. destruct (Same g eq_refl eq_refl) as (A1 & A2 & A3 & A4 & A5 & A6). split; [exact A2|]. split; [intros q vv tt; unfold dset; destruct (String.eqb q p); [discriminate|apply Sm]|]. auto 10.
  - exists g, m. destruct (Same g eq_refl eq_refl) as (A1 & A2 & A3 & A4 & A5 & A6). split; [reflexivity|]. split; [exact A1|]. auto 10.
  - exists g, m. destruct (Same g eq_refl eq_refl) as (A1 & A2 & A3 & A4 & A5 & A6). split; [reflexivity|]. split; [exact A1|]. auto 10.
  - eexists. exists m. split; [reflexivity|]. destruct (Same g eq_refl eq_refl) as (A1 & A2 & A3 & A4 & A5 & A6). split; [exact A1|]. auto 10.
  - exists g, m. destruct (Same g eq_refl eq_refl) as (A1 & A2 & A3 & A4 & A5 & A6). split; [reflexivity|]. split; [exact A1|]. auto 10.
  - exists g, m. destruct (Same g eq_refl eq_refl) as (A1 & A2 & A3 & A4 & A5 & A6). split; [reflexivity|]. split; [exact A1|]. auto 10.
  - eexists. exists m. split; [reflexivity|]. destruct (Same g eq_refl eq_refl) as (A1 & A2 & A3 & A4 & A5 & A6). split; [exact A1|]. split; [exact A2|]. split; [exact Sm|]. split; [cbn; now rewrite Nx|]. split; [|auto].
    intros id Hid. cbn. rewrite aget_aset. destruct (rid_eq_dec (RNum id) (RNum (Z.of_nat (g_next_id g)))) as [E|E]; [reflexivity|]. destruct Hid as [Hid|Hid]; [congruence|now apply Ou].
  - unfold complete_request. cbn [s_id]. rewrite (Ou id Hin). cbn [runwrap rbind]. set (g0 := with_outgoing (adel rid_eq_dec (RNum id) (g_outgoing g)) (g_next_id g) g).
    assert (O' : asked g0 (remove Z.eq_dec id out)). { intros i Hi. cbn. rewrite aget_adel. apply in_remove in Hi as [Hi Ne]. destruct (rid_eq_dec (RNum i) (RNum id)) as [E|E]; [injection E as ->; contradiction|now apply Ou]. }
    assert (G : exists g1, on_config_response (mkResp (RNum id) err r) g0 = Ok g1 /\ core g1 = core g0 /\ g_outgoing g1 = g_outgoing g0 /\ g_next_id g1 = g_next_id g0 /\ g_config_version g1 <= S (g_config_version g)).
    { unfold on_config_response. cbn [s_error s_result]. assert (Z : exists g1, Ok g0 = Ok g1 /\ core g1 = core g0 /\ g_outgoing g1 = g_outgoing g0 /\ g_next_id g1 = g_next_id g0 /\ g_config_version g1 <= S (g_config_version g)) by (exists g0; repeat split; cbn; clear; lia).
      destruct err; [exact Z|]. destruct r as [[| | |[|j l]|]|]; try exact Z. specialize (Habs j l eq_refl eq_refl). unfold update_configuration. destruct (list_eq_dec _ _ _) as [E|E]; [eexists; split; [reflexivity|]; repeat split; cbn; clear; lia|].
      assert (A : config_update (g_config g0) j = config_from_json j) by (destruct j as [| | | |[|kv kvs]]; cbn in E |- *; try reflexivity; contradiction). rewrite A, (absolute_iff _ Habs). cbn [rassert rbind].
      assert (FV : fits_u32 (g_config_version g0 + 1) = true) by (refine (fits_le _ _ _ W); cbn; clear W; lia). unfold uadd. rewrite FV. cbn [rbind]. eexists. split; [reflexivity|]. repeat split. cbn. clear. lia. }
    destruct G as (g1 & -> & E1 & E2 & E3 & E4). exists g1, m. split; [reflexivity|]. split; [apply (core_minv g0); [exact E1|exact M]|]. injection E1 as X1 X2 X3. unfold recs_ok, asked. rewrite X1, E2, E3. cbn. rewrite Ch. split; [intros i k []|]. split; [exact Sm|]. split; [exact Nx|]. split; [exact O'|]. split; clear -LP LV E4; lia.
  - exists (handle_task g), m. destruct (Same _ (handle_task_core g) (task_misc g)) as (A1 & A2 & A3 & A4 & A5 & A6). split; [reflexivity|]. split; [exact A1|]. auto 10.
  - destruct (vfs_total (mm :: ms) g m d M R St) as (g1 & m1 & H1 & M1 & R1 & RO & L1); [intros i k X; rewrite Ch in X; destruct X|refine (fits_le _ _ _ W); clear W; lia|].
    exists g1, m1. split; [exact H1|]. split; [exact M1|]. split; [exact RO|]. split; [exact Sm|]. apply vfs_misc in H1. injection H1 as Y1 Y2 Y3. unfold asked. rewrite Y1, Y2, Y3. split; [exact Nx|]. split; [exact Ou|]. split; clear -LP LV L1; lia.
Qed.
Lemma handle_total g e m d n out w d' n' out' : TI g m d n out w -> Polite d n out e d' n' out' -> fits_u32 (S (w + weight e)) = true ->
  exists g' m', handle_event g e = Ok g' /\ TI g' m' d' n' out' (w + weight e).
Proof.
  intros T P W. destruct (dispatch_total _ _ _ _ _ _ _ _ _ _ T P W) as (g1 & m1 & H1 & M1 & RO & Sm & Nx & Ou & LP & LV). destruct T as [[K (I & D & F & C & Sh)] R _ _ _ _ _].
  destruct (dispatch_mirrors _ _ _ _ _ _ H1 (proj1 I) R (polite_client _ _ _ _ _ _ _ P)) as (m2 & M2 & R2). destruct (dispatch_diag g e g1 m m2 K H1 I M2 D F C Sh) as (D1 & F1 & S1 & C1 & _ & _).
  destruct (after_total g1 m2 d' (adds K e) M2) as [g' H2]; auto. { intros i k X Nk. destruct (RO i k X Nk) as (p & Hp & Hm). exists p. split; [exact Hp|]. now rewrite <- (minv_unique _ _ _ _ _ _ _ M1 M2 p). }
  destruct (after_inv _ _ _ H2 M2) as (I2 & Em & Ep). destruct (after_diag g1 g' m2 (adds K e) H2 M2 D1 F1 S1 C1) as (J & _). exists g', m2. unfold handle_event. rewrite H1. cbn [rbind]. split; [exact H2|]. apply after_misc in H2. injection H2 as Y1 Y2 Y3.
  split; [eauto|intros p; rewrite Em; apply R2|exact Sm|congruence|intros id Hid; rewrite Y1; now apply Ou|now rewrite Ep|now rewrite Y3].
Qed.

(** * C50 *)
(** No history of a polite client and of settled loader events makes the server panic. *)
Theorem C50_no_panic_partial : forall c es, PoliteRun no_docs 0 [] es -> fits_u32 (S (total es)) = true -> exists g, run (g_new c) es = Ok g.
Proof.
  intros c es P W. destruct (new_DI c) as [I R]. assert (T : TI (g_new c) no_files no_docs 0 [] 0) by (split; [eauto|exact R|intros p v t X; discriminate|reflexivity|intros id []|apply le_n|apply le_n]).
  enough (G : forall g m d n out w, PoliteRun d n out es -> fits_u32 (S (w + total es)) = true -> TI g m d n out w -> exists g', run g es = Ok g') by exact (G _ _ _ _ _ 0 P W T). clear.
  induction es as [|e es IH]; intros g m d n out w P W T; [exists g; reflexivity|]. inversion P as [|a0 b0 c0 e0 d' n' out' es0 P1 P2]; subst. change (total (e :: es)) with (weight e + total es) in W. rewrite run_cons by (eapply Client_not_exit, polite_client; eauto).
  destruct (handle_total _ _ _ _ _ _ _ _ _ _ T P1) as (g' & m' & H & T'); [refine (fits_le _ _ _ W); clear W; lia|]. rewrite H. cbn [rbind]. apply (IH g' m' d' n' out' (w + weight e)); auto. refine (fits_le _ _ _ W). clear W. lia.
Qed.
Print Assumptions C50_no_panic_partial.

Definition C50_events : list event :=
  [EVfs (VLoaded [("/a"%string, Some (CText (txt "x = 1")))]) [VProgress; VLoaded [("/b"%string, None)]]; ELsp (MNot (NOpen (UFile "/a"%string) 1 (txt "x =")));
   EVfs (VLoaded [("/a"%string, Some (CRaw 7)); ("/a"%string, None)]) []; ELsp (MNot NConfig); ELsp (MReq (mkReq (RNum 1) "shutdown" true));
   ELsp (MNot (NChange (UFile "/a"%string) 2 [mkChange None (txt "f( )")])); ELsp (MResp (mkResp (RNum 0) false (Some (JArr [JObj [("workspace"%string, JObj [("library"%string, JArr [JStr "/lib"])])]])))); ETask; ELsp (MNot (NClose (UFile "/a"%string)))].
Example C50_case : PoliteRun no_docs 0 [] C50_events /\ fits_u32 (S (total C50_events)) = true /\ match run (g_new []) C50_events with Ok g => g_config g = ["/lib"%string] | _ => False end.
Proof.
  split; [|split; [reflexivity|vm_compute; reflexivity]].
  eapply PR_cons; [apply Po_loaded|]. { cbn. intros [|x a] p c b E Hd. - injection E as <- _ <-. intros [X|[]]. discriminate. - injection E as _ E. destruct a as [|y a]; [discriminate|injection E as _ E; destruct a; discriminate]. }
  eapply PR_cons; [apply Po_open; reflexivity|].
  eapply PR_cons; [apply Po_loaded|]. { cbn. intros [|x a] p c b E Hd. - injection E as <- _ <-. discriminate. - injection E as _ E. destruct a as [|y a]; [discriminate|injection E as _ E; destruct a; discriminate]. }
  eapply PR_cons; [apply Po_config|]. eapply PR_cons; [apply Po_request|].
  eapply PR_cons; [apply (Po_change _ _ _ "/a"%string 2 _ 1 (txt "x =") (txt "f( )")); [reflexivity| |reflexivity]|]. { apply Chs_cons with (txt "f( )"); [reflexivity|apply Ch_full|constructor]. }
  eapply PR_cons; [apply Po_response; [now left|]|]. { intros j l _ E. injection E as <- _. vm_compute. repeat constructor. eexists. reflexivity. }
  eapply PR_cons; [apply Po_task|]. eapply PR_cons; [apply Po_close|]. apply PR_nil.
Qed.
(** The full claim does not ask loader events to be settled or configured paths to be absolute;
    each alone makes the server panic. *)
Theorem C50_refuted_loader : exists es, Forall (fun e => exists m ms, e = EVfs m ms) es /\ total es = 2 /\ run (g_new []) es = Panic.
Proof. exists [EVfs (VLoaded [("/a"%string, Some (CText (txt "x")))]) [VLoaded [("/a"%string, None)]]]. split; [repeat constructor; eauto|]. split; vm_compute; reflexivity. Qed.
Print Assumptions C50_refuted_loader.
Theorem C50_refuted_library : exists j, run (g_new []) [ELsp (MNot NConfig); ELsp (MResp (mkResp (RNum 0) false (Some (JArr [j]))))] = Panic.
Proof. exists (JObj [("workspace"%string, JObj [("library"%string, JArr [JStr "lib"])])]). vm_compute. reflexivity. Qed.
Print Assumptions C50_refuted_library.
(** So do a response with an unknown id and a notification whose parameters do not decode. *)
Theorem C50_refuted_messages : run (g_new []) [ELsp (MResp (mkResp (RNum 0) false None))] = Panic /\ run (g_new []) [ELsp (MNot NMalformed)] = Panic.
Proof. split; reflexivity. Qed.
Print Assumptions C50_refuted_messages.
