(** PropsFiles.v — which library files the server knows (C61) and what the loader sends (C63). *)
From Coq Require Import ZArith.
From Verif Require Import Base TextEdit LineIndex Vfs Ide Server PropsVfs PropsIde ServerInv PropsServer Loader PropsLoader.

(** * Specification *)
(** The client never opens [p]. *)
Definition never_opened (p : path) (r : list (fs * label)) : Prop := forall d z t, ~ In (d, LServer (ELsp (MNot (NOpen (UFile p) z t)))) r.
(** What the loader has to do is done: every configuration is received and worked off, every message
    received. *)
Definition settled (s : sys) : Prop := y_seen s = length (g_loads (y_server s)) /\ y_jobs s = [] /\ y_chan s = [].
(** [root] is a library of some configuration the loader was given. *)
Definition library (s : sys) (root : path) : Prop := exists v roots, In (v, roots) (g_loads (y_server s)) /\ In root roots.
(** The server knows file [p] with contents [c], and its database has its text (the empty text if it
    is not valid UTF-8). *)
Definition has_file (g : gstate) (p : path) (c : contents) : Prop :=
  exists id, v_file_id (g_vfs g) p = Ok (Some id) /\ v_file_contents (g_vfs g) id = Ok c /\ v_file_path (g_vfs g) id = Ok p /\
    aget Nat.eq_dec id (g_db g) = Some (match c with CText t => t | CRaw _ => [] end).
(** The disks the loader sees in a run, in order. *)
Fixpoint work_disks (r : list (fs * label)) : list fs :=
  match r with [] => [] | (d, LWork) :: r' => d :: work_disks r' | _ :: r' => work_disks r' end.
(** What the loader says about one configuration, [version] and its [n] roots: how many are done,
    starting with 0, and between these the files of each root. *)
Inductive Roots (version n : nat) : nat -> list path -> list fs -> list hmsg -> Prop :=
| Ro_nil i : Roots version n i [] [] []
| Ro_cons i root roots d d' ds ms : Roots version n (S i) roots ds ms ->
    Roots version n i (root :: roots) (d :: d' :: ds) (HLoaded (load_entry d root) :: HProgress n (S i) version :: ms).
Inductive Reports : list (nat * list path) -> list fs -> list hmsg -> Prop :=
| Re_nil : Reports [] [] []
| Re_cons version roots l d ds1 ms1 ds2 ms2 : Roots version (length roots) 0 roots ds1 ms1 -> Reports l ds2 ms2 ->
    Reports ((version, roots) :: l) (d :: ds1 ++ ds2) (HProgress (length roots) 0 version :: ms1 ++ ms2).
(** All results of reading [p] in a list of messages, in order. *)
Definition reads_in (p : path) (l : list (path * option contents)) : list (option contents) := map snd (filter (fun x => String.eqb (fst x) p) l).
Definition reads (p : path) (ms : list hmsg) : list (option contents) := flat_map (fun m => match m with HLoaded l => reads_in p l | HProgress _ _ _ => [] end) ms.

(** * The messages *)
Definition sinv (r : list (fs * label)) (s : sys) : Prop :=
  exists done, concat (map config_jobs (firstn (y_seen s) (g_loads (y_server s)))) = done ++ y_jobs s /\ y_seen s <= length (g_loads (y_server s)) /\
    length (work_disks r) = length done /\ y_sent s = map (fun x => do_job (fst x) (snd x)) (combine (work_disks r) done).

Lemma handle_loads_app g e g' : handle_event g e = Ok g' -> exists l, g_loads g' = g_loads g ++ l.
Proof.
  intros H. destruct (settings_total (g_config g) e) as [c' C]. destruct (handle_loads _ _ _ _ H C) as [_ [(_ & -> & _)|(_ & _ & -> & _)]]; [exists []; now rewrite app_nil_r|eauto].
Qed.
Lemma work_disks_app a b : work_disks (a ++ b) = work_disks a ++ work_disks b.
Proof. induction a as [|[d []] a IH]; cbn [app work_disks]; try exact IH; [reflexivity|]. now rewrite IH. Qed.
Lemma combine_app {A B} (a a' : list A) (b b' : list B) : length a = length b -> combine (a ++ a') (b ++ b') = combine a b ++ combine a' b'.
Proof. revert b. induction a as [|x a IH]; intros [|y b] H; try discriminate; cbn; [reflexivity|]. f_equal. apply IH. now injection H. Qed.
Lemma firstn_grow {A} (l l' : list A) n : n <= length l -> firstn n (l ++ l') = firstn n l.
Proof. intros H. rewrite firstn_app. replace (n - length l) with 0 by lia. apply app_nil_r. Qed.
Lemma firstn_snoc {A} (l : list A) : forall n x, nth_error l n = Some x -> firstn (S n) l = firstn n l ++ [x].
Proof. induction l as [|y l IH]; intros [|n] x H; try discriminate; cbn in *; [congruence|]. f_equal. now apply IH. Qed.
Lemma steps_snoc s r s1 d l s2 : steps s r s1 -> step d s1 l s2 -> steps s (r ++ [(d, l)]) s2.
Proof. induction 1; intros St; cbn [app]; [econstructor; [exact St|constructor]|]. econstructor; eauto. Qed.
(** Induction from the other end. *)
Lemma steps_ind_r (P : list (fs * label) -> sys -> Prop) s0 : P [] s0 ->
  (forall r s d l s', steps s0 r s -> P r s -> step d s l s' -> P (r ++ [(d, l)]) s') -> forall r s, steps s0 r s -> P r s.
Proof.
  intros H0 HS. enough (G : forall s1 r2 s2, steps s1 r2 s2 -> forall r1, steps s0 r1 s1 -> P r1 s1 -> P (r1 ++ r2) s2) by (intros r s H; apply (G s0 r s H []); [constructor|exact H0]).
  induction 1 as [s|s d l s1 r s2 St Ss IH]; intros r1 A B; [now rewrite app_nil_r|]. replace (r1 ++ (d, l) :: r) with ((r1 ++ [(d, l)]) ++ r) by now rewrite <- app_assoc. apply IH; [eapply steps_snoc; eauto|eapply HS; eauto].
Qed.
Lemma sinv_steps c r s : steps (sys_new c) r s -> sinv r s.
Proof.
  revert r s. apply steps_ind_r; [exists []; cbn; auto|]. intros r s d l s' _ (done & E1 & E2 & E3 & E4) St. unfold sinv. rewrite work_disks_app. inversion St; subst; clear St; cbn [y_server y_seen y_jobs y_chan y_sent work_disks]; rewrite ?app_nil_r.
  - destruct (handle_loads_app _ _ _ H1) as [k ->]. exists done. rewrite app_length, firstn_grow by exact E2. repeat split; auto; lia.
  - destruct (handle_loads_app _ _ _ H0) as [k ->]. exists done. rewrite app_length, firstn_grow by exact E2. repeat split; auto; lia.
  - rewrite H in E1. rewrite app_nil_r in E1. exists done. rewrite (firstn_snoc _ _ _ H0), map_app, concat_app, E1. cbn [map concat]. rewrite app_nil_r. repeat split; auto. apply nth_error_Some. congruence.
  - exists (done ++ [j]). rewrite <- app_assoc. cbn [app]. rewrite <- H. repeat split; auto.
    + rewrite !app_length, E3. reflexivity.
    + rewrite combine_app by exact E3. rewrite map_app, <- E4. reflexivity.
Qed.
Lemma roots_spec v n roots : forall i ds, length ds = length (entry_jobs v n i roots) -> Roots v n i roots ds (map (fun x => do_job (fst x) (snd x)) (combine ds (entry_jobs v n i roots))).
Proof.
  induction roots as [|root roots IH]; intros i ds H; cbn [entry_jobs] in *; [destruct ds; [constructor|discriminate]|]. destruct ds as [|d [|d' ds]]; try discriminate. cbn [combine map fst snd do_job]. replace (i + 1) with (S i) by lia. constructor. apply IH. cbn in H. lia.
Qed.
Lemma reports_spec l : forall ds, length ds = length (concat (map config_jobs l)) -> Reports l ds (map (fun x => do_job (fst x) (snd x)) (combine ds (concat (map config_jobs l)))).
Proof.
  induction l as [|[v roots] l IH]; intros ds H; cbn [map concat] in *; [destruct ds; [constructor|discriminate]|]. unfold config_jobs at 1 in H. unfold config_jobs at 1. cbn [fst snd app] in *. destruct ds as [|d ds]; [discriminate|]. cbn [combine map fst snd do_job].
  cbn [length] in H. rewrite app_length in H. rewrite <- (firstn_skipn (length (entry_jobs v (length roots) 0 roots)) ds). assert (L : length (firstn (length (entry_jobs v (length roots) 0 roots)) ds) = length (entry_jobs v (length roots) 0 roots)) by (rewrite firstn_length; lia).
  rewrite combine_app by exact L. rewrite map_app. constructor; [now apply roots_spec|]. apply IH. rewrite skipn_length. lia.
Qed.

(** C63: once the loader is done, it has sent exactly the reports of all configurations, in order,
    and one message per turn. *)
Theorem C63_reports : forall c r s, steps (sys_new c) r s -> settled s -> Reports (g_loads (y_server s)) (work_disks r) (y_sent s).
Proof.
  intros c r s H (E1 & E2 & E3). destruct (sinv_steps _ _ _ H) as (done & X1 & X2 & X3 & X4). rewrite E2, app_nil_r, E1, firstn_all in X1. subst done. rewrite X4. now apply reports_spec.
Qed.

(** The loader cannot be stuck or go on for ever: while it has something to do it can, on any disk,
    and the number of its steps is bounded. *)
Definition loader_label (l : label) : Prop := l = LTake \/ l = LWork.
Definition loader_idle (s : sys) : Prop := y_seen s = length (g_loads (y_server s)) /\ y_jobs s = [].
Theorem C63_progress : forall c r s d, steps (sys_new c) r s -> ~ loader_idle s -> exists l s', loader_label l /\ step d s l s'.
Proof.
  intros c r s d H N. destruct (sinv_steps _ _ _ H) as (_ & _ & L & _ & _). destruct (y_jobs s) as [|j js] eqn:J.
  - assert (Lt : y_seen s < length (g_loads (y_server s))). { destruct (Nat.eq_dec (y_seen s) (length (g_loads (y_server s)))); [elim N; split; auto|lia]. }
    destruct (nth_error (g_loads (y_server s)) (y_seen s)) as [x|] eqn:X; [|apply nth_error_None in X; lia]. exists LTake. eexists. split; [now left|]. econstructor; eauto.
  - exists LWork. eexists. split; [now right|]. econstructor; eauto.
Qed.
(** Steps still to do: one per message and one per configuration. *)
Definition todo (s : sys) : nat := length (y_jobs s) + list_sum (map (fun x => 2 + 2 * length (snd x)) (skipn (y_seen s) (g_loads (y_server s)))).
Lemma entry_jobs_length v n roots : forall i, length (entry_jobs v n i roots) = 2 * length roots.
Proof. induction roots as [|x l IH]; intros i; cbn [entry_jobs length]; [reflexivity|]. rewrite IH. lia. Qed.
Lemma skipn_nth {A} (l : list A) : forall n x, nth_error l n = Some x -> skipn n l = x :: skipn (S n) l.
Proof. induction l as [|y l IH]; intros [|n] x H; try discriminate; cbn in *; [congruence|]. now apply IH. Qed.
Theorem C63_bounded : forall s r s', steps s r s' -> (forall d l, In (d, l) r -> loader_label l) -> length r + todo s' = todo s /\ y_server s' = y_server s.
Proof.
  induction 1 as [s|s d l s1 r s2 St Ss IH]; intros F; [auto|]. destruct IH as [IH1 IH2]; [intros; eapply F; right; eauto|]. cbn [length]. destruct (F d l (or_introl eq_refl)) as [->| ->]; inversion St; subst; cbn [y_server] in *; (split; [|exact IH2]); unfold todo in *; cbn [y_server y_seen y_jobs] in *.
  - rewrite (skipn_nth _ _ _ H0). cbn [map list_sum fold_right]. rewrite H. unfold config_jobs in IH1. cbn [length] in *. rewrite entry_jobs_length in IH1. unfold list_sum in *. lia.
  - rewrite H. cbn [length]. lia.
Qed.

(** * The files *)
Lemma reads_in_app p a b : reads_in p (a ++ b) = reads_in p a ++ reads_in p b.
Proof. unfold reads_in. now rewrite filter_app, map_app. Qed.
Lemma last_app_default {A} (a b : list A) d : last (a ++ b) d = last b (last a d).
Proof. revert d. induction a as [|x a IH]; intros d; [reflexivity|]. cbn [app]. rewrite !last_cons_default. apply IH. Qed.
Lemma load_files_reads l : forall g g' m, load_files g l = Ok g' -> minv (g_vfs g) (g_mem_docs g) (g_db g) m ->
  exists m', minv (g_vfs g') (g_mem_docs g') (g_db g') m' /\ g_mem_docs g' = g_mem_docs g /\ forall p, aget string_dec p (g_mem_docs g) = None -> m' p = last (reads_in p l) (m p).
Proof.
  induction l as [|[p c] l IH]; intros g g' m H M; cbn [load_files] in H; [injection H as <-; eauto|]. destruct (aget string_dec p (g_mem_docs g)) eqn:E.
  - destruct (IH _ _ _ H M) as (m' & M' & E' & K). exists m'. repeat split; auto; try apply M'. intros q Hq. rewrite (K q Hq). unfold reads_in. cbn [filter fst]. destruct (String.eqb_spec p q) as [->|]; [congruence|reflexivity].
  - apply rbind_inv in H as ([v b] & H1 & H). pose proof (minv_set _ _ _ _ _ _ _ _ M H1 (or_introl E)) as M1. destruct (IH _ _ _ H M1) as (m' & M' & E' & K). exists m'. split; [exact M'|]. split; [exact E'|].
    intros q Hq. rewrite (K q Hq). unfold reads_in, fset. cbn [filter fst]. rewrite String.eqb_sym. destruct (String.eqb_spec p q) as [->|]; [|reflexivity]. cbn [map snd]. now rewrite last_cons_default.
Qed.
Lemma handle_vfs_reads hs : forall g g' m, handle_vfs g (map erase hs) = Ok g' -> minv (g_vfs g) (g_mem_docs g) (g_db g) m ->
  exists m', minv (g_vfs g') (g_mem_docs g') (g_db g') m' /\ g_mem_docs g' = g_mem_docs g /\ forall p, aget string_dec p (g_mem_docs g) = None -> m' p = last (reads p hs) (m p).
Proof.
  induction hs as [|[a b e|l] hs IH]; intros g g' m H M; cbn [map erase handle_vfs] in H; [injection H as <-; eauto|exact (IH _ _ _ H M)|].
  apply rbind_inv in H as (g1 & H1 & H). destruct (load_files_reads _ _ _ _ H1 M) as (m1 & M1 & E1 & K1). destruct (IH _ _ _ H M1) as (m2 & M2 & E2 & K2). exists m2. split; [exact M2|]. split; [congruence|].
  intros p Hp. rewrite (K2 p) by now rewrite E1. rewrite (K1 p Hp). unfold reads. cbn [flat_map]. now rewrite last_app_default.
Qed.
(** A client message keeps the files that are not opened and never were. *)
Lemma dispatch_keeps g e g' m p : (forall x y, e <> EVfs x y) -> (forall z t, e <> ELsp (MNot (NOpen (UFile p) z t))) -> dispatch_event g e = Ok g' -> minv (g_vfs g) (g_mem_docs g) (g_db g) m -> aget string_dec p (g_mem_docs g) = None ->
  exists m', minv (g_vfs g') (g_mem_docs g') (g_db g') m' /\ aget string_dec p (g_mem_docs g') = None /\ m' p = m p.
Proof.
  intros NV NO H M A. assert (Q : core g' = core g -> exists m', minv (g_vfs g') (g_mem_docs g') (g_db g') m' /\ aget string_dec p (g_mem_docs g') = None /\ m' p = m p).
  { intros E. exists m. split; [now apply (core_minv g)|]. injection E as E1 E2 E3. rewrite E2. auto. }
  destruct e as [[q|n|r]| |v vs]; cbn [dispatch_event handle_lsp] in H.
  - injection H as <-. apply Q, on_request_core.
  - destruct n as [u z t|u z cs|u|u| | | |k]; cbn [on_notification] in H; try discriminate; try (injection H as <-; apply Q; reflexivity).
    + destruct u as [q|s]; [|injection H as <-; now apply Q]. assert (Nq : p <> q) by (intros ->; eapply NO; reflexivity). destruct (did_open_minv _ _ _ _ _ _ H M) as [M1 E]. eexists. split; [exact M1|]. rewrite E, aget_aset. destruct (string_dec p q); [contradiction|]. split; [exact A|]. unfold fset. destruct (String.eqb_spec p q); [contradiction|reflexivity].
    + destruct u as [q|s]; [|injection H as <-; now apply Q]. destruct (did_change_minv _ _ _ _ _ _ H M) as [[_ ->]|(O1 & t & w & _ & _ & M1 & E)]; [now apply Q|]. assert (Nq : p <> q) by (intros ->; contradiction). eexists. split; [exact M1|]. rewrite E, aget_aset. destruct (string_dec p q); [contradiction|]. split; [exact A|]. unfold fset. destruct (String.eqb_spec p q); [contradiction|reflexivity].
    + injection H as <-. exists m. unfold did_close. destruct (abs_path u); cbn; [|auto]. split; [now apply minv_mem_del|]. split; [|reflexivity]. rewrite aget_adel. destruct (string_dec _ _); auto.
  - apply Q. now apply (complete_core r).
  - injection H as <-. apply Q, handle_task_core.
  - elim (NV v vs eq_refl).
Qed.
Lemma files_steps c r s : steps (sys_new c) r s -> forall p, never_opened p r ->
  exists taken m, y_sent s = taken ++ y_chan s /\ inv (y_server s) m /\ aget string_dec p (g_mem_docs (y_server s)) = None /\ m p = last (reads p taken) None.
Proof.
  revert r s. apply (steps_ind_r (fun r s => forall p, never_opened p r -> exists taken m, y_sent s = taken ++ y_chan s /\ inv (y_server s) m /\ aget string_dec p (g_mem_docs (y_server s)) = None /\ m p = last (reads p taken) None)).
  - intros p _. exists [], no_files. cbn. repeat split; try apply (new_inv c).
  - intros r s d l s' _ IH St p N. destruct (IH p) as (taken & m & E & I & A & Mp); [intros d0 z t X; eapply N; apply in_app_iff; left; exact X|]. destruct I as [I Ch]. inversion St; subst; clear St; cbn [y_server y_chan y_sent].
    + apply rbind_inv in H1 as (g1 & H1 & H2). assert (NO : forall z t, e <> ELsp (MNot (NOpen (UFile p) z t))) by (intros z t ->; eapply N; apply in_app_iff; right; now left).
      destruct (dispatch_keeps _ _ _ _ _ H NO H1 I A) as (m' & M' & A' & K). destruct (after_inv _ _ _ H2 M') as (I2 & E2 & _). exists taken, m'. rewrite E2, K. auto.
    + apply rbind_inv in H0 as (g1 & H1 & H2). destruct (handle_vfs_reads (h :: hs) _ _ _ H1 I) as (m' & M' & E' & K). destruct (after_inv _ _ _ H2 M') as (I2 & E2 & _). exists (taken ++ h :: hs), m'.
      rewrite E, H, <- app_assoc. rewrite E2, E'. split; [reflexivity|]. split; [exact I2|]. split; [exact A|]. rewrite (K p A), Mp. unfold reads. rewrite flat_map_app. now rewrite last_app_default.
    + exists taken, m. repeat split; auto; apply I.
    + exists taken, m. rewrite E, <- app_assoc. repeat split; auto; apply I.
Qed.
Lemma inv_has_file g m p : inv g m -> match m p with Some x => has_file g p x | None => v_file_id (g_vfs g) p = Ok None end.
Proof.
  intros [M Ch]. pose proof (lookup_inv _ _ p (mi_vfs _ _ _ _ M)) as L. destruct (m p) as [x|] eqn:E; [|exact L]. destruct L as (id & L1 & L2 & L3). exists id. repeat split; auto.
  unfold v_file_id, interner_get in L1. destruct (index_of p (v_paths (g_vfs g))) as [i|] eqn:Ei; [|discriminate]. apply rbind_inv in L1 as (y & _ & L1). destruct y; [|discriminate]. injection L1 as ->.
  pose proof (mi_db _ _ _ _ M p id Ei) as B. rewrite Ch in B. cbn [last_kind] in B. rewrite E in B. destruct B as [B|[_ B]]; [|discriminate]. rewrite B. destruct x; reflexivity.
Qed.

(** A file the client never opens is known with the result of its last read, if all messages are
    received. *)
Theorem C61_last_read : forall c r s p, steps (sys_new c) r s -> y_chan s = [] -> never_opened p r ->
  match last (reads p (y_sent s)) None with Some x => has_file (y_server s) p x | None => v_file_id (g_vfs (y_server s)) p = Ok None end.
Proof.
  intros c r s p H E N. destruct (files_steps _ _ _ H p N) as (taken & m & E1 & I & _ & Mp). rewrite E, app_nil_r in E1. rewrite E1, <- Mp. now apply inv_has_file.
Qed.

Lemma reads_in_in p l x : In x (reads_in p l) <-> In (p, x) l.
Proof.
  unfold reads_in. rewrite in_map_iff. split; [intros ((q & y) & <- & H); apply filter_In in H as [H E]; cbn in E; apply String.eqb_eq in E; now subst|]. intros H. exists (p, x). split; [reflexivity|]. apply filter_In. split; [exact H|apply String.eqb_refl].
Qed.
Lemma load_entry_in d root p x : In (p, x) (load_entry d root) <-> In (p, true) (fs_walk d root) /\ lua_file p /\ x = fs_read d p.
Proof.
  unfold load_entry. rewrite in_map_iff. rewrite <- C61_lua_files. split.
  - intros (q & E & H). injection E as -> <-. apply filter_In in H as [H L]. apply in_map_iff in H as ([q b] & E & H). cbn in E. subst q. apply filter_In in H as [H B]. cbn in B. subst b. auto.
  - intros (H & L & ->). exists p. split; [reflexivity|]. apply filter_In. split; [|exact L]. apply in_map_iff. exists (p, true). split; [reflexivity|]. apply filter_In. auto.
Qed.
Lemma roots_in v n i roots ds ms : Roots v n i roots ds ms -> forall h, In (HLoaded h) ms -> exists d root, In root roots /\ In d ds /\ h = load_entry d root.
Proof.
  induction 1 as [|i root roots d d' ds ms R IH]; intros h X; [destruct X|].
  destruct X as [E|[E|X]]; [injection E as <-; exists d, root; cbn; auto|discriminate|]. destruct (IH h X) as (d1 & root1 & A & C & D). exists d1, root1. cbn. auto.
Qed.
Lemma roots_all v n i roots ds ms : Roots v n i roots ds ms -> forall root, In root roots -> exists d, In d ds /\ In (HLoaded (load_entry d root)) ms.
Proof.
  induction 1 as [|i root roots d d' ds ms R IH]; intros root1 X; [destruct X|]. destruct X as [->|X]; [exists d; cbn; auto|]. destruct (IH root1 X) as (d1 & A & B). exists d1. cbn. auto.
Qed.
Lemma reports_in l ds ms : Reports l ds ms -> forall h, In (HLoaded h) ms -> exists d v roots root, In d ds /\ In (v, roots) l /\ In root roots /\ h = load_entry d root.
Proof.
  induction 1 as [|v roots l d ds1 ms1 ds2 ms2 R Re IH]; intros h X; [destruct X|]. destruct X as [X|X]; [discriminate|]. apply in_app_iff in X as [X|X].
  - destruct (roots_in _ _ _ _ _ _ R h X) as (d1 & root & A & C & D). exists d1, v, roots, root. split; [right; apply in_app_iff; now left|]. cbn. auto.
  - destruct (IH h X) as (d1 & v1 & roots1 & root1 & A & B & C & D). exists d1, v1, roots1, root1. split; [right; apply in_app_iff; now right|]. cbn. auto.
Qed.
Lemma reports_all l ds ms : Reports l ds ms -> forall v roots root, In (v, roots) l -> In root roots -> exists d, In d ds /\ In (HLoaded (load_entry d root)) ms.
Proof.
  induction 1 as [|v roots l d ds1 ms1 ds2 ms2 R Re IH]; intros v1 roots1 root1 X Y; [destruct X|]. destruct X as [X|X].
  - injection X as <- <-. destruct (roots_all _ _ _ _ _ _ R root1 Y) as (d1 & A & B). exists d1. split; right; apply in_app_iff; now left.
  - destruct (IH _ _ _ X Y) as (d1 & A & B). exists d1. split; right; apply in_app_iff; now right.
Qed.
Lemma reads_in_reads p x ms : In x (reads p ms) <-> exists h, In (HLoaded h) ms /\ In (p, x) h.
Proof.
  unfold reads. rewrite in_flat_map. split.
  - intros ([a b e|h] & A & B); [destruct B|]. apply reads_in_in in B. eauto.
  - intros (h & A & B). exists (HLoaded h). split; [exact A|]. now apply reads_in_in.
Qed.
Lemma work_disks_in r d : In d (work_disks r) -> In (d, LWork) r.
Proof. induction r as [|[d1 []] r IH]; cbn [work_disks]; intros H; [destruct H|right; auto|right; auto|right; auto|]. destruct H as [->|H]; [now left|right; auto]. Qed.
Lemma last_in {A} (l : list A) d : l <> [] -> In (last l d) l.
Proof. revert d. induction l as [|x l IH]; intros d N; [contradiction|]. rewrite last_cons_default. destruct l; [now left|]. right. apply IH. discriminate. Qed.

(** C61: once the loader is done, every Lua file below a library root that was there and readable
    with the same contents throughout is known with these contents. *)
Theorem C61_files_loaded : forall c r s root p x, steps (sys_new c) r s -> settled s -> library s root -> lua_file p ->
  (forall d, In (d, LWork) r -> In (p, true) (fs_walk d root) /\ fs_read d p = Some x) -> never_opened p r -> has_file (y_server s) p x.
Proof.
  intros c r s root p x H S0 (v & roots & L1 & L2) Lu D N. pose proof (C63_reports _ _ _ H S0) as R. pose proof (C61_last_read _ _ _ p H (proj2 (proj2 S0)) N) as Q.
  assert (All : forall y, In y (reads p (y_sent s)) -> y = Some x).
  { intros y Y. apply reads_in_reads in Y as (h & A & B). destruct (reports_in _ _ _ R _ A) as (d & _ & _ & root' & Dd & _ & _ & ->). apply load_entry_in in B as (_ & _ & ->). apply (D d). now apply work_disks_in. }
  destruct (reports_all _ _ _ R v roots root L1 L2) as (d & A & B). apply work_disks_in in A. destruct (D d A) as [D1 D2].
  assert (X : In (Some x) (reads p (y_sent s))) by (apply reads_in_reads; eexists; split; [exact B|]; apply load_entry_in; auto).
  assert (E : last (reads p (y_sent s)) None = Some x) by (apply All, last_in; intros E; rewrite E in X; destruct X). rewrite E in Q. exact Q.
Qed.
(** C61: every file the server knows was opened by the client or found, with these contents, as a Lua
    file below a library root. *)
Theorem C61_only : forall c r s p x, steps (sys_new c) r s -> has_file (y_server s) p x -> never_opened p r ->
  exists d root, In (d, LWork) r /\ library s root /\ In (p, true) (fs_walk d root) /\ lua_file p /\ fs_read d p = Some x.
Proof.
  intros c r s p x H (id & F1 & F2 & _) N. destruct (files_steps _ _ _ H p N) as (taken & m & E1 & I & _ & Mp). pose proof (inv_has_file _ _ p I) as Q. destruct (m p) as [y|] eqn:Em; [|congruence].
  destruct Q as (id' & G1 & G2 & _). assert (x = y) as -> by congruence. assert (X : In (Some y) (reads p (y_sent s))).
  { rewrite E1. unfold reads. rewrite flat_map_app. apply in_app_iff. left. fold (reads p taken). rewrite Mp. apply last_in. intros E. rewrite E in Mp. discriminate. }
  destruct (sinv_steps _ _ _ H) as (done & X1 & X2 & X3 & X4). apply reads_in_reads in X as (h & A & B). rewrite X4 in A. apply in_map_iff in A as ([d j] & A & C). cbn in A. destruct j as [|root]; [discriminate|]. injection A as <-.
  exists d, root. split; [apply work_disks_in; eapply in_combine_l; eauto|]. apply load_entry_in in B as (B1 & B2 & B3). split; [|auto].
  apply in_combine_r in C. assert (C1 : In (JLoad root) (concat (map config_jobs (firstn (y_seen s) (g_loads (y_server s)))))) by (rewrite X1; apply in_app_iff; now left).
  apply in_concat in C1 as (js & C1 & C2). apply in_map_iff in C1 as ([v roots] & <- & C1). exists v, roots. split; [rewrite <- (firstn_skipn (y_seen s)); apply in_app_iff; now left|].
  destruct C2 as [C2|C2]; [discriminate|]. cbn [fst snd] in C2. clear C1. revert C2. generalize 0 at 1. generalize (length roots). induction roots as [|z roots IH]; intros n i C2; cbn [entry_jobs] in C2; [destruct C2|]. destruct C2 as [C2|[C2|C2]]; [injection C2 as ->; now left|discriminate|]. right. eapply IH. exact C2.
Qed.

(** An example: the client sets /lib as library, whose walk finds a directory and three files. *)
Definition ex_disk : fs := mkFs
  (fun root => if String.eqb root "/lib" then [("/lib", false); ("/lib/a.lua", true); ("/lib/b.txt", true); ("/lib/c.lua", false); ("/lib/c.lua/d.lua", true)] else [])%string
  (fun p => if String.eqb p "/lib/a.lua" then Some (CText [120%N]) else if String.eqb p "/lib/c.lua/d.lua" then Some (CRaw 7) else None)%string.
Definition ex_run : list (fs * label) :=
  map (fun e => (ex_disk, LServer e)) (config_events ["/lib"%string] 0) ++ [(ex_disk, LTake); (ex_disk, LWork); (ex_disk, LWork); (ex_disk, LWork); (ex_disk, LVfs 2)].
(** Steps can be computed. *)
Definition do_step (d : fs) (s : sys) (l : label) : option sys :=
  match l with
  | LServer (EVfs _ _) => None
  | LServer (ELsp (MNot NExit)) => None
  | LServer e => match handle_event (y_server s) e with Ok g => Some (mkSys g (y_seen s) (y_jobs s) (y_chan s) (y_sent s)) | _ => None end
  | LVfs n => match y_chan s with
              | h :: t => if n <=? length t then
                            match handle_event (y_server s) (EVfs (erase h) (map erase (firstn n t))) with Ok g => Some (mkSys g (y_seen s) (y_jobs s) (skipn n t) (y_sent s)) | _ => None end
                          else None
              | [] => None
              end
  | LTake => match y_jobs s, nth_error (g_loads (y_server s)) (y_seen s) with [], Some c => Some (mkSys (y_server s) (S (y_seen s)) (config_jobs c) (y_chan s) (y_sent s)) | _, _ => None end
  | LWork => match y_jobs s with j :: js => Some (mkSys (y_server s) (y_seen s) js (y_chan s ++ [do_job d j]) (y_sent s ++ [do_job d j])) | [] => None end
  end.
Lemma do_step_sound d s l s' : do_step d s l = Some s' -> step d s l s'.
Proof.
  intros H. destruct l as [e|n| |]; cbn [do_step] in H.
  - assert (G : (forall m ms, e <> EVfs m ms) -> e <> ELsp (MNot NExit) -> match handle_event (y_server s) e with Ok g => Some (mkSys g (y_seen s) (y_jobs s) (y_chan s) (y_sent s)) | _ => None end = Some s' -> step d s (LServer e) s').
    { intros A B C. destruct (handle_event (y_server s) e) as [g| |] eqn:E; try discriminate. injection C as <-. now constructor. }
    destruct e as [[q|n|r]| |v vs]; try discriminate; [apply G; [discriminate|discriminate|exact H]|destruct n; try discriminate; (apply G; [discriminate|discriminate|exact H])|apply G; [discriminate|discriminate|exact H]|apply G; [discriminate|discriminate|exact H]].
  - destruct (y_chan s) as [|h t] eqn:C; [discriminate|]. destruct (Nat.leb_spec n (length t)); [|discriminate]. destruct (handle_event _ _) as [g| |] eqn:E; try discriminate. injection H as <-. replace n with (length (firstn n t)) at 1 by (rewrite firstn_length; lia). eapply St_vfs; [|exact E]. rewrite firstn_skipn. exact C.
  - destruct (y_jobs s) eqn:J; [|discriminate]. destruct (nth_error _ _) eqn:E; [|discriminate]. injection H as <-. now constructor.
  - destruct (y_jobs s) eqn:J; [discriminate|]. injection H as <-. now constructor.
Qed.
Fixpoint do_steps (s : sys) (r : list (fs * label)) : option sys :=
  match r with [] => Some s | (d, l) :: r' => match do_step d s l with Some s1 => do_steps s1 r' | None => None end end.
Lemma do_steps_sound r : forall s s', do_steps s r = Some s' -> steps s r s'.
Proof.
  induction r as [|[d l] r IH]; intros s s' H; cbn [do_steps] in H; [injection H as <-; constructor|]. destruct (do_step d s l) eqn:E; [|discriminate]. apply do_step_sound in E. econstructor; eauto.
Qed.
Example C61_ex : match do_steps (sys_new []) ex_run with Some s => (y_seen s, length (g_loads (y_server s)), y_jobs s, y_chan s) = (1, 1, [], []) /\
    g_loads (y_server s) = [(1, ["/lib"%string])] /\ y_sent s = [HProgress 1 0 1; HLoaded [("/lib/a.lua"%string, Some (CText [120%N])); ("/lib/c.lua/d.lua"%string, Some (CRaw 7))]; HProgress 1 1 1] /\
    v_paths (g_vfs (y_server s)) = ["/lib/a.lua"; "/lib/c.lua/d.lua"]%string | None => False end.
Proof. vm_compute. auto. Qed.
Example C61_ex_hyps : (lua_file "/lib/a.lua" /\ never_opened "/lib/a.lua" ex_run /\ (forall d, In (d, LWork) ex_run -> In ("/lib/a.lua"%string, true) (fs_walk d "/lib") /\ fs_read d "/lib/a.lua" = Some (CText [120%N])))%string.
Proof.
  split; [apply C61_lua_files; reflexivity|]. split; [intros d z t; cbn; intuition discriminate|]. intros d H. cbn in H. repeat (destruct H as [H|H]; [try discriminate; injection H as <-; cbn; auto|]). destruct H.
Qed.
Print Assumptions C61_files_loaded.
Print Assumptions C61_only.
Print Assumptions C61_last_read.
Print Assumptions C63_reports.
Print Assumptions C63_progress.
Print Assumptions C63_bounded.
