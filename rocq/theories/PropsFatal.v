(** PropsFatal.v — exactly which events make the main loop panic (C50). *)
From Coq Require Import ZArith.
From Verif Require Import Base TextEdit LineIndex Vfs Ide Server PropsTextEdit PropsLineIndex PropsVfs PropsIde ServerInv PropsServer PropsRequests PropsDiag PropsLoader PropsTotal.

(** * Specification *)

(** What a client and a loader have told the server: the open documents, the last contents known
    of each file, the number of requests the server has made, those not answered, and the
    configured libraries. *)
Record world := mkW { w_open : docs; w_files : path -> option contents; w_asked : nat; w_pending : list Z; w_config : list string }.
Definition start (c : list string) : world := mkW no_docs (fun _ => None) 0 [] c.

(** The contents known after some loader reports: reports of open files do not count. *)
Definition report (d : docs) (f : path -> option contents) (x : path * option contents) : path -> option contents :=
  match d (fst x) with Some _ => f | None => fun q => if String.eqb q (fst x) then snd x else f q end.
Definition reports (d : docs) (f : path -> option contents) (l : list (path * option contents)) : path -> option contents := fold_left (report d) l f.
(** Among the reports of one event some closed file gets new contents and is missing in the end. *)
Definition vanishes (d : docs) (f : path -> option contents) (l : list (path * option contents)) : Prop :=
  exists a p c b, l = a ++ (p, Some c) :: b /\ d p = None /\ reports d f a p <> Some c /\ reports d f l p = None.

(** The answer asks for other libraries than the current ones ([Settings] of PropsLoader.v) and one is
    not an absolute path. *)
Definition bad_config (c : list string) (r : response) : Prop :=
  exists c', Settings c (ELsp (MResp r)) c' /\ c' <> c /\ ~ Forall (fun s => exists rest, s = String "/"%char rest) c'.

(** The events that kill the server. *)
Inductive Fatal (w : world) : event -> Prop :=
| Fa_malformed : Fatal w (ELsp (MNot NMalformed))
| Fa_change p v cs v0 t : w_open w p = Some (v0, t) -> (forall u, apply_document_changes t cs <> Ok u) -> Fatal w (ELsp (MNot (NChange (UFile p) v cs)))
| Fa_unasked r : (forall id, s_id r = RNum id -> ~ In id (w_pending w)) -> Fatal w (ELsp (MResp r))
| Fa_config r : bad_config (w_config w) r -> Fatal w (ELsp (MResp r))
| Fa_vanishes m ms : vanishes (w_open w) (w_files w) (loaded (m :: ms)) -> Fatal w (EVfs m ms).

(** What the other events, exit apart, change. *)
Definition with_text (w : world) (p : path) (v : Z) (t : text) : world :=
  mkW (dset (w_open w) p (Some (v, t))) (fun q => if String.eqb q p then Some (CText t) else w_files w q) (w_asked w) (w_pending w) (w_config w).
Inductive Alive (w : world) : event -> world -> Prop :=
| Al_open p v t : Alive w (ELsp (MNot (NOpen (UFile p) v t))) (with_text w p v t)
| Al_change p v cs v0 t u : w_open w p = Some (v0, t) -> apply_document_changes t cs = Ok u -> Alive w (ELsp (MNot (NChange (UFile p) v cs))) (with_text w p v u)
| Al_orphan p v cs : w_open w p = None -> Alive w (ELsp (MNot (NChange (UFile p) v cs))) w
| Al_close p : Alive w (ELsp (MNot (NClose (UFile p)))) (mkW (dset (w_open w) p None) (w_files w) (w_asked w) (w_pending w) (w_config w))
| Al_config : Alive w (ELsp (MNot NConfig)) (mkW (w_open w) (w_files w) (S (w_asked w)) (Z.of_nat (w_asked w) :: w_pending w) (w_config w))
| Al_answer r id c : s_id r = RNum id -> In id (w_pending w) -> ~ bad_config (w_config w) r -> Settings (w_config w) (ELsp (MResp r)) c ->
    Alive w (ELsp (MResp r)) (mkW (w_open w) (w_files w) (w_asked w) (remove Z.eq_dec id (w_pending w)) c)
| Al_loaded m ms : ~ vanishes (w_open w) (w_files w) (loaded (m :: ms)) -> Alive w (EVfs m ms) (mkW (w_open w) (reports (w_open w) (w_files w) (loaded (m :: ms))) (w_asked w) (w_pending w) (w_config w))
| Al_request q : Alive w (ELsp (MReq q)) w
| Al_open_other s v t : Alive w (ELsp (MNot (NOpen (UOther s) v t))) w
| Al_change_other s v cs : Alive w (ELsp (MNot (NChange (UOther s) v cs))) w
| Al_close_other s : Alive w (ELsp (MNot (NClose (UOther s)))) w
| Al_save u : Alive w (ELsp (MNot (NSave u))) w
| Al_other s : Alive w (ELsp (MNot (NOther s))) w
| Al_task : Alive w ETask w.
Inductive Lives : world -> list event -> world -> Prop :=
| L_nil w : Lives w [] w
| L_cons w e w1 es w2 : Alive w e w1 -> Lives w1 es w2 -> Lives w (e :: es) w2.

(** * Proofs *)
Definition asked_for (c : list string) (r : response) : list string :=
  match r with mkResp _ false (Some (JArr (j :: _))) => match j with JNull | JObj [] => c | _ => config_from_json j end | _ => c end.
Lemma asked_settings c r c' : Settings c (ELsp (MResp r)) c' <-> c' = asked_for c r.
Proof.
  split.
  - intros H. inversion H as [c0 i j js l N W E1 E2|c0 i j js E0 E1 E2|c0 e N E1 E2 E3]; subst.
    + cbn. assert (E : config_update c j = c') by (apply update_spec; auto). rewrite <- E. unfold config_update. reflexivity.
    + cbn. destruct E0 as [->| ->]; reflexivity.
    + unfold asked_for. destruct r as [i [] [[| | |[|j js]|]|]]; try reflexivity. now destruct (N i j js).
  - intros ->. destruct (settings_total c (ELsp (MResp r))) as [c' H]. assert (E : c' = asked_for c r); [|now rewrite <- E].
    inversion H as [c0 i j js l N W E1 E2|c0 i j js E0 E1 E2|c0 e N E1 E2 E3]; subst.
    + cbn. assert (E : config_update c j = c') by (apply update_spec; auto). rewrite <- E. unfold config_update. reflexivity.
    + cbn. destruct E0 as [->| ->]; reflexivity.
    + unfold asked_for. destruct r as [i [] [[| | |[|j js]|]|]]; try reflexivity. now destruct (N i j js).
Qed.
Lemma bad_config_iff c r : bad_config c r <-> asked_for c r <> c /\ ~ Forall (fun s => exists rest, s = String "/"%char rest) (asked_for c r).
Proof.
  split.
  - intros (c' & H & N). apply asked_settings in H as ->. exact N.
  - intros N. exists (asked_for c r). split; [now apply asked_settings|exact N].
Qed.
Lemma apply_fueled t cs : apply_document_changes t cs <> OutOfFuel.
Proof.
  assert (U : forall a b, uadd a b <> OutOfFuel) by (intros a b; unfold uadd; destruct (fits_u32 _); discriminate).
  assert (B : forall a b, usub a b <> OutOfFuel) by (intros a b; unfold usub; match goal with |- context [if ?c then _ else _] => destruct c end; discriminate).
  assert (R : forall A B (r : res A) (f : A -> res B), r <> OutOfFuel -> (forall a, f a <> OutOfFuel) -> rbind r f <> OutOfFuel) by (intros A0 B0 [a| |] f H1 H2; cbn; [apply H2|discriminate|congruence]).
  assert (L : forall t nl ls cs row col line, li_loop t nl ls cs row col line <> OutOfFuel).
  { clear -U R. induction t as [|c t IH]; intros; cbn [li_loop]; [discriminate|]. cbv zeta. apply R; [apply U|intros row']. destruct (N.eqb c newline); apply R; auto. }
  assert (T8 : forall l col, to8_loop l col <> OutOfFuel).
  { clear -U B R. induction l as [|c l IH]; intros col; cbn [to8_loop]; [discriminate|]. destruct (fst c <? col); [|discriminate]. apply R; [apply B|intros n]. apply R; [apply B|intros x]. apply R; [apply U|auto]. }
  assert (O : forall li p, from_proto_offset li p <> OutOfFuel).
  { intros li p. apply R. - apply R; [|discriminate]. unfold utf16_to_utf8_col. destruct (assoc _ _); [apply T8|discriminate]. - intros lc. apply R; [unfold runwrap; destruct (nth_error _ _); discriminate|intros x; apply U]. }
  apply R; [apply L|]. intros li. generalize (@None nat) as v. revert t li. induction cs as [|c cs IH]; intros t li v; cbn [changes_loop]; [discriminate|]. destruct (ce_range c) as [[s e]|]; [|apply IH].
  apply R; [destruct (covers _ _); [discriminate|apply L]|]. intros l1. apply R; [apply R; [apply O|intros so]; apply R; [apply O|intros eo]; apply R; [unfold rassert; destruct (so <=? eo); discriminate|discriminate]|]. intros r.
  apply R; [|intros; apply IH]. unfold indel_apply. destruct (_ <? _); [discriminate|]. destruct (bsplit _ _) as [[? ?]|]; [|discriminate]. destruct (bsplit _ _) as [[? ?]|]; discriminate.
Qed.
(** Every event but exit is one or the other. *)
Lemma vanishes_dec d : forall l f fin, (exists a p c b, l = a ++ (p, Some c) :: b /\ d p = None /\ reports d f a p <> Some c /\ fin p = None) \/
  ~ (exists a p c b, l = a ++ (p, Some c) :: b /\ d p = None /\ reports d f a p <> Some c /\ (fin : path -> option contents) p = None).
Proof.
  induction l as [|[q x] l IH]; intros f fin; [right; intros (a & p & c & b & E & _); destruct a; discriminate|].
  destruct (IH (report d f (q, x)) fin) as [(a & p & c & b & E & H)|N]; [left; exists ((q, x) :: a), p, c, b; split; [now rewrite E|exact H]|].
  assert (D : (exists c, x = Some c /\ d q = None /\ f q <> Some c /\ fin q = None) \/ ~ (exists c, x = Some c /\ d q = None /\ f q <> Some c /\ fin q = None)).
  { destruct x as [c|]; [|right; intros (c & E & _); discriminate]. destruct (d q) as [y|] eqn:Dq; [right; intros (? & _ & E & _); discriminate|]. destruct (fin q) as [y|] eqn:Fq; [right; intros (? & _ & _ & _ & E); discriminate|].
    destruct (f q) as [y|] eqn:Y; [|left; exists c; repeat split; discriminate]. destruct (contents_eq_dec y c) as [->|Ne]; [right; intros (c' & E & _ & H & _); congruence|left; exists c; repeat split; congruence]. }
  destruct D as [(c & -> & H)|D]; [left; exists [], q, c, l; split; [reflexivity|exact H]|]. right. intros ([|y a] & p & c & b & E & H1 & H2 & H3).
  - injection E as -> -> ->. apply D. exists c. auto.
  - injection E as <- E. apply N. exists a, p, c, b. auto.
Qed.
Lemma bad_config_dec c r : bad_config c r \/ ~ bad_config c r.
Proof.
  rewrite bad_config_iff. destruct (list_eq_dec string_dec (asked_for c r) c) as [E|E]; [right; tauto|]. generalize (asked_for c r) as l. intros l. cut (Forall (fun s => exists rest, s = String "/"%char rest) l \/ ~ Forall (fun s => exists rest, s = String "/"%char rest) l).
  { intros H. destruct (list_eq_dec string_dec l c); tauto. }
  induction l as [|s l IH]; [left; constructor|]. destruct IH as [IH|IH]; [|right; intros X; inversion_clear X; auto]. destruct s as [|ch s]; [right; intros X; inversion_clear X; destruct H as [r0 H]; discriminate|]. destruct (Ascii.ascii_dec ch "/"%char) as [->|Ne]; [left; constructor; eauto|right; intros X; inversion_clear X; destruct H as [r0 H]; congruence].
Qed.
Lemma alive_or_fatal w e : e <> ELsp (MNot NExit) -> (exists w', Alive w e w') \/ Fatal w e.
Proof.
  intros Ne. destruct e as [[q|n|r]| |m ms].
  - left. eexists. apply Al_request.
  - destruct n as [[p|s] z t|[p|s] z cs|[p|s]|u| | | |k]; try (left; eexists; econstructor; fail); [|contradiction|right; constructor].
    destruct (w_open w p) as [[v0 t]|] eqn:E; [|left; eexists; now apply Al_orphan]. destruct (apply_document_changes t cs) as [u| |] eqn:A; [left; eexists; eapply Al_change; eauto| |]; (right; eapply Fa_change; [exact E|congruence]).
  - destruct (s_id r) as [id|s] eqn:E; [|right; apply Fa_unasked; congruence]. destruct (in_dec Z.eq_dec id (w_pending w)) as [I|I]; [|right; apply Fa_unasked; congruence].
    destruct (bad_config_dec (w_config w) r) as [B|B]; [right; now apply Fa_config|left; eexists; eapply Al_answer; eauto; now apply asked_settings].
  - left. eexists. apply Al_task.
  - destruct (vanishes_dec (w_open w) (loaded (m :: ms)) (w_files w) (reports (w_open w) (w_files w) (loaded (m :: ms)))) as [V|V]; [right; now apply Fa_vanishes|left; eexists; now apply Al_loaded].
Qed.

(** Loading: what is recorded for a file. *)
Definition wrote (v : vfs) (p : path) : Prop := exists i k, index_of p (v_paths v) = Some i /\ In (i, k) (v_changes v) /\ k <> Delete.
Lemma wrote_set v mem db m p c v' b : minv v mem db m -> set_file_contents v p c = Ok (v', b) ->
  forall q, wrote v' q <-> wrote v q \/ q = p /\ exists x, c = Some x /\ m p <> Some x.
Proof.
  intros M H q. pose proof (mi_vfs _ _ _ _ M) as I. destruct (set_cases v m p c I) as [[X _]|(v1 & b1 & E & I1 & S1 & L1 & P1 & Hc)]; [congruence|]. rewrite H in E. injection E as <- <-.
  assert (Old : wrote v q -> forall i k, In (i, k) (v_changes v) -> In (i, k) (v_changes v')) by (intros _ i k X; destruct Hc as [(_ & _ & ->)|(id & k' & _ & _ & -> & _)]; [exact X|apply in_app_iff; now left]).
  assert (Idx : forall i, index_of q (v_paths v') = Some i -> i < length (v_paths v) -> index_of q (v_paths v) = Some i).
  { intros i Hi Lt. apply index_of_some in Hi as [Hi _]. destruct S1 as [r E]. rewrite E, nth_error_app1 in Hi by exact Lt. apply index_of_nth; [apply (vi_nodup _ _ I)|exact Hi]. }
  split.
  - intros (i & k & Hi & Hk & Nk). destruct Hc as [(_ & _ & Hch)|(id & k' & _ & Hc & Hch & Hp)]; rewrite Hch in Hk; [left; exists i, k; repeat split; auto; apply Idx; auto; eapply mi_rec; eauto|].
    apply in_app_iff in Hk as [Hk|[Hk|[]]]; [left; exists i, k; repeat split; auto; apply Idx; auto; eapply mi_rec; eauto|]. injection Hk as <- <-. right.
    unfold v_file_path, interner_lookup in Hp. destruct (nth_error (v_paths v') id) as [y|] eqn:Y; [|discriminate]. injection Hp as ->. split; [apply index_of_some in Hi as [Hi _]; congruence|].
    destruct c as [x|]; [exists x; split; [reflexivity|]|]; destruct k'; cbn in Hc; intuition congruence.
  - intros [W|(-> & x & -> & Nx)].
    + pose proof (Old W) as O. destruct W as (i & k & Hi & Hk & Nk). exists i, k. repeat split; auto. exact (index_of_same _ _ _ _ S1 Hi (vi_nodup _ _ I1)).
    + destruct Hc as [(_ & X & _)|(id & k & _ & Hc & Hch & Hp)]; [contradiction|]. unfold v_file_path, interner_lookup in Hp. destruct (nth_error (v_paths v') id) as [y|] eqn:Y; [|discriminate]. injection Hp as ->.
      exists id, k. split; [apply index_of_nth; [apply (vi_nodup _ _ I1)|exact Y]|]. split; [rewrite Hch; apply in_app_iff; right; now left|]. intros ->. destruct (m p); cbn in Hc; intuition congruence.
Qed.
Lemma report_fset d f p c : d p = None -> report d f (p, c) = fset f p c.
Proof. intros H. unfold report. cbn [fst snd]. rewrite H. reflexivity. Qed.
Lemma load_exact l : forall g m d, minv (g_vfs g) (g_mem_docs g) (g_db g) m -> mirrors g m d -> fits_u32 (S (length (v_paths (g_vfs g)) + length l)) = true ->
  exists g', load_files g l = Ok g' /\ minv (g_vfs g') (g_mem_docs g') (g_db g') (reports d m l) /\ mirrors g' (reports d m l) d /\ length (v_paths (g_vfs g')) <= length (v_paths (g_vfs g)) + length l /\
  forall q, wrote (g_vfs g') q <-> wrote (g_vfs g) q \/ exists a c b, l = a ++ (q, Some c) :: b /\ d q = None /\ reports d m a q <> Some c.
Proof.
  induction l as [|[p c] l IH]; intros g m d M R F; cbn [load_files length] in *.
  - exists g. split; [reflexivity|]. split; [exact M|]. split; [exact R|]. split; [lia|]. intros q. split; [now left|]. intros [W|(a & c & b & E & _)]; [exact W|destruct a; discriminate].
  - destruct (aget string_dec p (g_mem_docs g)) as [z|] eqn:Ep.
    + assert (Dp : exists y, d p = Some y) by (pose proof (R p) as Rp; destruct (d p); [eauto|congruence]). destruct Dp as [y Dp]. assert (Er : report d m (p, c) = m) by (unfold report; cbn [fst]; now rewrite Dp).
      destruct (IH g m d M R) as (g' & H1 & H2 & H3 & H4 & H5); [fits F|]. exists g'. split; [exact H1|]. change (reports d m ((p, c) :: l)) with (reports d (report d m (p, c)) l). rewrite Er. split; [exact H2|]. split; [exact H3|]. split; [lia|].
      intros q. rewrite H5. split; (intros [W|(a & x & b & E & D & N)]; [now left|]); right.
      * exists ((p, c) :: a), x, b. split; [now rewrite E|]. split; [exact D|]. change (reports d m ((p, c) :: a)) with (reports d (report d m (p, c)) a). now rewrite Er.
      * destruct a as [|h a]; [injection E as -> _ _; congruence|]. injection E as <- E. exists a, x, b. split; [exact E|]. split; [exact D|]. change (reports d m ((p, c) :: a)) with (reports d (report d m (p, c)) a) in N. now rewrite Er in N.
    + assert (Dp : d p = None) by (pose proof (R p) as Rp; destruct (d p) as [[zz t]|]; [destruct Rp; congruence|reflexivity]).
      destruct (set_spec (g_vfs g) m p c (mi_vfs _ _ _ _ M)) as (v & b & H1 & _ & _ & L1 & _); [fits F|]. rewrite H1. cbn [rbind].
      pose proof (minv_set _ _ _ _ _ _ _ _ M H1 (or_introl Ep)) as M1. pose proof (wrote_set _ _ _ _ _ _ _ _ M H1) as W1.
      assert (R1 : mirrors (with_vfs v g) (fset m p c) d) by (intros q; specialize (R q); cbn; unfold fset; destruct (String.eqb_spec q p) as [->|]; [now rewrite Dp|exact R]).
      destruct (IH (with_vfs v g) (fset m p c) d M1 R1) as (g' & J1 & J2 & J3 & J4 & J5); [cbn; fits F|]. cbn in J4. exists g'. split; [exact J1|]. change (reports d m ((p, c) :: l)) with (reports d (report d m (p, c)) l). rewrite (report_fset _ _ _ _ Dp).
      split; [exact J2|]. split; [exact J3|]. split; [lia|]. intros q. rewrite J5. change (g_vfs (with_vfs v g)) with v. rewrite W1. split.
      * intros [[W|(-> & x & -> & N)]|(a & x & bb & E & D & N)]; [now left|right; exists [], x, l; auto|right]. exists ((p, c) :: a), x, bb. split; [now rewrite E|]. split; [exact D|]. change (reports d m ((p, c) :: a)) with (reports d (report d m (p, c)) a). now rewrite (report_fset _ _ _ _ Dp).
      * intros [W|(a & x & bb & E & D & N)]; [left; now left|]. destruct a as [|h a]; [injection E as -> -> _; left; right; split; [reflexivity|]; exists x; auto|]. injection E as <- E. right. exists a, x, bb. split; [exact E|]. split; [exact D|].
        change (reports d m ((p, c) :: a)) with (reports d (report d m (p, c)) a) in N. now rewrite (report_fset _ _ _ _ Dp) in N.
Qed.
Lemma load_app a : forall g b, load_files g (a ++ b) = (let? g := load_files g a in load_files g b).
Proof. induction a as [|[p c] a IH]; intros g b; cbn [app load_files]; [reflexivity|]. destruct (aget _ _ _); [apply IH|]. destruct (set_file_contents _ _ _) as [[v x]| |]; cbn [rbind]; auto. Qed.
Lemma vfs_loaded ms : forall g, handle_vfs g ms = load_files g (loaded ms).
Proof. induction ms as [|[|l] ms IH]; intros g; cbn [handle_vfs loaded]; [reflexivity|apply IH|]. rewrite load_app. destruct (load_files g l); cbn [rbind]; auto. Qed.
(** A recorded file that is missing makes process_changes panic. *)
Lemma collect_panic v l : forall i k, In (i, k) l -> k <> Delete -> nth i (v_data v) None = None -> collect_changes v l = Panic.
Proof.
  induction l as [|[j k'] l IH]; intros i k X Nk Hn; [destruct X|]. cbn [collect_changes]. destruct X as [X|X].
  - injection X as -> ->. assert (C : v_file_contents v i = Panic). { unfold v_file_contents, v_get. destruct (nth_error (v_data v) i) as [y|] eqn:Y; [|reflexivity]. rewrite (nth_error_nth _ _ None Y) in Hn. subst y. reflexivity. }
    destruct k; [| |contradiction]; cbn [cf_exists snd fst]; rewrite C; reflexivity.
  - rewrite (IH i k X Nk Hn). destruct (if cf_exists (j, k') then _ else _) as [t| |] eqn:E; cbn [rbind]; try reflexivity. exfalso. destruct k'; cbn [cf_exists snd fst] in E; try discriminate; unfold v_file_contents, v_get in E; destruct (nth_error (v_data v) j) as [[y|]|]; cbn in E; discriminate.
Qed.
Lemma after_panics g m : minv (g_vfs g) (g_mem_docs g) (g_db g) m -> (exists p, wrote (g_vfs g) p /\ m p = None) -> after_event g = Panic.
Proof.
  intros M (p & (i & k & Hi & Hk & Nk) & Hm). unfold after_event, process_changes, v_take_changes. destruct (v_changes (g_vfs g)) as [|f l] eqn:E; [destruct Hk|]. rewrite <- E in *. rewrite (collect_panic _ (v_changes (g_vfs g)) i k Hk Nk); [reflexivity|]. cbn [v_data]. now rewrite <- (minv_get _ _ _ _ _ _ M Hi).
Qed.
Lemma recs_wrote v mem db m : minv v mem db m -> (forall p, wrote v p -> m p <> None) -> recs_ok v m.
Proof.
  intros M H i k X Nk. pose proof (mi_rec _ _ _ _ M i k X) as L. destruct (nth_error (v_paths v) i) as [p|] eqn:E; [|apply nth_error_None in E; lia]. exists p. assert (Hi : index_of p (v_paths v) = Some i) by (apply index_of_nth; [apply (vi_nodup _ _ (mi_vfs _ _ _ _ M))|exact E]). split; [exact Hi|]. apply H. exists i, k. auto.
Qed.

(** The server's state and the world. *)
Definition exactly_asked (g : gstate) (out : list Z) : Prop := forall r, aget rid_eq_dec r (g_outgoing g) = Some tt <-> exists id, r = RNum id /\ In id out.
Record XI (g : gstate) (w : world) (n : nat) : Prop := mkXI {
  xi_di : exists K, DI g (w_files w) K; xi_mir : mirrors g (w_files w) (w_open w); xi_small : small (w_open w); xi_next : g_next_id g = w_asked w; xi_out : exactly_asked g (w_pending w); xi_cfg : g_config g = w_config w;
  xi_paths : length (v_paths (g_vfs g)) <= n; xi_ver : g_config_version g <= n }.
Definition more (g : gstate) := (g_outgoing g, g_next_id g, g_config_version g, g_config g).
Lemma maybe_more g g' : maybe_update_diagnostics g = Ok g' -> more g' = more g.
Proof. intros H. apply rbind_inv in H as (s & _ & H). apply rbind_inv in H as (ds & _ & H). injection H as <-. auto. Qed.
Lemma publish_more l : forall g g', publish g l = Ok g' -> more g' = more g.
Proof. induction l as [|f l IH]; intros g g' H; cbn [publish] in H; [now injection H as <-|]. apply rbind_inv in H as (p & _ & H). apply IH in H. exact H. Qed.
Lemma after_more g g' : after_event g = Ok g' -> more g' = more g.
Proof.
  intros H. unfold after_event in H. apply rbind_inv in H as ([g1 b] & H1 & H). apply rbind_inv in H as (g2 & H2 & H).
  assert (E1 : more g1 = more g) by (unfold process_changes in H1; destruct (v_take_changes _) as [v [|f l]]; [now injection H1 as <- _|]; apply rbind_inv in H1 as (? & _ & H1); now injection H1 as <- _).
  assert (E2 : more g2 = more g1) by (destruct b; [now apply maybe_more|now injection H2 as <-]).
  destruct (coll_take_changes (g_diagnostics g2)) as [c [l|]]; [apply publish_more in H; rewrite H|injection H as <-]; (etransitivity; [exact E2|exact E1]).
Qed.
Lemma respond_more id o g : more (respond id o g) = more g.
Proof. unfold respond. destruct (aget _ _ _); reflexivity. Qed.
Lemma request_more g q : more (on_request g q) = more g.
Proof. unfold on_request. destruct (g_shutdown _); [now rewrite respond_more|]. destruct (String.eqb _ _); [destruct (q_params q); now rewrite respond_more|]. destruct (String.eqb _ _); [destruct (q_params q); [reflexivity|now rewrite respond_more]|now rewrite respond_more]. Qed.
Lemma task_more g : more (handle_task g) = more g.
Proof. unfold handle_task. change (more g) with (more (with_tasks [] g)). generalize (with_tasks [] g) as g0. induction (g_tasks g) as [|t l IH]; intros g0; cbn [fold_left]; [reflexivity|]. rewrite IH. destruct t; cbn [run_task]; [apply respond_more|reflexivity]. Qed.
Lemma load_more l : forall g g', load_files g l = Ok g' -> more g' = more g.
Proof. induction l as [|[p c] l IH]; intros g g' H; cbn [load_files] in H; [now injection H as <-|]. destruct (aget _ _ _); [eauto|]. apply rbind_inv in H as ([v b] & _ & H). now apply IH in H. Qed.

Lemma absolute_back l : forallb is_absolute l = true -> Forall (fun s => exists r, s = String "/"%char r) l.
Proof. induction l as [|s l IH]; intros H; [constructor|]. cbn [forallb] in H. apply andb_true_iff in H as [H1 H2]. constructor; [|auto]. destruct s as [|c s]; [discriminate|]. cbn in H1. apply Ascii.eqb_eq in H1 as ->. eauto. Qed.
Lemma asked_config r g : asked_for (g_config g) r <> g_config g -> exists j l, s_error r = false /\ s_result r = Some (JArr (j :: l)) /\ asked_for (g_config g) r = config_update (g_config g) j.
Proof. destruct r as [id [] [[| | |[|j l]|]|]]; cbn; intros H; try contradiction. exists j, l. repeat split. Qed.
(** Answers. *)
Lemma answer_exact r g n : fits_u32 (S (g_config_version g + 1)) = true -> g_config_version g <= n ->
  (bad_config (g_config g) r -> on_config_response r g = Panic) /\
  (~ bad_config (g_config g) r -> exists g1, on_config_response r g = Ok g1 /\ core g1 = core g /\ g_outgoing g1 = g_outgoing g /\ g_next_id g1 = g_next_id g /\ g_config g1 = asked_for (g_config g) r /\ g_config_version g1 <= S n).
Proof.
  intros F L. rewrite bad_config_iff. destruct (list_eq_dec string_dec (asked_for (g_config g) r) (g_config g)) as [E|E].
  - split; [tauto|]. intros _. rewrite E. destruct r as [id [] [[| | |[|j l]|]|]]; cbn [on_config_response s_error s_result]; try (exists g; repeat split; lia).
    assert (U : config_update (g_config g) j = g_config g) by (rewrite <- E at 2; destruct j as [| | | |[|]]; reflexivity). unfold update_configuration. destruct (list_eq_dec _ _ _) as [_|X]; [|contradiction]. eexists. split; [reflexivity|]. cbn. repeat split; auto.
  - destruct (asked_config r g E) as (j & l & Er & Es & Ea). rewrite Ea in E |- *. unfold on_config_response. rewrite Er, Es. unfold update_configuration. destruct (list_eq_dec _ _ _) as [X|_]; [contradiction|]. split.
    + intros [_ H]. destruct (forallb is_absolute _) eqn:A; [elim H; now apply absolute_back|reflexivity].
    + intros H. assert (A : forallb is_absolute (config_update (g_config g) j) = true). { destruct (forallb is_absolute (config_update (g_config g) j)) eqn:A; [reflexivity|]. elim H. split; [exact E|]. intros X. rewrite (absolute_iff _ X) in A. discriminate. }
      rewrite A. cbn [rassert rbind]. unfold uadd. assert (F2 : fits_u32 (g_config_version g + 1) = true) by (refine (fits_le _ _ _ F); clear; lia). rewrite F2. cbn [rbind]. eexists. split; [reflexivity|]. cbn. repeat split. lia.
Qed.
Lemma dset_small d p v t : small d -> fits_u32 (S (blen t)) = true -> small (dset d p (Some (v, t))).
Proof. intros S F q vv tt. unfold dset. destruct (String.eqb q p); [intros X; injection X as _ <-; exact F|apply S]. Qed.

(** The event survives in the world: so does the server. *)
Lemma alive_dispatch g e w n w' : XI g w n -> Alive w e w' -> small (w_open w') -> fits_u32 (S (n + weight e)) = true ->
  exists g1, dispatch_event g e = Ok g1 /\ minv (g_vfs g1) (g_mem_docs g1) (g_db g1) (w_files w') /\ recs_ok (g_vfs g1) (w_files w') /\ mirrors g1 (w_files w') (w_open w') /\ g_next_id g1 = w_asked w' /\ exactly_asked g1 (w_pending w') /\ g_config g1 = w_config w' /\
    length (v_paths (g_vfs g1)) <= n + weight e /\ g_config_version g1 <= n + weight e.
Proof.
  intros [[K (I & D & F & C & Sh)] R Sm Nx Ou Cf LP LV] A Sm' W. pose proof (proj1 I) as M. pose proof (proj2 I) as Ch.
  assert (Same : forall g1, core g1 = core g -> more g1 = more g -> minv (g_vfs g1) (g_mem_docs g1) (g_db g1) (w_files w) /\ recs_ok (g_vfs g1) (w_files w) /\ mirrors g1 (w_files w) (w_open w) /\ g_next_id g1 = w_asked w /\ exactly_asked g1 (w_pending w) /\ g_config g1 = w_config w /\ length (v_paths (g_vfs g1)) <= n + weight e /\ g_config_version g1 <= n + weight e).
  { intros g1 E1 E2. split; [now apply (core_minv g)|]. injection E1 as X1 X2 X3. injection E2 as Y1 Y2 Y3 Y4. unfold recs_ok, exactly_asked, mirrors. rewrite X1, X2, Ch, Y1, Y2, Y3, Y4. split; [intros i k []|]. split; [exact R|]. split; [exact Nx|]. split; [exact Ou|]. split; [exact Cf|]. split; clear -LP LV; lia. }
  assert (W1 : weight e = 1 -> fits_u32 (S (length (v_paths (g_vfs g)))) = true) by (intros E; refine (fits_le _ _ _ W); clear W; lia).
  destruct A as [p v t|p v cs v0 t u Hd Hc|p v cs Hd|p| |r id cc Hid Hin Hcfg Hst|mm ms V|q|s v t|s v cs|s|u|s| ]; cbn [dispatch_event handle_lsp on_notification weight] in *.
  - destruct (set_spec (g_vfs g) (w_files w) p (Some (CText t)) (mi_vfs _ _ _ _ M) (W1 eq_refl)) as (v' & b & H1 & I1 & S1 & L1 & Hb). cbn [did_open abs_path]. rewrite H1. cbn [rbind].
    pose proof (minv_set _ _ _ _ _ _ _ _ M H1 (or_intror (ex_intro _ t eq_refl))) as M2. destruct (recs_set _ _ _ _ _ _ (mi_vfs _ _ _ _ M) H1 Ch) as [RO L2].
    set (g0 := with_vfs v' (with_mem_docs (aset string_dec p v (g_mem_docs g)) g)). assert (M3 : minv (g_vfs g0) (g_mem_docs g0) (g_db g0) (fset (w_files w) p (Some (CText t)))) by (cbn; apply minv_mem_set with t; [exact M2|unfold fset; now rewrite String.eqb_refl]).
    assert (R0 : mirrors g0 (fset (w_files w) p (Some (CText t))) (dset (w_open w) p (Some (v, t)))) by now apply (mirrors_dset g).
    assert (G : exists g1, (if b then Ok g0 else maybe_update_diagnostics g0) = Ok g1 /\ core g1 = core g0 /\ more g1 = more g0).
    { destruct b; [eauto|]. destruct Hb as [(_ & _ & Hv)|(id & k & X & _)]; [|discriminate]. destruct (maybe_total g0 _ (dset (w_open w) p (Some (v, t))) M3) as [g1 H2]; [cbn; congruence|exact R0|exact Sm'|]. exists g1. split; [exact H2|]. split; [now apply maybe_update_core in H2|now apply maybe_more]. }
    destruct G as (g1 & -> & E1 & E2). exists g1. split; [reflexivity|]. split; [now apply (core_minv g0)|]. injection E1 as X1 X2 X3. injection E2 as Y1 Y2 Y3 Y4. unfold exactly_asked, mirrors. rewrite X1, X2, Y1, Y2, Y3, Y4. split; [exact RO|]. split; [exact R0|]. cbn. split; [exact Nx|]. split; [exact Ou|]. split; [exact Cf|]. split; clear -LP LV L2; lia.
  - pose proof (R p) as Rp. rewrite Hd in Rp. destruct Rp as [R1 R2]. cbn [did_change abs_path]. rewrite R1. pose proof (lookup_inv _ _ p (mi_vfs _ _ _ _ M)) as L. rewrite R2 in L. destruct L as (id & L1 & L2 & _). rewrite L1. cbn [rbind runwrap]. rewrite L2. cbn [rbind runwrap as_utf8].
    rewrite Hc. cbn [rbind].
    destruct (set_spec (g_vfs g) (w_files w) p (Some (CText u)) (mi_vfs _ _ _ _ M) (W1 eq_refl)) as (v' & b & H1 & I1 & S1 & L3 & Hb). rewrite H1. cbn [rbind]. pose proof (minv_set _ _ _ _ _ _ _ _ M H1 (or_intror (ex_intro _ u eq_refl))) as M2. destruct (recs_set _ _ _ _ _ _ (mi_vfs _ _ _ _ M) H1 Ch) as [RO L4].
    eexists. split; [reflexivity|]. cbn. split; [apply minv_mem_set with u; [exact M2|rewrite String.eqb_refl; reflexivity]|]. split; [exact RO|]. split; [now apply (mirrors_dset g)|]. split; [exact Nx|]. split; [exact Ou|]. split; [exact Cf|]. split; clear -LP LV L4; lia.
  - pose proof (R p) as Rp. rewrite Hd in Rp. cbn [did_change abs_path]. rewrite Rp. exists g. split; [reflexivity|]. apply Same; reflexivity.
  - eexists. split; [reflexivity|]. cbn. destruct (Same g eq_refl eq_refl) as (A1 & A2 & A3 & A4 & A5 & A6 & A7 & A8). split; [now apply minv_mem_del|]. split; [exact A2|]. split; [|auto].
    intros q. specialize (R q). cbn. unfold dset. rewrite aget_adel. destruct (String.eqb_spec q p) as [->|N]; [destruct (string_dec p p); [reflexivity|contradiction]|]. destruct (string_dec q p); [contradiction|exact R].
  - eexists. split; [reflexivity|]. destruct (Same g eq_refl eq_refl) as (A1 & A2 & A3 & A4 & A5 & A6 & A7 & A8). split; [exact A1|]. split; [exact A2|]. split; [exact A3|]. split; [cbn; now rewrite Nx|]. split; [|auto].
    intros q. cbn. rewrite aget_aset, Nx. destruct (rid_eq_dec q (RNum (Z.of_nat (w_asked w)))) as [->|E]; [split; [intros _; exists (Z.of_nat (w_asked w)); auto|reflexivity]|]. rewrite (Ou q : _ <-> _). split; (intros (id & -> & Hi); exists id; split; [reflexivity|]); [now right|]. destruct Hi as [Hi|Hi]; [congruence|exact Hi].
  - apply asked_settings in Hst. subst cc. unfold complete_request. assert (P : aget rid_eq_dec (s_id r) (g_outgoing g) = Some tt) by (rewrite Hid; apply Ou; eauto). rewrite P. cbn [runwrap rbind]. set (g0 := with_outgoing (adel rid_eq_dec (s_id r) (g_outgoing g)) (g_next_id g) g).
    destruct (answer_exact r g0 n) as [_ G]; [refine (fits_le _ _ _ W); cbn; clear W; lia|exact LV|]. rewrite <- Cf in Hcfg. destruct (G Hcfg) as (g1 & -> & E1 & E2 & E3 & E4 & E5). exists g1. split; [reflexivity|]. split; [apply (core_minv g0); [exact E1|exact M]|]. injection E1 as X1 X2 X3. unfold recs_ok, exactly_asked, mirrors. rewrite X1, X2, E2, E3, E4. cbn. rewrite Ch.
    split; [intros i k []|]. split; [exact R|]. split; [exact Nx|]. split; [|split; [now rewrite Cf|split; clear -LP E5; lia]].
    intros q. rewrite aget_adel, Hid. destruct (rid_eq_dec q (RNum id)) as [->|E].
    + split; [discriminate|]. intros (i & X & Hi). injection X as <-. apply in_remove in Hi as [_ Hi]. contradiction.
    + rewrite (Ou q : _ <-> _). split; (intros (i & -> & Hi); exists i; split; [reflexivity|]); [apply in_in_remove; congruence|now apply in_remove in Hi].
  - assert (Wl : fits_u32 (S (length (v_paths (g_vfs g)) + length (loaded (mm :: ms)))) = true) by (refine (fits_le _ _ _ W); clear W; lia). destruct (load_exact (loaded (mm :: ms)) g (w_files w) (w_open w) M R Wl) as (g1 & H1 & M1 & R1 & L1 & Wr). rewrite vfs_loaded. exists g1. split; [exact H1|]. cbn [w_files w_open w_asked w_pending w_config]. split; [exact M1|]. split.
    { apply (recs_wrote _ _ _ _ M1). intros p Hp X. apply Wr in Hp as [(i & k & _ & Hk & _)|(a & c & b & E & Hd & Hne)]; [rewrite Ch in Hk; destruct Hk|]. apply V. exists a, p, c, b. auto. }
    split; [exact R1|]. apply load_more in H1. injection H1 as Y1 Y2 Y3 Y4. unfold exactly_asked. rewrite Y1, Y2, Y3, Y4. split; [exact Nx|]. split; [exact Ou|]. split; [exact Cf|]. split; [clear -LP L1; lia|clear -LV; lia].
  - eexists. split; [reflexivity|]. apply Same; [apply on_request_core|apply request_more].
  - exists g. split; [reflexivity|]. apply Same; reflexivity.
  - exists g. split; [reflexivity|]. apply Same; reflexivity.
  - eexists. split; [reflexivity|]. apply Same; reflexivity.
  - exists g. split; [reflexivity|]. apply Same; reflexivity.
  - exists g. split; [reflexivity|]. apply Same; reflexivity.
  - eexists. split; [reflexivity|]. apply Same; [apply handle_task_core|apply task_more].
Qed.
Lemma alive_handle g e w n w' : XI g w n -> Alive w e w' -> small (w_open w') -> fits_u32 (S (n + weight e)) = true -> exists g', handle_event g e = Ok g' /\ XI g' w' (n + weight e).
Proof.
  intros T P Sm' W. destruct (alive_dispatch _ _ _ _ _ T P Sm' W) as (g1 & H1 & M1 & RO & R1 & Nx & Ou & Cf & LP & LV). destruct T as [[K (I & D & F & C & Sh)] R _ _ _ _ _ _].
  destruct (dispatch_diag g e g1 (w_files w) (w_files w') K H1 I M1 D F C Sh) as (D1 & F1 & S1 & C1 & _ & _).
  destruct (after_total g1 (w_files w') (w_open w') (adds K e) M1) as [g' H2]; auto.
  destruct (after_inv _ _ _ H2 M1) as (I2 & Em & Ep). destruct (after_diag g1 g' (w_files w') (adds K e) H2 M1 D1 F1 S1 C1) as (J & _). exists g'. unfold handle_event. rewrite H1. cbn [rbind]. split; [exact H2|]. apply after_more in H2. injection H2 as Y1 Y2 Y3 Y4.
  split; [eauto|intros p; rewrite Em; apply R1|exact Sm'|congruence|intros id; rewrite Y1; apply Ou|congruence|now rewrite Ep|now rewrite Y3].
Qed.
(** The event is fatal in the world: the server panics. *)
Lemma fatal_handle g e w n : XI g w n -> Fatal w e -> fits_u32 (S (n + weight e)) = true -> handle_event g e = Panic.
Proof.
  intros [[K (I & D & F & C & Sh)] R Sm Nx Ou Cf LP LV] A W. pose proof (proj1 I) as M. pose proof (proj2 I) as Ch. unfold handle_event. destruct A as [|p v cs v0 t Hd Hc|r Hr|r Hr|mm ms V]; cbn [dispatch_event handle_lsp on_notification weight] in *.
  - reflexivity.
  - pose proof (R p) as Rp. rewrite Hd in Rp. destruct Rp as [R1 R2]. cbn [did_change abs_path]. rewrite R1. pose proof (lookup_inv _ _ p (mi_vfs _ _ _ _ M)) as L. rewrite R2 in L. destruct L as (id & L1 & L2 & _). rewrite L1. cbn [rbind runwrap]. rewrite L2. cbn [rbind runwrap as_utf8].
    pose proof (apply_fueled t cs) as Nf. destruct (apply_document_changes t cs) as [u| |]; [elim (Hc u eq_refl)|reflexivity|contradiction].
  - unfold complete_request. destruct (aget rid_eq_dec (s_id r) (g_outgoing g)) as [[]|] eqn:E; [|reflexivity]. apply Ou in E as (id & E & Hi). elim (Hr id E Hi).
  - unfold complete_request. destruct (aget rid_eq_dec (s_id r) (g_outgoing g)) as [[]|] eqn:E; [|reflexivity]. cbn [runwrap rbind]. set (g0 := with_outgoing (adel rid_eq_dec (s_id r) (g_outgoing g)) (g_next_id g) g).
    destruct (answer_exact r g0 n) as [G _]; [refine (fits_le _ _ _ W); cbn; clear W; lia|exact LV|]. rewrite <- Cf in Hr. rewrite (G Hr). reflexivity.
  - assert (Wl : fits_u32 (S (length (v_paths (g_vfs g)) + length (loaded (mm :: ms)))) = true) by (refine (fits_le _ _ _ W); clear W; lia). destruct (load_exact (loaded (mm :: ms)) g (w_files w) (w_open w) M R Wl) as (g1 & H1 & M1 & R1 & L1 & Wr). rewrite vfs_loaded, H1. cbn [rbind].
    apply (after_panics _ _ M1). destruct V as (a & p & c & b & E & Hd & Hne & Hn). exists p. split; [|exact Hn]. apply Wr. right. exists a, c, b. auto.
Qed.

(** * C50: exactly *)
(** Texts of open documents have less than 2^32 - 1 bytes, at every moment. *)
Definition short_texts (w : world) (es : list event) : Prop := forall es1 es2 w', es = es1 ++ es2 -> Lives w es1 w' -> small (w_open w').
Lemma alive_det w e w1 w2 : Alive w e w1 -> Alive w e w2 -> w1 = w2.
Proof. intros A B. inversion A; subst; inversion B; subst; try reflexivity; try congruence. repeat match goal with H : Settings _ _ _ |- _ => apply asked_settings in H end. congruence. Qed.
Lemma lives_det w es : forall w1 w2, Lives w es w1 -> Lives w es w2 -> w1 = w2.
Proof. intros w1 w2 A. revert w2. induction A as [|w e wa es w1 A _ IH]; intros w2 B; inversion B as [|x0 x1 wb x2 x3 A2 B2]; subst; [reflexivity|]. rewrite (alive_det _ _ _ _ A2 A) in B2. auto. Qed.
Lemma lives_app w es1 : forall w2 es2, Lives w (es1 ++ es2) w2 -> exists w1, Lives w es1 w1 /\ Lives w1 es2 w2.
Proof. revert w. induction es1 as [|e es1 IH]; intros w w2 es2 H; [exists w; split; [constructor|exact H]|]. inversion H as [|x0 x1 wb x2 x3 A2 B2]; subst. destruct (IH _ _ _ B2) as (w1 & L1 & L2). exists w1. split; [econstructor; eauto|exact L2]. Qed.
Lemma alive_not_exit w e w' : Alive w e w' -> e <> ELsp (MNot NExit).
Proof. intros A ->. inversion A. Qed.
Lemma lives_no_exit w es w' : Lives w es w' -> ~ In (ELsp (MNot NExit)) es.
Proof. induction 1 as [|w e w1 es w2 A _ IH]; [intros []|]. intros [->|X]; [now apply alive_not_exit in A|auto]. Qed.
Lemma lives_exact : forall es g w n, ~ In (ELsp (MNot NExit)) es -> XI g w n -> fits_u32 (S (n + total es)) = true -> short_texts w es ->
  (exists w' g' n', Lives w es w' /\ run g es = Ok g' /\ XI g' w' n') /\ ~ (exists es1 e es2 w', es = es1 ++ e :: es2 /\ Lives w es1 w' /\ Fatal w' e) \/
  run g es = Panic /\ (exists es1 e es2 w', es = es1 ++ e :: es2 /\ Lives w es1 w' /\ Fatal w' e) /\ ~ (exists w', Lives w es w').
Proof.
  induction es as [|e es IH]; intros g w n Ne T W Sh.
  - left. split; [exists w, g, n; split; [constructor|split; [reflexivity|exact T]]|]. intros (es1 & e & es2 & w' & E & _). destruct es1; discriminate.
  - change (total (e :: es)) with (weight e + total es) in W. assert (N1 : e <> ELsp (MNot NExit)) by (intros ->; apply Ne; now left). assert (We : fits_u32 (S (n + weight e)) = true) by (refine (fits_le _ _ _ W); clear W; lia).
    rewrite (run_cons _ _ _ N1). destruct (alive_or_fatal w e N1) as [(w1 & A)|A].
    + assert (S1 : small (w_open w1)) by (apply (Sh [e] es w1 eq_refl); econstructor; [exact A|constructor]). destruct (alive_handle _ _ _ _ _ T A S1 We) as (g1 & H1 & T1). rewrite H1. cbn [rbind].
      assert (Det : forall w2, Alive w e w2 -> w2 = w1) by (intros w2 B; exact (alive_det _ _ _ _ B A)).
      assert (NF : ~ Fatal w e) by (intros X; pose proof (fatal_handle _ _ _ _ T X We); congruence).
      destruct (IH g1 w1 (n + weight e)) as [[(w' & g' & n' & L & Rn & T') Nf]|(Rn & (es1 & x & es2 & w' & E & L & Fx) & Nl)]; auto.
      { intros X. apply Ne. now right. } { refine (fits_le _ _ _ W); clear W; lia. } { intros a b w' E L. apply (Sh (e :: a) b w'); [now rewrite E|econstructor; eauto]. }
      * left. split; [exists w', g', n'; split; [econstructor; eauto|split; [exact Rn|exact T']]|]. intros ([|y es1] & x & es2 & wx & E & L2 & Fx).
        -- injection E as -> ->. inversion L2; subst. contradiction.
        -- injection E as <- E. inversion L2 as [|a0 b0 wa es0 wb A2 L3]; subst. rewrite (Det _ A2) in *. apply Nf. exists es1, x, es2, wx. auto.
      * right. split; [exact Rn|]. split; [exists (e :: es1), x, es2, w'; split; [now rewrite E|split; [econstructor; eauto|exact Fx]]|]. intros (w2 & L2). inversion L2 as [|a0 b0 wa es0 wb A2 L3]; subst. rewrite (Det _ A2) in *. eauto.
    + right. rewrite (fatal_handle _ _ _ _ T A We). split; [reflexivity|]. split; [exists [], e, es, w; split; [reflexivity|split; [constructor|exact A]]|]. intros (w2 & L2). inversion L2 as [|a0 b0 wa es0 wb A2 L3]; subst.
      assert (S1 : small (w_open wa)) by (apply (Sh [e] es wa eq_refl); econstructor; [exact A2|constructor]). destruct (alive_handle _ _ _ _ _ T A2 S1 We) as (g1 & H1 & _). rewrite (fatal_handle _ _ _ _ T A We) in H1. discriminate.
Qed.
Lemma start_XI c : XI (g_new c) (start c) 0.
Proof. destruct (new_DI c) as [I R]. split; [eauto|exact R|intros p v t X; discriminate|reflexivity|intros r; cbn; split; [discriminate|intros (id & _ & [])]|reflexivity|apply le_n|apply le_n]. Qed.
(** The server panics on a history exactly when some event of it is fatal in the world the events
    before it have made; and otherwise it handles them all. *)
Theorem C50_exactly : forall c es, ~ In (ELsp (MNot NExit)) es -> fits_u32 (S (total es)) = true -> short_texts (start c) es ->
  (run (g_new c) es = Panic <-> exists es1 e es2 w, es = es1 ++ e :: es2 /\ Lives (start c) es1 w /\ Fatal w e) /\
  ((exists g, run (g_new c) es = Ok g) <-> exists w, Lives (start c) es w).
Proof.
  intros c es Ne W Sh. destruct (lives_exact es (g_new c) (start c) 0 Ne (start_XI c) W Sh) as [[(w' & g' & n' & L & Rn & _) Nf]|(Rn & Fx & Nl)].
  - split; [|split; eauto]. split; [congruence|]. intros X. contradiction.
  - split; [split; auto|]. split; [intros (g & X); congruence|]. intros X. contradiction.
Qed.
Print Assumptions C50_exactly.
Lemma short_cons w e es : small (w_open w) -> (forall w', Alive w e w' -> short_texts w' es) -> short_texts w (e :: es).
Proof.
  intros S H es1 es2 w' E L. destruct es1 as [|x es1]; [inversion L; subst; exact S|]. injection E as <- E. inversion L; subst. eapply H; eauto.
Qed.
(** A loaded file is opened and closed; then one event reports it changed and missing. *)
Definition C50_fatal_events : list event :=
  [EVfs (VLoaded [("/a"%string, Some (CText (txt "x = 1")))]) [VLoaded [("/b"%string, None)]]; ELsp (MNot (NOpen (UFile "/a"%string) 1 (txt "x =")));
   EVfs (VLoaded [("/a"%string, Some (CRaw 7)); ("/a"%string, None)]) []; ELsp (MNot NConfig); ELsp (MNot (NClose (UFile "/a"%string)));
   EVfs (VLoaded [("/a"%string, Some (CText (txt "x =")))]) [VLoaded [("/a"%string, None)]];
   EVfs (VLoaded [("/a"%string, Some (CRaw 7))]) [VProgress; VLoaded [("/a"%string, None)]]].
Example C50_exactly_case : ~ In (ELsp (MNot NExit)) C50_fatal_events /\ fits_u32 (S (total C50_fatal_events)) = true /\ short_texts (start []) C50_fatal_events /\
  run (g_new []) C50_fatal_events = Panic /\ match run (g_new []) (removelast C50_fatal_events) with Ok g => g_next_id g = 1 | _ => False end.
Proof.
  split; [cbn; intuition discriminate|]. split; [reflexivity|]. split; [|split; vm_compute; reflexivity].
  assert (S0 : small no_docs) by (intros p v t X; discriminate). assert (S1 : forall d p v t, small d -> fits_u32 (S (blen t)) = true -> small (dset d p (Some (v, t)))) by (intros; now apply dset_small).
  assert (S2 : forall d p, small d -> small (dset d p None)) by (intros d p S q v t; unfold dset; destruct (String.eqb q p); [discriminate|apply S]).
  unfold C50_fatal_events. do 7 (apply short_cons; [cbn; auto|]; intros ? A; inversion A; subst; clear A; cbn [w_open w_files w_asked w_pending w_config with_text start]).
  all: intros es1 es2 w' E L; destruct es1; [|discriminate]; inversion L; subst; cbn; auto.
Qed.

(** * C53: what is analysed for a file *)
(** The server takes a file to have contents [x]: [None] is a missing file; contents that are not
    UTF-8 are analysed as an empty text. *)
Definition analysed (g : gstate) (p : path) (x : option contents) : Prop :=
  match x with
  | Some (CText t) => exists id, v_file_id (g_vfs g) p = Ok (Some id) /\ aget Nat.eq_dec id (g_db g) = Some t
  | Some (CRaw _) => exists id, v_file_id (g_vfs g) p = Ok (Some id) /\ aget Nat.eq_dec id (g_db g) = Some []
  | None => v_file_id (g_vfs g) p = Ok None
  end.
(** For every history that does not kill the server: of every file the contents analysed are those
    the world knows. *)
Theorem C53_analysed : forall c es w, fits_u32 (S (total es)) = true -> short_texts (start c) es -> Lives (start c) es w ->
  exists g, run (g_new c) es = Ok g /\ forall p, analysed g p (w_files w p).
Proof.
  intros c es w W Sh L. destruct (lives_exact es (g_new c) (start c) 0 (lives_no_exit _ _ _ L) (start_XI c) W Sh) as [[(w' & g & n & L' & Rn & T) _]|(_ & _ & Nl)]; [|elim Nl; eauto].
  rewrite (lives_det _ _ _ _ L L'). exists g. split; [exact Rn|]. intros p. destruct T as [[K ((M & Ch) & _)] _ _ _ _ _ _ _]. pose proof (lookup_inv _ _ p (mi_vfs _ _ _ _ M)) as X. unfold analysed.
  destruct (w_files w' p) as [x|] eqn:Ep; [|exact X]. destruct X as (id & X1 & _ & X3). assert (Hi : index_of p (v_paths (g_vfs g)) = Some id) by (unfold v_file_path, interner_lookup in X3; destruct (nth_error (v_paths (g_vfs g)) id) as [y|] eqn:Y; [|discriminate]; injection X3 as ->; apply index_of_nth; [apply (vi_nodup _ _ (mi_vfs _ _ _ _ M))|exact Y]).
  pose proof (mi_db _ _ _ _ M p id Hi) as B. rewrite Ch in B. cbn [last_kind] in B. rewrite Ep in B. destruct B as [B|[_ B]]; [|discriminate]. destruct x; exists id; auto.
Qed.
Print Assumptions C53_analysed.
(** The reports of a file in a history, and the last of them. *)
Definition reported (es : list event) : list (path * option contents) := flat_map (fun e => match e with EVfs m ms => loaded (m :: ms) | _ => [] end) es.
Definition last_report (p : path) (l : list (path * option contents)) (x : option contents) : option contents := fold_left (fun x r => if String.eqb p (fst r) then snd r else x) l x.
Lemma reports_last d p : d p = None -> forall l f, reports d f l p = last_report p l (f p).
Proof.
  intros D. induction l as [|[q c] l IH]; intros f; [reflexivity|]. change (reports d f ((q, c) :: l)) with (reports d (report d f (q, c)) l). rewrite IH. unfold last_report. cbn [fold_left fst snd]. f_equal. unfold report. cbn [fst snd].
  destruct (String.eqb_spec p q) as [->|N]; [rewrite D, String.eqb_refl; reflexivity|]. destruct (d q); [reflexivity|]. destruct (String.eqb_spec p q); [contradiction|reflexivity].
Qed.
Lemma closed_last p : forall es w w', Lives w es w' -> (forall v t, ~ In (ELsp (MNot (NOpen (UFile p) v t))) es) -> w_open w p = None -> w_open w' p = None /\ w_files w' p = last_report p (reported es) (w_files w p).
Proof.
  induction 1 as [w|w e w1 es w2 A L IH]; intros No D; [auto|]. assert (No' : forall v t, ~ In (ELsp (MNot (NOpen (UFile p) v t))) es) by (intros v t X; apply (No v t); now right).
  assert (St : w_open w1 p = None /\ w_files w1 p = last_report p (reported [e]) (w_files w p)).
  { destruct A; cbn [w_open w_files with_text reported flat_map app]; try (split; [exact D|reflexivity]).
    - unfold dset. destruct (String.eqb_spec p p0) as [->|]; [elim (No v t); now left|auto].
    - unfold dset. destruct (String.eqb_spec p p0) as [->|]; [congruence|auto].
    - unfold dset. destruct (String.eqb_spec p p0) as [->|]; auto.
    - split; [exact D|]. rewrite app_nil_r. now apply reports_last. }
  destruct St as [D1 F1]. destruct (IH No' D1) as [D2 F2]. split; [exact D2|]. rewrite F2, F1. unfold last_report. rewrite <- fold_left_app. f_equal. unfold reported. cbn [flat_map]. now rewrite app_nil_r.
Qed.
(** After a close the server analyses the last contents the loader has reported since, and as long
    as it has reported none, the client's last text. *)
Theorem C53_exactly : forall c es1 p es2 v t w1 w, Lives (start c) es1 w1 -> w_open w1 p = Some (v, t) -> (forall v' t', ~ In (ELsp (MNot (NOpen (UFile p) v' t'))) es2) ->
  let es := es1 ++ ELsp (MNot (NClose (UFile p))) :: es2 in
  fits_u32 (S (total es)) = true -> short_texts (start c) es -> Lives (start c) es w ->
  exists g, run (g_new c) es = Ok g /\ analysed g p (last_report p (reported es2) (Some (CText t))).
Proof.
  intros c es1 p es2 v t w1 w L1 Hp No es W Sh L. destruct (C53_analysed c es w W Sh L) as (g & Rn & An). exists g. split; [exact Rn|]. specialize (An p).
  assert (Sh1 : short_texts (start c) es1) by (intros a b w' E; apply (Sh a (b ++ ELsp (MNot (NClose (UFile p))) :: es2)); unfold es; now rewrite app_assoc, E). assert (W1 : fits_u32 (S (total es1)) = true) by (refine (fits_le _ _ _ W); unfold total, es; rewrite map_app, list_sum_app; clear; lia).
  destruct (lives_exact es1 (g_new c) (start c) 0 (lives_no_exit _ _ _ L1) (start_XI c) W1 Sh1) as [[(w1' & g1 & n1 & L1' & _ & T1) _]|(_ & _ & Nl)]; [|elim Nl; eauto]. rewrite (lives_det _ _ _ _ L1' L1) in *.
  pose proof (xi_mir _ _ _ T1 p) as M. rewrite Hp in M. destruct M as [_ Mf].
  apply lives_app in L as (w1'' & La & Lb). rewrite (lives_det _ _ _ _ La L1) in Lb. inversion Lb as [|x0 x1 wb x2 x3 A2 B2]; subst. inversion A2; subst. apply (closed_last p) in B2 as [_ B2]; [|exact No|cbn; unfold dset; now rewrite String.eqb_refl]. cbn [w_files] in B2. rewrite Mf in B2. now rewrite <- B2.
Qed.
Print Assumptions C53_exactly.
Definition C53_before : list event := [EVfs (VLoaded [("/a"%string, Some (CText (txt "x = 1")))]) []; ELsp (MNot (NOpen (UFile "/a"%string) 1 (txt "x =")))].
Definition C53_after : list event := [ELsp (MNot NConfig); EVfs (VLoaded [("/b"%string, None)]) []].
Example C53_exactly_case : exists w1 w, Lives (start []) C53_before w1 /\ w_open w1 "/a"%string = Some (1%Z, txt "x =") /\ Lives (start []) (C53_before ++ ELsp (MNot (NClose (UFile "/a"%string))) :: C53_after) w /\
  last_report "/a"%string (reported C53_after) (Some (CText (txt "x ="))) = Some (CText (txt "x =")) /\ w_files w "/a"%string = Some (CText (txt "x =")).
Proof.
  assert (V : forall d f x, ~ vanishes d f [x]). { intros d f [q y] ([|h a] & p & c & b & E & D & N & Z); [|injection E as _ E; destruct a; discriminate]. injection E as -> -> <-. unfold reports in Z. cbn [fold_left] in Z. rewrite (report_fset _ _ _ _ D) in Z. unfold fset in Z. rewrite String.eqb_refl in Z. discriminate. }
  eexists. eexists. split; [|split; [|split; [|split; [reflexivity|]]]].
  - eapply L_cons; [apply Al_loaded, V|]. eapply L_cons; [apply Al_open|]. apply L_nil.
  - reflexivity.
  - eapply L_cons; [apply Al_loaded, V|]. eapply L_cons; [apply Al_open|]. eapply L_cons; [apply Al_close|]. eapply L_cons; [apply Al_config|]. eapply L_cons; [apply Al_loaded, V|]. apply L_nil.
  - reflexivity.
Qed.
