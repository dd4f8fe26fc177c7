(** PropsVfs.v — the virtual file system, C45–C47. *)
From Verif Require Import Base Vfs.

(** * Specification *)

(** A history of calls, and what they return. *)
Inductive vop := OSet (p : path) (c : option contents) | OTake.
Inductive vout := RBool (b : bool) | RChanges (l : list changed_file).
Fixpoint vrun (v : vfs) (h : list vop) : res (vfs * list vout) :=
  match h with
  | [] => Ok (v, [])
  | OSet p c :: h' =>
    match set_file_contents v p c with
    | Ok (v1, b) => match vrun v1 h' with Ok (v2, o) => Ok (v2, RBool b :: o) | Panic => Panic | OutOfFuel => OutOfFuel end
    | Panic => Panic | OutOfFuel => OutOfFuel
    end
  | OTake :: h' => let '(v1, l) := v_take_changes v in match vrun v1 h' with Ok (v2, o) => Ok (v2, RChanges l :: o) | Panic => Panic | OutOfFuel => OutOfFuel end
  end.

(** A file system as a map, and the map after a history. *)
Definition fmap := path -> option contents.
Definition fset (m : fmap) (p : path) (c : option contents) : fmap := fun q => if String.eqb q p then c else m q.
Fixpoint files (m : fmap) (h : list vop) : fmap :=
  match h with [] => m | OSet p c :: h' => files (fset m p c) h' | OTake :: h' => files m h' end.
Definition no_files : fmap := fun _ => None.
(** What kind of change there is between two contents. *)
Definition change_of (a b : option contents) (k : option change_kind) : Prop :=
  match k with
  | None => a = b
  | Some Create => a = None /\ b <> None
  | Some Delete => a <> None /\ b = None
  | Some Modify => a <> None /\ b <> None /\ a <> b
  end.
(** The changes made by a sequence of [set_file_contents] calls. *)
Inductive Log : fmap -> list (path * option contents) -> list (path * change_kind) -> Prop :=
| Log_nil m : Log m [] []
| Log_same m p c s l : change_of (m p) c None -> Log m s l -> Log m ((p, c) :: s) l
| Log_change m p c s k l : change_of (m p) c (Some k) -> Log (fset m p c) s l -> Log m ((p, c) :: s) ((p, k) :: l).
Definition sets (s : list (path * option contents)) : list vop := map (fun pc => OSet (fst pc) (snd pc)) s.
(** Which files exist after replaying a log. *)
Fixpoint replay (e : path -> bool) (l : list (path * change_kind)) : path -> bool :=
  match l with
  | [] => e
  | (p, k) :: l' => replay (fun q => if String.eqb q p then match k with Delete => false | _ => true end else e q) l'
  end.
Definition existing (m : fmap) : path -> bool := fun p => match m p with Some _ => true | None => false end.
(** [names v l lp]: the records [l] of [v] concern the files of [lp]. *)
Definition names (v : vfs) : list changed_file -> list (path * change_kind) -> Prop :=
  Forall2 (fun c pk => v_file_path v (fst c) = Ok (fst pk) /\ snd c = snd pk).

(** * The invariant *)
Record vinv (v : vfs) (m : fmap) : Prop := mkVI {
  vi_nodup : NoDup (v_paths v);
  vi_len : length (v_data v) = length (v_paths v);
  vi_map : forall p, m p = match index_of p (v_paths v) with Some i => nth i (v_data v) None | None => None end }.

Lemma index_of_some p l : forall i, index_of p l = Some i -> nth_error l i = Some p /\ i < length l.
Proof.
  induction l as [|q l IH]; intros i H; cbn in H; [discriminate|]. destruct (String.eqb_spec p q) as [->|].
  - injection H as <-. cbn. split; [reflexivity|lia].
  - destruct (index_of p l) as [j|]; [|discriminate]. injection H as <-. cbn. destruct (IH j eq_refl). split; [assumption|lia].
Qed.
Lemma index_of_none p l : index_of p l = None <-> ~ In p l.
Proof.
  induction l as [|q l IH]; cbn; [tauto|]. destruct (String.eqb_spec p q) as [->|N]; [split; [discriminate|tauto]|].
  destruct (index_of p l); cbn; [split; [discriminate|]|split; [|reflexivity]].
  - intros H. exfalso. destruct IH as [_ IH]. discriminate IH. tauto.
  - intros _ [E|H]; [congruence|]. now apply IH.
Qed.
Lemma index_of_nth p l i : NoDup l -> nth_error l i = Some p -> index_of p l = Some i.
Proof.
  intros N H. destruct (index_of p l) as [j|] eqn:E.
  - apply index_of_some in E as [E L]. f_equal. apply (NoDup_nth_error l); [exact N|exact L|congruence].
  - apply index_of_none in E. exfalso. apply E. eapply nth_error_In; eauto.
Qed.
Lemma index_of_app p l q : index_of p (l ++ [q]) = match index_of p l with Some i => Some i | None => if String.eqb p q then Some (length l) else None end.
Proof.
  induction l as [|r l IH]; cbn; [destruct (String.eqb p q); reflexivity|]. destruct (String.eqb p r); [reflexivity|]. rewrite IH. destruct (index_of p l); [reflexivity|]. destruct (String.eqb p q); reflexivity.
Qed.
Lemma update_length {A} (l : list A) : forall i x, length (update l i x) = length l.
Proof. induction l as [|y l IH]; intros [|i] x; cbn; auto. Qed.
Lemma update_nth {A} (l : list A) : forall i x j d, i < length l -> nth j (update l i x) d = if j =? i then x else nth j l d.
Proof. induction l as [|y l IH]; intros [|i] x [|j] d H; cbn in *; try lia; auto. apply IH. lia. Qed.

Definition same_paths (v v' : vfs) : Prop := exists r, v_paths v' = v_paths v ++ r.

Lemma fits_le a b : a <= b -> fits_u32 b = true -> fits_u32 a = true.
Proof. unfold fits_u32. intros H1 H2. apply N.ltb_lt in H2. apply N.ltb_lt. lia. Qed.
(** One call. *)
Lemma set_cases v m p c : vinv v m -> set_file_contents v p c = Panic /\ fits_u32 (S (length (v_paths v))) = false \/
  exists v' b, set_file_contents v p c = Ok (v', b) /\ vinv v' (fset m p c) /\ same_paths v v' /\ length (v_paths v') <= S (length (v_paths v)) /\
    (forall q, In q (v_paths v') <-> q = p \/ In q (v_paths v)) /\
    (b = false /\ m p = c /\ v_changes v' = v_changes v \/
     exists id k, b = true /\ change_of (m p) c (Some k) /\ v_changes v' = v_changes v ++ [(id, k)] /\ v_file_path v' id = Ok p).
Proof.
  intros [N L M]. unfold set_file_contents, alloc_file_id, intern.
  set (ps := match index_of p (v_paths v) with Some i => (v_paths v, i) | None => (v_paths v ++ [p], length (v_paths v)) end).
  assert (H : exists l id, ps = (l, id) /\ NoDup l /\ (exists r, l = v_paths v ++ r) /\ nth_error l id = Some p /\ id <= length (v_paths v) /\
     length l = Nat.max (length (v_paths v)) (id + 1) /\ (forall q, index_of q l = if String.eqb q p then Some id else index_of q (v_paths v))).
  { unfold ps. pose proof (M p) as Mp. destruct (index_of p (v_paths v)) as [i|] eqn:E.
    - exists (v_paths v), i. apply index_of_some in E as E'. destruct E' as [E1 E2]. repeat split; auto; [exists []; now rewrite app_nil_r|lia|lia|].
      intros q. destruct (String.eqb_spec q p) as [->|]; auto.
    - exists (v_paths v ++ [p]), (length (v_paths v)). split; [reflexivity|]. apply index_of_none in E as Nin. split.
      { clear -N Nin. induction (v_paths v) as [|x l IH]; cbn; [constructor; [intros []|constructor]|]. inversion N; subst. constructor.
        - rewrite in_app_iff. intros [H|[H|[]]]; [auto|subst; apply Nin; now left].
        - apply IH; auto. intros X. apply Nin. now right. }
      split; [eauto|]. split; [rewrite nth_error_app2, Nat.sub_diag by lia; reflexivity|]. split; [lia|]. split; [rewrite app_length; cbn; lia|].
      intros q. rewrite index_of_app. destruct (String.eqb_spec q p) as [->|]; [now rewrite E|]. destruct (index_of q (v_paths v)); reflexivity. }
  destruct H as (l & id & -> & Nl & Hr & Hnth & Hid & Hlen & Hidx).
  destruct (fits_u32 (S id)) eqn:Hf; cbn [rassert rbind]; [right|left; split; [reflexivity|]; destruct (fits_u32 (S (length (v_paths v)))) eqn:F; [|reflexivity]; rewrite (fits_le (S id) (S (length (v_paths v))) (le_n_S _ _ Hid) F) in Hf; discriminate].
  assert (Hin : forall q, In q l <-> q = p \/ In q (v_paths v)).
  { intros q. destruct Hr as [r Hr]. split.
    - intros H. destruct (index_of q l) as [i|] eqn:E; [|apply index_of_none in E; contradiction]. rewrite Hidx in E. destruct (String.eqb_spec q p) as [->|]; [now left|]. right. apply index_of_some in E as [E _]. eapply nth_error_In; eauto.
    - intros [->|H]; [eapply nth_error_In; eauto|rewrite Hr; apply in_app_iff; now left]. }
  set (d := resize (v_data v) (Nat.max (length (v_data v)) (id + 1))).
  assert (Ld : length d = length l) by (unfold d, resize; rewrite app_length, repeat_length, L, Hlen; lia).
  assert (Dn : forall j, nth j d None = nth j (v_data v) None).
  { intros j. unfold d, resize. destruct (Nat.lt_ge_cases j (length (v_data v))); [now rewrite app_nth1|]. rewrite app_nth2 by lia. rewrite (nth_overflow (v_data v)) by lia. apply nth_repeat. }
  assert (Hidl : id < length l) by (apply nth_error_Some; rewrite Hnth; discriminate).
  assert (Old : nth_error d id = Some (m p)).
  { rewrite (nth_error_nth' d None) by lia. f_equal. rewrite Dn, M. specialize (Hidx p). rewrite String.eqb_refl in Hidx. destruct (index_of p (v_paths v)) as [i|] eqn:E.
    - apply index_of_some in E as [E1 E2]. destruct Hr as [r Hr]. assert (nth_error l i = Some p) by (rewrite Hr, nth_error_app1 by lia; exact E1). f_equal. apply (NoDup_nth_error l); auto. congruence.
    - apply nth_overflow. rewrite L. destruct (Nat.lt_ge_cases id (length (v_paths v))) as [Hlt|]; [|lia]. exfalso. apply index_of_none in E. apply E. destruct Hr as [r Hr]. rewrite Hr, nth_error_app1 in Hnth by lia. eapply nth_error_In; eauto. }
  unfold v_get. cbn [v_data]. rewrite Old. cbn [runwrap rbind].
  assert (Same : m p = c -> vinv (mkVfs l d (v_changes v)) (fset m p c)).
  { intros E. split; cbn [v_paths v_data]; auto. intros q. unfold fset. rewrite Hidx. destruct (String.eqb_spec q p) as [->|]; [|rewrite (M q); destruct (index_of q (v_paths v)); now rewrite ?Dn].
    subst c. apply nth_error_nth with (d := None) in Old. now rewrite Old. }
  assert (Chg : forall ch, vinv (mkVfs l (update d id c) ch) (fset m p c)).
  { intros ch. split; cbn [v_paths v_data]; [auto|now rewrite update_length|]. intros q. unfold fset. rewrite Hidx. destruct (String.eqb_spec q p) as [->|Hne].
    - rewrite update_nth by lia. now rewrite Nat.eqb_refl.
    - rewrite (M q). destruct (index_of q (v_paths v)) as [i|] eqn:E; [|reflexivity]. rewrite update_nth by lia. destruct (Nat.eqb_spec i id) as [->|]; [|now rewrite Dn].
      apply index_of_some in E as [E1 E2]. destruct Hr as [r Hr]. rewrite Hr, nth_error_app1 in Hnth by lia. congruence. }
  assert (Path : forall dd ch, v_file_path (mkVfs l dd ch) id = Ok p) by (intros; unfold v_file_path, interner_lookup; cbn [v_paths]; now rewrite Hnth).
  assert (Lle : length l <= S (length (v_paths v))) by lia.
  destruct (m p) as [old|] eqn:Em, c as [new|].
  - destruct (contents_eq_dec old new) as [->|Hne].
    + eexists. eexists. split; [reflexivity|]. split; [apply Same; reflexivity|]. split; [exact Hr|]. split; [exact Lle|]. split; [exact Hin|]. left. auto.
    + eexists. eexists. split; [reflexivity|]. split; [apply Chg|]. split; [exact Hr|]. split; [exact Lle|]. split; [exact Hin|]. right. exists id, Modify. cbn [change_of v_changes]. repeat split; auto; congruence.
  - eexists. eexists. split; [reflexivity|]. split; [apply Chg|]. split; [exact Hr|]. split; [exact Lle|]. split; [exact Hin|]. right. exists id, Delete. cbn [change_of v_changes]. repeat split; auto; congruence.
  - eexists. eexists. split; [reflexivity|]. split; [apply Chg|]. split; [exact Hr|]. split; [exact Lle|]. split; [exact Hin|]. right. exists id, Create. cbn [change_of v_changes]. repeat split; auto; congruence.
  - eexists. eexists. split; [reflexivity|]. split; [apply Same; reflexivity|]. split; [exact Hr|]. split; [exact Lle|]. split; [exact Hin|]. left. auto.
Qed.
Lemma set_spec v m p c : vinv v m -> fits_u32 (S (length (v_paths v))) = true ->
  exists v' b, set_file_contents v p c = Ok (v', b) /\ vinv v' (fset m p c) /\ same_paths v v' /\ length (v_paths v') <= S (length (v_paths v)) /\
    (b = false /\ m p = c /\ v_changes v' = v_changes v \/
     exists id k, b = true /\ change_of (m p) c (Some k) /\ v_changes v' = v_changes v ++ [(id, k)] /\ v_file_path v' id = Ok p).
Proof. intros I F. destruct (set_cases v m p c I) as [[_ X]|(v' & b & H1 & H2 & H3 & H4 & _ & H5)]; [congruence|]. exists v', b. auto. Qed.
Lemma default_inv : vinv vfs_default no_files.
Proof. split; [constructor|reflexivity|reflexivity]. Qed.
Lemma take_inv v m : vinv v m -> vinv (fst (v_take_changes v)) m.
Proof. intros [N L M]. split; auto. Qed.
Lemma same_paths_trans a b c : same_paths a b -> same_paths b c -> same_paths a c.
Proof. intros [r E] [r' E']. exists (r ++ r'). now rewrite E', E, app_assoc. Qed.
Lemma same_paths_refl a : same_paths a a.
Proof. exists []. now rewrite app_nil_r. Qed.
Lemma vrun_spec h : forall v m, vinv v m -> fits_u32 (S (length (v_paths v) + length h)) = true ->
  exists v' o, vrun v h = Ok (v', o) /\ vinv v' (files m h) /\ same_paths v v' /\ length (v_paths v') <= length (v_paths v) + length h.
Proof.
  induction h as [|[p c|] h IH]; intros v m I F; cbn [vrun files length] in *.
  - exists v, []. split; [reflexivity|]. split; [exact I|]. split; [apply same_paths_refl|lia].
  - destruct (set_spec v m p c I) as (v1 & b & -> & I1 & S1 & L1 & _); [eapply fits_le; [|exact F]; lia|].
    destruct (IH v1 _ I1) as (v2 & o & -> & I2 & S2 & L2); [eapply fits_le; [|exact F]; lia|]. eexists. eexists. split; [reflexivity|]. split; [exact I2|]. split; [eapply same_paths_trans; eauto|lia].
  - destruct (IH (fst (v_take_changes v)) m (take_inv _ _ I)) as (v2 & o & H & I2 & S2 & L2); [eapply fits_le; [|exact F]; cbn; lia|]. cbn [fst v_take_changes] in *. unfold v_take_changes in H. cbn [fst] in H. rewrite H.
    eexists. eexists. split; [reflexivity|]. split; [exact I2|]. split; [exact S2|]. cbn in L2. lia.
Qed.
Lemma lookup_inv v m p : vinv v m ->
  match m p with Some c => exists id, v_file_id v p = Ok (Some id) /\ v_file_contents v id = Ok c /\ v_file_path v id = Ok p | None => v_file_id v p = Ok None end.
Proof.
  intros [N L M]. unfold v_file_id, interner_get. rewrite M. destruct (index_of p (v_paths v)) as [i|] eqn:E; [|reflexivity].
  apply index_of_some in E as [E1 E2]. unfold v_file_contents, v_get. assert (D : nth_error (v_data v) i = Some (nth i (v_data v) None)) by (apply nth_error_nth'; lia). rewrite D. cbn [runwrap rbind].
  destruct (nth i (v_data v) None) as [c|]; [|reflexivity]. exists i. split; [reflexivity|]. rewrite D. cbn [runwrap rbind]. split; [reflexivity|]. unfold v_file_path, interner_lookup. now rewrite E1.
Qed.

(** * C45 *)
Theorem C45_map : forall h, fits_u32 (S (length h)) = true -> exists v o, vrun vfs_default h = Ok (v, o) /\
  (forall p, match files no_files h p with Some c => exists id, v_file_id v p = Ok (Some id) /\ v_file_contents v id = Ok c | None => v_file_id v p = Ok None end) /\
  (forall p c, fits_u32 (S (S (length h))) = true -> exists v' b, set_file_contents v p c = Ok (v', b) /\ (b = true <-> files no_files h p <> c)).
Proof.
  intros h F. destruct (vrun_spec h vfs_default no_files default_inv F) as (v & o & E & I & _ & L). exists v, o. split; [exact E|]. split.
  - intros p. pose proof (lookup_inv v _ p I) as H. destruct (files no_files h p); [destruct H as (id & H1 & H2 & _); eauto|exact H].
  - intros p c F'. destruct (set_spec v _ p c I) as (v' & b & E' & _ & _ & _ & H); [eapply fits_le; [|exact F']; cbn in L; lia|]. exists v', b. split; [exact E'|].
    destruct H as [(-> & H & _)|(id & k & -> & H & _)]; [split; [discriminate|contradiction]|]. split; [intros _|reflexivity]. destruct k; cbn in H; destruct H as (? & ?); try congruence; destruct H0; auto.
Qed.
Print Assumptions C45_map.

(** Iteration lists exactly the existing files. *)
Theorem C45_iter : forall h v o, vrun vfs_default h = Ok (v, o) -> fits_u32 (S (length h)) = true -> exists l, v_iter v = Ok l /\ NoDup (map fst l) /\
  forall p, (exists id, In (id, p) l /\ v_file_id v p = Ok (Some id)) <-> files no_files h p <> None.
Proof.
  intros h v o E F. destruct (vrun_spec h vfs_default no_files default_inv F) as (v' & o' & E' & I & _ & _). rewrite E in E'. injection E' as <- <-. set (m := files no_files h) in *. clearbody m.
  assert (G : forall ids, NoDup ids -> (forall i, In i ids -> i < length (v_data v)) -> exists l, v_iter_from v ids = Ok l /\ NoDup (map fst l) /\ (forall i, In i (map fst l) -> In i ids) /\
     forall i p, In (i, p) l <-> In i ids /\ nth i (v_data v) None <> None /\ nth_error (v_paths v) i = Some p).
  { induction ids as [|i ids IH]; intros Nd Hlt; cbn [v_iter_from].
    - exists []. split; [reflexivity|]. split; [constructor|]. split; [intros ? []|]. intros i p. cbn. tauto.
    - inversion Nd; subst. destruct IH as (l & E1 & N1 & S1 & H1'); [assumption|intros; apply Hlt; now right|]. unfold v_get.
      assert (Hi : i < length (v_data v)) by (apply Hlt; now left). rewrite (nth_error_nth' _ None Hi). cbn [runwrap rbind]. destruct (nth i (v_data v) None) as [c|] eqn:Ec.
      + destruct I as [N L M]. assert (Hp : exists p, nth_error (v_paths v) i = Some p) by (destruct (nth_error (v_paths v) i) eqn:X; [eauto|apply nth_error_None in X; lia]). destruct Hp as (p & Hp).
        unfold v_file_path, interner_lookup. rewrite Hp. cbn [runwrap rbind]. rewrite E1. cbn [rbind]. eexists. split; [reflexivity|]. cbn [map fst]. split; [constructor; [intros X; apply S1 in X; contradiction|assumption]|].
        split; [intros j [<-|X]; [now left|right; auto]|]. intros j q. cbn [In]. rewrite H1'. split.
        * intros [X|(X1 & X2 & X3)]; [injection X as <- <-; rewrite Ec; repeat split; auto; discriminate|auto].
        * intros ([<-|X1] & X2 & X3); [left; congruence|right; auto].
      + exists l. split; [exact E1|]. split; [assumption|]. split; [intros j X; right; auto|]. intros j q. rewrite H1'. cbn [In]. split; [tauto|]. intros ([<-|X1] & X2 & X3); [contradiction|auto]. }
  destruct (G (seq 0 (length (v_data v))) (seq_NoDup _ _)) as (l & E1 & N1 & _ & H1); [intros i Hi; apply in_seq in Hi; lia|]. exists l. split; [exact E1|]. split; [exact N1|].
  intros p. pose proof (lookup_inv v m p I) as Hl. split.
  - intros (id & _ & H). destruct (m p); [discriminate|]. congruence.
  - intros H. destruct (m p) as [c|]; [|contradiction]. destruct Hl as (id & H2 & H3 & H4). exists id. split; [|exact H2]. apply H1. unfold v_file_path, interner_lookup in H4. unfold v_file_contents, v_get in H3.
    destruct (nth_error (v_data v) id) as [x|] eqn:X; [|discriminate]. cbn [runwrap rbind] in H3. destruct x as [x|]; [|discriminate].
    assert (id < length (v_data v)) by (apply nth_error_Some; rewrite X; discriminate). split; [apply in_seq; lia|]. split; [rewrite (nth_error_nth _ _ None X); discriminate|]. destruct (nth_error (v_paths v) id); cbn in H4; congruence.
Qed.
Print Assumptions C45_iter.

Example C45_case : exists v o, vrun vfs_default [OSet "a"%string (Some (CText (txt "1"))); OSet "b"%string (Some (CRaw 7)); OSet "a"%string None; OTake; OSet "b"%string (Some (CRaw 7))] = Ok (v, o) /\
  v_file_id v "a"%string = Ok None /\ v_file_id v "b"%string = Ok (Some 1) /\ o = [RBool true; RBool true; RBool true; RChanges [(0, Create); (1, Create); (0, Delete)]; RBool false].
Proof. eexists. eexists. split; [vm_compute; reflexivity|]. repeat split; reflexivity. Qed.

(** * C46 *)
Theorem C46_ids : forall h v o p i, vrun vfs_default h = Ok (v, o) -> fits_u32 (S (length h)) = true -> v_file_id v p = Ok (Some i) ->
  forall h' v' o', vrun v h' = Ok (v', o') -> fits_u32 (S (length h + length h')) = true ->
    v_file_path v' i = Ok p /\ (forall q, v_file_id v' q = Ok (Some i) -> q = p) /\ (forall j, v_file_id v' p = Ok (Some j) -> j = i).
Proof.
  intros h v o p i E F Hi h' v' o' E' F'. destruct (vrun_spec h vfs_default no_files default_inv F) as (v1 & o1 & E1 & I & _ & L). rewrite E in E1. injection E1 as <- <-.
  destruct (vrun_spec h' v _ I) as (v2 & o2 & E2 & I2 & [r S2] & L2); [eapply fits_le; [|exact F']; cbn in L; lia|]. rewrite E' in E2. injection E2 as <- <-.
  assert (G : forall w q j, v_file_id w q = Ok (Some j) -> nth_error (v_paths w) j = Some q).
  { clear. intros w q j H. unfold v_file_id, interner_get in H. destruct (index_of q (v_paths w)) as [k|] eqn:E; [|discriminate]. apply index_of_some in E as [E _].
    destruct (v_get w k) as [[c|]| |]; cbn in H; try discriminate. injection H as <-. exact E. }
  apply G in Hi. assert (Hi' : nth_error (v_paths v') i = Some p) by (rewrite S2, nth_error_app1; [exact Hi|apply nth_error_Some; rewrite Hi; discriminate]).
  split; [unfold v_file_path, interner_lookup; now rewrite Hi'|]. split.
  - intros q Hq. apply G in Hq. congruence.
  - intros j Hj. apply G in Hj. destruct I2 as [N _ _]. apply (NoDup_nth_error (v_paths v')); [exact N|apply nth_error_Some; rewrite Hj; discriminate|congruence].
Qed.
Print Assumptions C46_ids.
Example C46_case : exists v o, vrun vfs_default [OSet "b"%string (Some (CRaw 7)); OSet "a"%string (Some (CText []))] = Ok (v, o) /\ v_file_id v "a"%string = Ok (Some 1) /\
  exists v' o', vrun v [OSet "a"%string None; OSet "c"%string (Some (CRaw 1)); OSet "a"%string (Some (CRaw 2))] = Ok (v', o') /\ v_file_id v' "a"%string = Ok (Some 1).
Proof. eexists. eexists. split; [vm_compute; reflexivity|]. split; [reflexivity|]. eexists. eexists. split; [vm_compute; reflexivity|]. reflexivity. Qed.

(** * C47 *)
Lemma log_run s : forall v m, vinv v m -> fits_u32 (S (length (v_paths v) + length s)) = true ->
  exists v' o l, vrun v (sets s) = Ok (v', o) /\ vinv v' (files m (sets s)) /\ same_paths v v' /\ Log m s l /\ exists l', v_changes v' = v_changes v ++ l' /\ names v' l' l.
Proof.
  induction s as [|[p c] s IH]; intros v m I F; cbn [sets map vrun files length fst snd] in *.
  - exists v, [], []. split; [reflexivity|]. split; [exact I|]. split; [apply same_paths_refl|]. split; [constructor|]. exists []. split; [now rewrite app_nil_r|constructor].
  - destruct (set_spec v m p c I) as (v1 & b & -> & I1 & S1 & L1 & H); [eapply fits_le; [|exact F]; lia|].
    destruct (IH v1 _ I1) as (v2 & o & l & E2 & I2 & S2 & Hl & l' & C2 & N2); [eapply fits_le; [|exact F]; lia|]. fold (sets s). rewrite E2.
    destruct H as [(Hb & Hm & Hc)|(id & k & Hb & Hk & Hc & Hp)].
    + exists v2, (RBool b :: o), l. split; [reflexivity|]. split; [exact I2|]. split; [eapply same_paths_trans; eauto|]. split.
      * apply Log_same; [exact Hm|]. assert (X : forall m1 m2, (forall q, m1 q = m2 q) -> Log m1 s l -> Log m2 s l).
        { clear. intros m1 m2 E H. revert m2 E. induction H as [m|m p c s l H1 H2 IH|m p c s k l H1 H2 IH]; intros m2 E; [constructor|apply Log_same; [rewrite <- E; exact H1|auto]|apply Log_change; [rewrite <- E; exact H1|]]. apply IH. intros q. unfold fset. destruct (String.eqb q p); auto. }
        apply (X (fset m p c)); [|exact Hl]. intros q. unfold fset. destruct (String.eqb_spec q p) as [->|]; auto.
      * exists l'. rewrite C2, Hc. auto.
    + exists v2, (RBool b :: o), ((p, k) :: l). split; [reflexivity|]. split; [exact I2|]. split; [eapply same_paths_trans; eauto|]. split; [apply Log_change; assumption|].
      exists ((id, k) :: l'). rewrite C2, Hc, <- app_assoc. split; [reflexivity|]. constructor; [|exact N2]. cbn [fst snd]. split; [|reflexivity].
      unfold v_file_path, interner_lookup in *. destruct S2 as [r S2]. rewrite S2. destruct (nth_error (v_paths v1) id) eqn:X; [|discriminate]. rewrite nth_error_app1 by (apply nth_error_Some; rewrite X; discriminate). now rewrite X.
Qed.
Lemma vrun_app h1 : forall h2 v, vrun v (h1 ++ h2) = match vrun v h1 with Ok (v1, o1) => match vrun v1 h2 with Ok (v2, o2) => Ok (v2, o1 ++ o2) | Panic => Panic | OutOfFuel => OutOfFuel end | Panic => Panic | OutOfFuel => OutOfFuel end.
Proof.
  induction h1 as [|[p c|] h1 IH]; intros h2 v; cbn [app vrun]; [destruct (vrun v h2) as [[? ?]| |]; reflexivity| |].
  - destruct (set_file_contents v p c) as [[v1 b]| |]; auto. rewrite IH. destruct (vrun v1 h1) as [[v2 o]| |]; auto. destruct (vrun v2 h2) as [[v3 o']| |]; reflexivity.
  - unfold v_take_changes. rewrite IH. destruct (vrun _ h1) as [[v2 o]| |]; auto. destruct (vrun v2 h2) as [[v3 o']| |]; reflexivity.
Qed.
(** [h] is the history up to a call of take_changes (or nothing), [s] the calls since then. *)
Theorem C47_log : forall h s, (h = [] \/ exists h', h = h' ++ [OTake]) -> fits_u32 (S (length h + length s)) = true ->
  exists v o l lp, vrun vfs_default (h ++ sets s ++ [OTake]) = Ok (v, o ++ [RChanges l]) /\ Log (files no_files h) s lp /\ names v l lp /\
    forall p, replay (existing (files no_files h)) lp p = existing (files no_files (h ++ sets s)) p.
Proof.
  intros h s Hh F. destruct (vrun_spec h vfs_default no_files default_inv) as (v1 & o1 & E1 & I1 & _ & L1); [eapply fits_le; [|exact F]; cbn; lia|].
  assert (C1 : v_changes v1 = []).
  { destruct Hh as [->|(h' & ->)]; [cbn in E1; injection E1 as <- <-; reflexivity|]. rewrite vrun_app in E1. destruct (vrun vfs_default h') as [[v0 o0]| |]; try discriminate. cbn in E1. injection E1 as <- <-. reflexivity. }
  destruct (log_run s v1 _ I1) as (v2 & o2 & l & E2 & I2 & _ & Hl & l' & C2 & N2); [eapply fits_le; [|exact F]; cbn in L1; lia|].
  exists (fst (v_take_changes v2)), (o1 ++ o2), l', l. rewrite vrun_app, E1, vrun_app, E2. cbn [vrun]. unfold v_take_changes. cbn [fst]. rewrite C2, C1, <- app_assoc. split; [reflexivity|]. split; [exact Hl|]. split; [exact N2|].
  assert (Ef : forall a b m, files m (a ++ b) = files (files m a) b) by (induction a as [|[p c|] a IH]; intros b m; cbn [app files]; auto). rewrite Ef. set (m := files no_files h) in *. clearbody m. clear -Hl.
  assert (X : forall e m, (forall p, e p = existing m p) -> Log m s l -> forall p, replay e l p = existing (files m (sets s)) p); [|now apply X]. clear. intros e m He H. revert e He.
  induction H as [m|m p c s l H1 H2 IH|m p c s k l H1 H2 IH]; intros e He q; cbn [replay sets map files fst snd]; [apply He| |].
  - rewrite (IH e He). assert (Y : forall h m1 m2, (forall x, m1 x = m2 x) -> forall x, files m1 h x = files m2 h x).
    { induction h as [|[p' c'|] h IHh]; intros m1 m2 E x; cbn [files]; auto. apply IHh. intros y. unfold fset. destruct (String.eqb y p'); auto. }
    unfold existing. fold (sets s). rewrite (Y (sets s) m (fset m p c)); [reflexivity|]. intros x. unfold fset. destruct (String.eqb_spec x p) as [->|]; auto.
  - apply IH. intros x. unfold existing, fset. destruct (String.eqb_spec x p); [|apply He]. destruct k; cbn in H1; destruct c; try reflexivity; destruct H1 as (? & H1); try contradiction; try discriminate; destruct H1; contradiction.
Qed.
Print Assumptions C47_log.
Example C47_case : exists v o, vrun vfs_default ([OSet "a"%string (Some (CRaw 1)); OTake] ++ sets [("a"%string, Some (CRaw 2)); ("b"%string, Some (CRaw 3)); ("a"%string, Some (CRaw 2)); ("b"%string, None)] ++ [OTake])
  = Ok (v, o ++ [RChanges [(0, Modify); (1, Create); (1, Delete)]]) /\
  Log (files no_files [OSet "a"%string (Some (CRaw 1)); OTake]) [("a"%string, Some (CRaw 2)); ("b"%string, Some (CRaw 3)); ("a"%string, Some (CRaw 2)); ("b"%string, None)] [("a"%string, Modify); ("b"%string, Create); ("b"%string, Delete)].
Proof.
  eexists. exists [RBool true; RChanges [(0, Create)]; RBool true; RBool true; RBool false; RBool true]. split; [vm_compute; reflexivity|].
  apply Log_change; [cbn; repeat split; discriminate|]. apply Log_change; [cbn; split; [reflexivity|discriminate]|]. apply Log_same; [reflexivity|]. apply Log_change; [cbn; split; [discriminate|reflexivity]|]. constructor.
Qed.

(** ** The queries *)
(** [len] counts the paths that were ever named, existing or not. *)
Definition named_paths (h : list vop) : list path := flat_map (fun o => match o with OSet p _ => [p] | OTake => [] end) h.
Lemma vrun_paths h : forall v v' o m, vinv v m -> vrun v h = Ok (v', o) -> vinv v' (files m h) /\ forall p, In p (v_paths v') <-> In p (v_paths v) \/ In p (named_paths h).
Proof.
  induction h as [|[p c|] h IH]; intros v v' o m I E; cbn [vrun files named_paths flat_map app] in *.
  - injection E as <- <-. split; [exact I|]. intros p. cbn. tauto.
  - destruct (set_cases v m p c I) as [[X _]|(v1 & b & X & I1 & _ & _ & P1 & _)]; rewrite X in E; [discriminate|]. destruct (vrun v1 h) as [[v2 o2]| |] eqn:E2; try discriminate. injection E as <- <-.
    destruct (IH _ _ _ _ I1 E2) as [I2 P2]. split; [exact I2|]. intros q. rewrite P2, P1. cbn [In]. split; [intros [[->|H]|H]; auto|intros [H|[->|H]]; auto].
  - unfold v_take_changes in E. destruct (vrun (mkVfs (v_paths v) (v_data v) []) h) as [[v2 o2]| |] eqn:E2; try discriminate. injection E as <- <-. exact (IH _ _ _ _ (take_inv _ _ I) E2).
Qed.
Theorem C45_len : forall h v o ps, vrun vfs_default h = Ok (v, o) -> NoDup ps -> (forall p, In p ps <-> exists c, In (OSet p c) h) -> v_len v = length ps.
Proof.
  intros h v o ps E Nd H. destruct (vrun_paths h _ _ _ _ default_inv E) as [I P]. unfold v_len. rewrite (vi_len _ _ I).
  assert (Q : forall p, In p (v_paths v) <-> In p ps).
  { intros p. rewrite P, H. unfold named_paths. rewrite in_flat_map. cbn. split; [intros [[]|([q c|] & H1 & H2)]; [destruct H2 as [<-|[]]; eauto|destruct H2]|intros (c & Hc); right; exists (OSet p c); split; [exact Hc|now left]]. }
  apply Nat.le_antisymm; apply NoDup_incl_length; try assumption; [apply (vi_nodup _ _ I)| |]; intros p; apply Q.
Qed.
Print Assumptions C45_len.
Example C45_len_case : exists v o, vrun vfs_default [OSet "a"%string (Some (CRaw 1)); OSet "b"%string None; OTake; OSet "a"%string None] = Ok (v, o) /\ v_len v = 2.
Proof. eexists. eexists. split; [vm_compute; reflexivity|reflexivity]. Qed.
(** [has_changes] says whether [take_changes] would return anything: whether a call since the last one changed a file. *)
Theorem C47_has_changes : forall h s v o, (h = [] \/ exists h', h = h' ++ [OTake]) -> fits_u32 (S (length h + length s)) = true -> vrun vfs_default (h ++ sets s) = Ok (v, o) ->
  (v_has_changes v = true <-> exists s1 p c s2, s = s1 ++ (p, c) :: s2 /\ files no_files (h ++ sets s1) p <> c).
Proof.
  intros h s v o Hh F E. destruct (vrun_spec h vfs_default no_files default_inv) as (v1 & o1 & E1 & I1 & _ & L1); [eapply fits_le; [|exact F]; cbn; lia|].
  assert (C1 : v_changes v1 = []).
  { destruct Hh as [->|(h' & ->)]; [cbn in E1; injection E1 as <- <-; reflexivity|]. rewrite vrun_app in E1. destruct (vrun vfs_default h') as [[v0 o0]| |]; try discriminate. cbn in E1. injection E1 as <- <-. reflexivity. }
  destruct (log_run s v1 _ I1) as (v2 & o2 & l & E2 & I2 & _ & Hl & l' & C2 & N2); [eapply fits_le; [|exact F]; cbn in L1; lia|].
  rewrite vrun_app, E1, E2 in E. injection E as <- <-. unfold v_has_changes. rewrite C2, C1. cbn [app].
  assert (Ef : forall a b m, files m (a ++ b) = files (files m a) b) by (induction a as [|[p c|] a IH]; intros b m; cbn [app files]; auto).
  assert (X : l <> [] <-> exists s1 p c s2, s = s1 ++ (p, c) :: s2 /\ files no_files (h ++ sets s1) p <> c).
  { assert (R : forall a, files no_files (h ++ sets a) = files (files no_files h) (sets a)) by (intros a; apply Ef).
    transitivity (exists s1 p c s2, s = s1 ++ (p, c) :: s2 /\ files (files no_files h) (sets s1) p <> c); [|split; intros (s1 & p & c & s2 & H1 & H2); exists s1, p, c, s2; (split; [exact H1|]); [rewrite R|rewrite <- R]; exact H2].
    set (m := files no_files h) in *. clearbody m. clear -Hl.
    assert (Y : forall h m1 m2, (forall x, m1 x = m2 x) -> forall x, files m1 h x = files m2 h x).
    { induction h as [|[p' c'|] h IHh]; intros m1 m2 E x; cbn [files]; auto. apply IHh. intros y. unfold fset. destruct (String.eqb y p'); auto. }
    induction Hl as [m|m p c s l H1 H2 IH|m p c s k l H1 H2 IH].
    - split; [intros H; now destruct H|]. intros (s1 & p & c & s2 & H & _). destruct s1; discriminate.
    - cbn in H1. rewrite IH. assert (Z : forall x, m x = fset m p c x) by (intros x; unfold fset; destruct (String.eqb_spec x p) as [->|]; auto). split.
      + intros (s1 & q & d & s2 & -> & H). exists ((p, c) :: s1), q, d, s2. split; [reflexivity|]. cbn [sets map files fst snd]. fold (sets s1). rewrite <- (Y (sets s1) _ _ Z). exact H.
      + intros ([|x s1] & q & d & s2 & H & Hc); [injection H as <- <- <-; contradiction|]. injection H as <- ->. exists s1, q, d, s2. split; [reflexivity|]. cbn [sets map files fst snd] in Hc. fold (sets s1) in Hc. rewrite (Y (sets s1) _ _ Z). exact Hc.
    - split; [intros _|discriminate]. exists [], p, c, s. split; [reflexivity|]. cbn. destruct k; cbn in H1; intros E; rewrite E in H1; destruct c; repeat match goal with H : _ /\ _ |- _ => destruct H end; try congruence. }
  rewrite <- X. assert (G : l' = [] <-> l = []) by (inversion N2; subst; split; intros; try discriminate; reflexivity). destruct l'; destruct l; try (split; [discriminate|intros H; now destruct H]); try (split; [discriminate|reflexivity]); try (exfalso; destruct G as [G1 G2]; (discriminate (G1 eq_refl) || discriminate (G2 eq_refl))).
Qed.
Print Assumptions C47_has_changes.
(** What a record says of its file: whether it is there after the change, and whether that is new. *)
Theorem C47_record : forall a b id k, change_of a b (Some k) ->
  (cf_exists (id, k) = true <-> b <> None) /\ (is_created_or_deleted (id, k) = true <-> (a = None <-> b <> None)).
Proof.
  intros a b id k H. destruct k; cbn in *; repeat match goal with H : _ /\ _ |- _ => destruct H end; subst; split; split; intros; try discriminate; try tauto; try congruence; exfalso; destruct a, b; try congruence.
Qed.
Print Assumptions C47_record.
