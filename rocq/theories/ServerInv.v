(** ServerInv.v — invariants of the server state. *)
From Coq Require Import ZArith.
From Verif Require Import Base TextEdit LineIndex Vfs Ide Server PropsTextEdit PropsLineIndex PropsVfs PropsIde.

Lemma rbind_inv {A B} (r : res A) (f : A -> res B) b : rbind r f = Ok b -> exists a, r = Ok a /\ f a = Ok b.
Proof. destruct r; cbn; intros H; try discriminate; eauto. Qed.

(** * Virtual files, open documents and database *)
Definition db_text (c : option contents) : text := match c with Some (CText t) => t | _ => [] end.
(** The database text [d] of a file is right for contents [c]; a file that does not exist may
    have no text yet. *)
Definition db_matches (d : option text) (c : option contents) : Prop := d = Some (db_text c) \/ d = None /\ c = None.
Fixpoint last_kind (i : nat) (l : list changed_file) : option change_kind :=
  match l with
  | [] => None
  | (j, k) :: l' => match last_kind i l' with Some k' => Some k' | None => if i =? j then Some k else None end
  end.
Lemma last_kind_app i a b : last_kind i (a ++ b) = match last_kind i b with Some k => Some k | None => last_kind i a end.
Proof. induction a as [|[j k] a IH]; cbn [app last_kind]; [destruct (last_kind i b); reflexivity|]. rewrite IH. destruct (last_kind i b); reflexivity. Qed.

Lemma last_kind_none i l : (forall k, ~ In (i, k) l) -> last_kind i l = None.
Proof.
  induction l as [|[j k] l IH]; intros H; cbn [last_kind]; [reflexivity|]. rewrite IH by (intros k' X; apply (H k'); now right). destruct (Nat.eqb_spec i j) as [->|]; [|reflexivity]. elim (H k). now left.
Qed.
Record minv (v : vfs) (mem : list (path * Z)) (db : list (nat * text)) (m : fmap) : Prop := mkMI {
  mi_vfs : vinv v m;
  mi_mem : NoDup (map fst mem);
  mi_open : forall p z, aget string_dec p mem = Some z -> exists t, m p = Some (CText t);
  mi_dom : forall i t, aget Nat.eq_dec i db = Some t -> i < length (v_paths v);
  mi_rec : forall i k, In (i, k) (v_changes v) -> i < length (v_paths v);
  mi_db : forall p i, index_of p (v_paths v) = Some i ->
    match last_kind i (v_changes v) with None => db_matches (aget Nat.eq_dec i db) (m p) | Some Delete => m p = None | Some _ => m p <> None end }.

Lemma index_of_same v v' p i : same_paths v v' -> index_of p (v_paths v) = Some i -> NoDup (v_paths v') -> index_of p (v_paths v') = Some i.
Proof.
  intros [r E] H N. apply index_of_nth; [exact N|]. apply index_of_some in H as [H L]. rewrite E, nth_error_app1 by exact L. exact H.
Qed.
Lemma minv_set v mem db m p c v' b : minv v mem db m -> set_file_contents v p c = Ok (v', b) -> (aget string_dec p mem = None \/ exists t, c = Some (CText t)) -> minv v' mem db (fset m p c).
Proof.
  intros [I N O D R B] H Hp. destruct (set_cases v m p c I) as [[X _]|(v1 & b1 & E & I1 & S1 & L1 & P1 & Hc)]; [congruence|]. rewrite H in E. injection E as <- <-.
  pose proof (vi_nodup _ _ I1) as N1. pose proof (vi_nodup _ _ I) as N0. split; auto.
  - intros q z Hq. unfold fset. destruct (String.eqb_spec q p) as [->|]; [|eauto]. destruct Hp as [Hp|[t ->]]; [congruence|eauto].
  - intros i t Hi. apply D in Hi. destruct S1 as [r E]. rewrite E, app_length. lia.
  - intros i k Hi. destruct S1 as [r E]. destruct Hc as [(_ & _ & Hch)|(id & k' & _ & _ & Hch & Hpath)]; rewrite Hch in Hi; [apply R in Hi; rewrite E, app_length; lia|].
    apply in_app_iff in Hi as [Hi|[Hi|[]]]; [apply R in Hi; rewrite E, app_length; lia|]. injection Hi as <- <-. unfold v_file_path, interner_lookup in Hpath. apply nth_error_Some. intros X. rewrite X in Hpath. discriminate.
  - intros q i Hi. destruct (index_of q (v_paths v)) as [j|] eqn:Ej.
    + assert (j = i) by (pose proof (index_of_same v v' q j S1 Ej N1); congruence). subst j. specialize (B q i Ej). destruct Hc as [(_ & Hm & ->)|(id & k & _ & Hk & -> & Hpath)].
      * unfold fset. destruct (String.eqb_spec q p) as [->|]; [rewrite <- Hm; exact B|exact B].
      * rewrite last_kind_app. cbn [last_kind]. unfold v_file_path, interner_lookup in Hpath. destruct (nth_error (v_paths v') id) as [y|] eqn:Y; [|discriminate]. injection Hpath as ->.
        apply index_of_nth in Y; [|exact N1]. destruct (Nat.eqb_spec i id) as [->|Hne].
        -- assert (q = p) by (apply index_of_some in Hi as [Hi _]; apply index_of_some in Y as [Y _]; congruence). subst q. unfold fset. rewrite String.eqb_refl. destruct k; cbn in Hk; tauto.
        -- unfold fset. destruct (String.eqb_spec q p) as [->|]; [congruence|exact B].
    + (* a path that was not known *)
      assert (q = p) as ->. { apply index_of_some in Hi as [Hi _]. apply nth_error_In in Hi. apply P1 in Hi as [->|Hi]; [reflexivity|]. apply index_of_none in Ej. contradiction. }
      assert (Mp : m p = None) by (rewrite (vi_map _ _ I), Ej; reflexivity).
      assert (Li : length (v_paths v) <= i). { destruct (Nat.lt_ge_cases i (length (v_paths v))) as [Hlt|]; [|assumption]. exfalso. apply index_of_none in Ej. apply Ej. apply index_of_some in Hi as [Hi _]. destruct S1 as [r E]. rewrite E, nth_error_app1 in Hi by exact Hlt. eapply nth_error_In; eauto. }
      assert (Kn : last_kind i (v_changes v) = None) by (apply last_kind_none; intros k X; apply R in X; lia).
      unfold fset. rewrite String.eqb_refl. destruct Hc as [(_ & Hm & Hch)|(id & k & _ & Hk & Hch & Hpath)]; rewrite Hch.
      * rewrite Kn. rewrite Mp in Hm. subst c. right. split; [|reflexivity]. destruct (aget Nat.eq_dec i db) eqn:X; [apply D in X; lia|reflexivity].
      * rewrite last_kind_app. cbn [last_kind]. unfold v_file_path, interner_lookup in Hpath. destruct (nth_error (v_paths v') id) as [y|] eqn:Y; [|discriminate]. injection Hpath as ->.
        apply index_of_nth in Y; [|exact N1]. assert (i = id) as -> by congruence. rewrite Nat.eqb_refl. destruct k; cbn in Hk; tauto.
Qed.

(** process_changes brings the database up to date. *)
Lemma collect_spec v m l : vinv v m -> forall r, collect_changes v l = Ok r ->
  forall db i, (forall k, In (i, k) l -> i < length (v_paths v)) -> aget Nat.eq_dec i (apply_change db r) =
    match last_kind i l with
    | None => aget Nat.eq_dec i db
    | Some Delete => Some []
    | Some _ => Some (db_text (nth i (v_data v) None))
    end.
Proof.
  intros I. induction l as [|[j k] l IH]; intros r H db i Hd; cbn [collect_changes] in H; [injection H as <-; reflexivity|].
  apply rbind_inv in H as (t & Ht & H). apply rbind_inv in H as (r' & Hr & H). injection H as <-.
  change (apply_change db ((j, t) :: r')) with (apply_change (aset Nat.eq_dec j (match t with Some x => x | None => [] end) db) r').
  rewrite (IH _ Hr) by (intros k' X; apply (Hd k'); now right). cbn [last_kind]. destruct (last_kind i l) as [k'|]; [reflexivity|]. rewrite aget_aset. destruct (Nat.eq_dec i j) as [->|N]; [rewrite Nat.eqb_refl|destruct (Nat.eqb_spec i j); [contradiction|reflexivity]].
  cbn [cf_exists snd fst] in Ht. assert (G : (exists c, v_file_contents v j = Ok c /\ t = as_utf8 c) -> Some (match t with Some x => x | None => [] end) = Some (db_text (nth j (v_data v) None))).
  { intros (c & Hc & ->). unfold v_file_contents, v_get in Hc. destruct (nth_error (v_data v) j) as [x|] eqn:X; [|discriminate]. cbn [runwrap rbind] in Hc. destruct x as [x|]; [|discriminate]. injection Hc as <-. rewrite (nth_error_nth _ _ None X). destruct x; reflexivity. }
  destruct k; [| |injection Ht as <-; reflexivity]; apply rbind_inv in Ht as (c & Hc & Ht); injection Ht as <-; apply G; eauto.
Qed.
Lemma minv_process g g' b m : process_changes g = Ok (g', b) -> minv (g_vfs g) (g_mem_docs g) (g_db g) m ->
  minv (g_vfs g') (g_mem_docs g') (g_db g') m /\ v_changes (g_vfs g') = [] /\ g_mem_docs g' = g_mem_docs g /\ v_paths (g_vfs g') = v_paths (g_vfs g) /\ v_data (g_vfs g') = v_data (g_vfs g) /\
  (b = false -> g_db g' = g_db g /\ v_changes (g_vfs g) = []).
Proof.
  intros H M. pose proof M as [I N O D R B]. unfold process_changes, v_take_changes in H. destruct (v_changes (g_vfs g)) as [|f l] eqn:E.
  - injection H as <- <-. cbn. split; [|repeat split; auto]. split; cbn [v_paths v_data v_changes]; [now apply take_inv|exact N|exact O|exact D|intros i k []|intros p i Hi; exact (B p i Hi)].
  - rewrite <- E in H. apply rbind_inv in H as (ch & Hch & H). injection H as <- <-. cbn.
    assert (I' : vinv (mkVfs (v_paths (g_vfs g)) (v_data (g_vfs g)) []) m) by now apply take_inv.
    split; [|repeat split; auto; discriminate]. split; cbn [v_paths v_data v_changes]; [exact I'|exact N|exact O| |intros i k []|].
    + intros i t Hi. destruct (last_kind i (v_changes (g_vfs g))) as [k|] eqn:K.
      * destruct (Nat.lt_ge_cases i (length (v_paths (g_vfs g)))) as [|Hge]; [assumption|]. rewrite last_kind_none in K; [discriminate|]. intros k' X. rewrite E in X. apply R in X. lia.
      * rewrite (collect_spec _ m _ I' _ Hch) in Hi by (intros k' X; rewrite E in X; now apply R in X). rewrite K in Hi. eauto.
    + intros p i Hi. specialize (B p i Hi). rewrite (collect_spec _ m _ I' _ Hch) by (intros k' X; rewrite E in X; now apply R in X). rewrite E. cbn [v_data].
      assert (Mi : m p = nth i (v_data (g_vfs g)) None) by (rewrite (vi_map _ _ I), Hi; reflexivity).
      destruct (last_kind i (f :: l)) as [[]|]; [left; now rewrite Mi|left; now rewrite Mi| |exact B]. left. rewrite B. reflexivity.
Qed.
