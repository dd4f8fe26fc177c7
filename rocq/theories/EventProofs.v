(** EventProofs.v — [process] turns the event encoding of a forest into the well-nested sequence
    of tree-sink calls that builds that forest. *)
From Verif Require Import Base SyntaxKind TokenSet Lexer Parser Grammar ParserTree Event.

(** The tree-sink calls that build a tree: start, children, finish. *)
Fixpoint flat (t : ptree) : list step :=
  match t with
  | PTok _ => [STok]
  | PErr e => [SErr e]
  | PErrN fs e => SStartErr :: flat_map flat fs ++ [SFinishErr e]
  | PNode k fs => SStart k :: flat_map flat fs ++ [SFinish]
  end.
Definition flats (f : forest) : list step := flat_map flat f.

(** No node is left as a tombstone. *)
Fixpoint no_tomb (t : ptree) : bool :=
  match t with
  | PTok _ | PErr _ => true
  | PErrN fs _ => forallb no_tomb fs
  | PNode k fs => negb (kind_eqb k KTombstone) && forallb no_tomb fs
  end.
Definition no_tombs (f : forest) : bool := forallb no_tomb f.

(** Processing the suffix [B] at position [n] yields [l], whatever the prefix. *)
Definition PL (B : list event) (n : nat) (l : list step) : Prop :=
  forall A, length A = n -> process_loop (length B) n (A ++ B) = Ok l.

(** Following forward parents from index [i] into [B], which starts at [n], pushes [ks] and
    leaves [B']. *)
Definition WK (fp : option nat) (i : nat) (B : list event) (n : nat) (ks : list kind)
  (B' : list event) : Prop :=
  forall A fuel acc, length A = n -> S (length B) <= fuel ->
    walk fuel (A ++ B) i fp acc = Ok (acc ++ ks, A ++ B').

Lemma WK_none i B n : WK None i B n [] B.
Proof. intros A fuel acc HA Hf. destruct fuel; cbn [walk]; now rewrite app_nil_r. Qed.

Lemma PL_nil n : PL [] n [].
Proof. intros A HA. reflexivity. Qed.

Lemma PL_step e B n l l' :
  PL B (S n) l ->
  match e with
  | EStart k _ => k = KTombstone /\ l' = l
  | EFinish => l' = SFinish :: l
  | EStartError => l' = SStartErr :: l
  | EFinishError x => l' = SFinishErr x :: l
  | EToken => l' = STok :: l
  | EError x => l' = SErr x :: l
  end -> PL (e :: B) n l'.
Proof.
  intros H He A HA. cbn [length process_loop].
  rewrite (nth_error_mid _ _ _ _ (eq_sym HA)).
  rewrite (list_set_app _ _ _ _ _ (eq_sym HA)).
  assert (H' : process_loop (length B) (S n) (A ++ tombstone :: B) = Ok l).
  { change (tombstone :: B) with ([tombstone] ++ B). rewrite app_assoc. apply H.
    rewrite app_length. simpl. lia. }
  rewrite H'. destruct e as [k fp| | |x| |x]; cbn [rbind].
  - destruct He as [-> ->]. rewrite kind_eqb_refl. reflexivity.
  - now rewrite He.
  - now rewrite He.
  - now rewrite He.
  - now rewrite He.
  - now rewrite He.
Qed.

Lemma PL_start k fp ev B n ks B' l :
  k <> KTombstone ->
  WK fp n B (S n + length ev) ks B' ->
  PL (ev ++ B') (S n) l ->
  length B' = length B ->
  PL (EStart k fp :: ev ++ B) n (map SStart (rev ks) ++ SStart k :: l).
Proof.
  intros Hk HW HP Hlen A HA. cbn [length process_loop].
  rewrite (nth_error_mid _ _ _ _ (eq_sym HA)).
  rewrite (list_set_app _ _ _ _ _ (eq_sym HA)).
  rewrite (proj2 (kind_eqb_neq _ _) Hk).
  replace (A ++ tombstone :: ev ++ B) with ((A ++ tombstone :: ev) ++ B)
    by (rewrite <- app_assoc; reflexivity).
  rewrite HW.
  - cbn [rbind].
    replace ((A ++ tombstone :: ev) ++ B') with ((A ++ [tombstone]) ++ ev ++ B')
      by (rewrite <- !app_assoc; reflexivity).
    replace (length (ev ++ B)) with (length (ev ++ B')) by (rewrite !app_length; lia).
    rewrite HP by (rewrite app_length; simpl; lia).
    cbn [rbind]. rewrite rev_app_distr. cbn [rev app]. rewrite map_app, <- app_assoc. reflexivity.
  - rewrite app_length. simpl. lia.
  - rewrite !app_length. simpl. lia.
Qed.

Lemma process_enc :
  (forall fp t ev j, EncX fp t ev j ->
     no_tomb t = true ->
     forall B n ks B' l, WK fp (n + j) B (n + length ev) ks B' ->
       length B' = length B ->
       PL B' (n + length ev) l ->
       PL (ev ++ B) n (map SStart (rev ks) ++ flat t ++ l)) /\
  (forall t ev, Enc1 t ev -> no_tomb t = true ->
     forall B n l, PL B (n + length ev) l -> PL (ev ++ B) n (flat t ++ l)) /\
  (forall f ev, EncF f ev -> no_tombs f = true ->
     forall B n l, PL B (n + length ev) l -> PL (ev ++ B) n (flats f ++ l)).
Proof.
  apply Enc_mutind.
  - (* EX_node *)
    intros fp k fs ev Hf IH Hk B n ks B' l HW Hlen HP.
    cbn [no_tomb] in Hk. apply andb_true_iff in Hk as [Hk Hfs].
    apply negb_true_iff in Hk.
    assert (Hk' : k <> KTombstone) by (intros ->; rewrite kind_eqb_refl in Hk; discriminate).
    rewrite Nat.add_0_r in HW. cbn [length] in HW, HP.
    change ((EStart k fp :: ev ++ [EFinish]) ++ B) with (EStart k fp :: (ev ++ [EFinish]) ++ B).
    change (flat (PNode k fs) ++ l) with (SStart k :: (flat_map flat fs ++ [SFinish]) ++ l).
    apply PL_start with (B' := B').
    + exact Hk'.
    + replace (S n + length (ev ++ [EFinish])) with (n + S (length (ev ++ [EFinish]))) by lia.
      exact HW.
    + rewrite <- !app_assoc. apply IH; [exact Hfs|]. cbn [app].
      eapply PL_step; [|reflexivity].
      replace (S (S n + length ev)) with (n + S (length (ev ++ [EFinish])))
        by (rewrite app_length; simpl; lia).
      exact HP.
    + exact Hlen.
  - (* EX_pre *)
    intros fp k t pre post evt j evp evq Ht IHt Hp IHp Hq IHq Hk B n ks B' l HW Hlen HP.
    cbn [no_tomb forallb] in Hk. apply andb_true_iff in Hk as [Hk Hfs].
    apply andb_true_iff in Hfs as [Hkt Hfs]. rewrite forallb_app in Hfs.
    apply andb_true_iff in Hfs as [Hkp Hkq].
    apply negb_true_iff in Hk.
    assert (Hk' : k <> KTombstone) by (intros ->; rewrite kind_eqb_refl in Hk; discriminate).
    rewrite <- app_assoc.
    set (R := fun e (X : list event) => evp ++ e :: evq ++ EFinish :: X).
    assert (Heq : (evp ++ EStart k fp :: evq ++ [EFinish]) ++ B = R (EStart k fp) B).
    { unfold R. rewrite <- !app_assoc. cbn [app]. rewrite <- app_assoc. reflexivity. }
    rewrite Heq.
    assert (Hres : map SStart (rev ks) ++ flat (PNode k (t :: pre ++ post)) ++ l =
                   map SStart (rev (k :: ks)) ++ flat t ++ flats pre ++ flats post ++ SFinish :: l).
    { cbn [rev flat]. rewrite map_app, <- !app_assoc. cbn [map app flat_map].
      rewrite flat_map_app, <- !app_assoc. reflexivity. }
    rewrite Hres.
    assert (HlenE : length (evt ++ evp ++ EStart k fp :: evq ++ [EFinish])
                    = length evt + length evp + length evq + 2)
      by (rewrite !app_length; simpl; rewrite app_length; simpl; lia).
    rewrite HlenE in HW, HP.
    apply IHt with (B' := R tombstone B'); [exact Hkt| | |].
    + (* walking *)
      intros A fuel acc HA Hf. unfold R in *.
      rewrite app_length in Hf; cbn [length] in Hf; rewrite app_length in Hf; cbn [length] in Hf.
      destruct fuel as [|fuel]; [lia|]. cbn [walk].
      assert (Hj : j < length evt).
      { destruct (EncX_set _ None _ _ _ Ht) as (? & _ & Hj & _). exact Hj. }
      assert (Hi : n + j + (length evt + length evp - j) = length (A ++ evp))
        by (rewrite app_length; lia).
      rewrite Hi.
      replace (A ++ evp ++ EStart k fp :: evq ++ EFinish :: B)
        with ((A ++ evp) ++ EStart k fp :: evq ++ EFinish :: B)
        by (rewrite <- app_assoc; reflexivity).
      rewrite (nth_error_mid _ _ _ _ eq_refl). rewrite list_set_app by reflexivity.
      rewrite (proj2 (kind_eqb_neq _ _) Hk').
      replace ((A ++ evp) ++ tombstone :: evq ++ EFinish :: B)
        with (((A ++ evp) ++ tombstone :: evq ++ [EFinish]) ++ B)
        by (rewrite <- !app_assoc; cbn [app]; rewrite <- app_assoc; reflexivity).
      replace (length (A ++ evp)) with (n + (length evt + length evp))
        by (rewrite app_length; lia).
      rewrite HW.
      * rewrite <- !app_assoc. cbn [app]. rewrite <- app_assoc. reflexivity.
      * rewrite !app_length; simpl; rewrite app_length; simpl. lia.
      * lia.
    + unfold R. rewrite !app_length; simpl; rewrite !app_length; simpl. lia.
    + unfold R. apply IHp; [exact Hkp|].
      eapply PL_step; [|split; reflexivity].
      apply IHq; [exact Hkq|]. eapply PL_step; [|reflexivity].
      replace (S (S (n + length evt + length evp) + length evq))
        with (n + (length evt + length evp + length evq + 2)) by lia.
      exact HP.
  - intros k _ B n l HP. cbn [app flat]. eapply PL_step; [|reflexivity].
    cbn [length] in HP. now replace (S n) with (n + 1) by lia.
  - intros e _ B n l HP. cbn [app flat]. eapply PL_step; [|reflexivity].
    cbn [length] in HP. now replace (S n) with (n + 1) by lia.
  - intros fs e ev Hf IH Hk B n l HP. cbn [no_tomb] in Hk.
    change (flat (PErrN fs e) ++ l) with (SStartErr :: (flat_map flat fs ++ [SFinishErr e]) ++ l).
    cbn [app]. eapply PL_step; [|reflexivity]. rewrite <- !app_assoc. apply IH; [exact Hk|].
    cbn [app]. eapply PL_step; [|reflexivity].
    cbn [length] in HP. rewrite app_length in HP. cbn [length] in HP.
    now replace (S (S n + length ev)) with (n + S (length ev + 1)) by lia.
  - intros t ev j Ht IH Hk B n l HP.
    change (flat t ++ l) with (map SStart (rev []) ++ flat t ++ l).
    eapply IH; [exact Hk|apply WK_none|reflexivity|exact HP].
  - intros _ B n l HP. cbn [length] in HP. now rewrite Nat.add_0_r in HP.
  - intros t f ev ev' Ht IHt Hf IHf Hk B n l HP.
    cbn [no_tombs forallb] in Hk. apply andb_true_iff in Hk as [Hk1 Hk2].
    cbn [flats flat_map]. rewrite <- !app_assoc. apply IHt; [exact Hk1|]. apply IHf; [exact Hk2|].
    rewrite app_length in HP. now replace (n + length ev + length ev') with (n + (length ev + length ev')) by lia.
Qed.

Lemma process_encF f ev : EncF f ev -> no_tombs f = true -> process ev = Ok (flats f).
Proof.
  intros Hf Hk. destruct process_enc as (_ & _ & H).
  specialize (H f ev Hf Hk [] 0 [] (PL_nil _) [] eq_refl).
  rewrite !app_nil_r in H. exact H.
Qed.
