(** LexerProps.v — proofs of C02–C05 about the tokens of a text. *)
From Verif Require Import Base SyntaxKind Accept Lexer LexerDirect LexSpec LexerProofs LexerClass.
From Coq Require Import ZifyBool ZifyN.

Lemma token_at_step t a k l b : token_at t a k l b -> exists e, Step k e l b.
Proof.
  intros H. apply token_at_lexed in H as (e & ls1 & ls2 & _ & _ & Hl & Hd & _).
  exists e. now apply dlex_step.
Qed.

Lemma spellings_fun k sp1 sp2 : In (k, sp1) spellings -> In (k, sp2) spellings -> sp1 = sp2.
Proof.
  assert (H : forallb (fun p => forallb (fun q =>
     implb (kind_eqb (fst p) (fst q)) (text_eqb (snd p) (snd q))) spellings) spellings = true)
    by (vm_compute; reflexivity).
  intros H1 H2. rewrite forallb_forall in H. specialize (H _ H1). rewrite forallb_forall in H.
  specialize (H _ H2). cbn [fst snd] in H. rewrite kind_eqb_refl in H. cbn [implb] in H.
  now apply text_eqb_eq.
Qed.

Definition op_kinds : list kind := map fst spellings.
Definition kw_kinds : list kind := map snd keywords.

Lemma in_op_kinds k sp : In (k, sp) spellings -> In k op_kinds.
Proof. intros H. apply (in_map fst) in H. exact H. Qed.
Lemma in_kw_kinds k w : In (w, k) keywords -> In k kw_kinds.
Proof. intros H. apply (in_map snd) in H. exact H. Qed.

Lemma kw_kind_cases l : (In (l, kw_kind l) keywords) \/
  (kw_kind l = KIdent /\ forall k, ~ In (l, k) keywords).
Proof.
  unfold kw_kind. destruct (from_keyword l) as [k|] eqn:E.
  - left. now apply from_keyword_spec.
  - right. split; [reflexivity|]. now apply from_keyword_none.
Qed.

Lemma kw_not_op k : In k kw_kinds \/ k = KIdent -> ~ In k op_kinds.
Proof.
  intros [H| ->] H2; [|cbn in H2; intuition discriminate].
  assert (E : forallb (fun k => negb (existsb (kind_eqb k) op_kinds)) kw_kinds = true)
    by (vm_compute; reflexivity).
  rewrite forallb_forall in E. specialize (E _ H). apply negb_true_iff in E.
  assert (existsb (kind_eqb k) op_kinds = true)
    by (apply existsb_exists; exists k; split; [exact H2|apply kind_eqb_refl]).
  congruence.
Qed.

Lemma kw_kind_in l : In (kw_kind l) kw_kinds \/ kw_kind l = KIdent.
Proof.
  destruct (kw_kind_cases l) as [H|[-> _]]; [left|now right]. exact (in_kw_kinds _ _ H).
Qed.

Ltac in_op H := cbn [op_kinds spellings map fst In] in H; intuition discriminate.

(** C02, first half. *)
Lemma op_token_exact t a k l b sp : token_at t a k l b -> In (k, sp) spellings ->
  l = sp /\ (forall sp', In sp' (openers ++ map snd spellings) -> prefix_of sp' (l ++ b) ->
             length sp' <= length l).
Proof.
  intros Ht Hin. apply token_at_step in Ht as [e Hs]. pose proof (in_op_kinds _ _ Hin) as Hk.
  inversion Hs; subst; try in_op Hk.
  - assert (l = sp) by (eapply spellings_fun; eauto). subst. auto.
  - exfalso. eapply kw_not_op; [apply kw_kind_in|exact Hk].
Qed.

Lemma dbrackets_strict c x : (c =? lbr)%N || (c =? eqs)%N = true -> suffix (snd (dbrackets (c :: x))) x.
Proof.
  intros H. unfold dbrackets. rewrite dropw_cons. destruct (eqs =? c)%N eqn:E.
  - eapply suffix_trans; [apply suffix_dbracket|apply suffix_dropw].
  - assert (Hc : (c =? lbr)%N = true) by (rewrite N.eqb_sym in E; rewrite E in H; now rewrite orb_false_r in H).
    unfold dbracket, dclose_all. cbn [drop1]. rewrite Hc.
    pose proof (suffix_dclose (S (S (length x))) (length (takew (N.eqb eqs) (c :: x))) x) as Hs.
    destruct (dclose _ _ x) as [f r]. cbn [snd] in Hs. destruct f; cbn [snd]; [|exact Hs].
    eapply suffix_trans; [apply suffix_drop1|exact Hs].
Qed.

Lemma dbrackets_no_self c x e : (c =? lbr)%N || (c =? eqs)%N = true ->
  dbrackets (c :: x) = (e, c :: x) -> False.
Proof.
  intros Ho Hd. pose proof (suffix_len _ _ (dbrackets_strict c x Ho)) as Hl. rewrite Hd in Hl.
  cbn in Hl. lia.
Qed.

Lemma spelling_head k sp : In (k, sp) spellings -> exists c r, sp = c :: r /\
  is_ident_start c = false /\ is_number c = false /\ is_whitespace c = false /\
  c <> squote /\ c <> dquote.
Proof.
  intros H.
  assert (E : forallb (fun p => match snd p with [] => false | c :: _ =>
    negb (is_ident_start c) && negb (is_number c) && negb (is_whitespace c) &&
    negb (N.eqb c squote) && negb (N.eqb c dquote) end) spellings = true) by (vm_compute; reflexivity).
  rewrite forallb_forall in E. specialize (E _ H). cbn [snd] in E.
  destruct sp as [|c r]; [discriminate|]. exists c, r. split; [reflexivity|].
  repeat (apply andb_true_iff in E as [E ?]). repeat match goal with H : negb _ = true |- _ => apply negb_true_iff in H end.
  repeat split; auto; now apply N.eqb_neq.
Qed.

(** C02, second half. *)
Lemma op_token_when t a k l b k' sp' : token_at t a k l b -> In (k', sp') spellings ->
  prefix_of sp' (l ++ b) ->
  (In (k, l) spellings /\ length sp' <= length l) \/ (exists o, In o openers /\ prefix_of o l).
Proof.
  intros Ht Hin Hp. apply token_at_step in Ht as [e Hs].
  destruct (spelling_head _ _ Hin) as (c0 & r0 & Hsp & Hn1 & Hn2 & Hn3 & Hn4 & Hn5).
  assert (Hfirst : forall c x, l = c :: x -> c = c0).
  { intros c x ->. destruct Hp as [y Hy]. rewrite Hsp in Hy. cbn in Hy. congruence. }
  inversion Hs as [k1 sp b1 Hin1 Hlf|b1 Hb|r e1 b1 Ho Hd|r b1 Hd|q r e1 b1 Hq Hd|c r b1 Hc Hr Hb|c r b1 Hc Hd|c r b1 Hc Hr Hb|c b1 H1 H2 H3 H4 H5 H6 H7];
    subst k e l b; try (exfalso; specialize (Hfirst _ _ eq_refl); subst; congruence).
  - left. split; [exact Hin1|]. apply Hlf; [|exact Hp]. apply in_or_app. right.
    apply (in_map snd) in Hin. exact Hin.
  - exfalso. destruct Hp as [y Hy]. cbn [spellings In] in Hin.
    assert (Hsp' : sp' = txt "~=").
    { specialize (Hfirst _ _ eq_refl). subst c0.
      repeat (destruct Hin as [Hin|Hin]; [injection Hin as <- <-; try discriminate; reflexivity|]). destruct Hin. }
    rewrite Hsp' in Hy. destruct b1 as [|z b1]; cbn in Hy; [discriminate Hy|]. injection Hy as Hz _. subst z. discriminate Hb.
  - right. destruct r as [|c r].
    + exfalso. cbn [app] in *. destruct b1 as [|c b1]; [discriminate|]. cbn [hd_is] in Ho.
      exact (dbrackets_no_self _ _ _ Ho Hd).
    + cbn [app hd_is] in Ho. apply orb_true_iff in Ho as [Ho|Ho]; apply N.eqb_eq in Ho as ->.
      * exists (txt "[["). split; [cbn; tauto|]. now exists r.
      * exists (txt "[="). split; [cbn; tauto|]. now exists r.
  - right. exists (txt "--"). split; [cbn; tauto|]. now exists r.
  - exfalso. specialize (Hfirst _ _ eq_refl). subst. destruct Hq; congruence.
  - exfalso. eapply H7; [exact Hin|exact Hp].
Qed.

(** C03. *)
Lemma ident_shape_iff c r : ident_shape (c :: r) <-> is_ident_start c = true /\ forallb is_ident_continue r = true.
Proof.
  unfold ident_shape. rewrite letter_iff, (forallb_Forall_iff _ _ _ identc_iff). split.
  - intros (c' & r' & [= <- <-] & H). exact H.
  - intros H. exists c, r. auto.
Qed.


Lemma not_starts (f : char -> bool) (P : char -> Prop) b : (forall c, f c = true <-> P c) ->
  (~ starts P b) <-> match b with [] => True | d :: _ => f d = false end.
Proof.
  intros H. destruct b as [|c b]; cbn; [tauto|]. rewrite <- H. destruct (f c); split; congruence || tauto.
Qed.

Lemma ident_token t a k l b : token_at t a k l b ->
  ((k = KIdent \/ exists w, In (w, k) keywords) <-> ident_shape l) /\
  (ident_shape l -> ~ starts identc b /\
     (In (l, k) keywords \/ (k = KIdent /\ forall k', ~ In (l, k') keywords))).
Proof.
  intros Ht. apply token_at_step in Ht as [e Hs].
  assert (Hkw : forall k, In k op_kinds \/ k = KUnknown \/ k = KStr \/ k = KComment \/ k = KNumber \/ k = KWhitespace ->
    ~ (k = KIdent \/ exists w, In (w, k) keywords)).
  { intros k0 H0 [E|[w H1]].
    - subst. destruct H0 as [H0|H0]; [in_op H0|intuition discriminate].
    - apply in_kw_kinds in H1. destruct H0 as [H0|H0].
      + eapply kw_not_op; [left; exact H1|exact H0].
      + destruct H0 as [->|[->|[->|[->| ->]]]]; cbn in H1; intuition discriminate. }
  assert (Hsh : forall c r, is_ident_start c = false -> ~ ident_shape (c :: r)).
  { intros c r E H. apply ident_shape_iff in H as [H _]. congruence. }
  assert (Hneither : In k op_kinds \/ k = KUnknown \/ k = KStr \/ k = KComment \/ k = KNumber \/ k = KWhitespace ->
     (forall c r, l = c :: r -> is_ident_start c = false) -> 
     ((k = KIdent \/ exists w, In (w, k) keywords) <-> ident_shape l) /\
     (ident_shape l -> ~ starts identc b /\
        (In (l, k) keywords \/ (k = KIdent /\ forall k', ~ In (l, k') keywords)))).
  { intros H1 H2. assert (Hn : ~ ident_shape l).
    { destruct l as [|c r]; [intros (?&?&[=]&_)|]. apply Hsh. now apply (H2 c r). }
    split; [|tauto]. specialize (Hkw _ H1). tauto. }
  inversion Hs as [k1 sp b1 Hin1 Hlf|b1 Hb|r e1 b1 Ho Hd|r b1 Hd|q r e1 b1 Hq Hd|c r b1 Hc Hr Hb|c r b1 Hc Hd|c r b1 Hc Hr Hb|c b1 H1 H2 H3 H4 H5 H6 H7];
    subst; try (apply Hneither; [solve [repeat first [reflexivity | left; reflexivity | right]]|intros c' r' E; injection E as <- <-; try reflexivity]).
  - apply Hneither; [left; exact (in_op_kinds _ _ Hin1)|]. intros c r El; subst.
    destruct (spelling_head _ _ Hin1) as (c0 & r0 & [= <- <-] & Hn & _). exact Hn.
  - destruct Hq; subst; reflexivity.
  - assert (Hshape : ident_shape (c :: r)) by (apply ident_shape_iff; auto).
    split.
    + split; [auto|]. intros _. destruct (kw_kind_cases (c :: r)) as [H|[-> _]]; [right; eauto|left; reflexivity].
    + intros _. split; [|apply kw_kind_cases]. now apply (not_starts _ _ _ identc_iff).
  - clear -Hc. unfold is_number, is_ident_start in *. lia.
  - clear -Hc. unfold is_whitespace, is_ident_start in *. lia.
  - exact H1.
Qed.

(** C04: whitespace. *)
Lemma whitespace_token t a k l b : token_at t a k l b ->
  (k = KWhitespace <-> starts blank l) /\
  (k = KWhitespace -> Forall blank l /\ ~ starts blank b).
Proof.
  intros Ht. apply token_at_step in Ht as [e Hs].
  assert (Hneither : k <> KWhitespace -> (forall c r, l = c :: r -> is_whitespace c = false) ->
    (k = KWhitespace <-> starts blank l) /\ (k = KWhitespace -> Forall blank l /\ ~ starts blank b)).
  { intros H1 H2. split; [|tauto]. split; [tauto|]. destruct l as [|c r]; cbn; [tauto|].
    rewrite <- blank_iff. rewrite (H2 c r eq_refl). discriminate. }
  inversion Hs as [k1 sp b1 Hin1 Hlf|b1 Hb|r e1 b1 Ho Hd|r b1 Hd|q r e1 b1 Hq Hd|c r b1 Hc Hr Hb|c r b1 Hc Hd|c r b1 Hc Hr Hb|c b1 H1 H2 H3 H4 H5 H6 H7];
    subst; try (apply Hneither; [discriminate|intros c' r' E; injection E as <- <-; try reflexivity]).
  - apply Hneither; [intros Ek; subst; apply in_op_kinds in Hin1; in_op Hin1|]. intros c r El; subst.
    destruct (spelling_head _ _ Hin1) as (c0 & r0 & [= <- <-] & _ & _ & Hn & _). exact Hn.
  - destruct Hq; subst; reflexivity.
  - apply Hneither.
    + destruct (kw_kind_in (c :: r)) as [H|E]; [|congruence]. intros E. rewrite E in H. cbn in H. intuition discriminate.
    + intros c' r' [= <- <-]. clear -Hc. unfold is_whitespace, is_ident_start in *. lia.
  - clear -Hc. unfold is_whitespace, is_number in *. lia.
  - split.
    + split; [intros _; cbn; now apply blank_iff|reflexivity].
    + intros _. split.
      * apply (forallb_Forall_iff _ _ _ blank_iff). cbn. now rewrite Hc.
      * now apply (not_starts _ _ _ blank_iff).
  - exact H3.
Qed.

(** C04: comments. *)
Lemma comment_token t a k l b : token_at t a k l b ->
  (k = KComment <-> prefix_of (txt "--") l) /\
  (k = KComment -> ~ prefix_of (txt "--[[") l ->
     Forall (fun c => c <> 10%N) l /\ (b = [] \/ exists b', b = 10%N :: b')).
Proof.
  intros Ht. apply token_at_step in Ht as [e Hs].
  assert (Hneither : k <> KComment -> ~ prefix_of (txt "--") l ->
    (k = KComment <-> prefix_of (txt "--") l) /\
    (k = KComment -> ~ prefix_of (txt "--[[") l ->
     Forall (fun c => c <> 10%N) l /\ (b = [] \/ exists b', b = 10%N :: b'))) by tauto.
  assert (Hno : forall c r, l = c :: r -> c <> ch "-" -> ~ prefix_of (txt "--") l).
  { intros c r -> Hc [y Hy]. cbn in Hy. injection Hy as -> _. now apply Hc. }
  inversion Hs as [k1 sp b1 Hin1 Hlf|b1 Hb|r e1 b1 Ho Hd|r b1 Hd|q r e1 b1 Hq Hd|c r b1 Hc Hr Hb|c r b1 Hc Hd|c r b1 Hc Hr Hb|c b1 H1 H2 H3 H4 H5 H6 H7];
    subst; try (apply Hneither; [discriminate|eapply Hno; [reflexivity|try discriminate]]).
  - apply Hneither; [intros Ek; subst; apply in_op_kinds in Hin1; in_op Hin1|]. intros [y El]; subst. specialize (Hlf (txt "--")). cbn [spellings In] in Hin1.
    repeat (destruct Hin1 as [Hin1|Hin1]; [discriminate|]). destruct Hin1.
  - split; [split; [intros _; now exists r|reflexivity]|]. intros _ Hnl.
    unfold dcomment in Hd. destruct (hd_is lbr (r ++ b) && hd_is lbr (drop1 lbr (r ++ b))) eqn:E.
    + exfalso. apply Hnl. clear Hnl Hs Hno Hneither.
      assert (Hsuf : exists x, r ++ b = lbr :: lbr :: x /\ suffix b x).
      { destruct (r ++ b) as [|c1 y]; [discriminate|]. cbn [hd_is drop1] in E.
        apply andb_true_iff in E as [E1 E2]. apply N.eqb_eq in E1 as ->. rewrite N.eqb_refl in *.
        destruct y as [|c2 x]; [discriminate|]. cbn [hd_is] in E2. apply N.eqb_eq in E2 as ->.
        exists x. split; [reflexivity|]. rewrite <- Hd. cbn [drop1]. rewrite N.eqb_refl.
        eapply suffix_trans; [apply suffix_dropw|]. apply dbrackets_strict. reflexivity. }
      destruct Hsuf as (x & Hx & [z ->]).
      change (lbr :: lbr :: z ++ b) with ((lbr :: lbr :: z) ++ b) in Hx. apply app_inv_tail in Hx as ->.
      now exists z.
    + pose proof (takew_of _ _ _ Hd) as Htk. pose proof (takew_all not_nl (r ++ b)) as Hall.
      rewrite Htk in Hall. pose proof (dropw_hd not_nl (r ++ b)) as Hhd. rewrite Hd in Hhd.
      split.
      * repeat (constructor; [discriminate|]).
        apply (forallb_Forall_iff not_nl); [|exact Hall]. intros c. unfold not_nl, newline.
        rewrite negb_true_iff, N.eqb_neq. reflexivity.
      * destruct b as [|c b]; [now left|right]. unfold not_nl in Hhd. apply negb_false_iff, N.eqb_eq in Hhd as ->.
        now exists b.
  - destruct Hq; subst; discriminate.
  - apply Hneither.
    + destruct (kw_kind_in (c :: r)) as [H|E]; [|congruence]. intros E. rewrite E in H. cbn in H. intuition discriminate.
    + eapply Hno; [reflexivity|]. intros ->. discriminate.
  - intros ->. discriminate.
  - intros ->. discriminate.
  - intros ->. apply (H7 KMinus (txt "-")); [cbn; tauto|]. now exists b.
Qed.
