(** PropsTestUtils.v — C78: the cursor markers of a test text, and how generated files are
    updated. *)
From Verif Require Import Base TestUtils.

(** ** Specification: occurrences, and texts up to line endings. *)

(** [p] occurs in [t]. *)
Definition occurs (p t : text) : Prop := exists a b, t = a ++ p ++ b.

(** [lf t u]: [u] is [t] with each CR LF pair turned into a LF, and nothing else changed. *)
Inductive lf : text -> text -> Prop :=
| lf_nil : lf [] []
| lf_crlf t u : lf t u -> lf (13 :: 10 :: t)%N (10 :: u)%N
| lf_other c t u : ~ (c = 13%N /\ exists t', t = (10 :: t')%N) -> lf t u -> lf (c :: t) (c :: u).

(** Two texts that differ at most in their line endings. *)
Definition same_lines (t t' : text) : Prop := exists u, lf t u /\ lf t' u.

(** ** Proofs *)

Lemma starts_with_iff p t : starts_with p t = true <-> exists b, t = p ++ b.
Proof.
  revert t; induction p as [|x p IH]; intros [|y t]; cbn [starts_with app].
  - split; [intros _; now exists []|reflexivity].
  - split; [intros _; now exists (y :: t)|reflexivity].
  - split; [discriminate|intros [b H]; discriminate].
  - rewrite andb_true_iff, N.eqb_eq, IH. split.
    + intros [-> [b ->]]. now exists b.
    + intros [b H]. injection H as -> ->. split; [reflexivity|now exists b].
Qed.

Lemma str_find_none p t : str_find p t = None <-> ~ occurs p t.
Proof.
  induction t as [|c t IH]; cbn [str_find].
  - destruct (starts_with p []) eqn:E.
    + split; [discriminate|]. intros H; exfalso; apply H. apply starts_with_iff in E as [b E].
      exists [], b. exact E.
    + split; [|reflexivity]. intros _ (a & b & H).
      destruct a; [|discriminate]. assert (starts_with p [] = true) by (apply starts_with_iff; now exists b).
      congruence.
  - destruct (starts_with p (c :: t)) eqn:E.
    + split; [discriminate|]. intros H; exfalso; apply H. apply starts_with_iff in E as [b E].
      exists [], b. exact E.
    + destruct (str_find p t) as [n|] eqn:F; cbn [option_map].
      * split; [discriminate|]. intros H; exfalso.
        assert (N : ~ occurs p t). { intros (a & b & ->). apply H. now exists (c :: a), b. }
        apply IH in N. discriminate.
      * split; [|reflexivity]. intros _ (a & b & H). destruct a as [|x a].
        -- assert (starts_with p (c :: t) = true) by (apply starts_with_iff; now exists b). congruence.
        -- injection H as _ H. apply (proj1 IH eq_refl). now exists a, b.
Qed.

Lemma str_find_some p t n : str_find p t = Some n ->
  exists a b, t = a ++ p ++ b /\ blen a = n /\
    (forall a' b', t = a' ++ p ++ b' -> length a <= length a').
Proof.
  revert n; induction t as [|c t IH]; cbn [str_find]; intros n.
  - destruct (starts_with p []) eqn:E; [|discriminate]. intros [= <-].
    apply starts_with_iff in E as [b E]. exists [], b. repeat split; [exact E|]. cbn; lia.
  - destruct (starts_with p (c :: t)) eqn:E.
    + intros [= <-]. apply starts_with_iff in E as [b E]. exists [], b. repeat split; [exact E|]. cbn; lia.
    + destruct (str_find p t) as [m|] eqn:F; cbn [option_map]; [|discriminate]. intros [= <-].
      destruct (IH m eq_refl) as (a & b & -> & <- & M). exists (c :: a), b. repeat split.
      intros a' b' H. destruct a' as [|x a'].
      * assert (starts_with p (c :: a ++ p ++ b) = true) by (apply starts_with_iff; now exists b'). congruence.
      * injection H as _ H. apply M in H. cbn [length]. lia.
Qed.

(** The marker occurs first where it occurs and nothing before it contains it. *)
Lemma marker_first a b a' b' :
  a ++ txt "$0" ++ b = a' ++ txt "$0" ++ b' ->
  ~ occurs (txt "$0") a -> ~ occurs (txt "$0") a' -> a = a' /\ b = b'.
Proof.
  revert a'; induction a as [|x a IH]; intros [|y a'] H Ha Ha'.
  - cbn in H. injection H as H. split; congruence.
  - exfalso. cbn in H. injection H as H1 H2. destruct a' as [|z a'].
    + cbn in H2. discriminate.
    + cbn in H2. injection H2 as H2 H3. subst. apply Ha'. exists [], a'. reflexivity.
  - exfalso. cbn in H. injection H as H1 H2. destruct a as [|z a].
    + cbn in H2. discriminate.
    + cbn in H2. injection H2 as H2 H3. subst. apply Ha. exists [], a. reflexivity.
  - cbn [app] in H. injection H as -> H. destruct (IH a' H) as [-> ->]; [| |easy].
    + intros (u & v & ->). apply Ha. now exists (y :: u), v.
    + intros (u & v & ->). apply Ha'. now exists (y :: u), v.
Qed.

Lemma find_marker t n : str_find (txt "$0") t = Some n <->
  exists a b, t = a ++ txt "$0" ++ b /\ ~ occurs (txt "$0") a /\ blen a = n.
Proof.
  split.
  - intros H. destruct (str_find_some _ _ _ H) as (a & b & -> & <- & M). exists a, b. repeat split.
    intros (u & v & ->). specialize (M u (v ++ txt "$0" ++ b)).
    rewrite <- !app_assoc in M. specialize (M eq_refl). rewrite !app_length in M. cbn in M. lia.
  - intros (a & b & -> & Ha & <-).
    destruct (str_find (txt "$0") (a ++ txt "$0" ++ b)) as [m|] eqn:F.
    + destruct (str_find_some _ _ _ F) as (a' & b' & H & <- & M).
      destruct (marker_first a b a' b' H) as [-> _]; auto.
      intros (u & v & ->). specialize (M u (v ++ txt "$0" ++ b')).
      rewrite H, <- !app_assoc in M. specialize (M eq_refl). rewrite !app_length in M. cbn in M. lia.
    + apply str_find_none in F. exfalso. apply F. now exists a, b.
Qed.

Lemma as_u32_small n : fits_u32 n = true -> as_u32 n = n.
Proof.
  unfold fits_u32, as_u32. rewrite N.ltb_lt. intros H. rewrite N.mod_small by exact H. apply Nnat.Nat2N.id.
Qed.

Lemma fits_le n m : fits_u32 m = true -> n <= m -> fits_u32 n = true.
Proof. unfold fits_u32. rewrite !N.ltb_lt. lia. Qed.

Lemma try_offset_some a b : fits_u32 (blen (a ++ txt "$0" ++ b)) = true -> ~ occurs (txt "$0") a ->
  try_extract_offset (a ++ txt "$0" ++ b) = Ok (Some (blen a, a ++ b)).
Proof.
  intros F Ha. unfold try_extract_offset.
  assert (S1 : str_find CURSOR_MARKER (a ++ txt "$0" ++ b) = Some (blen a)).
  { apply find_marker. now exists a, b. }
  rewrite S1.
  assert (B1 : bslice (a ++ txt "$0" ++ b) 0 (blen a) = Ok a).
  { apply (bslice_app [] a (txt "$0" ++ b)). }
  assert (B2 : bslice (a ++ txt "$0" ++ b) (blen a + blen CURSOR_MARKER) (blen (a ++ txt "$0" ++ b)) = Ok b).
  { pose proof (bslice_app (a ++ txt "$0") b []) as B. rewrite app_nil_r in B.
    rewrite <- app_assoc in B. rewrite !blen_app in *. rewrite Nat.add_assoc in *. exact B. }
  rewrite B1. cbn [rbind]. rewrite B2. cbn [rbind].
  rewrite as_u32_small; [reflexivity|]. eapply fits_le; [exact F|]. rewrite blen_app. lia.
Qed.

Lemma try_offset_none t : ~ occurs (txt "$0") t -> try_extract_offset t = Ok None.
Proof. intros H. apply str_find_none in H. unfold try_extract_offset, CURSOR_MARKER. now rewrite H. Qed.

Lemma occurs_dec t : occurs (txt "$0") t \/ ~ occurs (txt "$0") t.
Proof.
  destruct (str_find (txt "$0") t) eqn:F.
  - left. destruct (str_find_some _ _ _ F) as (a & b & -> & _). now exists a, b.
  - right. now apply str_find_none.
Qed.

Lemma occurs_first t : occurs (txt "$0") t -> exists a b, t = a ++ txt "$0" ++ b /\ ~ occurs (txt "$0") a.
Proof.
  intros H. destruct (str_find (txt "$0") t) as [n|] eqn:F.
  - apply find_marker in F as (a & b & -> & Ha & _). now exists a, b.
  - apply str_find_none in F. contradiction.
Qed.

Definition c78_offset_statement : Prop := forall t, fits_u32 (blen t) = true ->
  (forall off out, extract_offset t = Ok (off, out) <->
     exists before after, t = before ++ txt "$0" ++ after /\ ~ occurs (txt "$0") before /\
       off = blen before /\ out = before ++ after) /\
  (extract_offset t = Panic <-> ~ occurs (txt "$0") t) /\
  extract_offset t <> OutOfFuel.

(** C78: the first marker, its byte offset, and the text without it. *)
Theorem C78_extract_offset : c78_offset_statement.
Proof.
  intros t F. destruct (occurs_dec t) as [H|H].
  - pose proof (occurs_first t H) as (a & b & -> & Ha).
    unfold extract_offset. rewrite (try_offset_some a b F Ha). cbn [rbind runwrap].
    split; [|split; [split; [discriminate|contradiction]|discriminate]].
    intros off out. split.
    + intros [= <- <-]. now exists a, b.
    + intros (a' & b' & E & Ha' & -> & ->). destruct (marker_first _ _ _ _ E Ha Ha') as [-> ->]. reflexivity.
  - unfold extract_offset. rewrite (try_offset_none t H). cbn [rbind runwrap].
    split; [|split; [easy|discriminate]].
    intros off out. split; [discriminate|]. intros (a & b & -> & _). exfalso. apply H. now exists a, b.
Qed.
Print Assumptions C78_extract_offset.

Lemma occurs_app_split a b : occurs (txt "$0") (a ++ b) -> ~ occurs (txt "$0") a ->
  (exists a' b', a = a' ++ txt "$" /\ b = txt "0" ++ b') \/ occurs (txt "$0") b.
Proof.
  induction a as [|x a IH]; intros (u & v & H) Ha; [right; now exists u, v|].
  destruct u as [|y u].
  - cbn in H. injection H as -> H. destruct a as [|z a].
    + left. exists [], v. split; [reflexivity|exact H].
    + cbn in H. injection H as -> H. exfalso. apply Ha. exists [], a. reflexivity.
  - cbn [app] in H. injection H as -> H. destruct IH as [(a' & b' & -> & ->)|O1].
    + now exists u, v.
    + intros (p & q & ->). apply Ha. now exists (y :: p), q.
    + left. now exists (y :: a'), b'.
    + now right.
Qed.

Lemma occurs_l a b : occurs (txt "$0") a -> occurs (txt "$0") (a ++ b).
Proof. intros (u & v & ->). exists u, (v ++ b). now rewrite <- !app_assoc. Qed.
Lemma occurs_r a b : occurs (txt "$0") b -> occurs (txt "$0") (a ++ b).
Proof. intros (u & v & ->). exists (a ++ u), v. now rewrite <- !app_assoc. Qed.

Lemma range_ok b m a : fits_u32 (blen (b ++ txt "$0" ++ m ++ txt "$0" ++ a)) = true ->
  ~ occurs (txt "$0") (b ++ m) ->
  extract_range (b ++ txt "$0" ++ m ++ txt "$0" ++ a) = Ok (mkRange (blen b) (blen b + blen m), b ++ m ++ a).
Proof.
  intros F Hbm. unfold extract_range, try_extract_range.
  rewrite try_offset_some; [|exact F|intros H; apply Hbm; now apply occurs_l].
  cbn [rbind]. rewrite app_assoc, try_offset_some; [| |exact Hbm].
  - cbn [rbind]. rewrite blen_app. destruct (Nat.leb_spec (blen b) (blen b + blen m)); [|lia].
    cbn [rassert rbind runwrap]. now rewrite <- app_assoc.
  - eapply fits_le; [exact F|]. rewrite !blen_app. lia.
Qed.

Definition c78_range_statement : Prop := forall t, fits_u32 (blen t) = true ->
  (forall r out, extract_range t = Ok (r, out) <->
     exists before mid after, t = before ++ txt "$0" ++ mid ++ txt "$0" ++ after /\
       ~ occurs (txt "$0") (before ++ mid) /\
       r = mkRange (blen before) (blen before + blen mid) /\ out = before ++ mid ++ after) /\
  extract_range t <> OutOfFuel.

(** C78: the range between the two markers; every other text panics. *)
Theorem C78_extract_range : c78_range_statement.
Proof.
  intros t F. assert (Main : (exists b m a, t = b ++ txt "$0" ++ m ++ txt "$0" ++ a /\
      ~ occurs (txt "$0") (b ++ m)) \/ extract_range t = Panic).
  { destruct (occurs_dec t) as [H|H].
    2:{ right. unfold extract_range, try_extract_range. now rewrite try_offset_none. }
    pose proof (occurs_first t H) as (b & r & -> & Hb).
    assert (F2 : fits_u32 (blen (b ++ r)) = true) by (eapply fits_le; [exact F|]; rewrite !blen_app; lia).
    destruct (occurs_dec (b ++ r)) as [H2|H2].
    2:{ right. unfold extract_range, try_extract_range. rewrite try_offset_some by assumption.
        cbn [rbind]. now rewrite try_offset_none. }
    destruct (occurs_first _ H2) as (p & q & E & Hp).
    destruct (Nat.leb_spec (blen b) (blen p)) as [L|L].
    - left.
      assert (X : exists m, p = b ++ m /\ r = m ++ txt "$0" ++ q).
      { clear - E L. revert p E L. induction b as [|x b IH]; intros p E L; [now exists p|].
        destruct p as [|y p].
        - exfalso. pose proof (utf8_len_pos x). cbn [blen] in L. lia.
        - cbn [app] in E. injection E as -> E. destruct (IH p E) as (m & -> & ->); [cbn [blen] in L; lia|].
          now exists m. }
      destruct X as (m & -> & ->). now exists b, m, q.
    - right. unfold extract_range, try_extract_range. rewrite try_offset_some by assumption.
      cbn [rbind]. rewrite E. rewrite E in F2. rewrite try_offset_some by assumption. cbn [rbind].
      destruct (Nat.leb_spec (blen b) (blen p)); [lia|reflexivity]. }
  split.
  - intros r out. split.
    + intros H. destruct Main as [(b & m & a & -> & N)|P]; [|congruence].
      rewrite (range_ok b m a F N) in H. injection H as <- <-. now exists b, m, a.
    + intros (b & m & a & -> & N & -> & ->). now apply range_ok.
  - destruct Main as [(b & m & a & -> & N)|P]; [|congruence]. rewrite (range_ok b m a F N). discriminate.
Qed.
Print Assumptions C78_extract_range.

(** Exactly which texts holding two markers panic: those where taking the first marker out joins a
    ["$"] before it to a ["0"] after it. *)
Theorem C78_two_markers_panic : forall before mid after,
  let t := before ++ txt "$0" ++ mid ++ txt "$0" ++ after in
  fits_u32 (blen t) = true -> ~ occurs (txt "$0") before -> ~ occurs (txt "$0") mid ->
  (extract_range t = Panic <->
   exists b' m', before = b' ++ txt "$" /\ mid = txt "0" ++ m').
Proof.
  intros b m a t F Hb Hm. subst t. split.
  - intros P. destruct (occurs_dec (b ++ m)) as [O1|N].
    + destruct (occurs_app_split _ _ O1 Hb) as [X|X]; [exact X|contradiction].
    + rewrite (range_ok b m a F N) in P. discriminate.
  - intros (b' & m' & -> & ->). unfold extract_range, try_extract_range.
    rewrite try_offset_some by assumption. cbn [rbind].
    replace ((b' ++ txt "$") ++ (txt "0" ++ m') ++ txt "$0" ++ a)
      with (b' ++ txt "$0" ++ (m' ++ txt "$0" ++ a)) by (rewrite <- !app_assoc; reflexivity).
    rewrite try_offset_some.
    + cbn [rbind]. rewrite blen_app. change (blen (txt "$")) with 1.
      destruct (Nat.leb_spec (blen b' + 1) (blen b')); [lia|reflexivity].
    + eapply fits_le; [exact F|]. rewrite !blen_app. change (blen (txt "$")) with 1.
      change (blen (txt "0")) with 1. change (blen (txt "$0")) with 2. lia.
    + intros H. apply Hb. now apply occurs_l.
Qed.
Print Assumptions C78_two_markers_panic.

Example C78_ex_offset : extract_offset (txt "local a$0 = 1 $0") = Ok (7, txt "local a = 1 $0").
Proof. reflexivity. Qed.
Example C78_ex_range : extract_range (txt "local $0a$0 = 1") = Ok (mkRange 6 7, txt "local a = 1").
Proof. reflexivity. Qed.
Example C78_ex_empty : extract_range (txt "x$0$0") = Ok (mkRange 1 1, txt "x").
Proof. reflexivity. Qed.
(** a text with two markers on which it panics *)
Example C78_ex_panic : extract_range (txt "$$00 $0") = Panic.
Proof. reflexivity. Qed.

(** ** update *)

Lemma norm_lf t : lf t (normalize t).
Proof.
  assert (H : forall n t, length t <= n -> lf t (normalize t)).
  { induction n as [|n IH]; intros [|c [|d s]] L; cbn [length] in L; try lia; cbn [normalize].
    - constructor.
    - constructor.
    - apply lf_other; [intros [_ [t' X]]; discriminate|constructor].
    - destruct (N.eqb_spec c 13) as [->|Nc]; cbn [andb].
      + destruct (N.eqb_spec d 10) as [->|Nd].
        * apply lf_crlf. apply IH. lia.
        * apply lf_other; [intros [_ [t' X]]; congruence|]. apply (IH (d :: s)). cbn [length]; lia.
      + apply lf_other; [intros [X _]; congruence|]. apply (IH (d :: s)). cbn [length]; lia. }
  eapply H. reflexivity.
Qed.

Lemma lf_fun t u : lf t u -> forall v, lf t v -> u = v.
Proof.
  induction 1 as [|t u H IH|c t u N H IH]; intros v Hv; inversion Hv; subst; try reflexivity.
  - f_equal. now apply IH.
  - exfalso. match goal with X : ~ _ |- _ => apply X end. split; [reflexivity|]. now eexists.
  - exfalso. apply N. split; [reflexivity|]. now eexists.
  - f_equal. now apply IH.
Qed.

Lemma same_lines_norm t t' : text_eqb (normalize t) (normalize t') = true <-> same_lines t t'.
Proof.
  rewrite text_eqb_eq. split.
  - intros H. exists (normalize t). split; [apply norm_lf|rewrite H; apply norm_lf].
  - intros (u & H1 & H2). rewrite (lf_fun _ _ (norm_lf t) _ H1). now rewrite (lf_fun _ _ (norm_lf t') _ H2).
Qed.

Lemma same_lines_refl t : same_lines t t.
Proof. exists (normalize t). split; apply norm_lf. Qed.

Definition c78_update_statement : Prop := forall wr d p contents d' wrote ok,
  update wr d p contents = (d', wrote, ok) ->
  (** no other file is touched *)
  (forall q, q <> p -> d' q = d q) /\
  (** on success the file holds the contents, up to line endings; it was written exactly when it did
      not hold them before, and then it holds them to the letter *)
  (ok = true -> exists now, d' p = Some now /\ same_lines now contents) /\
  (wrote = true -> d' p = Some contents) /\
  (wrote = false -> d' p = d p) /\
  (wrote = true <-> wr = true /\ ~ exists old, d p = Some old /\ same_lines old contents) /\
  (** it fails exactly when a write is needed and impossible *)
  (ok = false <-> wr = false /\ ~ exists old, d p = Some old /\ same_lines old contents) /\
  (** and a second run changes nothing *)
  (ok = true -> forall wr2, update wr2 d' p contents = (d', false, true)).

Theorem C78_update : c78_update_statement.
Proof.
  intros wr d p contents d' wrote ok H. unfold update in H.
  assert (W : forall q, q <> p -> write_file d p contents q = d q).
  { intros q N. unfold write_file. destruct (text_eqb q p) eqn:E; [apply text_eqb_eq in E; contradiction|reflexivity]. }
  assert (Wp : write_file d p contents p = Some contents) by (unfold write_file; now rewrite text_eqb_refl).
  assert (Cases :
    (exists old, d p = Some old /\ same_lines old contents /\ (d', wrote, ok) = (d, false, true)) \/
    ((~ exists old, d p = Some old /\ same_lines old contents) /\
     (d', wrote, ok) = if wr then (write_file d p contents, true, true) else (d, false, false))).
  { destruct (d p) as [old|] eqn:E.
    - destruct (text_eqb (normalize old) (normalize contents)) eqn:T.
      + left. exists old. repeat split; [now apply same_lines_norm|congruence].
      + right. split; [|destruct wr; congruence].
        intros (o & [= <-] & S1). apply same_lines_norm in S1. congruence.
    - right. split; [|destruct wr; congruence]. intros (o & X & _). discriminate. }
  clear H. destruct Cases as [(old & E & S1 & X)|(N & X)].
  - injection X as -> -> ->. repeat split; try discriminate; try tauto.
    + intros _. now exists old.
    + intros [_ N]. exfalso. apply N. now exists old.
    + intros [_ N]. exfalso. apply N. now exists old.
    + intros _ wr2. unfold update. rewrite E. apply same_lines_norm in S1. now rewrite S1.
  - destruct wr; injection X as -> -> ->.
    + split; [exact W|]. split; [intros _; exists contents; split; [exact Wp|apply same_lines_refl]|].
      split; [intros _; exact Wp|]. split; [discriminate|]. split; [tauto|].
      split; [split; [discriminate|intros [Y _]; discriminate]|].
      intros _ wr2. unfold update. rewrite Wp. now rewrite text_eqb_refl.
    + split; [reflexivity|]. split; [discriminate|]. split; [discriminate|]. split; [reflexivity|].
      split; [split; [discriminate|intros [Y _]; discriminate]|]. split; [tauto|]. discriminate.
Qed.
Print Assumptions C78_update.

Example C78_ex_update :
  let d : disk := fun q => if text_eqb q (txt "a.rs") then Some [97; 13; 10]%N else None in
  snd (fst (update true d (txt "a.rs") [97; 10]%N)) = false /\
  snd (fst (update true d (txt "a.rs") [98; 10]%N)) = true /\
  fst (fst (update true d (txt "b.rs") [98; 10]%N)) (txt "b.rs") = Some [98; 10]%N.
Proof. repeat split. Qed.
