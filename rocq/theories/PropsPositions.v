(** PropsPositions.v — exactly where an LSP position leads, and exactly what a batch of changes
    does (C42, C43, C50). *)
From Coq Require Import ZArith.
From Verif Require Import Base TextEdit Stdx LineIndex PropsStdx PropsTextEdit PropsLineIndex.

(** * Specification *)

(** The characters of a line that start before UTF-16 column [col] each add the bytes they have
    beyond their UTF-16 units. *)
Fixpoint extra (l : text) (col : nat) : nat :=
  match l with
  | [] => 0
  | c :: l' => if col =? 0 then 0 else (utf8_len c - utf16_len c) + extra l' (col - utf16_len c)
  end.
(** [pos] leads to byte [o] of [t]: its line [l] exists, after the complete lines [p]; a column past
    the end of the line runs on in bytes. *)
Definition leads (t : text) (pos : line_col) (o : nat) : Prop :=
  exists p l b, t = p ++ l ++ b /\ whole p /\ ~ In newline l /\ (b = [] \/ exists b', b = newline :: b') /\
    lc_line pos = count_nl p /\ o = blen p + (lc_col pos + extra l (lc_col pos)).
(** One change: both ends of its range lead to places between characters, in order. *)
Inductive Replaced (t : text) : change_event -> text -> Prop :=
| Re_full x : Replaced t (mkChange None x) x
| Re_range s e x a m b : t = a ++ m ++ b -> leads t s (blen a) -> leads t e (blen (a ++ m)) -> Replaced t (mkChange (Some (s, e)) x) (a ++ x ++ b).
Inductive AllReplaced : text -> list change_event -> text -> Prop :=
| AR_nil t : AllReplaced t [] t
| AR_cons t c t' cs u : Replaced t c t' -> AllReplaced t' cs u -> AllReplaced t (c :: cs) u.
(** No text on the way has 2^32 bytes. *)
Definition room (t : text) (cs : list change_event) : nat := blen t + list_sum (map (fun c => blen (ce_text c)) cs).

(** * Proofs *)
Lemma to8_stop s : forall col0 col r, col <= col0 -> to8_loop (wide col0 s ++ r) col = to8_loop r col \/ to8_loop (wide col0 s ++ r) col = Ok col.
Proof.
  induction s as [|c s IH]; intros col0 col r H; cbn [wide app]; [now left|]. destruct (is_ascii c); cbn [app]; [apply IH; lia|]. right. cbn [to8_loop fst]. destruct (Nat.ltb_spec col0 col); [lia|reflexivity].
Qed.
Lemma extra_ascii c l col : is_ascii c = true -> extra (c :: l) col = extra l (col - 1).
Proof. intros A. destruct (ascii_len c A) as [E1 E2]. cbn [extra]. rewrite E1, E2. destruct (Nat.eqb_spec col 0) as [->|]; [|reflexivity]. destruct l; reflexivity. Qed.
Lemma to8_exact s : forall col0 col, to8_loop (wide col0 s) (col0 + col) = (if fits_u32 (col0 + col + extra s col) || (extra s col =? 0) then Ok (col0 + col + extra s col) else Panic).
Proof.
  induction s as [|c s IH]; intros col0 col; [cbn; rewrite Nat.add_0_r, orb_true_r; reflexivity|]. pose proof (utf16_le c) as [U1 U2]. destruct (Nat.eq_dec col 0) as [->|Ne].
  - assert (E : extra (c :: s) 0 = 0) by reflexivity. rewrite E, Nat.add_0_r, Nat.add_0_r, orb_true_r. destruct (to8_stop (c :: s) col0 col0 [] (le_n _)) as [X|X]; rewrite app_nil_r in X; rewrite X; reflexivity.
  - destruct (is_ascii c) eqn:A.
    + cbn [wide]. rewrite A. cbn [app]. destruct (ascii_len c A) as [E1 E2]. rewrite (extra_ascii c s col A). replace (col0 + col) with (col0 + utf8_len c + (col - 1)) by lia. apply IH.
    + assert (Ex : extra (c :: s) col = (utf8_len c - utf16_len c) + extra s (col - utf16_len c)) by (cbn [extra]; destruct (Nat.eqb_spec col 0); [contradiction|reflexivity]). rewrite Ex.
      cbn [wide]. rewrite A. cbn [app to8_loop fst snd]. destruct (Nat.ltb_spec col0 (col0 + col)); [|lia]. unfold u16c_len. cbn [fst snd]. rewrite usub_ok by lia. cbn [rbind]. replace (col0 + utf8_len c - col0) with (utf8_len c) by lia. rewrite len16_16, usub_ok by lia. cbn [rbind].
      assert (W : 0 < utf8_len c - utf16_len c). { unfold is_ascii in A. unfold utf8_len, utf16_len. rewrite A. destruct (N.ltb_spec c 2048), (N.ltb_spec c 65536); cbn; lia. }
      unfold uadd. destruct (fits_u32 (col0 + col + (utf8_len c - utf16_len c))) eqn:F; cbn [rbind].
      * destruct (le_lt_dec (utf16_len c) col) as [L|L].
        -- replace (col0 + col + (utf8_len c - utf16_len c)) with (col0 + utf8_len c + (col - utf16_len c)) by lia. rewrite IH. replace (col0 + utf8_len c + (col - utf16_len c) + extra s (col - utf16_len c)) with (col0 + col + (utf8_len c - utf16_len c + extra s (col - utf16_len c))) by lia.
           destruct (Nat.eqb_spec (utf8_len c - utf16_len c + extra s (col - utf16_len c)) 0); [lia|]. rewrite orb_false_r. destruct (Nat.eqb_spec (extra s (col - utf16_len c)) 0) as [Z|Z]; [|now rewrite orb_false_r]. rewrite orb_true_r, Z, Nat.add_0_r, F. reflexivity.
        -- replace (col - utf16_len c) with 0 by lia. assert (Z : extra s 0 = 0) by (destruct s; reflexivity). rewrite Z, Nat.add_0_r, F. cbn [orb].
           destruct (to8_stop s (col0 + utf8_len c) (col0 + col + (utf8_len c - utf16_len c)) [] ltac:(lia)) as [X|X]; rewrite app_nil_r in X; rewrite X; reflexivity.
      * destruct (fits_u32 (col0 + col + (utf8_len c - utf16_len c + extra s (col - utf16_len c)))) eqn:F2; [assert (X : fits_u32 (col0 + col + (utf8_len c - utf16_len c)) = true) by (refine (fits_mono _ _ _ F2); lia); congruence|]. destruct (Nat.eqb_spec (utf8_len c - utf16_len c + extra s (col - utf16_len c)) 0); [lia|reflexivity].
Qed.
Lemma offset_exact t li p l b col : li_new t = Ok li -> t = p ++ l ++ b -> whole p -> ~ In newline l -> (b = [] \/ exists b', b = newline :: b') ->
  from_proto_offset li (mkLC (count_nl p) col) = if fits_u32 (blen p + (col + extra l col)) then Ok (blen p + (col + extra l col)) else Panic.
Proof.
  intros H E Hw Hl Hb. assert (F : fits_u32 (blen t) = true) by (apply C40_new_total; eauto). unfold from_proto_offset, to_utf8. cbn [lc_line lc_col].
  assert (C : utf16_to_utf8_col li (count_nl p) col = to8_loop (wide 0 l) col).
  { rewrite li_new_spec in H by exact F. injection H as <-. unfold utf16_to_utf8_col. cbn [li_utf16]. pose proof (wides_get p l b Hw Hl Hb) as W. rewrite <- E in W. destruct (assoc _ _) as [cs|]; [now rewrite W|]. rewrite <- W. reflexivity. }
  rewrite C. pose proof (to8_exact l 0 col) as X. cbn [Nat.add] in X. rewrite X. clear X C.
  destruct (fits_u32 (col + extra l col)) eqn:F1; cbn [orb rbind].
  - rewrite (offset_at t p (l ++ b) li H E Hw). unfold uadd. reflexivity.
  - destruct (fits_u32 (blen p + (col + extra l col))) eqn:F2; [assert (X : fits_u32 (col + extra l col) = true) by (refine (fits_mono _ _ _ F2); lia); congruence|]. destruct (Nat.eqb_spec (extra l col) 0) as [Z|Z]; [|reflexivity]. cbn [rbind]. rewrite (offset_at t p (l ++ b) li H E Hw). unfold uadd. now rewrite F2.
Qed.
(** Exactly where a position leads. *)
Theorem C42_offset_exact : forall t li pos o, li_new t = Ok li -> (from_proto_offset li pos = Ok o <-> leads t pos o /\ fits_u32 o = true).
Proof.
  intros t li [ln col] o H. split.
  - intros Ho. destruct (from_proto_line t li (mkLC ln col) o H Ho) as (p & r & E & Hw & Hp & _). cbn [lc_line] in Hp. subst ln. destruct (rest_of_line r) as (l & b & -> & Hl & Hb). rewrite (offset_exact t li p l b col H E Hw Hl Hb) in Ho.
    destruct (fits_u32 _) eqn:F in Ho; [|discriminate]. injection Ho as <-. split; [|exact F]. exists p, l, b. auto 10.
  - intros [(p & l & b & E & Hw & Hl & Hb & Hn & ->) F]. cbn [lc_line lc_col] in *. subst ln. rewrite (offset_exact t li p l b col H E Hw Hl Hb). now rewrite F.
Qed.
Print Assumptions C42_offset_exact.
(** Column 1 of a line with one character of four bytes leads inside it; a column past the end of
    a line leads into the next. *)
Example C42_offset_exact_case : let t := [128512; 10; 97; 98]%N in exists li, li_new t = Ok li /\ leads t (mkLC 0 1) 3 /\ leads t (mkLC 0 4) 6 /\ from_proto_offset li (mkLC 0 1) = Ok 3 /\ from_proto_offset li (mkLC 0 4) = Ok 6 /\ from_proto_offset li (mkLC 2 0) = Panic.
Proof.
  cbv zeta. eexists. split; [vm_compute; reflexivity|]. split; [|split; [|repeat split]]; (exists [], [128512%N], [10; 97; 98]%N; repeat split; [now left|intros [X|[]]; discriminate|right; eexists; reflexivity]).
Qed.

(** A batch and its changes one by one. *)
Lemma fits_indel t i t' : indel_apply i t = Ok t' -> blen t' <= blen t + blen (i_insert i).
Proof. intros H. apply indel_apply_inv in H as (a & m & b & -> & _ & _ & ->). rewrite !blen_app. lia. Qed.
Lemma batch_loop cs : forall t li v, Forall ordered cs -> fits_u32 (room t cs) = true -> valid_for li v t -> changes_loop t li v cs = one_by_one t cs.
Proof.
  induction cs as [|c cs IH]; intros t li v Ho Hf Hv; [reflexivity|]. inversion_clear Ho. cbn [one_by_one changes_loop]. unfold room in Hf. cbn [map list_sum fold_right] in Hf. change (fold_right Nat.add 0) with list_sum in Hf.
  assert (Ft : fits_u32 (blen t) = true) by (refine (fits_mono _ _ _ Hf); lia). apply C40_new_total in Ft as (l2 & Hl2). unfold apply_document_changes. rewrite Hl2. cbn [rbind changes_loop]. unfold ordered in H. destruct (ce_range c) as [[s e]|].
  - cbn [covers rbind].
    assert (Hli : exists l1, (if covers v (lc_line e) then Ok li else Ok l2) = Ok l1 /\ from_proto_offset l1 s = from_proto_offset l2 s /\ from_proto_offset l1 e = from_proto_offset l2 e /\
       forall n, n <= lc_line e -> nth_error (li_newlines l1) n = nth_error (li_newlines l2) n /\ assoc n (li_utf16 l1) = assoc n (li_utf16 l2)).
    { destruct (covers v (lc_line e)) eqn:Cv; [|exists l2; auto]. exists li. split; [reflexivity|].
      assert (Cs : covers v (lc_line s) = true) by (destruct v as [l|]; [|reflexivity]; cbn in *; apply Nat.ltb_lt in Cv; apply Nat.ltb_lt; lia).
      split; [now apply (offset_valid li l2 v t)|]. split; [now apply (offset_valid li l2 v t)|].
      intros n Hn. destruct Hv as (l3 & Hl3 & Hv). rewrite Hl2 in Hl3. injection Hl3 as <-. destruct v as [l|]; [|now rewrite Hv]. cbn in Cv. apply Nat.ltb_lt in Cv. apply Hv. lia. }
    destruct Hli as (l1 & -> & Os & Oe & Hn). cbn [rbind]. assert (Er : from_proto_range l1 s e = from_proto_range l2 s e) by (unfold from_proto_range; now rewrite Os, Oe). rewrite Er.
    destruct (from_proto_range l2 s e) as [r| |] eqn:Hr; cbn [rbind]; try reflexivity. destruct (indel_apply (mkIndel (ce_text c) r) t) as [t'| |] eqn:Ht; cbn [rbind]; try reflexivity.
    assert (Hf' : fits_u32 (room t' cs) = true) by (refine (fits_mono _ _ _ Hf); unfold room; apply fits_indel in Ht; cbn [i_insert] in Ht; lia).
    apply IH; [assumption|exact Hf'|]. assert (F3 : fits_u32 (blen t') = true) by (refine (fits_mono _ _ _ Hf'); unfold room; lia). apply C40_new_total in F3 as (l3 & Hl3). exists l3. split; [exact Hl3|]. intros n Hlt. destruct (Hn n ltac:(lia)) as [-> ->].
    apply rbind_ok in Hr as (so & Hso & Hr). apply rbind_ok in Hr as (eo & Heo & Hr). apply rbind_ok in Hr as (? & _ & Hr). injection Hr as <-.
    destruct (from_proto_line t l2 s so Hl2 Hso) as (p & b & -> & Hw & Hp & Hle).
    destruct (indel_apply_inv _ _ _ Ht) as (x1 & m & y & E1 & E2 & E3 & E4). cbv [i_start i_end] in *; cbn [i_delete r_start r_end i_insert] in *.
    destruct (app_prefix p b x1 (m ++ y) E1 ltac:(lia)) as (k & -> & Ek). rewrite E4, <- app_assoc in Hl3. apply (index_prefix p b (k ++ ce_text c ++ y) l2 l3 Hw Hl2 Hl3). lia.
  - cbn [rbind]. assert (Hf' : fits_u32 (room (ce_text c) cs) = true) by (refine (fits_mono _ _ _ Hf); unfold room; lia). apply IH; [assumption|exact Hf'|].
    assert (F3 : fits_u32 (blen (ce_text c)) = true) by (refine (fits_mono _ _ _ Hf'); unfold room; lia). apply C40_new_total in F3 as (l3 & Hl3). exists l3. split; [exact Hl3|]. intros n Hn. lia.
Qed.
Theorem C43_batch_exact : forall t cs, fits_u32 (room t cs) = true -> Forall ordered cs -> apply_document_changes t cs = one_by_one t cs.
Proof.
  intros t cs F Ho. assert (Ft : fits_u32 (blen t) = true) by (refine (fits_mono _ _ _ F); unfold room; lia). apply C40_new_total in Ft as (li & Hli). unfold apply_document_changes. rewrite Hli. cbn [rbind]. apply batch_loop; auto. exists li. auto.
Qed.
Print Assumptions C43_batch_exact.
(** One change. *)
Lemma replaced_iff t c u : fits_u32 (blen t) = true -> (apply_document_changes t [c] = Ok u <-> Replaced t c u).
Proof.
  intros F. apply C40_new_total in F as F0. destruct F0 as (li & Hli). unfold apply_document_changes. rewrite Hli. cbn [rbind changes_loop]. destruct c as [[[s e]|] x]; cbn [ce_range ce_text]; [|split; [intros X; injection X as <-; constructor|intros X; inversion X; subst; reflexivity]].
  cbn [covers rbind]. split.
  - intros H. apply rbind_ok in H as (r & Hr & H). apply rbind_ok in H as (t' & Ht & H). injection H as ->. apply rbind_ok in Hr as (so & Hso & Hr). apply rbind_ok in Hr as (eo & Heo & Hr). apply rbind_ok in Hr as (? & _ & Hr). injection Hr as <-.
    apply indel_apply_inv in Ht as (a & m & b & E & E1 & E2 & ->). cbv [i_start i_end] in *; cbn [i_delete r_start r_end i_insert] in *. apply (C42_offset_exact t li s so Hli) in Hso as [Hso _]. apply (C42_offset_exact t li e eo Hli) in Heo as [Heo _]. subst so eo. now apply Re_range with m.
  - intros H. inversion H as [|s0 e0 x0 a m b E Hs He]; subst. assert (Fa : fits_u32 (blen a) = true) by (refine (fits_mono _ _ _ F); rewrite !blen_app; lia). assert (Fm : fits_u32 (blen (a ++ m)) = true) by (refine (fits_mono _ _ _ F); rewrite !blen_app; lia).
    unfold from_proto_range. rewrite (proj2 (C42_offset_exact _ li s (blen a) Hli) (conj Hs Fa)). cbn [rbind]. rewrite (proj2 (C42_offset_exact _ li e (blen (a ++ m)) Hli) (conj He Fm)). cbn [rbind]. rewrite blen_app. destruct (Nat.leb_spec (blen a) (blen a + blen m)); [|lia]. cbn [rassert rbind].
    rewrite (indel_apply_at (mkIndel x (mkRange (blen a) (blen a + blen m))) a m b eq_refl eq_refl). reflexivity.
Qed.
(** A batch succeeds, with text [u], exactly when each change in turn can be made in the text the
    changes before it gave, and the last gives [u]. Ranges have their lines in order. *)
Theorem C43_exact : forall t cs u, fits_u32 (room t cs) = true -> Forall ordered cs -> (apply_document_changes t cs = Ok u <-> AllReplaced t cs u).
Proof.
  intros t cs u F Ho. rewrite C43_batch_exact by assumption. clear Ho. revert t u F. induction cs as [|c cs IH]; intros t u F; cbn [one_by_one]; [split; [intros X; injection X as <-; constructor|intros X; inversion X; reflexivity]|].
  unfold room in F. cbn [map list_sum fold_right] in F. change (fold_right Nat.add 0) with list_sum in F. assert (Ft : fits_u32 (blen t) = true) by (refine (fits_mono _ _ _ F); lia).
  assert (Step : forall t', Replaced t c t' -> fits_u32 (room t' cs) = true). { intros t' R. refine (fits_mono _ _ _ F). unfold room. inversion R; subst; cbn [ce_text]; rewrite ?blen_app; lia. }
  split.
  - intros H. apply rbind_ok in H as (t' & H1 & H2). apply replaced_iff in H1; [|exact Ft]. econstructor; [exact H1|]. apply IH; auto.
  - intros H. inversion H as [|t0 c0 t' cs0 u0 R A]; subst. rewrite (proj2 (replaced_iff t c t' Ft) R). cbn [rbind]. apply IH; auto.
Qed.
Print Assumptions C43_exact.
Example C43_exact_case : let t := [97; 10; 98]%N in let cs := [mkChange (Some (mkLC 0 0, mkLC 0 3)) [120]%N; mkChange (Some (mkLC 0 1, mkLC 0 1)) [10; 121]%N] in
  fits_u32 (room t cs) = true /\ Forall ordered cs /\ AllReplaced t cs [120; 10; 121]%N.
Proof.
  cbv zeta. split; [reflexivity|]. split; [repeat constructor|]. apply C43_exact; [reflexivity|repeat constructor|reflexivity].
Qed.
