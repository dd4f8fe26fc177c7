(** PropsLineIndex.v — line index, LSP positions and document changes, C40–C43. *)
From Verif Require Import Base TextEdit Stdx LineIndex PropsStdx PropsTextEdit.

(** * Vocabulary *)

(** Number of newlines, and length in UTF-16 code units. *)
Definition count_nl (t : text) : nat := count_occ N.eq_dec t newline.
Fixpoint len16 (t : text) : nat := match t with [] => 0 | c :: t' => utf16_len c + len16 t' end.
(** [whole p]: [p] consists of complete lines. *)
Definition whole (p : text) : Prop := p = [] \/ exists q, p = q ++ [newline].
(** [at_line_start a p s]: the prefix [a] of a text consists of the complete lines [p] and the
    beginning [s] of the next line. *)
Definition ends_in_line (a p s : text) : Prop := a = p ++ s /\ whole p /\ ~ In newline s.
(** The LSP position that denotes the prefix [a]. *)
Definition denotes (pos : line_col) (a : text) : Prop :=
  exists p s, ends_in_line a p s /\ lc_line pos = count_nl p /\ lc_col pos = len16 s.

(** * The index of a text *)
Fixpoint starts (row : nat) (t : text) : list nat :=
  match t with [] => [] | c :: t' => if N.eqb c newline then (row + utf8_len c) :: starts (row + utf8_len c) t' else starts (row + utf8_len c) t' end.
Fixpoint wides (line col : nat) (cs : list (nat * nat)) (t : text) : list (nat * list (nat * nat)) :=
  match t with
  | [] => save_chars [] line cs
  | c :: t' => if N.eqb c newline then save_chars [] line cs ++ wides (S line) 0 [] t'
               else wides line (col + utf8_len c) (if is_ascii c then cs else cs ++ [(col, col + utf8_len c)]) t'
  end.
Lemma fits_mono a b : a <= b -> fits_u32 b = true -> fits_u32 a = true.
Proof. unfold fits_u32. intros H1 H2. apply N.ltb_lt in H2. apply N.ltb_lt. lia. Qed.
Lemma save_app l line cs : save_chars l line cs = l ++ save_chars [] line cs.
Proof. destruct cs; cbn; [now rewrite app_nil_r|reflexivity]. Qed.
Lemma li_loop_spec t : forall nls ls cs row col line, fits_u32 (row + blen t) = true -> fits_u32 (col + blen t) = true -> fits_u32 (line + length t) = true ->
  li_loop t nls ls cs row col line = Ok (mkLI (nls ++ starts row t) (ls ++ wides line col cs t)).
Proof.
  induction t as [|c t IH]; intros nls ls cs row col line H1 H2 H3; cbn [li_loop starts wides].
  - rewrite app_nil_r. now rewrite save_app.
  - cbn [blen length] in *. unfold uadd. rewrite (fun h => fits_mono (row + utf8_len c) _ h H1) by lia. cbn [rbind].
    pose proof (utf8_len_pos c). pose proof (blen_ge_length t). destruct (N.eqb c newline) eqn:E.
    + rewrite (fun h => fits_mono (line + 1) _ h H3) by lia. cbn [rbind]. rewrite IH; [|eapply fits_mono; [|exact H1]; lia|eapply fits_mono; [|exact H2]; lia|eapply fits_mono; [|exact H3]; lia].
      rewrite <- !app_assoc. rewrite save_app, <- app_assoc. replace (line + 1) with (S line) by lia. reflexivity.
    + rewrite (fun h => fits_mono (col + utf8_len c) _ h H2) by lia. cbn [rbind]. rewrite IH; [reflexivity|eapply fits_mono; [|exact H1]; lia|eapply fits_mono; [|exact H2]; lia|eapply fits_mono; [|exact H3]; lia].
Qed.
Lemma li_new_spec t : fits_u32 (blen t) = true -> li_new t = Ok (mkLI (0 :: starts 0 t) (wides 0 0 [] t)).
Proof.
  intros H. unfold li_new. rewrite li_loop_spec; [reflexivity|exact H|exact H|]. eapply fits_mono; [|exact H]. cbn. apply blen_ge_length.
Qed.
Lemma li_new_panics t : fits_u32 (blen t) = false -> li_new t = Panic.
Proof.
  unfold li_new. enough (G : forall nls ls cs row col line, fits_u32 row = true -> fits_u32 (row + blen t) = false -> li_loop t nls ls cs row col line = Panic) by (intros H; now apply G).
  induction t as [|c t IH]; intros nls ls cs row col line H0 H; cbn [blen li_loop] in *; [rewrite Nat.add_0_r in H; congruence|].
  unfold uadd at 1. destruct (fits_u32 (row + utf8_len c)) eqn:E; cbn [rbind]; [|reflexivity].
  assert (H' : fits_u32 (row + utf8_len c + blen t) = false) by (rewrite <- H; f_equal; lia).
  destruct (N.eqb c newline); [destruct (uadd line 1) eqn:U|destruct (uadd col (utf8_len c)) eqn:U]; cbn [rbind]; try reflexivity; try (apply IH; assumption); unfold uadd in U; match type of U with (if ?c then _ else _) = _ => destruct c end; discriminate.
Qed.

(** * Line starts *)
Lemma starts_app a : forall row b, starts row (a ++ b) = starts row a ++ starts (row + blen a) b.
Proof.
  induction a as [|c a IH]; intros row b; cbn [app starts blen]; [now rewrite Nat.add_0_r|]. rewrite !IH.
  replace (row + utf8_len c + blen a) with (row + (utf8_len c + blen a)) by lia. destruct (N.eqb c newline); reflexivity.
Qed.
Lemma starts_length a : forall row, length (starts row a) = count_nl a.
Proof.
  induction a as [|c a IH]; intros row; [reflexivity|]. cbn [starts]. unfold count_nl. cbn [count_occ]. destruct (N.eqb_spec c newline) as [->|Hn].
  - destruct (N.eq_dec newline newline); [|contradiction]. cbn [length]. now rewrite IH.
  - destruct (N.eq_dec c newline); [contradiction|]. apply IH.
Qed.
Lemma starts_bounds a : forall row x, In x (starts row a) -> row < x <= row + blen a.
Proof.
  induction a as [|c a IH]; intros row x H; [destruct H|]. cbn [starts blen] in *. pose proof (utf8_len_pos c).
  destruct (N.eqb c newline); [destruct H as [<-|H]|]; [lia| |]; specialize (IH _ _ H); lia.
Qed.
Lemma starts_none s : forall row, ~ In newline s -> starts row s = [].
Proof.
  induction s as [|c s IH]; intros row H; [reflexivity|]. cbn [starts]. destruct (N.eqb_spec c newline) as [->|]; [elim H; now left|]. apply IH. intros X. apply H. now right.
Qed.
Lemma count_nl_app a b : count_nl (a ++ b) = count_nl a + count_nl b.
Proof. apply count_occ_app. Qed.
Lemma count_nl_none s : ~ In newline s -> count_nl s = 0.
Proof. apply count_occ_not_In. Qed.
(** The last line start of complete lines is their end. *)
Lemma whole_start p b : whole p -> nth_error (0 :: starts 0 (p ++ b)) (count_nl p) = Some (blen p).
Proof.
  intros [->|(q & ->)]; [reflexivity|]. rewrite count_nl_app. change (count_nl [newline]) with 1. replace (count_nl q + 1) with (S (count_nl q)) by lia. cbn [nth_error].
  rewrite !starts_app, <- app_assoc, nth_error_app2 by (rewrite starts_length; lia). rewrite starts_length, Nat.sub_diag. cbn. f_equal. rewrite blen_app. reflexivity.
Qed.
Lemma line_split a : exists p s, ends_in_line a p s.
Proof.
  induction a as [|c a IH] using rev_ind; [exists [], []; split; [reflexivity|split; [now left|intros []]]|].
  destruct (N.eq_dec c newline) as [->|Hc].
  - exists (a ++ [newline]), []. split; [now rewrite app_nil_r|]. split; [right; eauto|intros []].
  - destruct IH as (p & s & -> & Hw & Hs). exists p, (s ++ [c]). split; [now rewrite app_assoc|]. split; [exact Hw|]. rewrite in_app_iff. intros [H|[H|[]]]; [auto|congruence].
Qed.

(** * C40 *)

(** [in_char b k]: [k] bytes further is still inside the first character of [b], or [b] is empty. *)
Definition in_char (b : text) (k : nat) : Prop := match b with [] => True | c :: _ => k < utf8_len c end.

Lemma line_col_at t a b k p s li : li_new t = Ok li -> t = a ++ b -> in_char b k -> ends_in_line a p s ->
  li_line_col li (blen a + k) = Ok (mkLC (count_nl p) (blen s + k)).
Proof.
  intros H E Hk (Ea & Hw & Hs). destruct (fits_u32 (blen t)) eqn:F; [|rewrite li_new_panics in H by exact F; discriminate].
  rewrite li_new_spec in H by exact F. injection H as <-. unfold li_line_col. cbn [li_newlines].
  assert (C : count_nl a = count_nl p) by (rewrite Ea, count_nl_app, (count_nl_none s Hs); lia).
  rewrite E, starts_app, Nat.add_0_l, app_comm_cons. rewrite C44_partition_point.
  - cbn [rbind length]. rewrite starts_length. unfold usub at 1. cbn [Nat.leb rbind Nat.sub]. rewrite Nat.sub_0_r.
    rewrite C. rewrite nth_error_app1 by (cbn [length]; rewrite starts_length; lia). rewrite Ea, whole_start by exact Hw. cbn [runwrap rbind].
    unfold usub. rewrite blen_app. destruct (Nat.leb_spec (blen p) (blen p + blen s + k)); [|lia]. cbn [rbind]. do 2 f_equal. lia.
  - intros x [<-|Hx]; [reflexivity|]. apply starts_bounds in Hx. apply Nat.leb_le. lia.
  - intros x Hx. apply Nat.leb_gt. destruct b as [|c b]; [destruct Hx|]. cbn [in_char starts] in *.
    destruct (N.eqb c newline); [destruct Hx as [<-|Hx]|]; [lia| |]; apply starts_bounds in Hx; lia.
Qed.
Lemma offset_at t p b li : li_new t = Ok li -> t = p ++ b -> whole p -> forall col, li_offset li (mkLC (count_nl p) col) = uadd (blen p) col.
Proof.
  intros H E Hw col. destruct (fits_u32 (blen t)) eqn:F; [|rewrite li_new_panics in H by exact F; discriminate].
  rewrite li_new_spec in H by exact F. injection H as <-. unfold li_offset. cbn [li_newlines lc_line lc_col]. rewrite E, whole_start by exact Hw. reflexivity.
Qed.

(** The index exists exactly for texts below 4 GiB. *)
Theorem C40_new_total : forall t, fits_u32 (blen t) = true <-> exists li, li_new t = Ok li.
Proof.
  intros t. split; [intros H; rewrite li_new_spec by exact H; eauto|]. intros (li & H). destruct (fits_u32 (blen t)) eqn:F; [reflexivity|]. rewrite li_new_panics in H by exact F. discriminate.
Qed.
Print Assumptions C40_new_total.

(** Every offset [blen a + k] (k bytes into the character after the prefix [a]): the line is the
    number of newlines in [a], the column the distance to the start of that line. *)
Theorem C40_line_col : forall t a b k p s li, li_new t = Ok li -> t = a ++ b -> in_char b k -> ends_in_line a p s ->
  li_line_col li (blen a + k) = Ok (mkLC (count_nl a) (blen s + k)).
Proof.
  intros t a b k p s li H E Hk Hl. rewrite (line_col_at t a b k p s li H E Hk Hl). destruct Hl as (Ea & _ & Hs). rewrite Ea, count_nl_app, (count_nl_none s Hs). do 2 f_equal. lia.
Qed.
Print Assumptions C40_line_col.

(** Every offset has a line and column, and they lead back to it. *)
Lemma offset_split (t : text) : forall o, exists a b k, t = a ++ b /\ in_char b k /\ o = blen a + k.
Proof.
  induction t as [|c t IH]; intros o; [exists [], [], o; cbn; auto|]. destruct (Nat.lt_ge_cases o (utf8_len c)) as [L|L]; [exists [], (c :: t), o; cbn; auto|].
  destruct (IH (o - utf8_len c)) as (a & b & k & -> & Hk & E). exists (c :: a), b, k. cbn. repeat split; [exact Hk|lia].
Qed.
Theorem C40_offset_of_line_col : forall t li o, li_new t = Ok li -> fits_u32 o = true -> exists lc, li_line_col li o = Ok lc /\ li_offset li lc = Ok o.
Proof.
  intros t li o H F. destruct (offset_split t o) as (a & b & k & E & Hk & ->). destruct (line_split a) as (p & s & Hl).
  rewrite (line_col_at t a b k p s li H E Hk Hl). eexists. split; [reflexivity|]. destruct Hl as (-> & Hw & _). rewrite <- app_assoc in E.
  rewrite (offset_at t p (s ++ b) li H E Hw). unfold uadd. rewrite blen_app in *. rewrite Nat.add_assoc. now rewrite F.
Qed.
Print Assumptions C40_offset_of_line_col.

(** Every valid line and column (the line exists, the column is inside the line or at its end)
    leads to an offset, and back. *)
Theorem C40_line_col_of_offset : forall t li p s s' k b, li_new t = Ok li -> t = p ++ s ++ s' ++ b -> whole p -> ~ In newline (s ++ s') ->
  in_char (s' ++ b) k -> (s' = [] -> k = 0) -> fits_u32 (blen (p ++ s) + k) = true ->
  exists o, li_offset li (mkLC (count_nl p) (blen s + k)) = Ok o /\ o = blen (p ++ s) + k /\ li_line_col li o = Ok (mkLC (count_nl p) (blen s + k)).
Proof.
  intros t li p s s' k b H E Hw Hs Hk Hk0 F. rewrite (offset_at t p _ li H E Hw). unfold uadd. rewrite blen_app in *. replace (blen p + (blen s + k)) with (blen p + blen s + k) by lia. rewrite F.
  eexists. split; [reflexivity|]. split; [reflexivity|]. rewrite <- blen_app. rewrite (line_col_at t (p ++ s) (s' ++ b) k p s li H); [reflexivity|rewrite E, <- app_assoc; reflexivity|exact Hk|].
  split; [reflexivity|]. split; [exact Hw|]. intros X. apply Hs, in_app_iff. now left.
Qed.
Print Assumptions C40_line_col_of_offset.

Example C40_case : exists li, li_new (txt "ab" ++ [newline; 8364%N; newline] ++ txt "c") = Ok li /\
  li_line_col li 2 = Ok (mkLC 0 2) /\ li_line_col li 3 = Ok (mkLC 1 0) /\ li_line_col li 7 = Ok (mkLC 2 0) /\ li_offset li (mkLC 2 1) = Ok 8.
Proof. eexists. repeat split; reflexivity. Qed.

(** * C41 UTF-16 columns *)
Fixpoint wide (col : nat) (s : text) : list (nat * nat) :=
  match s with [] => [] | c :: s' => (if is_ascii c then [] else [(col, col + utf8_len c)]) ++ wide (col + utf8_len c) s' end.
Lemma wide_app a : forall col b, wide col (a ++ b) = wide col a ++ wide (col + blen a) b.
Proof. induction a as [|c a IH]; intros col b; cbn [app wide blen]; [now rewrite Nat.add_0_r|]. rewrite IH, <- app_assoc. do 3 f_equal. lia. Qed.
Lemma wides_line s : forall line col cs b, ~ In newline s -> (b = [] \/ exists b', b = newline :: b') ->
  exists rest, wides line col cs (s ++ b) = save_chars [] line (cs ++ wide col s) ++ rest /\ (forall k, In k (map fst rest) -> line < k).
Proof.
  induction s as [|c s IH]; intros line col cs b H Hb; cbn [app wide].
  - rewrite app_nil_r. destruct Hb as [->|(b' & ->)].
    + exists []. cbn [wides]. rewrite app_nil_r. split; [reflexivity|intros ? []].
    + cbn [wides]. rewrite N.eqb_refl. eexists. split; [reflexivity|]. enough (G : forall t l col cs k, In k (map fst (wides l col cs t)) -> l <= k) by (intros k Hk; apply G in Hk; lia).
      clear. induction t as [|c t IH]; intros l col cs k Hk; cbn [wides] in Hk; [destruct cs; cbn in Hk; [destruct Hk|destruct Hk as [<-|[]]; lia]|].
      destruct (N.eqb c newline); [|eauto]. rewrite map_app, in_app_iff in Hk. destruct Hk as [Hk|Hk]; [destruct cs; cbn in Hk; [destruct Hk|destruct Hk as [<-|[]]; lia]|apply IH in Hk; lia].
  - cbn [wides]. destruct (N.eqb_spec c newline) as [->|]; [elim H; now left|].
    destruct (IH line (col + utf8_len c) (if is_ascii c then cs else cs ++ [(col, col + utf8_len c)]) b) as (rest & E & Hr); [intros X; apply H; now right|exact Hb|].
    exists rest. rewrite E. split; [|exact Hr]. destruct (is_ascii c); [reflexivity|now rewrite <- app_assoc].
Qed.
Lemma assoc_app {A} k (a b : list (nat * A)) : ~ In k (map fst a) -> assoc k (a ++ b) = assoc k b.
Proof.
  induction a as [|[k' v] a IH]; intros H; [reflexivity|]. cbn [app assoc]. cbn in H. destruct (Nat.eqb_spec k k') as [->|]; [elim H; now left|]. apply IH. tauto.
Qed.
Lemma assoc_none {A} k (a : list (nat * A)) : ~ In k (map fst a) -> assoc k a = None.
Proof. intros H. rewrite <- (app_nil_r a), assoc_app by exact H. reflexivity. Qed.
Lemma wides_whole q : forall line col cs b, exists pre, wides line col cs (q ++ newline :: b) = pre ++ wides (line + count_nl q + 1) 0 [] b /\ (forall k, In k (map fst pre) -> k < line + count_nl q + 1).
Proof.
  induction q as [|c q IH]; intros line col cs b.
  - cbn [app wides]. rewrite N.eqb_refl. exists (save_chars [] line cs). change (count_nl []) with 0. split; [do 2 f_equal; lia|]. destruct cs; cbn; [intros ? []|intros ? [<-|[]]; lia].
  - cbn [app wides]. unfold count_nl. cbn [count_occ]. destruct (N.eqb_spec c newline) as [->|Hn].
    + destruct (N.eq_dec newline newline); [|contradiction]. destruct (IH (S line) 0 [] b) as (pre & E & Hp). rewrite E. fold (count_nl q). exists (save_chars [] line cs ++ pre).
      split; [rewrite <- app_assoc; do 3 f_equal; lia|]. intros k. rewrite map_app, in_app_iff. intros [Hk|Hk]; [destruct cs; cbn in Hk; [destruct Hk|destruct Hk as [<-|[]]; lia]|apply Hp in Hk; lia].
    + destruct (N.eq_dec c newline); [contradiction|]. fold (count_nl q). apply IH.
Qed.
(** The wide characters stored for a line are those of that line. *)
Lemma wides_get p s b : whole p -> ~ In newline s -> (b = [] \/ exists b', b = newline :: b') ->
  match assoc (count_nl p) (wides 0 0 [] (p ++ s ++ b)) with Some cs => cs | None => [] end = wide 0 s.
Proof.
  intros Hw Hs Hb.
  assert (G : forall line, match assoc line (wides line 0 [] (s ++ b)) with Some cs => cs | None => [] end = wide 0 s).
  { intros line. destruct (wides_line s line 0 [] b Hs Hb) as (rest & -> & Hr). cbn [app]. destruct (wide 0 s) as [|x l] eqn:W; cbn [save_chars app].
    - rewrite assoc_none; [reflexivity|]. intros X. apply Hr in X. lia.
    - cbn [assoc]. now rewrite Nat.eqb_refl. }
  destruct Hw as [->|(q & ->)]; [apply G|]. rewrite <- app_assoc. cbn [app]. destruct (wides_whole q 0 0 [] (s ++ b)) as (pre & -> & Hp).
  rewrite count_nl_app. change (count_nl [newline]) with 1. cbn [Nat.add]. rewrite assoc_app; [apply G|]. intros X. apply Hp in X. lia.
Qed.

Lemma width_facts c : u16c_len16 (utf8_len c) = utf16_len c \/ utf8_len c = 1 /\ utf16_len c = 1.
Proof. unfold u16c_len16, utf8_len, utf16_len. destruct (N.ltb_spec c 128), (N.ltb_spec c 2048), (N.ltb_spec c 65536); cbn; auto; lia. Qed.
Lemma len16_16 c : u16c_len16 (utf8_len c) = utf16_len c.
Proof. unfold u16c_len16, utf8_len, utf16_len. destruct (N.ltb_spec c 128), (N.ltb_spec c 2048), (N.ltb_spec c 65536); cbn; auto; lia. Qed.
Lemma utf16_le c : utf16_len c <= utf8_len c /\ 1 <= utf16_len c.
Proof. unfold utf8_len, utf16_len. destruct (N.ltb_spec c 128), (N.ltb_spec c 2048), (N.ltb_spec c 65536); cbn; lia. Qed.
Lemma ascii_len c : is_ascii c = true -> utf8_len c = 1 /\ utf16_len c = 1.
Proof. unfold is_ascii, utf8_len, utf16_len. intros H. rewrite H. apply N.ltb_lt in H. destruct (N.ltb_spec c 65536); lia. Qed.
Lemma usub_ok a b : b <= a -> usub a b = Ok (a - b).
Proof. intros H. unfold usub. destruct (Nat.leb_spec b a); [reflexivity|lia]. Qed.

Lemma to16_wide s1 : forall col0 s2 r, blen s1 <= r ->
  to16_loop (wide col0 (s1 ++ s2)) (col0 + blen s1) r = Ok (r - blen s1 + len16 s1).
Proof.
  induction s1 as [|c s1 IH]; intros col0 s2 r Hr; cbn [app blen len16] in *.
  - rewrite Nat.add_0_r, Nat.sub_0_r. enough (G : forall col, col0 <= col -> to16_loop (wide col s2) col0 r = Ok r) by (rewrite G; [f_equal; lia|lia]).
    clear. induction s2 as [|c s2 IH]; intros col H; cbn [wide]; [reflexivity|]. pose proof (utf8_len_pos c). destruct (is_ascii c); cbn [app]; [apply IH; lia|].
    cbn [to16_loop snd]. destruct (Nat.leb_spec (col + utf8_len c) col0); [lia|reflexivity].
  - cbn [wide]. replace (col0 + (utf8_len c + blen s1)) with (col0 + utf8_len c + blen s1) by lia. pose proof (utf16_le c). destruct (is_ascii c) eqn:A; cbn [app].
    + destruct (ascii_len c A). rewrite IH by lia. f_equal. lia.
    + cbn [to16_loop fst snd]. destruct (Nat.leb_spec (col0 + utf8_len c) (col0 + utf8_len c + blen s1)); [|lia]. unfold u16c_len. cbn [fst snd]. rewrite usub_ok by lia. cbn [rbind].
      replace (col0 + utf8_len c - col0) with (utf8_len c) by lia. rewrite len16_16. rewrite usub_ok by lia. cbn [rbind]. rewrite usub_ok by lia. cbn [rbind].
      rewrite IH by lia. f_equal. lia.
Qed.
Lemma to8_wide s1 : forall col0 s2, fits_u32 (col0 + blen s1) = true ->
  to8_loop (wide col0 (s1 ++ s2)) (col0 + len16 s1) = Ok (col0 + blen s1).
Proof.
  induction s1 as [|c s1 IH]; intros col0 s2 Hf; cbn [app blen len16] in *.
  - rewrite Nat.add_0_r. enough (G : forall col, col0 <= col -> to8_loop (wide col s2) col0 = Ok col0) by (rewrite G; [reflexivity|lia]).
    clear. induction s2 as [|c s2 IH]; intros col H; cbn [wide]; [reflexivity|]. destruct (is_ascii c); cbn [app]; [apply IH; lia|].
    cbn [to8_loop fst]. destruct (Nat.ltb_spec col col0); [lia|reflexivity].
  - cbn [wide]. pose proof (utf16_le c). assert (L16 : len16 s1 <= blen s1) by (clear; induction s1 as [|x s IH]; cbn; [lia|pose proof (utf16_le x); lia]). destruct (is_ascii c) eqn:A; cbn [app].
    + destruct (ascii_len c A). replace (col0 + (utf16_len c + len16 s1)) with (col0 + utf8_len c + len16 s1) by lia. rewrite IH; [f_equal; lia|rewrite <- Hf; f_equal; lia].
    + cbn [to8_loop fst snd]. destruct (Nat.ltb_spec col0 (col0 + (utf16_len c + len16 s1))); [|lia]. unfold u16c_len. cbn [fst snd]. rewrite usub_ok by lia. cbn [rbind].
      replace (col0 + utf8_len c - col0) with (utf8_len c) by lia. rewrite len16_16. rewrite usub_ok by lia. cbn [rbind]. unfold uadd. erewrite fits_mono; [|shelve|exact Hf]. cbn [rbind].
      replace (col0 + (utf16_len c + len16 s1) + (utf8_len c - utf16_len c)) with (col0 + utf8_len c + len16 s1) by lia. rewrite IH; [f_equal; lia|rewrite <- Hf; f_equal; lia].
      Unshelve. lia.
Qed.

(** The rest of the line after a prefix. *)
Lemma rest_of_line (b : text) : exists s' b', b = s' ++ b' /\ ~ In newline s' /\ (b' = [] \/ exists b'', b' = newline :: b'').
Proof.
  induction b as [|c b IH]; [exists [], []; repeat split; auto|]. destruct (N.eq_dec c newline) as [->|Hc]; [exists [], (newline :: b); repeat split; eauto|].
  destruct IH as (s' & b' & -> & Hs & Hb). exists (c :: s'), b'. repeat split; [|exact Hb]. intros [H|H]; auto.
Qed.
Lemma li_wides t li p s b : li_new t = Ok li -> t = p ++ s ++ b -> whole p -> ~ In newline s -> exists s',
  match assoc (count_nl p) (li_utf16 li) with Some cs => cs | None => [] end = wide 0 (s ++ s').
Proof.
  intros H E Hw Hs. destruct (fits_u32 (blen t)) eqn:F; [|rewrite li_new_panics in H by exact F; discriminate].
  rewrite li_new_spec in H by exact F. injection H as <-. cbn [li_utf16]. destruct (rest_of_line b) as (s' & b' & -> & Hs' & Hb). exists s'.
  rewrite E, (app_assoc s), wides_get; auto. rewrite in_app_iff. tauto.
Qed.
Theorem C41_to_utf16 : forall t li a b p s, li_new t = Ok li -> t = a ++ b -> ends_in_line a p s ->
  to_utf16 li (mkLC (count_nl p) (blen s)) = Ok (mkLC (count_nl p) (len16 s)).
Proof.
  intros t li a b p s H E (Ea & Hw & Hs). rewrite Ea, <- app_assoc in E. destruct (li_wides t li p s b H E Hw Hs) as (s' & W).
  unfold to_utf16, utf8_to_utf16_col. cbn [lc_line lc_col].
  assert (R : to16_loop (wide 0 (s ++ s')) (blen s) (blen s) = Ok (len16 s)). { pose proof (to16_wide s 0 s' (blen s) (le_n _)) as R. cbn [Nat.add] in R. rewrite R. f_equal. lia. }
  destruct (assoc (count_nl p) (li_utf16 li)) as [cs|]; [subst cs; rewrite R; reflexivity|]. rewrite <- W in R. injection R as R. rewrite <- R. reflexivity.
Qed.
Print Assumptions C41_to_utf16.
Lemma fits_in t a b : fits_u32 (blen t) = true -> t = a ++ b -> fits_u32 (blen a) = true.
Proof. intros F ->. eapply fits_mono; [|exact F]. rewrite blen_app. lia. Qed.
Theorem C41_to_utf8 : forall t li a b p s, li_new t = Ok li -> t = a ++ b -> ends_in_line a p s ->
  to_utf8 li (mkLC (count_nl p) (len16 s)) = Ok (mkLC (count_nl p) (blen s)).
Proof.
  intros t li a b p s H E (Ea & Hw & Hs). assert (F : fits_u32 (blen s) = true).
  { assert (Ft : fits_u32 (blen t) = true) by (apply C40_new_total; eauto). eapply fits_mono; [|exact Ft]. rewrite E, Ea, !blen_app. lia. }
  rewrite Ea, <- app_assoc in E. destruct (li_wides t li p s b H E Hw Hs) as (s' & W).
  unfold to_utf8, utf16_to_utf8_col. cbn [lc_line lc_col].
  pose proof (to8_wide s 0 s' F) as R. cbn [Nat.add] in R.
  destruct (assoc (count_nl p) (li_utf16 li)) as [cs|]; [subst cs; rewrite R; reflexivity|]. rewrite <- W in R. injection R as R. rewrite <- R. reflexivity.
Qed.
Print Assumptions C41_to_utf8.

Example C41_case : exists li, li_new [97; 8364; 128512; 98; 10; 233; 99]%N = Ok li /\
  to_utf16 li (mkLC 0 8) = Ok (mkLC 0 4) /\ to_utf8 li (mkLC 0 4) = Ok (mkLC 0 8) /\ to_utf16 li (mkLC 1 2) = Ok (mkLC 1 1).
Proof. eexists. repeat split; reflexivity. Qed.

(** * C42 *)
Theorem C42_position : forall t li a b, li_new t = Ok li -> t = a ++ b ->
  exists pos, to_proto_position li (blen a) = Ok pos /\ denotes pos a /\ lc_line pos = count_nl a /\ from_proto_offset li pos = Ok (blen a).
Proof.
  intros t li a b H E. destruct (line_split a) as (p & s & Hl). exists (mkLC (count_nl p) (len16 s)).
  assert (Hk : in_char b 0) by (destruct b as [|c b]; [exact I|apply utf8_len_pos]).
  pose proof (line_col_at t a b 0 p s li H E Hk Hl) as L. rewrite !Nat.add_0_r in L. unfold to_proto_position. rewrite L. cbn [rbind].
  rewrite (C41_to_utf16 t li a b p s H E Hl). split; [reflexivity|]. split; [exists p, s; auto|]. split; [destruct Hl as (-> & _ & Hs); cbn; rewrite count_nl_app, (count_nl_none s Hs); lia|].
  unfold from_proto_offset. rewrite (C41_to_utf8 t li a b p s H E Hl). cbn [rbind]. assert (Ft : fits_u32 (blen t) = true) by (apply C40_new_total; eauto).
  pose proof (fits_in _ _ _ Ft E) as Fa. destruct Hl as (Ea & Hw & _). rewrite Ea in E, Fa |- *. rewrite <- app_assoc in E. rewrite (offset_at t p (s ++ b) li H E Hw).
  rewrite blen_app in *. unfold uadd. now rewrite Fa.
Qed.
Print Assumptions C42_position.
Lemma denotes_offset t li pos a b : li_new t = Ok li -> t = a ++ b -> denotes pos a -> from_proto_offset li pos = Ok (blen a).
Proof.
  intros H E (p & s & Hl & H1 & H2). unfold from_proto_offset. destruct pos as [ln cl]. cbn [lc_line lc_col] in *. subst. rewrite (C41_to_utf8 _ li a b p s H eq_refl Hl). cbn [rbind].
  assert (Ft : fits_u32 (blen (a ++ b)) = true) by (apply C40_new_total; eauto). pose proof (fits_in _ _ _ Ft eq_refl) as Fa.
  destruct Hl as (-> & Hw & _). rewrite <- app_assoc in H. rewrite (offset_at _ p (s ++ b) li H eq_refl Hw). rewrite blen_app in *. unfold uadd. now rewrite Fa.
Qed.
(** Every position that denotes a place of the text is converted to its offset. *)
Theorem C42_offset : forall t li pos a b, li_new t = Ok li -> t = a ++ b -> denotes pos a -> from_proto_offset li pos = Ok (blen a) /\ to_proto_position li (blen a) = Ok pos.
Proof.
  intros t li pos a b H E D. split; [now apply (denotes_offset t li pos a b)|]. destruct (C42_position t li a b H E) as (pos' & H1 & D' & _). rewrite H1. f_equal.
  destruct D as (p & s & (E1 & W1 & S1) & L1 & C1), D' as (p' & s' & (E2 & W2 & S2) & L2 & C2).
  assert (G : p = p' /\ s = s').
  { assert (U : forall p s p' s' : text, p ++ s = p' ++ s' -> whole p -> ~ In newline s -> whole p' -> ~ In newline s' -> blen p <= blen p' -> p = p').
    { clear. intros p s p' s' E W S W' S' L. destruct (app_prefix p s p' s' E L) as (k & -> & ->). destruct k as [|c k]; [now rewrite app_nil_r|]. exfalso.
      destruct W' as [W'|(q & W')]; [apply app_eq_nil in W' as [_ W']; discriminate|]. apply S, in_app_iff. left.
      assert (In newline (p ++ c :: k)) by (rewrite W'; apply in_app_iff; right; now left).
      destruct (exists_last (l := c :: k) ltac:(discriminate)) as (k' & z & Ek). rewrite Ek in *. rewrite app_assoc in W'. apply app_inj_tail in W' as [_ ->]. apply in_app_iff. right. now left. }
    assert (Epp : p = p').
    { assert (E3 : p ++ s = p' ++ s') by congruence. destruct (Nat.le_ge_cases (blen p) (blen p')) as [L|L]; [exact (U _ _ _ _ E3 W1 S1 W2 S2 L)|symmetry; exact (U _ _ _ _ (eq_sym E3) W2 S2 W1 S1 L)]. }
    subst p. split; [reflexivity|]. rewrite E1 in E2. now apply app_inv_head in E2. }
  destruct G as [<- <-], pos, pos'. cbn in *. congruence.
Qed.
Print Assumptions C42_offset.

Example C42_case : exists li, li_new [97; 10; 128512; 98]%N = Ok li /\ denotes (mkLC 1 2) [97; 10; 128512]%N /\ from_proto_offset li (mkLC 1 2) = Ok 6.
Proof.
  eexists. split; [reflexivity|]. split; [|reflexivity]. exists [97; 10]%N, [128512%N]. repeat split; [right; exists [97%N]; reflexivity|]. intros [H|[]]. discriminate.
Qed.

(** * C43 *)

(** One change, read against the current text. *)
Inductive Changed : text -> change_event -> text -> Prop :=
| Ch_full t x : Changed t (mkChange None x) x
| Ch_range s e x a m b : denotes s a -> denotes e (a ++ m) -> Changed (a ++ m ++ b) (mkChange (Some (s, e)) x) (a ++ x ++ b).
(** The changes one after the other. *)
Inductive Changes : text -> list change_event -> text -> Prop :=
| Chs_nil t : Changes t [] t
| Chs_cons t c t' cs u : fits_u32 (blen t') = true -> Changed t c t' -> Changes t' cs u -> Changes t (c :: cs) u.

(** An index that is right for the lines before [v]. *)
Definition valid_for (li : line_index) (v : option nat) (t : text) : Prop :=
  exists li', li_new t = Ok li' /\ match v with
  | None => li = li'
  | Some l => (forall n, n < l -> nth_error (li_newlines li) n = nth_error (li_newlines li') n /\ assoc n (li_utf16 li) = assoc n (li_utf16 li'))
  end.
Lemma offset_valid li li' v t pos : li_new t = Ok li' -> valid_for li v t -> covers v (lc_line pos) = true -> from_proto_offset li pos = from_proto_offset li' pos.
Proof.
  intros H (l2 & H2 & Hv) Hc. rewrite H in H2. injection H2 as <-. destruct v as [l|]; [|now rewrite Hv]. cbn in Hc. apply Nat.ltb_lt in Hc. destruct (Hv _ Hc) as [E1 E2].
  unfold from_proto_offset, to_utf8, utf16_to_utf8_col, li_offset. rewrite E2. destruct (match assoc (lc_line pos) (li_utf16 li') with Some cs => _ | None => _ end); cbn [rbind lc_line lc_col]; [now rewrite E1|reflexivity|reflexivity].
Qed.
(** Two texts that begin with the same complete lines have the same index for them. *)
Lemma index_prefix p b b' li li' : whole p -> li_new (p ++ b) = Ok li -> li_new (p ++ b') = Ok li' ->
  forall n, n < count_nl p -> nth_error (li_newlines li) n = nth_error (li_newlines li') n /\ assoc n (li_utf16 li) = assoc n (li_utf16 li').
Proof.
  intros Hw H H' n Hn.
  assert (F : fits_u32 (blen (p ++ b)) = true) by (apply C40_new_total; eauto). assert (F' : fits_u32 (blen (p ++ b')) = true) by (apply C40_new_total; eauto).
  rewrite li_new_spec in H, H' by assumption. injection H as <-. injection H' as <-. cbn [li_newlines li_utf16]. split.
  - rewrite !starts_app, !app_comm_cons. rewrite !nth_error_app1 by (cbn [length]; rewrite starts_length; lia). reflexivity.
  - destruct Hw as [->|(q & ->)]; [cbn in Hn; lia|]. rewrite count_nl_app in Hn. change (count_nl [newline]) with 1 in Hn. rewrite <- !app_assoc. cbn [app].
    assert (G : forall (q : text) line col cs, exists pre, (forall b, wides line col cs (q ++ newline :: b) = pre ++ wides (line + count_nl q + 1) 0 [] b)).
    { clear. induction q as [|c q IH]; intros line col cs.
      - exists (save_chars [] line cs). intros b'. cbn [app wides]. rewrite N.eqb_refl. change (count_nl []) with 0. do 2 f_equal. lia.
      - cbn [app wides]. unfold count_nl. cbn [count_occ]. destruct (N.eqb_spec c newline) as [->|Hne].
        + destruct (N.eq_dec newline newline); [|contradiction]. destruct (IH (S line) 0 []) as (pre & E). exists (save_chars [] line cs ++ pre). intros b'. rewrite E. fold (count_nl q). rewrite <- app_assoc. do 3 f_equal. lia.
        + destruct (N.eq_dec c newline); [contradiction|]. fold (count_nl q). apply IH. }
    destruct (G q 0 0 []) as (pre & E). rewrite !E. cbn [Nat.add].
    assert (K : forall t l col cs k, In k (map fst (wides l col cs t)) -> l <= k).
    { clear. induction t as [|c t IH]; intros l col cs k Hk; cbn [wides] in Hk; [destruct cs; cbn in Hk; [destruct Hk|destruct Hk as [<-|[]]; lia]|].
      destruct (N.eqb c newline); [|eauto]. rewrite map_app, in_app_iff in Hk. destruct Hk as [Hk|Hk]; [destruct cs; cbn in Hk; [destruct Hk|destruct Hk as [<-|[]]; lia]|apply IH in Hk; lia]. }
    assert (A : forall t, assoc n (pre ++ wides (count_nl q + 1) 0 [] t) = assoc n pre).
    { intros t. assert (N : ~ In n (map fst (wides (count_nl q + 1) 0 [] t))) by (intros X; apply K in X; lia). clear -N. induction pre as [|[k v] pre IH]; cbn [app assoc]; [now apply assoc_none|]. destruct (n =? k); [reflexivity|exact IH]. }
    now rewrite !A.
Qed.
Lemma denotes_line pos a : denotes pos a -> lc_line pos = count_nl a.
Proof. intros (p & s & (-> & _ & Hs) & -> & _). rewrite count_nl_app, (count_nl_none s Hs). lia. Qed.
Lemma changes_loop_spec t cs u : Changes t cs u -> forall li v, fits_u32 (blen t) = true -> valid_for li v t -> changes_loop t li v cs = Ok u.
Proof.
  induction 1 as [t|t c t' cs u F C _ IH]; intros li v Ft Hv; [reflexivity|]. cbn [changes_loop]. destruct C as [t x|s e x a m b Ds De]; cbn [ce_range ce_text].
  - apply IH; [exact F|]. apply C40_new_total in F as (li' & F). exists li'. split; [exact F|]. intros n Hn. lia.
  - set (li1 := if covers v (lc_line e) then Ok li else li_new (a ++ m ++ b)).
    assert (Hli : exists l1, li1 = Ok l1 /\ exists l2, li_new (a ++ m ++ b) = Ok l2 /\ from_proto_offset l1 s = from_proto_offset l2 s /\ from_proto_offset l1 e = from_proto_offset l2 e /\
       forall n, n <= lc_line e -> nth_error (li_newlines l1) n = nth_error (li_newlines l2) n /\ assoc n (li_utf16 l1) = assoc n (li_utf16 l2)).
    { apply C40_new_total in Ft as (l2 & Hl2). unfold li1. destruct (covers v (lc_line e)) eqn:Cv.
      - exists li. split; [reflexivity|]. exists l2. split; [exact Hl2|].
        assert (Cs : covers v (lc_line s) = true).
        { destruct v as [l|]; [|reflexivity]. cbn in *. apply Nat.ltb_lt in Cv. apply Nat.ltb_lt. rewrite (denotes_line _ _ Ds). rewrite (denotes_line _ _ De), count_nl_app in Cv. lia. }
        split; [now apply (offset_valid li l2 v (a ++ m ++ b))|]. split; [now apply (offset_valid li l2 v (a ++ m ++ b))|].
        intros n Hn. destruct Hv as (l3 & Hl3 & Hv). rewrite Hl2 in Hl3. injection Hl3 as <-. destruct v as [l|]; [|now rewrite Hv]. cbn in Cv. apply Nat.ltb_lt in Cv. apply Hv. lia.
      - exists l2. split; [exact Hl2|]. exists l2. auto. }
    destruct Hli as (l1 & -> & l2 & Hl2 & Os & Oe & Hn). cbn [rbind]. unfold from_proto_range. rewrite Os, Oe.
    rewrite (denotes_offset _ l2 s a (m ++ b) Hl2 eq_refl Ds). cbn [rbind].
    rewrite (denotes_offset _ l2 e (a ++ m) b Hl2 (app_assoc _ _ _) De). cbn [rbind]. rewrite blen_app. destruct (Nat.leb_spec (blen a) (blen a + blen m)); [|lia]. cbn [rassert rbind].
    rewrite (indel_apply_at (mkIndel x (mkRange (blen a) (blen a + blen m))) a m b eq_refl eq_refl). cbn [rbind i_insert]. apply IH; [exact F|].
    apply C40_new_total in F as (l3 & Hl3). exists l3. split; [exact Hl3|]. intros n Hlt.
    destruct (Hn n) as [N1 N2]. { rewrite (denotes_line _ _ De), count_nl_app. rewrite (denotes_line _ _ Ds) in Hlt. lia. }
    rewrite N1, N2. destruct Ds as (p & s0 & (-> & Hw & _) & Hls & _). rewrite <- app_assoc in Hl2, Hl3.
    apply (index_prefix p (s0 ++ m ++ b) (s0 ++ x ++ b) l2 l3 Hw Hl2 Hl3). lia.
Qed.
Theorem C43_sequential : forall t cs u, fits_u32 (blen t) = true -> Changes t cs u -> apply_document_changes t cs = Ok u.
Proof.
  intros t cs u F H. apply C40_new_total in F as F'. destruct F' as (li & Hli). unfold apply_document_changes. rewrite Hli. cbn [rbind].
  apply (changes_loop_spec t cs u H li None F). exists li. auto.
Qed.
Print Assumptions C43_sequential.

Example C43_case : Changes [97; 10; 98]%N [mkChange (Some (mkLC 0 1, mkLC 1 0)) [539; 10; 99]%N; mkChange (Some (mkLC 0 2, mkLC 0 2)) [99]%N] [97; 539; 99; 10; 99; 98]%N /\
  apply_document_changes [97; 10; 98]%N [mkChange (Some (mkLC 0 1, mkLC 1 0)) [539; 10; 99]%N; mkChange (Some (mkLC 0 2, mkLC 0 2)) [99]%N] = Ok [97; 539; 99; 10; 99; 98]%N.
Proof.
  split; [|reflexivity].
  assert (D : forall ln cl p s, whole p -> ~ In newline s -> count_nl p = ln -> len16 s = cl -> denotes (mkLC ln cl) (p ++ s)) by (intros ln cl p s H1 H2 H3 H4; exists p, s; repeat split; auto).
  apply Chs_cons with ([97; 539; 10; 99; 98]%N); [reflexivity| |].
  - apply (Ch_range _ _ [539; 10; 99]%N [97]%N [10]%N [98]%N); [apply (D 0 1 [] [97%N]); cbn; auto; [now left|intros [X|[]]; discriminate]|apply (D 1 0 [97; 10]%N []); auto; right; exists [97%N]; reflexivity].
  - apply Chs_cons with ([97; 539; 99; 10; 99; 98]%N); [reflexivity| |constructor].
    apply (Ch_range _ _ [99]%N [97; 539]%N []%N [10; 99; 98]%N); apply (D 0 2 [] [97; 539]%N); cbn; auto; try (now left); intros [X|[X|[]]]; discriminate.
Qed.

(** Positions need not denote a place of the text: whenever the changes can be applied one by one,
    each as a batch of its own, the batch gives the same text. Ranges have their lines in order. *)
Fixpoint one_by_one (t : text) (cs : list change_event) : res text :=
  match cs with [] => Ok t | c :: cs' => let? t' := apply_document_changes t [c] in one_by_one t' cs' end.
Definition ordered (c : change_event) : Prop := match ce_range c with Some (s, e) => lc_line s <= lc_line e | None => True end.

Lemma start_whole (t : text) : forall row n x, nth_error (starts row t) n = Some x -> exists q b, t = (q ++ [newline]) ++ b /\ count_nl q = n /\ x = row + blen (q ++ [newline]).
Proof.
  induction t as [|c t IH]; intros row n x H; cbn [starts] in H; [destruct n; discriminate|]. destruct (N.eqb_spec c newline) as [->|Hc].
  - destruct n as [|n]; cbn [nth_error] in H.
    + injection H as <-. exists [], t. repeat split.
    + destruct (IH _ _ _ H) as (q & b & -> & <- & ->). exists (newline :: q), b. repeat split. cbn [app blen]. lia.
  - destruct (IH _ _ _ H) as (q & b & -> & Hq & ->). exists (c :: q), b. repeat split; [|cbn [app blen]; lia]. unfold count_nl. cbn [count_occ]. destruct (N.eq_dec c newline); [contradiction|exact Hq].
Qed.
Lemma rbind_ok {A B} (r : res A) (f : A -> res B) b : rbind r f = Ok b -> exists a, r = Ok a /\ f a = Ok b.
Proof. destruct r; cbn; intros H; try discriminate; eauto. Qed.
Lemma from_proto_line t li s o : li_new t = Ok li -> from_proto_offset li s = Ok o -> exists p b, t = p ++ b /\ whole p /\ count_nl p = lc_line s /\ blen p <= o.
Proof.
  intros H Ho. assert (F : fits_u32 (blen t) = true) by (apply C40_new_total; eauto). rewrite li_new_spec in H by exact F. injection H as <-.
  unfold from_proto_offset in Ho. apply rbind_ok in Ho as (lc & H1 & H2). unfold to_utf8 in H1. apply rbind_ok in H1 as (col & _ & H1). injection H1 as <-.
  unfold li_offset in H2. apply rbind_ok in H2 as (st & H3 & H4). cbn [lc_line lc_col li_newlines] in *. unfold runwrap in H3. destruct (nth_error _ _) as [x|] eqn:E in H3; [|discriminate]. injection H3 as <-.
  assert (L : x <= o) by (unfold uadd in H4; match type of H4 with (if ?c then _ else _) = _ => destruct c end; [injection H4 as <-; lia|discriminate]).
  destruct (lc_line s) as [|n]; cbn [nth_error] in E; [injection E as <-; exists [], t; split; [reflexivity|split; [now left|split; [reflexivity|cbn; lia]]]|].
  destruct (start_whole _ _ _ _ E) as (q & b & -> & <- & ->). exists (q ++ [newline]), b. repeat split; [right; eauto|rewrite count_nl_app; change (count_nl [newline]) with 1; lia|lia].
Qed.
Lemma indel_apply_inv i t u : indel_apply i t = Ok u -> exists a m b, t = a ++ m ++ b /\ blen a = i_start i /\ blen (a ++ m) = i_end i /\ u = a ++ i_insert i ++ b.
Proof.
  unfold indel_apply. destruct (Nat.ltb_spec (i_end i) (i_start i)) as [|L]; [discriminate|]. destruct (bsplit (i_start i) t) as [[a r]|] eqn:E1; [|discriminate]. destruct (bsplit (i_end i) t) as [[c b]|] eqn:E2; [|discriminate]. intros H. injection H as <-.
  apply bsplit_some in E1 as [E1 L1]. apply bsplit_some in E2 as [E2 L2]. rewrite E1 in E2. destruct (app_prefix a r c b E2 ltac:(lia)) as (m & -> & ->). exists a, m, b. auto.
Qed.
Theorem C43_batch : forall t cs u, fits_u32 (blen t) = true -> Forall ordered cs -> one_by_one t cs = Ok u -> apply_document_changes t cs = Ok u.
Proof.
  intros t cs u F Ho H.
  assert (G : forall cs t u li v, Forall ordered cs -> one_by_one t cs = Ok u -> (cs <> [] -> valid_for li v t) -> changes_loop t li v cs = Ok u).
  { clear. induction cs as [|c cs IH]; intros t u li v Ho H Hv; [exact H|]. cbn [one_by_one] in H. apply rbind_ok in H as (t' & H1 & H2). inversion_clear Ho.
    specialize (Hv ltac:(discriminate)). unfold apply_document_changes in H1. apply rbind_ok in H1 as (l2 & Hl2 & H1). cbn [changes_loop] in *. unfold ordered in H. destruct (ce_range c) as [[s e]|].
    - cbn [covers] in H1. cbn [rbind] in H1. apply rbind_ok in H1 as (r & Hr & H1). apply rbind_ok in H1 as (t1 & Ht1 & H1). injection H1 as ->.
      assert (Hli : exists l1, (if covers v (lc_line e) then Ok li else li_new t) = Ok l1 /\ from_proto_offset l1 s = from_proto_offset l2 s /\ from_proto_offset l1 e = from_proto_offset l2 e /\
       forall n, n <= lc_line e -> nth_error (li_newlines l1) n = nth_error (li_newlines l2) n /\ assoc n (li_utf16 l1) = assoc n (li_utf16 l2)).
      { destruct (covers v (lc_line e)) eqn:Cv; [|exists l2; auto]. exists li. split; [reflexivity|].
        assert (Cs : covers v (lc_line s) = true) by (destruct v as [l|]; [|reflexivity]; cbn in *; apply Nat.ltb_lt in Cv; apply Nat.ltb_lt; lia).
        split; [now apply (offset_valid li l2 v t)|]. split; [now apply (offset_valid li l2 v t)|].
        intros n Hn. destruct Hv as (l3 & Hl3 & Hv). rewrite Hl2 in Hl3. injection Hl3 as <-. destruct v as [l|]; [|now rewrite Hv]. cbn in Cv. apply Nat.ltb_lt in Cv. apply Hv. lia. }
      destruct Hli as (l1 & -> & Os & Oe & Hn). cbn [rbind]. unfold from_proto_range in *. rewrite Os, Oe, Hr. cbn [rbind]. rewrite Ht1. cbn [rbind]. apply IH; [assumption|exact H2|]. intros Hne.
      assert (F3 : exists l3, li_new t' = Ok l3). { destruct cs as [|c' cs]; [contradiction|]. cbn [one_by_one] in H2. apply rbind_ok in H2 as (? & H2 & _). unfold apply_document_changes in H2. apply rbind_ok in H2 as (l3 & H2 & _). eauto. }
      destruct F3 as (l3 & Hl3). exists l3. split; [exact Hl3|]. intros n Hlt. destruct (Hn n ltac:(lia)) as [-> ->].
      apply rbind_ok in Hr as (so & Hso & Hr). apply rbind_ok in Hr as (eo & Heo & Hr). apply rbind_ok in Hr as (? & _ & Hr). injection Hr as <-.
      destruct (from_proto_line t l2 s so Hl2 Hso) as (p & b & -> & Hw & Hp & Hle).
      destruct (indel_apply_inv _ _ _ Ht1) as (x1 & m & y & E1 & E2 & E3 & E4). cbv [i_start i_end] in *; cbn [i_delete r_start r_end i_insert] in *.
      destruct (app_prefix p b x1 (m ++ y) E1 ltac:(lia)) as (k & -> & Ek). rewrite E4, <- app_assoc in Hl3. apply (index_prefix p b (k ++ ce_text c ++ y) l2 l3 Hw Hl2 Hl3). lia.
    - injection H1 as <-. apply IH; [assumption|exact H2|]. intros Hne. destruct cs as [|c' cs]; [contradiction|]. cbn [one_by_one] in H2. apply rbind_ok in H2 as (? & H2 & _). unfold apply_document_changes in H2. apply rbind_ok in H2 as (l3 & H2 & _).
      exists l3. split; [exact H2|]. intros n Hn. lia. }
  apply C40_new_total in F as (li & Hli). unfold apply_document_changes. rewrite Hli. cbn [rbind]. apply G; [exact Ho|exact H|]. intros _. exists li. auto.
Qed.
Print Assumptions C43_batch.
(** With the lines of a range the wrong way round the stale index is used: the batch can differ. *)
Theorem C43_order_needed : exists t cs u v, one_by_one t cs = Ok u /\ apply_document_changes t cs = Ok v /\ u <> v.
Proof.
  exists [97; 10; 98; 10; 99]%N, [mkChange (Some (mkLC 1 0, mkLC 1 1)) [120; 120; 10]%N; mkChange (Some (mkLC 2 0, mkLC 0 6)) [121]%N].
  eexists. eexists. split; [vm_compute; reflexivity|]. split; [vm_compute; reflexivity|]. discriminate.
Qed.
