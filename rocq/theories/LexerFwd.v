(** LexerFwd.v — texts that are lexed into given tokens (C06–C10). *)
From Verif Require Import Base SyntaxKind Accept Lexer LexerDirect LexSpec LexerProofs LexerClass LexerProps LexerNum.
From Coq Require Import ZifyBool ZifyN.

Definition sep (b : text) : Prop := b = [] \/ starts blank b.

Lemma step_exists t : t <> [] -> exists k e l b, t = l ++ b /\ dlex t = ((k, e), b) /\ Step k e l b.
Proof.
  intros Ht. destruct t as [|c r]; [congruence|]. destruct (suffix_dlex c r) as [a Ha].
  destruct (dlex (c :: r)) as [[k e] b] eqn:E. cbn [snd] in Ha.
  exists k, e, (c :: a), b. split; [cbn; now rewrite <- Ha|]. split; [reflexivity|].
  apply dlex_step; [discriminate|]. cbn [app]. now rewrite <- Ha.
Qed.

Lemma fwd_op k sp b : In (k, sp) spellings -> sep b -> dlex (sp ++ b) = ((k, None), b).
Proof.
  intros Hin Hb.
  assert (Hall : forall c x, blank c -> dlex (sp ++ c :: x) = ((k, None), c :: x)).
  { intros c x Hc.
    assert (H5 : c = 32%N \/ c = 9%N \/ c = 10%N \/ c = 12%N \/ c = 13%N) by exact Hc. clear Hb Hc.
    cbn [spellings In] in Hin.
    repeat (destruct Hin as [Hin|Hin]; [injection Hin as <- <-; 
      destruct H5 as [->|[->|[->|[->| ->]]]]; reflexivity|]). destruct Hin. }
  destruct Hb as [->|Hb].
  - clear Hall. cbn [spellings In] in Hin.
    repeat (destruct Hin as [Hin|Hin]; [injection Hin as <- <-; reflexivity|]). destruct Hin.
  - destruct b as [|c b]; [destruct Hb|]. now apply Hall.
Qed.

Lemma spelling_nonempty k sp : In (k, sp) spellings -> sp <> [].
Proof. intros H. destruct (spelling_head _ _ H) as (c & r & -> & _). discriminate. Qed.

(** Which class a first character leads to. *)
Lemma step_first c x k e l b : c :: x = l ++ b -> Step k e l b -> exists r, l = c :: r /\ x = r ++ b.
Proof. intros H Hs. apply cons_tail_eq; [exact H|]. eapply step_nonempty; exact Hs. Qed.

Lemma takew_split (f : char -> bool) (a1 b1 a2 b2 : text) : a1 ++ b1 = a2 ++ b2 -> forallb f a1 = true -> forallb f a2 = true ->
  match b1 with [] => True | c :: _ => f c = false end ->
  match b2 with [] => True | c :: _ => f c = false end -> a1 = a2 /\ b1 = b2.
Proof.
  intros E H1 H2 H3 H4. destruct (span_unique f a1 b1 H1 H3) as [Ha Hb].
  destruct (span_unique f a2 b2 H2 H4) as [Ha2 Hb2]. rewrite E in Ha, Hb. split; congruence.
Qed.

Lemma sep_not (f : char -> bool) (b : text) : (forall c, blank c -> f c = false) -> sep b ->
  match b with [] => True | c :: _ => f c = false end.
Proof. intros Hf [->|Hb]; [exact I|]. destruct b; [exact I|]. now apply Hf. Qed.

Lemma fwd_ident l b : ident_shape l -> match b with [] => True | c :: _ => is_ident_continue c = false end ->
  dlex (l ++ b) = ((kw_kind l, None), b).
Proof.
  intros Hl Hb. destruct l as [|c r]; [destruct Hl as (?&?&[=]&_)|].
  apply ident_shape_iff in Hl as [Hc Hr].
  destruct (step_exists ((c :: r) ++ b)) as (k & e & l' & b' & E & Hd & Hs); [discriminate|].
  rewrite Hd. cbn [app] in E. destruct (step_first _ _ _ _ _ _ E Hs) as (r' & -> & E').
  inversion Hs as [k1 sp b1 Hin1 Hlf|b1 Hb0|r0 e1 b1 Ho Hd0|r0 b1 Hd0|q r0 e1 b1 Hq Hd0|c0 r0 b1 Hc0 Hr0 Hb0|c0 r0 b1 Hc0 Hd0|c0 r0 b1 Hc0 Hr0 Hb0|c0 b1 H1 H2 H3 H4 H5 H6 H7];
    subst; try discriminate.
  - destruct (spelling_head _ _ Hin1) as (c0 & r0 & [= <- <-] & Hn & _). congruence.
  - destruct Hq; subst; discriminate.
  - destruct (takew_split is_ident_continue r b r' b') as [-> ->]; auto.
  - clear -Hc Hc0. unfold is_number, is_ident_start in *. lia.
  - clear -Hc Hc0. unfold is_whitespace, is_ident_start in *. lia.
  - congruence.
Qed.

Lemma blank_not_ident c : blank c -> is_ident_continue c = false.
Proof. unfold blank, is_ident_continue, is_ident_start, is_number. lia. Qed.

Lemma numeral_no_blank l : numeral l -> Forall (fun c => ~ blank c) l.
Proof.
  assert (Hdig : forall d, digits d -> Forall (fun c => ~ blank c) d).
  { intros d Hd. eapply Forall_impl; [|exact Hd]. unfold digit, blank. intros c; lia. }
  intros [(a & f & e & -> & _ & Ha & Hf & He)|(h & -> & Hh)].
  - rewrite !Forall_app. repeat split; auto.
    + destruct Hf as [->|(d & -> & Hd)]; [constructor|]. constructor; [unfold blank; cbn; lia|auto].
    + destruct He as [->|(x & s & d & -> & Hx & Hs & Hd)]; [constructor|].
      rewrite !Forall_app. repeat split; auto.
      * destruct Hx as [-> | ->]; repeat constructor; unfold blank; cbn; lia.
      * destruct Hs as [-> | ->]; repeat constructor; unfold blank; cbn; lia.
  - repeat (constructor; [unfold blank; cbn; lia|]). eapply Forall_impl; [|exact Hh].
    unfold hexdigit, blank. intros c; lia.
Qed.

Lemma numeral_head l : numeral l -> exists c r, l = c :: r /\ is_number c = true.
Proof.
  intros [H|(h & -> & _)]; [now apply decimal_head|]. cbn. eexists _, _. split; reflexivity.
Qed.

Lemma prefix_longer (l b l' b' : text) : l ++ b = l' ++ b' -> length l < length l' ->
  exists c x, b = c :: x /\ In c l'.
Proof.
  intros E H. assert (Hl : l' = firstn (length l') (l ++ b)).
  { rewrite E, firstn_app, Nat.sub_diag, firstn_all. cbn. now rewrite app_nil_r. }
  destruct b as [|c b].
  - rewrite app_nil_r in Hl. apply (f_equal (@length _)) in Hl. rewrite firstn_length in Hl. lia.
  - exists c, b. split; [reflexivity|]. rewrite Hl, firstn_app. apply in_or_app. right.
    destruct (length l' - length l) eqn:En; [lia|]. now left.
Qed.

Lemma fwd_number l b : numeral l -> sep b -> dlex (l ++ b) = ((KNumber, None), b).
Proof.
  intros Hl Hb. destruct (numeral_head l Hl) as (c & r & -> & Hc).
  destruct (step_exists ((c :: r) ++ b)) as (k & e & l' & b' & E & Hd & Hs); [discriminate|].
  rewrite Hd. pose proof E as E0. cbn [app] in E. destruct (step_first _ _ _ _ _ _ E Hs) as (r' & -> & E').
  inversion Hs as [k1 sp b1 Hin1 Hlf|b1 Hb0|r0 e1 b1 Ho Hd0|r0 b1 Hd0|q r0 e1 b1 Hq Hd0|c0 r0 b1 Hc0 Hr0 Hb0|c0 r0 b1 Hc0 Hd0|c0 r0 b1 Hc0 Hr0 Hb0|c0 b1 H1 H2 H3 H4 H5 H6 H7];
    subst; try discriminate.
  - destruct (spelling_head _ _ Hin1) as (c0 & r0 & [= <- <-] & _ & Hn & _). congruence.
  - destruct Hq; subst; discriminate.
  - clear -Hc Hc0. unfold is_number, is_ident_start in *. lia.
  - destruct (dnumber_spec c r' b' Hc Hd0) as [Hn Hlong].
    assert (H1 : length (c :: r) <= length (c :: r')).
    { apply Hlong; [exact Hl|]. exists b. cbn [app]. now rewrite <- E'. }
    destruct (Nat.eq_dec (length (c :: r)) (length (c :: r'))) as [Eq|Ne].
    + assert (Er : r = r' /\ b = b').
      { cbn in Eq. injection Eq as Eq. pose proof (f_equal (firstn (length r)) E') as F.
        rewrite firstn_app, Nat.sub_diag, firstn_all in F. cbn in F. rewrite app_nil_r in F.
        rewrite Eq, firstn_app, Nat.sub_diag, firstn_all in F. cbn in F. rewrite app_nil_r in F. subst r'.
        split; [reflexivity|]. now apply app_inv_head in E'. }
      destruct Er as [_ ->]. reflexivity.
    + exfalso. destruct (prefix_longer _ _ _ _ E0) as (x & y & -> & Hin); [lia|].
      apply numeral_no_blank in Hn. rewrite Forall_forall in Hn. apply (Hn x Hin).
      destruct Hb as [[=]|Hb]. exact Hb.
  - clear -Hc Hc0. unfold is_whitespace, is_number in *. lia.
  - congruence.
Qed.

Lemma dlex_quote q r : quote_char q -> dlex (q :: r) = ((KStr, fst (dstr q r)), snd (dstr q r)).
Proof. intros [-> | ->]; reflexivity. Qed.

(** Items of a short string that this lexer reads as intended. *)
Lemma dstr_items q items b : quote_char q -> Forall (str_item q) items ->
  Forall (fun it => ~ In 10%N it /\ ~ In 0%N it) items -> last items [] <> [92%N; 92%N] ->
  dstr q (concat items ++ q :: b) = (None, b).
Proof.
  intros Hq. assert (Hq0 : (q =? eof_char)%N = false /\ (q =? newline)%N = false /\ (q =? backslash)%N = false)
    by (destruct Hq as [-> | ->]; auto).
  destruct Hq0 as (Hq0 & Hq1 & Hq2).
  induction items as [|it items IH]; intros Hi Hc Hl.
  - cbn [concat app]. rewrite dstr_cons, Hq0, Hq1, N.eqb_refl. reflexivity.
  - apply Forall_cons_iff in Hi as [Hit Hi]. apply Forall_cons_iff in Hc as [[Hn Hz] Hc].
    assert (IH' : items <> [] -> dstr q (concat items ++ q :: b) = (None, b)).
    { intros Hne. apply IH; auto. destruct items; [congruence|]. exact Hl. }
    assert (IH'' : last items [] <> [92%N; 92%N] -> dstr q (concat items ++ q :: b) = (None, b)) by auto.
    assert (Hend : items = [] \/ items <> []) by (destruct items; [now left|right; discriminate]).
    assert (IHall : dstr q (concat items ++ q :: b) = (None, b)).
    { destruct Hend as [->|Hne]; [apply IH''; discriminate|auto]. }
    destruct Hit as [c H1 H2 H3|c].
    + cbn [concat app]. rewrite dstr_cons.
      assert (E : (c =? eof_char)%N = false) by (apply N.eqb_neq; intros ->; apply Hz; now left). rewrite E.
      rewrite (proj2 (N.eqb_neq c newline) H3), (proj2 (N.eqb_neq c q) H1), (proj2 (N.eqb_neq c backslash) H2).
      exact IHall.
    + cbn [concat app]. rewrite dstr_cons.
      change (92 =? eof_char)%N with false. change (92 =? newline)%N with false.
      rewrite (N.eqb_sym 92 q). change 92%N with backslash. rewrite Hq2. change (backslash =? backslash)%N with true.
      cbv iota. destruct (c =? q)%N eqn:Ecq; [exact IHall|].
      assert (E : (c =? eof_char)%N = false) by (apply N.eqb_neq; intros ->; apply Hz; right; now left).
      assert (E2 : (c =? newline)%N = false) by (apply N.eqb_neq; intros ->; apply Hn; right; now left).
      rewrite dstr_cons, E, E2, Ecq. destruct (c =? backslash)%N eqn:Ecb; [|exact IHall].
      destruct Hend as [->|Hne].
      { exfalso. apply Hl. apply N.eqb_eq in Ecb as ->. reflexivity. }
      destruct (concat items ++ q :: b) as [|d r] eqn:Ed; [destruct (concat items); discriminate|].
      destruct (d =? q)%N eqn:Edq; [|exact IHall].
      exfalso. destruct items as [|it2 items]; [congruence|]. apply Forall_cons_iff in Hi as [Hit2 _].
      apply N.eqb_eq in Edq as ->. destruct Hit2 as [c2 G1 G2 G3|c2]; cbn in Ed; injection Ed as Ed _.
      * congruence.
      * rewrite <- Ed in Hq2. discriminate.
Qed.

Lemma fwd_string q m b : quote_char q -> Forall (fun c => c <> q /\ c <> 92%N /\ c <> 10%N /\ c <> 0%N) m ->
  dlex (([q] ++ m ++ [q]) ++ b) = ((KStr, None), b).
Proof.
  intros Hq Hm. rewrite <- !app_assoc. cbn [app]. rewrite dlex_quote by exact Hq.
  assert (E : dstr q (m ++ q :: b) = (None, b)).
  { pose proof (dstr_items q (map (fun c => [c]) m) b Hq) as H.
    assert (Ec : concat (map (fun c => [c]) m) = m).
    { clear. induction m as [|c m IH]; [reflexivity|]. cbn. now rewrite IH. }
    rewrite Ec in H. apply H.
    - apply Forall_map. eapply Forall_impl; [|exact Hm]. intros c (A & B & C & D). now constructor.
    - apply Forall_map. eapply Forall_impl; [|exact Hm]. intros c (A & B & C & D).
      split; intros [E|[]]; congruence.
    - assert (Hall : Forall (fun it : text => length it = 1 \/ it = []) (map (fun c => [c]) m)).
      { apply Forall_map. apply Forall_forall. intros; now left. }
      destruct (map (fun c => [c]) m) as [|x y] eqn:E; [discriminate|].
      assert (Hin : In (last (x :: y) []) (x :: y)).
      { clear. revert x. induction y as [|z y IH]; intros x; [now left|]. right. apply IH. }
      rewrite Forall_forall in Hall. apply Hall in Hin. destruct Hin as [Hin|Hin].
      + intros Heq. assert (H2 : 1 = 2); [|discriminate]. transitivity (length (last (x :: y) ([] : text))).
        * symmetry; exact Hin.
        * exact (f_equal (@length char) Heq).
      + intros Heq. assert (H2 : ([] : text) = [92%N; 92%N]); [|discriminate].
        transitivity (last (x :: y) ([] : text)); [symmetry; exact Hin|exact Heq]. }
  rewrite E. reflexivity.
Qed.

Lemma fwd_lexeme k l b : lexeme k l -> sep b -> l <> [] /\ dlex (l ++ b) = ((k, None), b).
Proof.
  intros H Hb. destruct H as [k l Hin|k l Hin|l Hs Hn|l Hn|q m Hq Hm].
  - split; [now apply (spelling_nonempty k)|now apply fwd_op].
  - assert (Hk : kw_kind l = k) by (unfold kw_kind; now rewrite (proj2 (from_keyword_spec l k) Hin)).
    assert (Hs : ident_shape l).
    { cbn [keywords In] in Hin.
      repeat (destruct Hin as [Hin|Hin]; [injection Hin as <- <-; apply ident_shape_iff; split; reflexivity|]).
      destruct Hin. }
    split; [intros ->; destruct Hs as (?&?&[=]&_)|]. rewrite <- Hk. apply fwd_ident; [exact Hs|].
    now apply (sep_not _ _ blank_not_ident).
  - split; [intros ->; destruct Hs as (?&?&[=]&_)|].
    assert (Hk : kw_kind l = KIdent) by (unfold kw_kind; now rewrite (proj2 (from_keyword_none l) Hn)).
    rewrite <- Hk. apply fwd_ident; [exact Hs|]. now apply (sep_not _ _ blank_not_ident).
  - split; [|now apply fwd_number]. destruct (numeral_head l Hn) as (c & r & -> & _). discriminate.
  - split; [discriminate|]. now apply fwd_string.
Qed.

Lemma fwd_blank w b : blank_run w -> ~ starts blank b -> w <> [] /\ dlex (w ++ b) = ((KWhitespace, None), b).
Proof.
  intros [Hw Hall] Hb. split; [exact Hw|]. destruct w as [|c w]; [congruence|].
  apply Forall_cons_iff in Hall as [Hc Hall]. apply (forallb_Forall_iff _ _ _ blank_iff) in Hall.
  apply (not_starts _ _ _ blank_iff) in Hb.
  destruct (span_unique _ _ _ Hall Hb) as [_ Hd]. cbn [app].
  assert (Hcomp : dlex (c :: w ++ b) = ((KWhitespace, None), dropw is_whitespace (w ++ b))).
  { destruct Hc as [->|[->|[->|[->| ->]]]]; reflexivity. }
  now rewrite Hcomp, Hd.
Qed.

Lemma lexeme_head k l : lexeme k l -> exists c r, l = c :: r /\ ~ blank c.
Proof.
  intros H.
  assert (Hid : forall l, ident_shape l -> exists c r, l = c :: r /\ ~ blank c).
  { intros l0 (c & r & -> & Hc & _). exists c, r. split; [reflexivity|]. unfold letter, blank in *. lia. }
  destruct H as [k l Hin|k l Hin|l Hs Hn|l Hn|q m Hq Hm].
  - destruct (spelling_head _ _ Hin) as (c & r & -> & _ & _ & H & _). exists c, r. split; [reflexivity|].
    rewrite <- blank_iff. congruence.
  - apply Hid. cbn [keywords In] in Hin.
    repeat (destruct Hin as [Hin|Hin]; [injection Hin as <- <-; apply ident_shape_iff; split; reflexivity|]).
    destruct Hin.
  - now apply Hid.
  - destruct (numeral_head l Hn) as (c & r & -> & H). exists c, r. split; [reflexivity|].
    unfold is_number, blank in *. lia.
  - exists q, (m ++ [q]). split; [reflexivity|]. unfold blank. destruct Hq; subst; lia.
Qed.

Lemma spaced_lexed ps t toks : spaced ps t toks ->
  exists ls, Lexed t ls /\ map lt_tok ls = toks /\ Forall (fun x => lt_err x = None) ls /\
             ~ starts blank t /\ filter (fun p => negb (is_trivia (fst p)))
                                    (map (fun x => (fst (fst x), lt_text x)) ls) = ps.
Proof.
  induction 1 as [|k l w ps t toks Hl Hw Hsp (ls & Hls & Htk & He & Hst & Hps)].
  - exists []. repeat split; auto using L_nil.
  - assert (Hsepw : sep (w ++ t)).
    { right. destruct Hw as [Hw Hall]. destruct w as [|c w]; [congruence|]. inversion Hall; subst. assumption. }
    destruct (fwd_lexeme _ _ _ Hl Hsepw) as [Hne Hd]. destruct (fwd_blank _ _ Hw Hst) as [Hwne Hwd].
    exists ((k, None, l) :: (KWhitespace, None, w) :: ls). split; [|split; [|split; [|split]]].
    + apply L_cons; [exact Hne|exact Hd|]. apply L_cons; [exact Hwne|exact Hwd|exact Hls].
    + cbn. now rewrite Htk.
    + repeat constructor. exact He.
    + destruct (lexeme_head _ _ Hl) as (c & r & -> & Hc). exact Hc.
    + cbn [map fst snd lt_text filter is_trivia negb]. rewrite Hps.
      assert (Hk : is_trivia k = false).
      { assert (Hkw : forall x, In (x, k) keywords -> is_trivia k = false).
        { intros x Hin. cbn [keywords In] in Hin.
          repeat (destruct Hin as [Hin|Hin]; [injection Hin as <- <-; reflexivity|]). destruct Hin. }
        destruct Hl as [k l Hin|k l Hin|l ? ?|l ?|q m ? ?]; try reflexivity; [|now apply (Hkw l)].
        cbn [spellings In] in Hin.
        repeat (destruct Hin as [Hin|Hin]; [injection Hin as <- <-; reflexivity|]). destruct Hin. }
      rewrite Hk. reflexivity.
Qed.

Lemma errors_of_none toks : forall p es, Forall (fun e => e = None) es -> errors_of p toks es = [].
Proof.
  induction toks as [|x toks IH]; intros p [|e es] H; try reflexivity.
  apply Forall_cons_iff in H as [-> H]. cbn [errors_of]. now apply IH.
Qed.

Lemma spaced_tokens ps t toks : spaced ps t toks -> fits_u32 (blen t) = true -> tokenize t = Ok (toks, []).
Proof.
  intros H Hf. destruct (spaced_lexed _ _ _ H) as (ls & Hls & <- & He & _).
  rewrite (tokenize_direct _ _ Hls Hf). rewrite errors_of_none; [reflexivity|].
  apply Forall_map. exact He.
Qed.

(** A text that is one lexer step is lexed as one token. *)
Lemma lexes_as_step l k : l <> [] -> dlex l = ((k, None), []) -> fits_u32 (blen l) = true -> lexes_as l k.
Proof.
  intros Hl Hd Hf. unfold lexes_as.
  assert (H : Lexed l [(k, None, l)]).
  { rewrite <- (app_nil_r l) at 1. apply L_cons; [exact Hl|now rewrite app_nil_r|constructor]. }
  now rewrite (tokenize_direct _ _ H Hf).
Qed.

Lemma numeral_lexes l : numeral l -> fits_u32 (blen l) = true -> lexes_as l KNumber.
Proof.
  intros Hl Hf. apply lexes_as_step; [|rewrite <- (app_nil_r l) at 1|exact Hf].
  - destruct (numeral_head l Hl) as (c & r & -> & _). discriminate.
  - apply fwd_number; [exact Hl|now left].
Qed.

Lemma short_string_lexes q items : quote_char q -> Forall (str_item q) items ->
  Forall (fun it => ~ In 10%N it /\ ~ In 0%N it) items -> last items [] <> [92%N; 92%N] ->
  let l := [q] ++ concat items ++ [q] in fits_u32 (blen l) = true -> lexes_as l KStr.
Proof.
  intros Hq Hi Hc Hl l Hf. apply lexes_as_step; [discriminate| |exact Hf].
  unfold l. cbn [app]. rewrite dlex_quote by exact Hq. now rewrite dstr_items.
Qed.

(** ** Long brackets *)
Lemma takew_repeat n b : match b with [] => True | c :: _ => (eqs =? c)%N = false end ->
  takew (N.eqb eqs) (repeat eqs n ++ b) = repeat eqs n /\ dropw (N.eqb eqs) (repeat eqs n ++ b) = b.
Proof.
  intros H. apply span_unique; [|exact H]. induction n as [|n IH]; [reflexivity|]. cbn. exact IH.
Qed.

Lemma takew_eqs_repeat t : takew (N.eqb eqs) t = repeat eqs (length (takew (N.eqb eqs) t)).
Proof.
  pose proof (takew_all (N.eqb eqs) t) as H. induction (takew (N.eqb eqs) t) as [|c l IH]; [reflexivity|].
  cbn [forallb] in H. apply andb_true_iff in H as [H1 H2]. apply N.eqb_eq in H1 as <-. cbn [length repeat]. f_equal. auto.
Qed.

Lemma skip_body_app x y : no_escaped_close x -> ~ In rbr x -> skip_body (x ++ rbr :: y) = rbr :: y.
Proof.
  induction x as [|c x IH]; intros He Hin; cbn [app].
  - reflexivity.
  - rewrite skip_body_cons.
    assert (IHx : skip_body (x ++ rbr :: y) = rbr :: y).
    { apply IH; [|intros H; apply Hin; now right]. intros p s E. apply (He (c :: p) s). cbn [app]. now rewrite E. }
    destruct (c =? backslash)%N eqn:Ec.
    + apply N.eqb_eq in Ec as ->. destruct x as [|d x].
      * exfalso. apply (He [] []). reflexivity.
      * cbn [app]. destruct (d =? rbr)%N eqn:Ed; [|exact IHx].
        exfalso. apply N.eqb_eq in Ed as ->. apply Hin. right; now left.
    + destruct (c =? rbr)%N eqn:Ed; [|exact IHx].
      exfalso. apply N.eqb_eq in Ed as ->. apply Hin. now left.
Qed.

Lemma dclose_content n b : forall fuel x, length x < fuel -> no_escaped_close x -> no_early_close n x ->
  dclose fuel n (x ++ long_close n ++ b) = (true, rbr :: b).
Proof.
  induction fuel as [|fuel IH]; intros x Hf He Hc; [lia|]. cbn [dclose].
  change (long_close n) with (rbr :: repeat eqs n ++ [rbr]).
  assert (Hdec : ~ In rbr x \/ exists p s, x = p ++ rbr :: s /\ ~ In rbr p).
  { clear. induction x as [|c x IH]; [left; intros []|]. destruct (N.eq_dec c rbr) as [->|Hne].
    - right. exists [], x. split; [reflexivity|intros []].
    - destruct IH as [IH|(p & s & -> & Hp)].
      + left. intros [E|E]; [congruence|auto].
      + right. exists (c :: p), s. split; [reflexivity|]. intros [E|E]; [congruence|auto]. }
  destruct Hdec as [Hno|(p & s & -> & Hp)].
  - cbn [app]. rewrite skip_body_app by assumption. rewrite <- app_assoc. cbn [app].
    destruct (takew_repeat n (rbr :: b)) as [Ht Hd]; [reflexivity|]. rewrite Ht, Hd, repeat_length, Nat.eqb_refl.
    reflexivity.
  - rewrite <- app_assoc. cbn [app]. rewrite skip_body_app; [|intros q z E|exact Hp].
    2:{ apply (He q (z ++ s ++ [rbr])). rewrite <- app_assoc. cbn [app]. 
        transitivity ((p ++ [rbr]) ++ s ++ [rbr]); [now rewrite <- app_assoc|].
        change (p ++ [rbr] = q ++ txt "\]" ++ z) in E. rewrite E, <- !app_assoc. reflexivity. }
    set (y := (repeat eqs n ++ [rbr]) ++ b).
    assert (Hsp : takew (N.eqb eqs) (s ++ rbr :: y) = takew (N.eqb eqs) s /\
                  dropw (N.eqb eqs) (s ++ rbr :: y) = dropw (N.eqb eqs) s ++ rbr :: y).
    { pose proof (span_unique (N.eqb eqs) (takew (N.eqb eqs) s) (dropw (N.eqb eqs) s ++ rbr :: y)) as H.
      rewrite app_assoc, <- span_app in H. apply H; [apply takew_all|].
      pose proof (dropw_hd (N.eqb eqs) s) as Hd. destruct (dropw (N.eqb eqs) s); [reflexivity|exact Hd]. }
    destruct Hsp as [-> ->].
    destruct (n =? length (takew (N.eqb eqs) s)) eqn:En.
    + exfalso. apply Nat.eqb_eq in En. destruct (Hc p (dropw (N.eqb eqs) s)) as [s' Hs'].
      { cbn [app]. rewrite En, <- takew_eqs_repeat, <- span_app. reflexivity. }
      pose proof (dropw_hd (N.eqb eqs) s) as Hd. rewrite Hs' in Hd. discriminate.
    + unfold y. change (rbr :: (repeat eqs n ++ [rbr]) ++ b) with (long_close n ++ b). apply IH.
      * pose proof (dropw_len (N.eqb eqs) s). rewrite app_length in Hf. cbn in Hf. lia.
      * intros q z E. apply (He (p ++ rbr :: takew (N.eqb eqs) s ++ q) z).
        rewrite <- !app_assoc. cbn [app]. rewrite <- app_assoc. cbn [app] in E. rewrite <- E.
        rewrite (span_app (N.eqb eqs) s) at 1. now rewrite <- app_assoc.
      * intros q z E. apply (Hc (p ++ rbr :: takew (N.eqb eqs) s ++ q) z).
        rewrite (span_app (N.eqb eqs) s) at 1. rewrite E, <- !app_assoc. cbn [app]. now rewrite <- app_assoc.
Qed.

Lemma dbracket_content n x b : no_escaped_close x -> no_early_close n x ->
  dbracket n (lbr :: x ++ long_close n ++ b) = (None, b).
Proof.
  intros He Hc. unfold dbracket, dclose_all. cbn [drop1]. change (lbr =? lbr)%N with true. cbv iota.
  rewrite dclose_content; [reflexivity| |exact He|exact Hc]. rewrite app_length. lia.
Qed.

Lemma long_string_lexes n x : no_escaped_close x -> no_early_close n x ->
  let l := long_open n ++ x ++ long_close n in fits_u32 (blen l) = true -> lexes_as l KStr.
Proof.
  intros He Hc l Hf. apply lexes_as_step; [discriminate| |exact Hf].
  unfold l. change (long_open n) with (lbr :: repeat eqs n ++ [lbr]).
  rewrite <- app_comm_cons, <- app_assoc. cbn [app].
  assert (Hb : dbrackets (repeat eqs n ++ lbr :: x ++ long_close n) = (None, [])).
  { unfold dbrackets. destruct (takew_repeat n (lbr :: x ++ long_close n)) as [-> ->]; [reflexivity|].
    rewrite repeat_length. pose proof (dbracket_content n x [] He Hc) as H. now rewrite app_nil_r in H. }
  unfold dlex. cbn [N.eqb].
  change (lbr =? ch "=")%N with false. change (lbr =? ch "~")%N with false.
  change (lbr =? ch "(")%N with false. change (lbr =? ch ")")%N with false.
  change (lbr =? ch "{")%N with false. change (lbr =? ch "}")%N with false.
  change (lbr =? lbr)%N with true. cbv iota.
  replace (hd_is lbr (repeat eqs n ++ lbr :: x ++ long_close n) ||
           hd_is eqs (repeat eqs n ++ lbr :: x ++ long_close n)) with true by (destruct n; reflexivity).
  now rewrite Hb.
Qed.

(** A long comment at the end of a line ends with its bracket. *)
Lemma long_comment_step x b : no_escaped_close x -> no_early_close 0 x ->
  (b = [] \/ exists b', b = 10%N :: b') ->
  dlex ((txt "--[[" ++ x ++ txt "]]") ++ b) = ((KComment, None), b).
Proof.
  intros He Hc Hb. rewrite <- app_assoc. cbn [app]. unfold dlex. cbn [txt app].
  change (ch "-" =? ch "=")%N with false.
  assert (Hcomp : forall r, dlex (ch "-" :: ch "-" :: r) = ((KComment, None), dcomment r)) by reflexivity.
  change (dlex (ch "-" :: ch "-" :: ch "[" :: ch "[" :: (x ++ txt "]]") ++ b) = (KComment, None, b)).
  rewrite Hcomp. f_equal. unfold dcomment.
  change (hd_is lbr (ch "[" :: ch "[" :: (x ++ txt "]]") ++ b)) with true.
  change (drop1 lbr (ch "[" :: ch "[" :: (x ++ txt "]]") ++ b)) with (lbr :: (x ++ txt "]]") ++ b).
  change (hd_is lbr (lbr :: (x ++ txt "]]") ++ b)) with true. cbv iota beta. cbn [andb].
  unfold dbrackets. rewrite takew_cons, dropw_cons. change (eqs =? lbr)%N with false. cbv iota. cbn [length].
  pose proof (dbracket_content 0 x b He Hc) as H. rewrite <- app_assoc.
  change (txt "]]") with (long_close 0). rewrite H. cbn [snd].
  destruct Hb as [->|[b' ->]]; reflexivity.
Qed.

Lemma long_comment_tokens x b : no_escaped_close x -> no_early_close 0 x ->
  (b = [] \/ exists b', b = 10%N :: b') ->
  let c := txt "--[[" ++ x ++ txt "]]" in
  fits_u32 (blen (c ++ b)) = true ->
  exists toks errs, tokenize b = Ok (toks, errs) /\
    tokenize (c ++ b) = Ok (mkToken KComment (blen c) :: toks, map (shift_err (blen c)) errs).
Proof.
  intros He Hc Hb c Hf. destruct (Lexed_total b) as [ls Hls].
  assert (HL : Lexed (c ++ b) ((KComment, None, c) :: ls)).
  { apply L_cons; [discriminate| |exact Hls]. now apply long_comment_step. }
  pose proof (tokenize_direct _ _ HL Hf) as Hd. cbn [map lt_tok] in Hd.
  assert (Hfb : fits_u32 (blen b) = true).
  { revert Hf. unfold fits_u32. rewrite blen_app, !N.ltb_lt. lia. }
  eexists _, _. split; [exact (tokenize_direct _ _ Hls Hfb)|]. rewrite Hd. f_equal. f_equal.
  cbn [map lt_err errors_of fst snd t_len]. now rewrite errors_of_shift.
Qed.

(** Numerals of the manual this lexer agrees with. *)
Lemma lua_numeral_numeral l : lua_numeral l -> starts digit l -> ~ In 43%N l -> ~ prefix_of (txt "0X") l ->
  numeral l.
Proof.
  intros [(a & f & e & -> & Ha & Hf & He & Hor)|(p & h & -> & Hp & Hh & Hx)] Hs Hplus Hno.
  - left. exists a, f, e. split; [reflexivity|]. split; [|split; [exact Ha|split; [exact Hf|]]].
    + destruct Hor as [H|(d & -> & _)]; [exact H|]. intros ->. cbn in Hs. unfold digit in Hs.
      change (ch ".") with 46%N in Hs. lia.
    + destruct He as [->|(x & s & d & -> & Hx & Hsg & _ & Hd)]; [now left|right].
      exists x, s, d. split; [reflexivity|]. split; [exact Hx|]. split; [|exact Hd].
      destruct Hsg as [->|[->| ->]]; auto. exfalso. apply Hplus. rewrite !in_app_iff.
      right; right; right; left. now left.
  - right. destruct Hp as [->| ->]; [exists h; auto|]. exfalso. apply Hno. now exists h.
Qed.
