(** LexerNum.v — numbers (C04), errors (C05), resumption (C10) and the literal properties
    C06–C09. *)
From Verif Require Import Base SyntaxKind Accept Lexer LexerDirect LexSpec LexerProofs LexerClass LexerProps.
From Coq Require Import ZifyBool ZifyN.

Lemma dropw_app f d z : forallb f d = true -> dropw f (d ++ z) = dropw f z.
Proof.
  induction d as [|c d IH]; cbn [app forallb]; intros H; [reflexivity|].
  apply andb_true_iff in H as [H1 H2]. rewrite dropw_cons, H1. auto.
Qed.
Lemma dropw_stop f c z : f c = false -> dropw f (c :: z) = c :: z.
Proof. intros H. now rewrite dropw_cons, H. Qed.

Lemma digits_iff d : digits d <-> forallb is_number d = true.
Proof. unfold digits. symmetry. apply forallb_Forall_iff, digit_iff. Qed.

(** Shape of what the decimal branch consumes. *)
Lemma dnumber_dec_shape c r : is_number c = true ->
  exists l, c :: r = l ++ dnumber_dec (c :: r) /\ decimal l.
Proof.
  intros Hc. unfold dnumber_dec. set (t := c :: r).
  set (a := takew is_number t). set (t1 := dropw is_number t).
  assert (E1 : t = a ++ t1) by apply span_app.
  assert (Ha : digits a) by (apply digits_iff, takew_all).
  assert (Ha0 : a <> []) by (unfold a, t; rewrite takew_cons, Hc; discriminate).
  set (t2 := if hd_is (ch ".") t1 then dropw is_number (drop1 (ch ".") t1) else t1).
  assert (E2 : exists f, t1 = f ++ t2 /\ optional fraction f).
  { unfold t2. destruct (hd_is (ch ".") t1) eqn:Eh.
    - destruct t1 as [|x t1']; [discriminate|]. cbn [hd_is drop1] in *. rewrite Eh.
      apply N.eqb_eq in Eh as ->. exists (txt "." ++ takew is_number t1').
      split; [cbn; f_equal; apply span_app|]. right. exists (takew is_number t1').
      split; [reflexivity|]. apply digits_iff, takew_all.
    - exists []. split; [reflexivity|now left]. }
  destruct E2 as (f & E2 & Hf).
  assert (E3 : exists e, t2 = e ++ (if hd_is (ch "e") t2 || hd_is (ch "E") t2
      then dropw is_number (drop1 (ch "-") (tl t2)) else t2) /\ optional exponent e).
  { destruct (hd_is (ch "e") t2 || hd_is (ch "E") t2) eqn:Eh.
    - destruct t2 as [|x t2']; [discriminate|]. cbn [hd_is tl] in *.
      assert (Hx : [x] = txt "e" \/ [x] = txt "E").
      { apply orb_true_iff in Eh as [Eh|Eh]; apply N.eqb_eq in Eh as ->; [now left|now right]. }
      destruct t2' as [|y t2'']; [exists [x]; split; [reflexivity|right; exists [x], [], []];
        repeat split; auto; constructor|]. cbn [drop1].
      destruct (y =? ch "-")%N eqn:Ey.
      + apply N.eqb_eq in Ey as ->. exists ([x] ++ txt "-" ++ takew is_number t2'').
        split; [cbn; do 2 f_equal; apply span_app|]. right.
        exists [x], (txt "-"), (takew is_number t2''). repeat split; auto. apply digits_iff, takew_all.
      + exists ([x] ++ [] ++ takew is_number (y :: t2'')).
        split; [cbn [app]; f_equal; apply span_app|]. right.
        exists [x], [], (takew is_number (y :: t2'')). repeat split; auto. apply digits_iff, takew_all.
    - exists []. split; [reflexivity|now left]. }
  destruct E3 as (e & E3 & He). exists (a ++ f ++ e). split.
  - rewrite E1, E2 at 1. rewrite E3 at 1. now rewrite <- !app_assoc.
  - exists a, f, e. auto.
Qed.

Lemma exponent_head e z : exponent e -> exists x r, e ++ z = x :: r /\ is_number x = false /\ x <> ch "." /\
   (x = ch "e" \/ x = ch "E").
Proof.
  intros (x & s & d & -> & [-> | ->] & _); cbn; eexists _, _; (split; [reflexivity|]);
    split; try reflexivity; split; try discriminate; auto.
Qed.

(** No numeral prefix is longer than what the decimal branch consumes. *)
Lemma dnumber_dec_longest p z : decimal p -> length (dnumber_dec (p ++ z)) <= length z.
Proof.
  intros (a & f & e & -> & _ & Ha & Hf & He). apply digits_iff in Ha.
  unfold dnumber_dec. rewrite <- !app_assoc, dropw_app by exact Ha.
  assert (Hz : forall y, suffix y z -> length y <= length z) by (intros; now apply suffix_len).
  (* the exponent stage *)
  assert (Hexp : forall y, (y = e ++ z \/ suffix y z) ->
     length (if hd_is (ch "e") y || hd_is (ch "E") y
             then dropw is_number (drop1 (ch "-") (tl y)) else y) <= length z).
  { intros y [-> |Hy].
    - destruct He as [->|He].
      + cbn [app]. destruct (_ || _); [|lia].
        apply Hz. eapply suffix_trans; [apply suffix_dropw|]. eapply suffix_trans; [apply suffix_drop1|apply suffix_tl].
      + destruct He as (x & s & d & -> & Hx & Hs & Hd). apply digits_iff in Hd.
        assert (Eh : forall w, hd_is (ch "e") (x ++ w) || hd_is (ch "E") (x ++ w) = true)
          by (destruct Hx as [-> | ->]; reflexivity).
        rewrite <- !app_assoc, Eh.
        replace (tl (x ++ s ++ d ++ z)) with (s ++ d ++ z) by (destruct Hx as [-> | ->]; reflexivity).
        destruct Hs as [-> | ->].
        * cbn [app]. destruct (d ++ z) as [|w q] eqn:Ew; [cbn; lia|]. cbn [drop1].
          destruct (w =? ch "-")%N eqn:E.
          -- destruct d as [|w' d'].
             ++ cbn in Ew. subst z. pose proof (dropw_len is_number q). cbn; lia.
             ++ cbn in Ew, Hd. injection Ew as -> _. apply andb_true_iff in Hd as [Hd _].
                apply N.eqb_eq in E as ->. discriminate.
          -- rewrite <- Ew, dropw_app by exact Hd. apply dropw_len.
        * change (drop1 (ch "-") (txt "-" ++ d ++ z)) with (d ++ z). rewrite dropw_app by exact Hd. apply dropw_len.
    - destruct (_ || _); [|now apply Hz].
      apply Hz. eapply suffix_trans; [apply suffix_dropw|]. eapply suffix_trans; [apply suffix_drop1|].
      eapply suffix_trans; [apply suffix_tl|exact Hy]. }
  assert (Hdot : forall y, suffix y z -> suffix (if hd_is (ch ".") y then dropw is_number (drop1 (ch ".") y) else y) z).
  { intros y Hy. destruct (hd_is _ y); [|exact Hy]. eapply suffix_trans; [apply suffix_dropw|].
    eapply suffix_trans; [apply suffix_drop1|exact Hy]. }
  destruct Hf as [->|Hf]; cbn [app].
  - destruct He as [->|He]; cbn [app].
    + apply Hexp. right. apply Hdot, suffix_dropw.
    + destruct (exponent_head e z He) as (x & q & Ex & Hx1 & Hx2 & _). apply Hexp. left.
      rewrite Ex. rewrite dropw_stop by exact Hx1. cbn [hd_is]. now rewrite (proj2 (N.eqb_neq _ _) Hx2).
  - destruct Hf as (d & -> & Hd). apply digits_iff in Hd. rewrite <- app_assoc.
    change (dropw is_number (txt "." ++ d ++ e ++ z)) with (txt "." ++ d ++ e ++ z).
    change (hd_is (ch ".") (txt "." ++ d ++ e ++ z)) with true.
    change (drop1 (ch ".") (txt "." ++ d ++ e ++ z)) with (d ++ e ++ z). cbv iota.
    rewrite dropw_app by exact Hd. apply Hexp. destruct He as [->|He]; cbn [app].
    + right. apply suffix_dropw.
    + left. destruct (exponent_head e z He) as (x & q & Ex & Hx1 & _). rewrite Ex. now apply dropw_stop.
Qed.

Lemma decimal_head p : decimal p -> exists c r, p = c :: r /\ is_number c = true.
Proof.
  intros (a & f & e & -> & Ha & Hd & _). destruct a as [|c a]; [congruence|]. exists c, (a ++ f ++ e).
  split; [reflexivity|]. inversion Hd; subst. now apply digit_iff.
Qed.

Lemma dnumber_spec c r b : is_number c = true -> dnumber (c :: r ++ b) = b ->
  numeral (c :: r) /\
  (forall p, numeral p -> prefix_of p (c :: r ++ b) -> length p <= length (c :: r)).
Proof.
  intros Hc Hd.
  assert (Hlen : forall p z, c :: r ++ b = p ++ z -> length b <= length z -> length p <= length (c :: r)).
  { intros p z E Hz. apply (f_equal (@length _)) in E. cbn in E. rewrite !app_length in E. cbn. lia. }
  assert (Hcase : (exists h, c :: r ++ b = ch "0" :: ch "x" :: h /\ dropw is_hex h = b) \/
                  ((forall h, c :: r ++ b <> ch "0" :: ch "x" :: h) /\ dnumber_dec (c :: r ++ b) = b)).
  { unfold dnumber in Hd. destruct (r ++ b) as [|d x] eqn:Er.
    - right. split; [discriminate|]. unfold dnumber_dec. rewrite dropw_cons, Hc in Hd |- *.
      cbn in Hd |- *. exact Hd.
    - destruct ((c =? ch "0")%N && (d =? ch "x")%N) eqn:E.
      + left. apply andb_true_iff in E as [E1 E2]. apply N.eqb_eq in E1 as ->. apply N.eqb_eq in E2 as ->.
        exists x. auto.
      + right. split; [|exact Hd]. intros h [= -> -> _]. discriminate. }
  destruct Hcase as [(h & Eh & Hb)|(Hno & Hb)].
  - assert (El : c :: r = ch "0" :: ch "x" :: takew is_hex h).
    { apply (app_inv_tail b). cbn [app]. rewrite Eh. rewrite <- Hb. do 2 f_equal. apply span_app. }
    split.
    + right. exists (takew is_hex h). split; [exact El|]. apply (forallb_Forall_iff _ _ _ hex_iff), takew_all.
    + intros p Hp [z Hz]. apply (Hlen p z Hz). rewrite Eh in Hz. destruct Hp as [Hp|Hp].
      * pose proof (dnumber_dec_longest p z Hp) as Hl. rewrite <- Hz in Hl. cbn in Hl.
        rewrite <- Hb. pose proof (dropw_len is_hex h). cbn in Hl. lia.
      * destruct Hp as (g & -> & Hg). cbn in Hz. injection Hz as ->.
        rewrite <- Hb, dropw_app by (now apply (forallb_Forall_iff _ _ _ hex_iff)). apply dropw_len.
  - destruct (dnumber_dec_shape c (r ++ b) Hc) as (l & El & Hl). rewrite Hb in El.
    change (c :: r ++ b) with ((c :: r) ++ b) in El. apply app_inv_tail in El. rewrite El. split; [now left|].
    intros p Hp [z Hz]. rewrite <- El. apply (Hlen p z Hz). destruct Hp as [Hp|(g & -> & _)].
    + rewrite <- Hb, Hz. now apply dnumber_dec_longest.
    + exfalso. eapply Hno. rewrite Hz. reflexivity.
Qed.

Lemma number_token t a k l b : token_at t a k l b ->
  (k = KNumber <-> starts digit l) /\
  (k = KNumber -> numeral l /\ forall p, numeral p -> prefix_of p (l ++ b) -> length p <= length l).
Proof.
  intros Ht. apply token_at_step in Ht as [e Hs].
  assert (Hneither : k <> KNumber -> (forall c r, l = c :: r -> is_number c = false) ->
    (k = KNumber <-> starts digit l) /\
    (k = KNumber -> numeral l /\ forall p, numeral p -> prefix_of p (l ++ b) -> length p <= length l)).
  { intros H1 H2. split; [|tauto]. split; [tauto|]. destruct l as [|c r]; cbn; [tauto|].
    rewrite <- digit_iff. rewrite (H2 c r eq_refl). discriminate. }
  inversion Hs as [k1 sp b1 Hin1 Hlf|b1 Hb|r e1 b1 Ho Hd|r b1 Hd|q r e1 b1 Hq Hd|c r b1 Hc Hr Hb|c r b1 Hc Hd|c r b1 Hc Hr Hb|c b1 H1 H2 H3 H4 H5 H6 H7];
    subst; try (apply Hneither; [discriminate|intros c' r' E; injection E as <- <-; try reflexivity]).
  - apply Hneither; [intros Ek; subst; apply in_op_kinds in Hin1; in_op Hin1|]. intros c r El; subst.
    destruct (spelling_head _ _ Hin1) as (c0 & r0 & [= <- <-] & _ & Hn & _). exact Hn.
  - destruct Hq; subst; reflexivity.
  - apply Hneither.
    + destruct (kw_kind_in (c :: r)) as [H|E]; [|congruence]. intros E. rewrite E in H. cbn in H. intuition discriminate.
    + intros c' r' [= <- <-]. clear -Hc. unfold is_number, is_ident_start in *. lia.
  - split; [split; [intros _; now apply digit_iff|reflexivity]|]. intros _. now apply dnumber_spec.
  - clear -Hc. unfold is_whitespace, is_number in *. lia.
  - exact H2.
Qed.

(** ** C05 *)
Lemma dstr_nonself q c x e : dstr q x = (e, c :: x) -> False.
Proof.
  intros H. pose proof (suffix_len _ _ (suffix_dstr q x)) as Hl. rewrite H in Hl. cbn in Hl. lia.
Qed.

Lemma last_snoc_cons (c d : char) m : last (c :: d :: m) 0%N = last (d :: m) 0%N.
Proof. reflexivity. Qed.

Lemma dstr_closed q : is_delim q -> forall n r b e, length r <= n -> dstr q (r ++ b) = (e, b) ->
  (e = None <-> exists m, r = m ++ [q] /\ last m 0%N <> backslash).
Proof.
  intros Hq. assert (Hqb : q <> backslash) by (destruct Hq; subst; discriminate).
  assert (Hnil : forall (x : option string), x <> None -> forall P : Prop, (P -> False) -> (x = None <-> P)) by tauto.
  assert (Hempty : forall b e, dstr q b = (e, b) -> e <> None).
  { intros b e H. destruct b as [|c b]; [injection H as <-; discriminate|].
    rewrite dstr_cons in H.
    destruct (c =? eof_char)%N; [injection H as <-; discriminate|].
    destruct (c =? newline)%N; [injection H as <-; discriminate|].
    destruct (c =? q)%N.
    { injection H as _ H. apply (f_equal (@length _)) in H. cbn in H. lia. }
    exfalso. destruct (c =? backslash)%N.
    - destruct b as [|d b].
      + discriminate.
      + destruct (d =? q)%N.
        * pose proof (suffix_len _ _ (suffix_dstr q b)) as Hl. rewrite H in Hl. cbn in Hl. lia.
        * eapply dstr_nonself; exact H.
    - eapply dstr_nonself; exact H. }
  induction n as [|n IH]; intros r b e Hn H.
  { destruct r; [|cbn in Hn; lia]. apply Hnil; [now apply (Hempty b)|].
    intros ([|? ?] & [=] & _). }
  destruct r as [|c r].
  { apply Hnil; [now apply (Hempty b)|]. intros ([|? ?] & [=] & _). }
  cbn [app] in H. rewrite dstr_cons in H. cbn in Hn.
  destruct (c =? eof_char)%N.
  { exfalso. injection H as _ H. apply (f_equal (@length _)) in H. cbn in H. rewrite app_length in H. lia. }
  destruct (c =? newline)%N.
  { exfalso. injection H as _ H. apply (f_equal (@length _)) in H. cbn in H. rewrite app_length in H. lia. }
  destruct (c =? q)%N eqn:Ecq.
  { injection H as <- H. symmetry in H. apply app_self_nil in H as ->. apply N.eqb_eq in Ecq as ->.
    split; [|reflexivity]. intros _. exists []. split; [reflexivity|discriminate]. }
  apply N.eqb_neq in Ecq.
  destruct (c =? backslash)%N eqn:Ecb.
  - apply N.eqb_eq in Ecb as ->. destruct r as [|d r].
    { assert (Hno : (exists m, [backslash] = m ++ [q] /\ last m 0%N <> backslash) -> False).
      { intros ([|? [|? ?]] & Hm & _); cbn in Hm; congruence. }
      cbn [app] in H. destruct b as [|d b].
      - injection H as <-. apply Hnil; [discriminate|exact Hno].
      - destruct (d =? q)%N.
        + exfalso. eapply dstr_nonself; exact H.
        + apply Hnil; [|exact Hno]. eapply Hempty; exact H. }
    cbn [app] in H. destruct (d =? q)%N eqn:Edq.
    + apply N.eqb_eq in Edq as ->. cbn in Hn. rewrite (IH r b e) by (exact H || (cbn in *; lia)). split.
      * intros (m & -> & Hm). exists (backslash :: q :: m). split; [reflexivity|].
        destruct m; [exact Hqb|exact Hm].
      * intros ([|x [|y m]] & Em & Hm); cbn in Em; [discriminate| |].
        -- injection Em as <- ->. now exfalso.
        -- injection Em as <- <- ->. exists m. split; [reflexivity|]. destruct m; [discriminate|exact Hm].
    + apply N.eqb_neq in Edq. rewrite (IH (d :: r) b e) by (exact H || (cbn in *; lia)). split.
      * intros (m & Em & Hm). exists (backslash :: m). rewrite Em. split; [reflexivity|].
        destruct m; [cbn in Em; congruence|exact Hm].
      * intros ([|x m] & Em & Hm); cbn in Em; [congruence|]. injection Em as <- Em. exists m.
        split; [exact Em|]. destruct m; [discriminate|exact Hm].
  - apply N.eqb_neq in Ecb. rewrite (IH r b e) by (exact H || (cbn in *; lia)). split.
    + intros (m & -> & Hm). exists (c :: m). split; [reflexivity|]. destruct m; [exact Ecb|exact Hm].
    + intros ([|x m] & Em & Hm); cbn in Em; [congruence|]. injection Em as <- Em. exists m.
      split; [exact Em|]. destruct m; [discriminate|exact Hm].
Qed.

Lemma step_error_spec k e l b : Step k e l b -> error_spec k l e.
Proof.
  intros Hs. unfold error_spec.
  assert (Hkw : forall l, kw_kind l <> KStr /\ kw_kind l <> KUnknown).
  { intros l0. destruct (kw_kind_in l0) as [H|H]; [|rewrite H; split; discriminate].
    split; intros E; rewrite E in H; cbn in H; intuition discriminate. }
  inversion Hs as [k1 sp b1 Hin1 Hlf|b1 Hb|r e1 b1 Ho Hd|r b1 Hd|q r e1 b1 Hq Hd|c r b1 Hc Hr Hb|c r b1 Hc Hd|c r b1 Hc Hr Hb|c b1 H1 H2 H3 H4 H5 H6 H7];
    subst; (split; [try reflexivity; try congruence|split]); try discriminate.
  - intros Ek; subst. apply in_op_kinds in Hin1. in_op Hin1.
  - intros Ek; subst. apply in_op_kinds in Hin1. in_op Hin1.
  - intros _. left. auto.
  - intros _ [E|E]; discriminate.
  - intros _ _. rewrite (dstr_closed q Hq (length r) r b e (le_n _) Hd). unfold closed. split.
    + intros (m & -> & Hm). exists q, m. auto.
    + intros (q' & m & [= <- ->] & Hm). exists m. auto.
  - intros Ek. exfalso. destruct (Hkw (c :: r)); contradiction.
  - intros Ek. exfalso. destruct (Hkw (c :: r)); contradiction.
  - intros _. right. split; [|reflexivity]. intros [= ->]. now apply H6.
Qed.

Lemma Lexed_split t ls : Lexed t ls -> forall ls1 k e l ls2, ls = ls1 ++ (k, e, l) :: ls2 ->
  Step k e l (flat_map lt_text ls2).
Proof.
  intros H ls1 k e l ls2 ->. apply Lexed_app_inv in H as (b & _ & H).
  inversion H as [|k' e' l' b' ls' Hl Hd Hls]; subst. apply dlex_step; [exact Hl|].
  now rewrite <- (Lexed_text _ _ Hls).
Qed.

Lemma firstn_map_split {A B} (f : A -> B) ls i x : nth_error (map f ls) i = Some x ->
  exists ls1 y ls2, ls = ls1 ++ y :: ls2 /\ length ls1 = i /\ f y = x.
Proof.
  intros H. rewrite nth_error_map in H. destruct (nth_error ls i) as [y|] eqn:E; [|discriminate].
  injection H as <-. apply nth_error_split in E as (ls1 & ls2 & -> & Hl). exists ls1, y, ls2. auto.
Qed.

Lemma tokenize_errors t toks errs : tokenize t = Ok (toks, errs) ->
  exists es, length es = length toks /\ errs = errors_of 0 toks es /\
    forall i k l a b e, nth_error toks i = Some (mkToken k (blen l)) -> nth_error es i = Some e ->
      t = a ++ l ++ b -> blen a = list_sum (map t_len (firstn i toks)) -> error_spec k l e.
Proof.
  intros Ht. destruct (Lexed_total t) as [ls Hls].
  pose proof (tokenize_direct t ls Hls (tokenize_ok_fits _ _ Ht)) as Hd. rewrite Ht in Hd.
  injection Hd as -> ->. exists (map lt_err ls). split; [now rewrite !map_length|]. split; [reflexivity|].
  intros i k l a b e Hk He Htext Hlen.
  apply firstn_map_split in Hk as (ls1 & [[k' e'] l'] & ls2 & -> & Hi & Hy).
  cbn in Hy. injection Hy as -> Hll.
  rewrite map_app, nth_error_app2 in He by (rewrite map_length; lia).
  rewrite map_length, <- Hi, Nat.sub_diag in He. cbn in He. injection He as ->.
  rewrite map_app, firstn_app in Hlen. rewrite map_length, <- Hi, Nat.sub_diag in Hlen. cbn [firstn] in Hlen.
  rewrite app_nil_r, firstn_all2 in Hlen by (rewrite map_length; lia). rewrite sum_lens in Hlen.
  pose proof (Lexed_text _ _ Hls) as Hfull. rewrite flat_map_app in Hfull. cbn [flat_map lt_text snd] in Hfull.
  rewrite Htext in Hfull. apply app_blen_inj in Hfull as [-> Hlb]; [|exact Hlen].
  apply app_blen_inj in Hlb as [-> ->]; [|congruence].
  eapply step_error_spec. eapply Lexed_split; [exact Hls|reflexivity].
Qed.

(** ** C10: resuming *)
Lemma errors_of_app t1 : forall p t2 e1 e2, length t1 = length e1 ->
  errors_of p (t1 ++ t2) (e1 ++ e2) = errors_of p t1 e1 ++ errors_of (p + list_sum (map t_len t1)) t2 e2.
Proof.
  induction t1 as [|x t1 IH]; intros p t2 [|y e1] e2 H; try discriminate.
  - cbn. now rewrite Nat.add_0_r.
  - cbn [app errors_of]. rewrite IH by (cbn in H; lia).
    replace (p + list_sum (map t_len (x :: t1))) with (p + t_len x + list_sum (map t_len t1))
      by (cbn [map list_sum fold_right]; unfold list_sum; lia).
    destruct y; reflexivity.
Qed.

Lemma errors_of_shift d t1 : forall p e1, errors_of (p + d) t1 e1 = map (shift_err d) (errors_of p t1 e1).
Proof.
  induction t1 as [|x t1 IH]; intros p [|y e1]; try reflexivity. cbn [errors_of].
  replace (p + d + t_len x) with (p + t_len x + d) by lia. rewrite IH. destruct y as [m|]; [|reflexivity].
  reflexivity.
Qed.

Lemma tokenize_resume t toks1 toks2 errs a b : tokenize t = Ok (toks1 ++ toks2, errs) ->
  t = a ++ b -> blen a = list_sum (map t_len toks1) ->
  exists errs1 errs2, tokenize b = Ok (toks2, errs2) /\ errs = errs1 ++ map (shift_err (blen a)) errs2.
Proof.
  intros Ht Hab Hlen. destruct (Lexed_total t) as [ls Hls].
  pose proof (tokenize_ok_fits _ _ Ht) as Hf.
  pose proof (tokenize_direct t ls Hls Hf) as Hd. rewrite Ht in Hd. injection Hd as Htk Her.
  symmetry in Htk. apply map_eq_app in Htk as (ls1 & ls2 & -> & H1 & H2). subst toks1 toks2.
  destruct (Lexed_app_inv _ _ _ Hls) as (b' & Hb & Hlb).
  rewrite Hab in Hb. apply app_blen_inj in Hb as [Ha ->]; [|now rewrite Hlen, sum_lens].
  rewrite !map_app in Her. rewrite errors_of_app in Her by (now rewrite !map_length).
  exists (errors_of 0 (map lt_tok ls1) (map lt_err ls1)), (errors_of 0 (map lt_tok ls2) (map lt_err ls2)).
  split.
  - apply tokenize_direct; [exact Hlb|]. eapply fits_le; [|exact Hf]. rewrite Hab, blen_app. lia.
  - rewrite Her. f_equal. rewrite <- Hlen. now rewrite errors_of_shift.
Qed.
