(** PropsLexRules.v — C70: the lexer follows the rules of LexRules.v, and they leave it no choice. *)
From Verif Require Import Base SyntaxKind Accept Lexer LexSpec LexRules LexerDirect LexerProofs LexerClass LexerProps LexerNum LexerFwd PropsLexer.

Lemma last_app_ne (a b : text) d : b <> [] -> last (a ++ b) d = last b d.
Proof.
  intros Hb. induction a as [|c a IH]; [reflexivity|]. cbn [app]. destruct (a ++ b) eqn:E; [destruct a; [cbn in E; congruence|discriminate]|].
  cbn [last]. exact IH.
Qed.
Lemma last_snoc_c (a : text) c d : last (a ++ [c]) d = c.
Proof. apply last_last. Qed.
Lemma last_cons_ne (c : char) (a : text) d : a <> [] -> last (c :: a) d = last a d.
Proof. destruct a; [congruence|reflexivity]. Qed.

(** ** Where the body of a long bracket stops *)
Lemma skip_first : forall m (t : text), length t <= m ->
  (skip_body t = [] /\ forall p s, t = p ++ rbr :: s -> last p 0%N = backslash) \/
  (exists p s, t = p ++ rbr :: s /\ skip_body t = rbr :: s /\ last p 0%N <> backslash /\
     forall p' s', t = p' ++ rbr :: s' -> last p' 0%N <> backslash -> length p <= length p').
Proof.
  induction m as [|m IH]; intros [|c r] Hm; cbn in Hm; try lia.
  - left. split; [reflexivity|]. intros [|] s E; discriminate.
  - left. split; [reflexivity|]. intros [|] s E; discriminate.
  - rewrite skip_body_cons. destruct (c =? backslash)%N eqn:Ec; [|destruct (c =? rbr)%N eqn:Er].
    + apply N.eqb_eq in Ec as ->. destruct r as [|d r'].
      { left. split; [reflexivity|]. intros [|x [|y p]] s E; discriminate. }
      destruct (d =? rbr)%N eqn:Ed.
      * apply N.eqb_eq in Ed as ->. destruct (IH r') as [[E F]|(p & s & E & E2 & L & F)]; [cbn in Hm; lia| |].
        { left. split; [exact E|]. intros [|x [|y p]] s Hp; [discriminate| |].
          - cbn in Hp. injection Hp as <- <-. reflexivity.
          - cbn [app] in Hp. injection Hp as <- <- Hp. specialize (F _ _ Hp). destruct p as [|z p]; [discriminate F|]. exact F. }
        { right. exists (backslash :: rbr :: p), s. split; [cbn [app]; now rewrite E|]. split; [exact E2|]. split.
          - destruct p as [|z p]; [discriminate|exact L].
          - intros [|x [|y p']] s' Hp L'; [discriminate| |].
            + cbn in Hp. injection Hp as <- <-. exfalso. apply L'. reflexivity.
            + cbn [app] in Hp. injection Hp as <- <- Hp. cbn [length]. apply le_n_S, le_n_S. apply (F _ _ Hp).
              destruct p' as [|z p']; [discriminate|exact L']. }
      * destruct (IH (d :: r')) as [[E F]|(p & s & E & E2 & L & F)]; [cbn in *; lia| |].
        { left. split; [exact E|]. intros [|x p] s Hp; [discriminate|]. cbn [app] in Hp. injection Hp as <- Hp.
          destruct p as [|y p]. { cbn in Hp. injection Hp as -> _. discriminate Ed. } exact (F _ _ Hp). }
        { right. exists (backslash :: p), s. split; [cbn [app]; now rewrite E|]. split; [exact E2|]. destruct p as [|z p].
          { cbn in E. injection E as -> _. discriminate Ed. }
          split; [exact L|]. intros [|x p'] s' Hp L'; [discriminate|]. cbn [app] in Hp. injection Hp as <- Hp.
          destruct p' as [|y p']. { cbn in Hp. injection Hp as -> _. discriminate Ed. }
          specialize (F _ _ Hp L'). cbn [length] in *. lia. }
    + apply N.eqb_eq in Er as ->. right. exists [], r. split; [reflexivity|]. split; [reflexivity|]. split; [discriminate|]. intros; cbn; lia.
    + destruct (IH r) as [[E F]|(p & s & E & E2 & L & F)]; [lia| |].
      { left. split; [exact E|]. intros [|x p] s Hp. { cbn in Hp. injection Hp as -> _. discriminate Er. }
        cbn [app] in Hp. injection Hp as <- Hp. specialize (F _ _ Hp). destruct p as [|y p]; [discriminate F|]. exact F. }
      { right. exists (c :: p), s. split; [cbn [app]; now rewrite E|]. split; [exact E2|]. split.
        - destruct p as [|y p]; [|exact L]. cbn. intros ->. discriminate Ec.
        - intros [|x p'] s' Hp L'. { cbn in Hp. injection Hp as -> _. discriminate Er. }
          cbn [app] in Hp. injection Hp as <- Hp. cbn [length]. apply le_n_S, (F _ _ Hp).
          destruct p' as [|y p']; [discriminate|exact L']. }
Qed.

Lemma takew_eqs (r : text) : takew (N.eqb eqs) r = repeat eqs (length (takew (N.eqb eqs) r)).
Proof.
  pose proof (takew_all (N.eqb eqs) r) as H. induction (takew (N.eqb eqs) r) as [|c l IH]; [reflexivity|].
  cbn [forallb] in H. apply andb_true_iff in H as [H1 H2]. apply N.eqb_eq in H1 as <-. cbn [length repeat]. f_equal. exact (IH H2).
Qed.
Lemma eqs_forallb n : forallb (N.eqb eqs) (repeat eqs n) = true.
Proof. induction n; auto. Qed.
Lemma not_starts_eqs (s : text) : ~ starts (fun c => c = 61%N) s <-> match s with [] => True | c :: _ => (eqs =? c)%N = false end.
Proof.
  destruct s as [|c s]; cbn [starts]; [tauto|]. split.
  - intros H. apply N.eqb_neq. intros E. apply H. symmetry. exact E.
  - intros H ->. discriminate H.
Qed.
Lemma eqs_run n (s r : text) : r = repeat 61%N n ++ s -> ~ starts (fun c => c = 61%N) s -> takew (N.eqb eqs) r = repeat eqs n /\ dropw (N.eqb eqs) r = s.
Proof. intros -> H. apply not_starts_eqs in H. exact (span_unique _ (repeat eqs n) s (eqs_forallb n) H). Qed.

Lemma dclose_first n : forall fuel (t : text), length t < fuel ->
  (dclose fuel n t = (false, []) /\ forall p s, ~ closes_at n t p s) \/
  (exists p s, dclose fuel n t = (true, s) /\ first_close n t p s).
Proof.
  induction fuel as [|fuel IH]; intros t Hf; [lia|]. cbn [dclose].
  destruct (skip_first (length t) t (Nat.le_refl _)) as [[E F]|(p0 & r & E & E2 & L & F)].
  - left. rewrite E. split; [reflexivity|]. intros p s (Hp & Hl & _). apply Hl. exact (F _ _ Hp).
  - rewrite E2. set (k := length (takew (N.eqb eqs) r)). assert (Hr : r = repeat 61%N k ++ dropw (N.eqb eqs) r).
    { rewrite (span_app (N.eqb eqs) r) at 1. f_equal. apply takew_eqs. }
    assert (Hs : ~ starts (fun c => c = 61%N) (dropw (N.eqb eqs) r)) by (apply not_starts_eqs; apply (dropw_hd (N.eqb eqs))).
    destruct (n =? k) eqn:En.
    + apply Nat.eqb_eq in En. right. exists p0, (dropw (N.eqb eqs) r). split; [reflexivity|]. split.
      * split; [|split; [exact L|exact Hs]]. rewrite E, En. cbn [txt app]. f_equal. cbn. f_equal. exact Hr.
      * intros p' s' (Hp & Hl & _). exact (F _ _ Hp Hl).
    + apply Nat.eqb_neq in En. set (t2 := dropw (N.eqb eqs) r) in *.
      assert (Back : forall p s, closes_at n t p s -> exists p2, p = p0 ++ rbr :: repeat 61%N k ++ p2 /\ closes_at n t2 p2 s).
      { intros p s (Hp & Hl & Hn). pose proof (F _ _ Hp Hl) as Le.
        assert (exists z, p = p0 ++ z /\ rbr :: r = z ++ txt "]" ++ repeat 61%N n ++ s) as (z & -> & Hz).
        { rewrite E in Hp. clear - Hp Le. revert p Hp Le. induction p0 as [|c p0 IH]; intros p Hp Le; [exists p; auto|].
          destruct p as [|d p]; [cbn in Le; lia|]. cbn [app] in Hp. injection Hp as <- Hp. destruct (IH p Hp) as (z & -> & Hz); [cbn in Le; lia|]. exists z; auto. }
        destruct z as [|d z].
        { exfalso. cbn in Hz. injection Hz as Hz. destruct (eqs_run _ _ _ Hz Hn) as [Ht _]. apply En. unfold k. rewrite Ht, repeat_length. reflexivity. }
        cbn [app] in Hz. injection Hz as <- Hz. rewrite Hr in Hz.
        assert (exists p2, z = repeat 61%N k ++ p2 /\ t2 = p2 ++ txt "]" ++ repeat 61%N n ++ s) as (p2 & -> & H2).
        { clear - Hz. revert z Hz. induction k as [|k IH]; intros z Hz; [exists z; auto|]. destruct z as [|d z]; [discriminate|].
          cbn [app repeat] in Hz. injection Hz as <- Hz. destruct (IH z Hz) as (p2 & -> & H2). exists p2; auto. }
        exists p2. split; [reflexivity|]. split; [exact H2|]. split; [|exact Hn]. destruct p2 as [|c p2]; [discriminate|]. intros Hc. apply Hl.
        change (p0 ++ rbr :: repeat 61%N k ++ c :: p2) with (p0 ++ (rbr :: repeat 61%N k) ++ c :: p2). rewrite app_assoc, last_app_ne by discriminate. exact Hc. }
      assert (Forth : forall p2 s, closes_at n t2 p2 s -> closes_at n t (p0 ++ rbr :: repeat 61%N k ++ p2) s).
      { intros p2 s (Hp & Hl & Hn). split; [|split; [|exact Hn]].
        - rewrite E, Hr. fold t2. rewrite Hp. rewrite <- !app_assoc. cbn [app]. rewrite <- !app_assoc. reflexivity.
        - destruct p2 as [|c p2].
          + rewrite app_nil_r, last_app_ne by discriminate. clear. destruct k as [|k]; [discriminate|]. change (rbr :: repeat 61%N (S k)) with ([rbr] ++ repeat 61%N (S k)).
            rewrite last_app_ne by discriminate. replace (S k) with (k + 1) by lia. rewrite repeat_app. cbn [repeat]. rewrite last_snoc_c. discriminate.
          + change (p0 ++ rbr :: repeat 61%N k ++ c :: p2) with (p0 ++ (rbr :: repeat 61%N k) ++ c :: p2). rewrite app_assoc, last_app_ne by discriminate. exact Hl. }
      destruct (IH t2) as [[G1 G2]|(p2 & s & G1 & [G2 G3])].
      { rewrite E, app_length in Hf. cbn in Hf. pose proof (dropw_len (N.eqb eqs) r). fold t2 in H. lia. }
      * left. split; [exact G1|]. intros p s Hc. destruct (Back _ _ Hc) as (p2 & _ & Hc2). exact (G2 _ _ Hc2).
      * right. exists (p0 ++ rbr :: repeat 61%N k ++ p2), s. split; [exact G1|]. split; [exact (Forth _ _ G2)|].
        intros p' s' Hc. destruct (Back _ _ Hc) as (p2' & -> & Hc2). specialize (G3 _ _ Hc2). rewrite !app_length. apply Nat.add_le_mono_l. cbn [length]. apply le_n_S. rewrite !app_length. apply Nat.add_le_mono_l. exact G3.
Qed.

(** ** Where a short string stops *)
Definition str_end (q : char) (s : text) : option string * text :=
  match s with
  | [] => (Some (unclosed_msg q), [])
  | c :: s' => if (c =? 0)%N then (Some (unclosed_msg q), s) else if (c =? 10)%N then (Some "Unexpected newline in string"%string, s) else (None, s')
  end.
Lemma stops_cons q c r p s : stops q r p s -> (p = [] -> starts (fun d => d = q) s -> c <> backslash) -> stops q (c :: r) (c :: p) s.
Proof.
  intros [-> H] Hc. split; [reflexivity|]. destruct H as [H|[H|[H L]]]; auto. right; right. split; [exact H|].
  destruct p as [|d p]; [cbn; exact (Hc eq_refl H)|exact L].
Qed.
Lemma stops_uncons q c r p s : stops q (c :: r) (c :: p) s -> stops q r p s.
Proof.
  intros [E H]. cbn [app] in E. injection E as E. split; [exact E|]. destruct H as [H|[H|[H L]]]; auto. right; right. split; [exact H|].
  destruct p as [|d p]; [discriminate|exact L].
Qed.
Lemma first_stop_here q r : stops q r [] r -> first_stop q r [] r.
Proof. intros H. split; [exact H|]. intros; cbn; lia. Qed.
Lemma first_stop_cons q c r p s : first_stop q r p s -> (p = [] -> starts (fun d => d = q) s -> c <> backslash) -> ~ stops q (c :: r) [] (c :: r) -> first_stop q (c :: r) (c :: p) s.
Proof.
  intros [H F] Hc Hn. split; [now apply stops_cons|]. intros p' s' H'. destruct p' as [|d p'].
  - exfalso. apply Hn. destruct H' as [E H']. cbn in E. subst s'. split; [reflexivity|exact H'].
  - assert (d = c) as ->. { destruct H' as [E _]. cbn in E. congruence. } apply stops_uncons, F in H'. cbn [length]. lia.
Qed.
Lemma dstr_first q : quote_char q -> forall m (r : text), length r <= m -> exists p s, first_stop q r p s /\ dstr q r = str_end q s.
Proof.
  intros Hq. assert (Qb : q <> backslash) by (destruct Hq; subst; discriminate). assert (Qn : q <> 10%N /\ q <> 0%N) by (destruct Hq; subst; split; discriminate).
  induction m as [|m IH]; intros [|c r] Hm; cbn in Hm; try lia.
  - exists [], []. split; [apply first_stop_here; split; auto|reflexivity].
  - exists [], []. split; [apply first_stop_here; split; auto|reflexivity].
  - rewrite dstr_cons. unfold eof_char, newline. destruct (c =? 0)%N eqn:E0; [|destruct (c =? 10)%N eqn:E1; [|destruct (c =? q)%N eqn:E2]].
    + exists [], (c :: r). split; [|unfold str_end; now rewrite E0]. apply first_stop_here. apply N.eqb_eq in E0. split; [reflexivity|]. right; left. cbn. auto.
    + exists [], (c :: r). split; [|unfold str_end; now rewrite E0, E1]. apply first_stop_here. apply N.eqb_eq in E1. split; [reflexivity|]. right; left. cbn. auto.
    + exists [], (c :: r). split; [|unfold str_end; now rewrite E0, E1]. apply first_stop_here. apply N.eqb_eq in E2. split; [reflexivity|]. right; right. cbn. split; [exact E2|discriminate].
    + assert (Hn : ~ stops q (c :: r) [] (c :: r)).
      { apply N.eqb_neq in E0, E1, E2. intros [_ [H|[H|[H _]]]]; cbn in H; [discriminate|tauto|congruence]. }
      destruct (c =? backslash)%N eqn:E3.
      * apply N.eqb_eq in E3 as ->. destruct r as [|d r'].
        { exists [backslash], []. split; [|reflexivity]. apply first_stop_cons; [apply first_stop_here; split; auto|intros _ []|exact Hn]. }
        destruct (d =? q)%N eqn:Ed.
        { apply N.eqb_eq in Ed as ->. destruct (IH r') as (p & s & F & E); [cbn in Hm; lia|]. exists (backslash :: q :: p), s. split; [|exact E].
          split.
          - apply stops_cons; [apply stops_cons; [exact (proj1 F)|auto]|discriminate].
          - intros p' s' H'. destruct p' as [|x p'].
            + exfalso. apply Hn. destruct H' as [E' H']. cbn in E'. subst s'. split; [reflexivity|exact H'].
            + assert (x = backslash) as -> by (destruct H' as [E' _]; cbn in E'; congruence). destruct p' as [|y p'].
              * exfalso. destruct H' as [E' H']. cbn in E'. injection E' as <-. destruct H' as [H'|[H'|[_ H']]]; [discriminate|cbn in H'; tauto|exact (H' eq_refl)].
              * assert (y = q) as -> by (destruct H' as [E' _]; cbn in E'; congruence). apply stops_uncons, stops_uncons, (proj2 F) in H'. cbn [length]. lia. }
        { destruct (IH (d :: r')) as (p & s & F & E); [cbn in *; lia|]. exists (backslash :: p), s. split; [|exact E]. apply first_stop_cons; [exact F| |exact Hn].
          intros -> Hs. destruct F as [[E' _] _]. cbn in E'. subst s. cbn in Hs. subst d. rewrite N.eqb_refl in Ed. discriminate. }
      * apply N.eqb_neq in E3. destruct (IH r) as (p & s & F & E); [lia|]. exists (c :: p), s. split; [|exact E]. apply first_stop_cons; [exact F|auto|exact Hn].
Qed.

(** ** The lexer follows the rules *)
Lemma drop1_split (c : char) (t : text) : exists o, t = o ++ drop1 c t /\ ((o = [c] /\ hd_is c t = true) \/ (o = [] /\ hd_is c t = false)).
Proof.
  destruct t as [|d r]; cbn [drop1 hd_is]; [exists []; auto|]. destruct (d =? c)%N eqn:E; [|exists []; auto].
  apply N.eqb_eq in E as ->. exists [c]. auto.
Qed.
Lemma hd_is_starts (c : char) (t : text) : hd_is c t = false <-> ~ starts (fun d => d = c) t.
Proof. destruct t as [|d r]; cbn; [tauto|]. apply N.eqb_neq. Qed.

Lemma brackets_rule (w b : text) e : hd_is lbr w || hd_is eqs w = true -> dbrackets w = (e, b) ->
  (exists n o x c, w = repeat 61%N n ++ o ++ x ++ txt "]" ++ repeat 61%N n ++ c ++ b /\
     second_open n o (x ++ txt "]" ++ repeat 61%N n ++ c ++ b) /\ first_close n (x ++ txt "]" ++ repeat 61%N n ++ c ++ b) x (c ++ b) /\ second_close c b /\
     e = match o, c with _ :: _, _ :: _ => None | _, _ => Some "Invalid bracket notation"%string end) \/
  (exists n o x, w = repeat 61%N n ++ o ++ x /\ b = [] /\ second_open n o x /\ (forall p s, ~ closes_at n x p s) /\ e = Some "Could not find bracket string close"%string).
Proof.
  intros Hw H. unfold dbrackets, dbracket, dclose_all in H. set (n := length (takew (N.eqb eqs) w)) in *. set (w2 := dropw (N.eqb eqs) w) in *.
  assert (Ew : w = repeat 61%N n ++ w2). { rewrite (span_app (N.eqb eqs) w) at 1. unfold w2. f_equal. apply takew_eqs. }
  destruct (drop1_split lbr w2) as (o & Eo & Ho). set (t3 := drop1 lbr w2) in *.
  assert (SO : second_open n o t3).
  { destruct Ho as [[-> _]|[-> Ho]]; [now left|]. right. split; [reflexivity|]. cbn [app] in Eo. rewrite <- Eo. split.
    - intros En. rewrite En in Ew. cbn [repeat app] in Ew. rewrite Ew, Ho in Hw. cbn [orb] in Hw. pose proof (dropw_hd (N.eqb eqs) w) as D. fold w2 in D.
      destruct w2 as [|c w3]; [discriminate|]. cbn [hd_is] in Hw. rewrite N.eqb_sym in Hw. congruence.
    - pose proof (dropw_hd (N.eqb eqs) w) as D. fold w2 in D. destruct w2 as [|c w3]; cbn [starts]; [tauto|]. cbn [hd_is] in Ho. apply N.eqb_neq in Ho, D. intros [E|E]; [exact (Ho E)|exact (D (eq_sym E))]. }
  destruct (dclose_first n (S (S (length t3))) t3 ltac:(lia)) as [[E F]|(p & s & E & F)]; rewrite E in H.
  - right. injection H as <- <-. exists n, o, t3. split; [rewrite Ew at 1; f_equal; exact Eo|]. auto.
  - left. destruct (drop1_split rbr s) as (c & Ec & Hc). set (b' := drop1 rbr s) in *.
    assert (b' = b /\ e = if hd_is lbr w2 && hd_is rbr s then None else Some "Invalid bracket notation"%string) as [Hb ->] by (split; congruence). clearbody b'. subst b'.
    exists n, o, p, c. pose proof (proj1 (proj1 F)) as Et. rewrite Ec in Et.
    split; [rewrite Ew at 1; f_equal; rewrite Eo; f_equal; exact Et|]. rewrite <- Et. split; [exact SO|]. rewrite <- Ec. split; [exact F|]. split.
    + destruct Hc as [[-> _]|[-> Hc]]; [now left|right]. split; [reflexivity|]. cbn [app] in Ec. rewrite <- Ec. now apply hd_is_starts.
    + destruct Ho as [[-> ->]|[-> ->]], Hc as [[-> ->]|[-> ->]]; reflexivity.
Qed.

Lemma not_nl_iff c : not_nl c = true <-> c <> 10%N.
Proof. unfold not_nl. rewrite negb_true_iff, N.eqb_neq. reflexivity. Qed.
Lemma to_line_end (t : text) : exists y, t = y ++ dropw not_nl t /\ no_newline y /\ line_end (dropw not_nl t).
Proof.
  exists (takew not_nl t). split; [apply span_app|]. split; [apply (forallb_Forall_iff not_nl (fun c => c <> 10%N)); [exact not_nl_iff|apply takew_all]|].
  pose proof (dropw_hd not_nl t) as H. destruct (dropw not_nl t) as [|c r]; [now left|right]. cbn. unfold not_nl in H. apply negb_false_iff, N.eqb_eq in H. exact H.
Qed.
Lemma comment_rule (r b : text) : dcomment (r ++ b) = b ->
  (~ prefix_of (txt "[[") (r ++ b) /\ no_newline r /\ line_end b) \/
  (exists x c y, r = txt "[[" ++ x ++ txt "]" ++ c ++ y /\ first_close 0 (x ++ txt "]" ++ c ++ y ++ b) x (c ++ y ++ b) /\ second_close c (y ++ b) /\ no_newline y /\ line_end b) \/
  (exists x, r = txt "[[" ++ x /\ b = [] /\ forall p s, ~ closes_at 0 x p s).
Proof.
  unfold dcomment. set (w := r ++ b). destruct (hd_is lbr w && hd_is lbr (drop1 lbr w)) eqn:E; intros H.
  - apply andb_true_iff in E as [E1 E2]. assert (Ew : exists w3, w = lbr :: lbr :: w3 /\ drop1 lbr w = lbr :: w3).
    { destruct w as [|c w1]; [discriminate|]. cbn [hd_is drop1] in *. rewrite E1 in *. apply N.eqb_eq in E1 as ->. destruct w1 as [|d w3]; [discriminate|].
      cbn [hd_is] in E2. apply N.eqb_eq in E2 as ->. exists w3. auto. }
    destruct Ew as (w3 & Ew & Ed). rewrite Ed in H. destruct (dbrackets (lbr :: w3)) as [e u] eqn:D. cbn [snd] in H.
    destruct (to_line_end u) as (y & Ey & Ny & Le). rewrite H in *. right.
    destruct (brackets_rule (lbr :: w3) u e eq_refl D) as [(n & o & x & c & F & A & B & G & _)|(n & o & x & F & -> & A & B & _)].
    + assert (n = 0) as -> by (destruct n; [reflexivity|discriminate F]). cbn [repeat app] in *.
      assert (o = txt "[") as -> by (destruct A as [A|(_ & A & _)]; [exact A|congruence]).
      left. exists x, c, y. assert (Er : r = txt "[[" ++ x ++ txt "]" ++ c ++ y).
      { apply (app_inv_tail b). fold w. rewrite Ew. cbn in F. injection F as F. rewrite F, Ey. change (txt "[[") with [lbr; lbr]. change (txt "]") with [rbr]. rewrite <- !app_assoc. reflexivity. }
      rewrite Ey in *. repeat split; auto; apply B || exact G.
    + assert (n = 0) as -> by (destruct n; [reflexivity|discriminate F]). cbn [repeat app] in *.
      assert (o = txt "[") as -> by (destruct A as [A|(_ & A & _)]; [exact A|congruence]).
      destruct y as [|? ?]; [|discriminate Ey]. cbn [app] in Ey. subst b. right. exists x. split; [|auto].
      unfold w in Ew. rewrite app_nil_r in Ew. rewrite Ew. cbn in F. injection F as F. rewrite F. reflexivity.
  - left. destruct (to_line_end w) as (y & Ey & Ny & Le). rewrite H in *. unfold w in Ey. apply app_inv_tail in Ey. subst y. split; [|auto].
    intros [u Hu]. change (w = txt "[[" ++ u) in Hu. rewrite Hu in E. discriminate E.
Qed.

Lemma spelling_first k sp c : In (k, sp) spellings -> starts (fun d => d = c) sp -> c = ch "~" \/ exists k', In (k', [c]) spellings.
Proof.
  intros Hi Hs. cbn [spellings In] in Hi.
  repeat (destruct Hi as [Hi|Hi]; [injection Hi as <- <-; cbn in Hs; subst c;
    first [left; reflexivity|right; eexists; cbn [spellings In]; repeat (first [left; reflexivity|right])]|]).
  destruct Hi.
Qed.

Lemma step_rule k e l b : Step k e l b -> token_rule k e l b.
Proof.
  destruct 1 as [k sp b Hin Hl|b Hb|r e b Hh Hd|r b Hd|q r e b Hq Hd|c r b Hc Hr Hb|c r b Hc Hd|c r b Hc Hr Hb|c b H1 H2 H3 H4 H5 H6 H7].
  - now apply TR_operator.
  - apply TR_tilde. now apply hd_is_starts.
  - destruct (brackets_rule _ _ _ Hh Hd) as [(n & o & x & c & E & A & B & D & ->)|(n & o & x & E & -> & A & B & ->)].
    + assert (E' : r = repeat 61%N n ++ o ++ x ++ txt "]" ++ repeat 61%N n ++ c).
      { apply (app_inv_tail b). rewrite E, <- !app_assoc. reflexivity. }
      rewrite E'. exact (TR_long_string n o x c b A B D).
    + rewrite app_nil_r in E. rewrite E. exact (TR_open_string n o x A B).
  - destruct (comment_rule _ _ Hd) as [(A & B & D)|[(x & c & y & -> & A & B & D & F)|(x & -> & -> & A)]].
    + exact (TR_comment r b A B D).
    + exact (TR_long_comment x c y b A B D F).
    + exact (TR_open_comment x A).
  - assert (Hq' : quote_char q) by exact Hq. destruct (dstr_first q Hq' _ (r ++ b) (Nat.le_refl _)) as (p & s & F & E). rewrite E in Hd.
    destruct F as [[Er St] F]. destruct s as [|d s]; cbn [str_end] in Hd.
    + injection Hd as <- <-. rewrite !app_nil_r in *. subst p. apply (TR_string_end q r [] Hq'); [|auto]. rewrite app_nil_r. split; [split; [now rewrite app_nil_r|auto]|exact F].
    + destruct (d =? 0)%N eqn:E0; [|destruct (d =? 10)%N eqn:E1].
      * injection Hd as <- <-. apply app_inv_tail in Er. subst p. apply N.eqb_eq in E0. apply (TR_string_end q r (d :: s) Hq'); [split; [split; auto|exact F]|right; exact E0].
      * injection Hd as <- <-. apply app_inv_tail in Er. subst p. apply N.eqb_eq in E1. apply (TR_string_newline q r (d :: s) Hq'); [split; [split; auto|exact F]|exact E1].
      * injection Hd as <- <-. apply N.eqb_neq in E0, E1. destruct St as [St|[St|[St Ls]]]; [discriminate|cbn in St; tauto|]. cbn in St. subst d.
        assert (r = p ++ [q]) as ->. { apply (app_inv_tail s). rewrite Er, <- app_assoc. reflexivity. }
        apply (TR_string q p s Hq'). rewrite <- app_assoc in *. split; [split; [reflexivity|right; right; split; [reflexivity|exact Ls]]|exact F].
  - assert (Hs : ident_shape (c :: r)) by (apply ident_shape_iff; auto). assert (Hn : ~ starts identc b) by (apply (not_starts is_ident_continue); [exact identc_iff|exact Hb]).
    destruct (kw_kind_cases (c :: r)) as [H|[-> H]]; [now apply TR_keyword|now apply TR_ident].
  - destruct (dnumber_spec _ _ _ Hc Hd) as [A B]. apply TR_number; [exact A|exact B].
  - apply TR_blank; [discriminate| |].
    + apply (forallb_Forall_iff is_whitespace blank); [exact blank_iff|]. cbn [forallb]. now rewrite Hc, Hr.
    + apply (not_starts is_whitespace); [exact blank_iff|exact Hb].
  - apply TR_unknown. intros [H|[H|[H|[H|[H|(k & sp & Hi & Hs)]]]]].
    + apply letter_iff in H. congruence.
    + apply digit_iff in H. congruence.
    + apply blank_iff in H. congruence.
    + destruct H as [->| ->]; [apply H4|apply H5]; reflexivity.
    + apply H6. exact H.
    + destruct (spelling_first _ _ _ Hi Hs) as [->|(k' & Hk)]; [exact (H6 eq_refl)|]. apply (H7 _ _ Hk). exists b. reflexivity.
Qed.

(** ** The rules leave no choice *)
Lemma same_split (p s p' s' : text) : p ++ s = p' ++ s' -> length p = length p' -> p = p' /\ s = s'.
Proof.
  revert p'. induction p as [|c p IH]; intros [|d p'] E L; try discriminate; [auto|]. cbn [app length] in *. injection E as <- E. injection L as L.
  destruct (IH _ E L) as [-> ->]. auto.
Qed.
Lemma first_close_unique n r p s p' s' : first_close n r p s -> first_close n r p' s' -> p = p' /\ s = s'.
Proof.
  intros [H F] [H' F']. pose proof (F _ _ H') as A. pose proof (F' _ _ H) as B. assert (L : length p = length p') by (apply Nat.le_antisymm; assumption).
  destruct H as (E & _ & _), H' as (E' & _ & _). rewrite E in E'. destruct (same_split _ _ _ _ E' L) as [-> E2]. split; [reflexivity|].
  apply app_inv_head, app_inv_head in E2. exact E2.
Qed.
Lemma first_stop_unique q r p s p' s' : first_stop q r p s -> first_stop q r p' s' -> p = p' /\ s = s'.
Proof.
  intros [H F] [H' F']. pose proof (F _ _ H') as A. pose proof (F' _ _ H) as B. assert (L : length p = length p') by (apply Nat.le_antisymm; assumption).
  destruct H as [E _], H' as [E' _]. rewrite E in E'. exact (same_split _ _ _ _ E' L).
Qed.
Lemma dstr_at q r p s : quote_char q -> first_stop q r p s -> dstr q r = str_end q s.
Proof.
  intros Hq F. destruct (dstr_first q Hq _ r (Nat.le_refl _)) as (p' & s' & F' & E). destruct (first_stop_unique _ _ _ _ _ _ F F') as [-> ->]. exact E.
Qed.
Lemma open_head n o r : second_open n o r -> hd_is lbr (repeat 61%N n ++ o ++ r) || hd_is eqs (repeat 61%N n ++ o ++ r) = true /\
  takew (N.eqb eqs) (repeat 61%N n ++ o ++ r) = repeat eqs n /\ dropw (N.eqb eqs) (repeat 61%N n ++ o ++ r) = o ++ r /\ drop1 lbr (o ++ r) = r /\
  hd_is lbr (o ++ r) = match o with [] => false | _ => true end.
Proof.
  intros [->|(-> & Hn & Hs)].
  - split; [destruct n; reflexivity|]. split; [|split; [|auto]]; apply (eqs_run n (txt "[" ++ r) _ eq_refl); cbn; discriminate.
  - split; [destruct n; [congruence|reflexivity]|]. cbn [app]. assert (Hs1 : ~ starts (fun c => c = 61%N) r) by (destruct r; cbn in *; tauto).
    split; [|split]; [apply (eqs_run n r _ eq_refl Hs1)..|]. destruct r as [|c r]; [auto|]. cbn [starts drop1 hd_is] in *.
    destruct (c =? lbr)%N eqn:E; [apply N.eqb_eq in E; tauto|auto].
Qed.
Lemma close_head c b : second_close c b -> drop1 rbr (c ++ b) = b /\ hd_is rbr (c ++ b) = match c with [] => false | _ => true end.
Proof.
  intros [->|[-> H]]; [auto|]. cbn [app]. destruct b as [|d b]; [auto|]. cbn in *. destruct (d =? rbr)%N eqn:E; [apply N.eqb_eq in E; tauto|auto].
Qed.
Lemma dbrackets_closed n o x c b : second_open n o (x ++ txt "]" ++ repeat 61%N n ++ c ++ b) ->
  first_close n (x ++ txt "]" ++ repeat 61%N n ++ c ++ b) x (c ++ b) -> second_close c b ->
  dbrackets (repeat 61%N n ++ o ++ x ++ txt "]" ++ repeat 61%N n ++ c ++ b) =
  (match o, c with _ :: _, _ :: _ => None | _, _ => Some "Invalid bracket notation"%string end, b).
Proof.
  intros A B D. set (r := x ++ _) in *. destruct (open_head _ _ _ A) as (_ & H1 & H2 & H3 & H4). unfold dbrackets, dbracket, dclose_all. rewrite H1, H2, H3, H4, repeat_length.
  destruct (dclose_first n (S (S (length r))) r ltac:(lia)) as [[_ F]|(p & s & E & F)]; [destruct (F _ _ (proj1 B))|].
  rewrite E. cbv beta iota. destruct (first_close_unique _ _ _ _ _ _ B F) as [_ Es].
  destruct (close_head _ _ D) as [G1 G2].
  assert (G1' : drop1 rbr s = b) by (rewrite <- Es; exact G1). assert (G2' : hd_is rbr s = match c with [] => false | _ => true end) by (rewrite <- Es; exact G2).
  rewrite G1', G2'. destruct o, c; reflexivity.
Qed.
Lemma dbrackets_open n o x : second_open n o x -> (forall p s, ~ closes_at n x p s) ->
  dbrackets (repeat 61%N n ++ o ++ x) = (Some "Could not find bracket string close"%string, []).
Proof.
  intros A B. destruct (open_head _ _ _ A) as (_ & H1 & H2 & H3 & H4). unfold dbrackets, dbracket, dclose_all. rewrite H1, H2, H3, H4, repeat_length.
  destruct (dclose_first n (S (S (length x))) x ltac:(lia)) as [[E _]|(p & s & _ & F)]; [now rewrite E|]. destruct (B _ _ (proj1 F)).
Qed.
Lemma dropw_line y b : no_newline y -> line_end b -> dropw not_nl (y ++ b) = b.
Proof.
  intros Hy Hb. apply (span_unique not_nl y b).
  - apply (forallb_Forall_iff not_nl (fun c => c <> 10%N)); [exact not_nl_iff|exact Hy].
  - destruct Hb as [->|Hb]; [exact I|]. destruct b as [|c b]; [exact I|]. cbn in Hb. subst c. reflexivity.
Qed.

(** What the first characters of a text decide. *)
Definition cls (w : text) : nat :=
  match w with
  | [] => 0
  | c :: r =>
    if is_ident_start c then 1 else if is_number c then 2 else if is_whitespace c then 3 else if (c =? squote)%N || (c =? dquote)%N then 4
    else if (c =? ch "-")%N && hd_is (ch "-") r then 5 else if (c =? lbr)%N && (hd_is lbr r || hd_is eqs r) then 6
    else if (c =? ch "~")%N && negb (hd_is (ch "=") r) then 7 else if existsb (fun p => match snd p with d :: _ => (d =? c)%N | [] => false end) spellings then 8 else 9
  end.
Definition facts (n : nat) (k : kind) (e : option string) (l b : text) : Prop :=
  match n with
  | 1 => k = kw_kind l /\ e = None /\ forallb is_ident_continue l = true /\ ~ starts identc b
  | 2 => k = KNumber /\ e = None /\ numeral l /\ forall p, numeral p -> prefix_of p (l ++ b) -> length p <= length l
  | 3 => k = KWhitespace /\ e = None /\ forallb is_whitespace l = true /\ ~ starts blank b
  | 4 => k = KStr /\ exists q r, l ++ b = q :: r /\ dstr q r = (e, b)
  | 5 => k = KComment /\ e = None /\ exists c d r, l ++ b = c :: d :: r /\ dcomment r = b
  | 6 => k = KStr /\ exists c r, l ++ b = c :: r /\ dbrackets r = (e, b)
  | 7 => k = KUnknown /\ e = None /\ length l = 1
  | 8 => e = None /\ In (k, l) spellings /\ forall sp, In sp (openers ++ map snd spellings) -> prefix_of sp (l ++ b) -> length sp <= length l
  | 9 => k = KUnknown /\ e = Some "Got an unknown token"%string /\ length l = 1
  | _ => False
  end.
Lemma spellings_text k1 k2 sp : In (k1, sp) spellings -> In (k2, sp) spellings -> k1 = k2.
Proof.
  assert (H : forallb (fun p => forallb (fun q => implb (text_eqb (snd p) (snd q)) (kind_eqb (fst p) (fst q))) spellings) spellings = true) by (vm_compute; reflexivity).
  intros H1 H2. rewrite forallb_forall in H. specialize (H _ H1). rewrite forallb_forall in H. specialize (H _ H2). cbn [fst snd] in H.
  assert (E : text_eqb sp sp = true) by (apply text_eqb_eq; reflexivity). rewrite E in H. cbn [implb] in H. now apply kind_eqb_eq.
Qed.
Lemma facts_fun n k e l b k' e' l' b' : l ++ b = l' ++ b' -> facts n k e l b -> facts n k' e' l' b' -> k = k' /\ e = e' /\ l = l' /\ b = b'.
Proof.
  intros E H H'.
  assert (Bs : b = b' -> l = l' /\ b = b') by (intros <-; split; [exact (app_inv_tail _ _ _ E)|reflexivity]).
  assert (Ls : length l = length l' -> l = l' /\ b = b') by (intros L; exact (same_split _ _ _ _ E L)).
  destruct n as [|[|[|[|[|[|[|[|[|[|n]]]]]]]]]]; cbn [facts] in H, H'; try contradiction.
  - destruct H as (-> & -> & A & B), H' as (-> & -> & A' & B').
    apply (not_starts is_ident_continue) in B; [|exact identc_iff]. apply (not_starts is_ident_continue) in B'; [|exact identc_iff].
    destruct (takew_split _ _ _ _ _ E A A' B B') as [-> ->]. auto.
  - destruct H as (-> & -> & A & B), H' as (-> & -> & A' & B'). split; [auto|]. split; [auto|]. apply Ls. apply Nat.le_antisymm.
    + apply B'; [exact A|]. exists b. symmetry. exact E.
    + apply B; [exact A'|]. exists b'. exact E.
  - destruct H as (-> & -> & A & B), H' as (-> & -> & A' & B').
    apply (not_starts is_whitespace) in B; [|exact blank_iff]. apply (not_starts is_whitespace) in B'; [|exact blank_iff].
    destruct (takew_split _ _ _ _ _ E A A' B B') as [-> ->]. auto.
  - destruct H as (-> & q & r & A & B), H' as (-> & q' & r' & A' & B'). rewrite E, A' in A. injection A as -> ->. rewrite B in B'. injection B' as <- Eb. destruct (Bs Eb). auto.
  - destruct H as (-> & -> & c & d & r & A & B), H' as (-> & -> & c' & d' & r' & A' & B'). rewrite E, A' in A. injection A as -> -> ->. rewrite B in B'. destruct (Bs B'). auto.
  - destruct H as (-> & c & r & A & B), H' as (-> & c' & r' & A' & B'). rewrite E, A' in A. injection A as -> ->. rewrite B in B'. injection B' as <- Eb. destruct (Bs Eb). auto.
  - destruct H as (-> & -> & A), H' as (-> & -> & A'). destruct Ls; [congruence|auto].
  - destruct H as (-> & A & B), H' as (-> & A' & B'). destruct Ls as [-> ->].
    + apply Nat.le_antisymm.
      * apply B'; [apply in_or_app; right; exact (in_map snd _ _ A)|]. exists b. symmetry. exact E.
      * apply B; [apply in_or_app; right; exact (in_map snd _ _ A')|]. exists b'. exact E.
    + split; [exact (spellings_text _ _ _ A A')|auto].
  - destruct H as (-> & -> & A), H' as (-> & -> & A'). destruct Ls; [congruence|auto].
Qed.

Lemma op_class k l b : In (k, l) spellings -> (forall sp, In sp (openers ++ map snd spellings) -> prefix_of sp (l ++ b) -> length sp <= length l) -> cls (l ++ b) = 8.
Proof.
  intros Hi Hl.
  assert (O1 : prefix_of (txt "--") (l ++ b) -> 2 <= length l) by (apply Hl; cbn; auto).
  assert (O2 : prefix_of (txt "[[") (l ++ b) -> 2 <= length l) by (apply Hl; cbn; auto).
  assert (O3 : prefix_of (txt "[=") (l ++ b) -> 2 <= length l) by (apply Hl; cbn; auto). clear Hl.
  cbn [spellings In] in Hi.
  repeat (destruct Hi as [Hi|Hi]; [injection Hi as <- <-; cbn [txt app cls];
    try reflexivity|]); [..|destruct Hi].
  - destruct b as [|c b]; [reflexivity|]. cbn. destruct (N.eqb_spec c 45) as [->|]; [|destruct c; reflexivity]. exfalso. specialize (O1 (ex_intro _ b eq_refl)). cbn in O1. lia.
  - destruct b as [|c b]; [reflexivity|]. cbn. destruct (N.eqb_spec c 91) as [->|]; [exfalso; specialize (O2 (ex_intro _ b eq_refl)); cbn in O2; lia|].
    destruct (N.eqb_spec c 61) as [->|]; [exfalso; specialize (O3 (ex_intro _ b eq_refl)); cbn in O3; lia|]. apply N.eqb_neq in n, n0. unfold lbr, eqs. rewrite n, n0. reflexivity.
Qed.
Lemma letter_word w k : In (w, k) keywords -> ident_shape w /\ kw_kind w = k.
Proof.
  intros H. split.
  - assert (F : forallb (fun p => match fst p with c :: r => is_ident_start c && forallb is_ident_continue r | [] => false end) keywords = true) by (vm_compute; reflexivity).
    rewrite forallb_forall in F. specialize (F _ H). cbn [fst] in F. destruct w as [|c r]; [discriminate|]. apply andb_true_iff in F. now apply ident_shape_iff.
  - unfold kw_kind. apply from_keyword_spec in H. now rewrite H.
Qed.
Lemma word_class l b : ident_shape l -> cls (l ++ b) = 1 /\ forallb is_ident_continue l = true.
Proof.
  destruct l as [|c r]; [intros (? & ? & [=] & _)|]. intros H. apply ident_shape_iff in H as [H1 H2]. cbn [app cls forallb]. rewrite H1. split; [reflexivity|].
  rewrite H2, andb_true_r. unfold is_ident_continue. now rewrite H1.
Qed.
Lemma digit_class c r : is_number c = true -> cls (c :: r) = 2.
Proof.
  intros H. cbn [cls]. rewrite H. replace (is_ident_start c) with false; [reflexivity|]. symmetry. unfold is_number in H. unfold is_ident_start.
  apply andb_true_iff in H as [A B]. apply N.leb_le in A, B.
  repeat (apply orb_false_iff; split); try apply andb_false_iff; rewrite ?N.leb_gt, ?N.eqb_neq; lia.
Qed.
Lemma blank_class c r : blank c -> cls (c :: r) = 3.
Proof. intros [->|[->|[->|[->| ->]]]]; reflexivity. Qed.
Lemma rule_facts k e l b : token_rule k e l b -> facts (cls (l ++ b)) k e l b.
Proof.
  destruct 1 as [k l b Hi Hl|k l b Hi Hb|l b Hs Hk Hb|l b Hn Hl|l b Hn Hl Hb|x b Hp Hx Hb|x c y b Hc H2 Hy Hb|x Hc|q p b Hq Hf|q p b Hq Hf Hb|q p b Hq Hf Hb|n o x c b Ho Hc H2|n o x Ho Hc|b Hb|c b Hk].
  - rewrite (op_class _ _ _ Hi Hl). repeat split; auto.
  - destruct (letter_word _ _ Hi) as [Hs <-]. destruct (word_class _ b Hs) as [-> W]. repeat split; auto.
  - destruct (word_class _ b Hs) as [-> W]. repeat split; auto. unfold kw_kind. apply from_keyword_none in Hk. now rewrite Hk.
  - assert (exists c r, l = c :: r /\ is_number c = true) as (c & r & -> & Hc).
    { destruct Hn as [Hn|(h & -> & _)]; [exact (decimal_head _ Hn)|]. exists (ch "0"), (txt "x" ++ h). auto. }
    cbn [app]. rewrite (digit_class _ _ Hc). repeat split; auto.
  - destruct l as [|c r]; [congruence|]. inversion Hl as [|? ? B1 B2]; subst. cbn [app]. rewrite (blank_class _ _ B1). repeat split; auto.
    apply (forallb_Forall_iff is_whitespace blank); [exact blank_iff|exact Hl].
  - change (cls ((txt "--" ++ x) ++ b)) with 5. split; [reflexivity|]. split; [reflexivity|]. exists (ch "-"), (ch "-"), (x ++ b). split; [reflexivity|].
    unfold dcomment. replace (hd_is lbr (x ++ b) && hd_is lbr (drop1 lbr (x ++ b))) with false; [exact (dropw_line _ _ Hx Hb)|].
    symmetry. apply not_true_is_false. intros E. apply Hp. apply andb_true_iff in E as [E1 E2]. destruct (x ++ b) as [|c w]; [discriminate|]. cbn [hd_is drop1] in *. rewrite E1 in E2.
    apply N.eqb_eq in E1 as ->. destruct w as [|d w]; [discriminate|]. cbn [hd_is] in E2. apply N.eqb_eq in E2 as ->. exists w. reflexivity.
  - change (cls ((txt "--[[" ++ x ++ txt "]" ++ c ++ y) ++ b)) with 5. split; [reflexivity|]. split; [reflexivity|].
    exists (ch "-"), (ch "-"), (txt "[[" ++ x ++ txt "]" ++ c ++ y ++ b). split; [change (txt "--[[") with (txt "--" ++ txt "[["); rewrite <- !app_assoc; reflexivity|].
    unfold dcomment. change (hd_is lbr (txt "[[" ++ x ++ txt "]" ++ c ++ y ++ b) && hd_is lbr (drop1 lbr (txt "[[" ++ x ++ txt "]" ++ c ++ y ++ b))) with true.
    cbv iota. assert (G : snd (dbrackets (drop1 lbr (txt "[[" ++ x ++ txt "]" ++ c ++ y ++ b))) = y ++ b) by exact (f_equal snd (dbrackets_closed 0 (txt "[") x c (y ++ b) (or_introl eq_refl) Hc H2)).
    rewrite G. exact (dropw_line _ _ Hy Hb).
  - rewrite app_nil_r. change (cls (txt "--[[" ++ x)) with 5. split; [reflexivity|]. split; [reflexivity|].
    exists (ch "-"), (ch "-"), (txt "[[" ++ x). split; [rewrite app_nil_r; reflexivity|].
    unfold dcomment. change (hd_is lbr (txt "[[" ++ x) && hd_is lbr (drop1 lbr (txt "[[" ++ x))) with true.
    cbv iota. assert (G : snd (dbrackets (drop1 lbr (txt "[[" ++ x))) = []) by exact (f_equal snd (dbrackets_open 0 (txt "[") x (or_introl eq_refl) Hc)). rewrite G. reflexivity.
  - assert (C4 : forall r, cls (q :: r) = 4) by (intros r; destruct Hq as [->| ->]; reflexivity). cbn [app]. rewrite C4. split; [reflexivity|].
    exists q, (p ++ [q] ++ b). split; [cbn [app]; rewrite <- app_assoc; reflexivity|]. rewrite (dstr_at _ _ _ _ Hq Hf). destruct Hq as [->| ->]; reflexivity.
  - assert (C4 : forall r, cls (q :: r) = 4) by (intros r; destruct Hq as [->| ->]; reflexivity). cbn [app]. rewrite C4. split; [reflexivity|].
    exists q, (p ++ b). split; [reflexivity|]. rewrite (dstr_at _ _ _ _ Hq Hf). destruct b as [|c b]; [destruct Hb|]. cbn in Hb. subst c. reflexivity.
  - assert (C4 : forall r, cls (q :: r) = 4) by (intros r; destruct Hq as [->| ->]; reflexivity). cbn [app]. rewrite C4. split; [reflexivity|].
    exists q, (p ++ b). split; [reflexivity|]. rewrite (dstr_at _ _ _ _ Hq Hf). destruct Hb as [->|Hb]; [reflexivity|]. destruct b as [|c b]; [destruct Hb|]. cbn in Hb. subst c. reflexivity.
  - set (r := x ++ txt "]" ++ repeat 61%N n ++ c ++ b) in *.
    assert (Er : (txt "[" ++ repeat 61%N n ++ o ++ x ++ txt "]" ++ repeat 61%N n ++ c) ++ b = lbr :: repeat 61%N n ++ o ++ r) by (unfold r; rewrite <- !app_assoc; reflexivity).
    rewrite Er. destruct (open_head _ _ _ Ho) as (H & _). cbn [cls]. change (is_ident_start lbr) with false. change (is_number lbr) with false. change (is_whitespace lbr) with false.
    change ((lbr =? squote)%N || (lbr =? dquote)%N) with false. change ((lbr =? ch "-")%N) with false. change (lbr =? lbr)%N with true. cbn [andb]. rewrite H.
    split; [reflexivity|]. exists lbr, (repeat 61%N n ++ o ++ r). split; [exact Er|]. exact (dbrackets_closed n o x c b Ho Hc H2).
  - rewrite app_nil_r. destruct (open_head _ _ _ Ho) as (H & _). change (txt "[" ++ repeat 61%N n ++ o ++ x) with (lbr :: repeat 61%N n ++ o ++ x). cbn [cls]. change (is_ident_start lbr) with false. change (is_number lbr) with false. change (is_whitespace lbr) with false.
    change ((lbr =? squote)%N || (lbr =? dquote)%N) with false. change ((lbr =? ch "-")%N) with false. change (lbr =? lbr)%N with true. cbn [andb]. rewrite H.
    split; [reflexivity|]. exists lbr, (repeat 61%N n ++ o ++ x). split; [apply app_nil_r|]. exact (dbrackets_open n o x Ho Hc).
  - replace (cls (txt "~" ++ b)) with 7; [repeat split|]. apply hd_is_starts in Hb. change (txt "~" ++ b) with (ch "~" :: b). cbn [cls]. change 61%N with (ch "=") in Hb. rewrite Hb. reflexivity.
  - replace (cls ([c] ++ b)) with 9; [repeat split|]. unfold known in Hk. cbn [app cls].
    rewrite (proj1 (not_true_iff_false (is_ident_start c))) by (rewrite letter_iff; tauto). rewrite (proj1 (not_true_iff_false (is_number c))) by (rewrite digit_iff; tauto).
    rewrite (proj1 (not_true_iff_false (is_whitespace c))) by (rewrite blank_iff; tauto).
    assert (Q : ((c =? squote)%N || (c =? dquote)%N) = false). { apply orb_false_iff. rewrite !N.eqb_neq. unfold quote_char in Hk. split; intros ->; apply Hk; auto 6. }
    rewrite Q. assert (X : existsb (fun p => match snd p with d :: _ => (d =? c)%N | [] => false end) spellings = false).
    { apply not_true_is_false. intros X. apply existsb_exists in X as ([k sp] & X1 & X2). apply Hk. do 5 right. exists k, sp. split; [exact X1|]. cbn [snd] in X2. destruct sp as [|d sp]; [discriminate|]. now apply N.eqb_eq in X2. }
    rewrite X. assert (c <> ch "-") by (intros ->; apply Hk; do 5 right; exists KMinus, (txt "-"); split; [cbn; tauto|reflexivity]).
    assert (c <> lbr) by (intros ->; apply Hk; do 5 right; exists KLBracket, (txt "["); split; [cbn; tauto|reflexivity]).
    assert (c <> ch "~") by (intros ->; apply Hk; auto 8). apply N.eqb_neq in H, H0, H1. rewrite H, H0, H1. reflexivity.
Qed.

Lemma rule_nonempty k e l b : token_rule k e l b -> l <> [].
Proof.
  destruct 1 as [k l b Hi Hl|k l b Hi Hb|l b Hs Hk Hb|l b Hn Hl|l b Hn Hl Hb|x b Hp Hx Hb|x c y b Hc H2 Hy Hb|x Hc|q p b Hq Hf|q p b Hq Hf Hb|q p b Hq Hf Hb|n o x c b Ho Hc H2|n o x Ho Hc|b Hb|c b Hk]; try discriminate.
  - exact (spelling_nonempty _ _ Hi).
  - destruct (proj1 (letter_word _ _ Hi)) as (c & r & -> & _). discriminate.
  - destruct Hs as (c & r & -> & _). discriminate.
  - destruct Hn as [Hn|(h & -> & _)]; [|discriminate]. destruct (decimal_head _ Hn) as (c & r & -> & _). discriminate.
  - exact Hn.
Qed.

(** * C70 The lexical rules *)
(** Every text that is not empty begins with a token, and the rules leave no choice of it, of its kind or of its error. *)
Theorem C70_some_token : forall t, t <> [] -> exists k e l b, t = l ++ b /\ token_rule k e l b.
Proof. intros t H. destruct (step_exists t H) as (k & e & l & b & E & _ & St). exists k, e, l, b. split; [exact E|]. exact (step_rule _ _ _ _ St). Qed.
Print Assumptions C70_some_token.
Theorem C70_no_choice : forall k e l b k' e' l' b', token_rule k e l b -> token_rule k' e' l' b' -> l ++ b = l' ++ b' ->
  k = k' /\ e = e' /\ l = l' /\ b = b'.
Proof.
  intros k e l b k' e' l' b' H H' E. apply rule_facts in H. apply rule_facts in H'. rewrite <- E in H'. exact (facts_fun _ _ _ _ _ _ _ _ _ E H H').
Qed.
Print Assumptions C70_no_choice.

Lemma rule_dlex k e l b : token_rule k e l b -> dlex (l ++ b) = ((k, e), b).
Proof.
  intros H. pose proof (rule_nonempty _ _ _ _ H) as Hl. destruct (step_exists (l ++ b)) as (k' & e' & l' & b' & E & D & St); [destruct l; [congruence|discriminate]|].
  destruct (C70_no_choice _ _ _ _ _ _ _ _ H (step_rule _ _ _ _ St) E) as (-> & -> & _ & ->). exact D.
Qed.
Definition swap (x : lexed_tok) : kind * text * option string := (fst (fst x), snd x, snd (fst x)).
Lemma Lexed_reads t ls : Lexed t ls -> reads t (map swap ls).
Proof. induction 1 as [|k e l b ls Hl Hd Hls IH]; [constructor|]. cbn [map]. constructor; [|exact IH]. apply step_rule. now apply dlex_step. Qed.
Lemma reads_fun t ls : reads t ls -> forall ls', reads t ls' -> ls = ls'.
Proof.
  induction 1 as [|k e l b ls Hr Hls IH]; intros ls' H'.
  - inversion H' as [|k e l b ls Hr Hls E]; [reflexivity|]. apply rule_nonempty in Hr. destruct l; [congruence|discriminate].
  - inversion H' as [E|k' e' l' b' ls2 Hr' Hls' E]; subst.
    + apply rule_nonempty in Hr. destruct l; [congruence|discriminate].
    + destruct (C70_no_choice _ _ _ _ _ _ _ _ Hr Hr') as (-> & -> & -> & ->); [symmetry; exact E|]. f_equal. exact (IH _ Hls').
Qed.

(** The tokens and errors of a text are those of its one reading by the rules. *)
Theorem C70_tokenize : forall t, fits_u32 (blen t) = true ->
  exists ls, reads t ls /\ (forall ls', reads t ls' -> ls' = ls) /\
    let toks := map (fun x => mkToken (fst (fst x)) (blen (snd (fst x)))) ls in
    tokenize t = Ok (toks, errors_of 0 toks (map snd ls)).
Proof.
  intros t Hf. destruct (Lexed_total t) as (ls & H). exists (map swap ls). split; [exact (Lexed_reads _ _ H)|]. split.
  - intros ls' H'. exact (reads_fun _ _ H' _ (Lexed_reads _ _ H)).
  - cbv zeta. rewrite (tokenize_direct _ _ H Hf), !map_map. reflexivity.
Qed.
Print Assumptions C70_tokenize.

(** A text with an escaped quote, a long string that stops early, and a comment after which text of its line follows. *)
Definition C70_text : text := txt "'it\'s' [=[a]=] [=[a]=b]=] --[[c]] d" ++ [10%N] ++ txt "$".
Example C70_case : exists ls, reads C70_text ls /\
  map fst ls = [(KStr, txt "'it\'s'"); (KWhitespace, txt " "); (KStr, txt "[=[a]=]"); (KWhitespace, txt " "); (KStr, txt "[=[a]=");
    (KIdent, txt "b"); (KRBracket, txt "]"); (KEq, txt "="); (KRBracket, txt "]"); (KWhitespace, txt " "); (KComment, txt "--[[c]] d"); (KWhitespace, [10%N]); (KUnknown, txt "$")] /\
  map snd ls = [None; None; None; None; Some "Invalid bracket notation"%string; None; None; None; None; None; None; None; Some "Got an unknown token"%string].
Proof.
  assert (G : exists ls, Lexed C70_text ls) by apply Lexed_total. destruct G as (ls & G).
  assert (E : ls = [(KStr, None, txt "'it\'s'"); (KWhitespace, None, txt " "); (KStr, None, txt "[=[a]=]"); (KWhitespace, None, txt " "); (KStr, Some "Invalid bracket notation"%string, txt "[=[a]=");
    (KIdent, None, txt "b"); (KRBracket, None, txt "]"); (KEq, None, txt "="); (KRBracket, None, txt "]"); (KWhitespace, None, txt " "); (KComment, None, txt "--[[c]] d"); (KWhitespace, None, [10%N]); (KUnknown, Some "Got an unknown token"%string, txt "$")]).
  { apply (Lexed_fun _ _ G). repeat (first [apply L_nil|match goal with |- Lexed ?t ((?k, ?e, ?l) :: ?ls) => let b := eval vm_compute in (snd (dlex t)) in change t with (l ++ b); apply L_cons; [discriminate|vm_compute; reflexivity|] end]). }
  subst ls. exists (map swap [(KStr, None, txt "'it\'s'"); (KWhitespace, None, txt " "); (KStr, None, txt "[=[a]=]"); (KWhitespace, None, txt " "); (KStr, Some "Invalid bracket notation"%string, txt "[=[a]=");
    (KIdent, None, txt "b"); (KRBracket, None, txt "]"); (KEq, None, txt "="); (KRBracket, None, txt "]"); (KWhitespace, None, txt " "); (KComment, None, txt "--[[c]] d"); (KWhitespace, None, [10%N]); (KUnknown, Some "Got an unknown token"%string, txt "$")]).
  split; [exact (Lexed_reads _ _ G)|]. split; reflexivity.
Qed.

(** * C06–C09, exactly *)
Lemma lexes_as_rule l k : l <> [] -> fits_u32 (blen l) = true -> lexes_as l k <-> token_rule k None l [].
Proof.
  intros Hl Hf. unfold lexes_as. split.
  - destruct (Lexed_total l) as (ls & H). rewrite (tokenize_direct _ _ H Hf). intros E.
    destruct H as [|k1 e l1 b ls H1 Hd Hls]; [discriminate|]. cbn [map] in E.
    assert (El : ls = []) by (destruct ls; [reflexivity|discriminate E]). subst ls. inversion Hls; subst.
    cbn [map errors_of] in E. cbn [lt_tok lt_err fst snd] in E. destruct e; [discriminate E|]. injection E as <- _.
    rewrite app_nil_r. apply step_rule. apply dlex_step; [exact H1|exact Hd].
  - intros H. apply rule_dlex in H. pose proof (L_cons k None l [] [] Hl H L_nil) as L. rewrite app_nil_r in L. exact (tokenize_direct _ _ L Hf).
Qed.
Lemma token_at_rule c b k : fits_u32 (blen (c ++ b)) = true -> token_at (c ++ b) [] k c b <-> exists e, token_rule k e c b.
Proof.
  intros Hf. split.
  - intros H. apply token_at_lexed in H as (e & ls1 & ls2 & H & E & Hl & Hd & _). exists e. apply step_rule. now apply dlex_step.
  - intros (e & H). pose proof (rule_nonempty _ _ _ _ H) as Hl. apply rule_dlex in H. destruct (Lexed_total b) as (ls & Hb).
    apply (lexed_token_at (c ++ b) [] k e c b ls); [|exact Hf|symmetry; exact (Lexed_text _ _ Hb)]. cbn [app]. now apply L_cons.
Qed.

(** C06: which Lua strings are read right. *)
Lemma item_last q it : str_item q it -> quote_char q -> it <> [] /\ (last it 0%N = 92%N <-> it = [92%N; 92%N]).
Proof.
  intros H Hq. destruct H as [c H1 H2 H3|c]; (split; [discriminate|]); cbn [last].
  - split; [congruence|discriminate].
  - split; [intros ->; reflexivity|congruence].
Qed.
Lemma items_last q items : Forall (str_item q) items -> quote_char q -> (last (concat items) 0%N = 92%N <-> last items [] = [92%N; 92%N]).
Proof.
  intros H Hq. induction H as [|it items Hi H IH]; [split; discriminate|]. destruct (item_last _ _ Hi Hq) as [Hne Hl].
  cbn [concat]. destruct items as [|it2 items]; [cbn [concat last]; rewrite app_nil_r; exact Hl|].
  cbn [last] in *. rewrite last_app_ne; [exact IH|]. inversion H as [|? ? H2 _]; subst. destruct (item_last _ _ H2 Hq) as [N2 _]. cbn [concat]. destruct it2; [congruence|discriminate].
Qed.
Theorem C06_exactly : forall q items, quote_char q -> Forall (str_item q) items ->
  let l := [q] ++ concat items ++ [q] in fits_u32 (blen l) = true ->
  (lexes_as l KStr <-> Forall (fun it => ~ In 10%N it /\ ~ In 0%N it) items /\ last items [] <> [92%N; 92%N]).
Proof.
  intros q items Hq Hi l Hf. split; [|intros [A B]; exact (C06_short_strings_partial q items Hq Hi A B Hf)].
  intros H. apply lexes_as_rule in H; [|discriminate|exact Hf].
  assert (F : first_stop q (concat items ++ [q]) (concat items) [q]).
  { pose proof (rule_facts _ _ _ _ H) as F. unfold l in F. rewrite app_nil_r in F. assert (C4 : forall r, cls (q :: r) = 4) by (intros r; destruct Hq as [->| ->]; reflexivity).
    cbn [app] in F. rewrite C4 in F. cbn [facts] in F. destruct F as (_ & q' & r & E & D). cbn [app] in E. rewrite app_nil_r in E. injection E as <- <-.
    destruct (dstr_first q Hq _ (concat items ++ [q]) (Nat.le_refl _)) as (p & s & F & E2). rewrite D in E2.
    destruct s as [|c s]; [discriminate|]. cbn [str_end] in E2. destruct (c =? 0)%N; [discriminate|]. destruct (c =? 10)%N; [discriminate|]. injection E2 as <-.
    pose proof (proj1 (proj1 F)) as E3. apply app_inj_tail in E3 as [<- <-]. exact F. }
  destruct F as [[_ St] Min]. split.
  - apply Forall_forall. intros it Hin.
    assert (N : forall c, c = 10%N \/ c = 0%N -> ~ In c (concat items)).
    { intros c Hc Hi2. apply in_split in Hi2 as (p & s & E). assert (length (concat items) <= length p).
      { apply (Min p (c :: s ++ [q])). split; [rewrite E, <- app_assoc; reflexivity|]. right; left. exact Hc. }
      rewrite E, app_length in H0. cbn in H0. lia. }
    split; intros Hc; eapply N; [left; reflexivity| |right; reflexivity|]; apply in_concat; eauto.
  - intros E. apply (items_last q) in E; [|exact Hi|exact Hq]. destruct St as [St|[St|[_ St]]]; [discriminate| |exact (St E)].
    cbn in St. destruct Hq as [->| ->], St; discriminate.
Qed.
Print Assumptions C06_exactly.

(** C07: a long bracket is read right if and only if its end is the first place where this lexer stops. *)
Theorem C07_exactly : forall n x, let l := long_open n ++ x ++ long_close n in fits_u32 (blen l) = true ->
  (lexes_as l KStr <-> first_close n (x ++ long_close n) x (txt "]")).
Proof.
  intros n x l Hf. assert (El : l = txt "[" ++ repeat 61%N n ++ txt "[" ++ x ++ txt "]" ++ repeat 61%N n ++ txt "]") by (unfold l, long_open, long_close; rewrite <- !app_assoc; reflexivity).
  rewrite lexes_as_rule; [|rewrite El; discriminate|exact Hf]. split.
  - intros H. pose proof (rule_facts _ _ _ _ H) as F. rewrite app_nil_r in F.
    assert (C6 : cls l = 6) by (rewrite El; destruct n; reflexivity). rewrite C6 in F. destruct F as (_ & c & r & E & D). rewrite app_nil_r, El in E.
    change (txt "[" ++ repeat 61%N n ++ txt "[" ++ x ++ txt "]" ++ repeat 61%N n ++ txt "]") with (lbr :: repeat 61%N n ++ txt "[" ++ x ++ txt "]" ++ repeat 61%N n ++ txt "]") in E.
    injection E as <- <-. unfold long_close. set (w := x ++ txt "]" ++ repeat 61%N n ++ txt "]") in *.
    destruct (open_head n (txt "[") w (or_introl eq_refl)) as (_ & H1 & H2 & H3 & H4). change (dbrackets (repeat 61%N n ++ txt "[" ++ w) = (None, [])) in D. unfold dbrackets, dbracket, dclose_all in D. rewrite H1, H2, H3, H4, repeat_length in D.
    destruct (dclose_first n (S (S (length w))) w ltac:(lia)) as [[E F]|(p & s & E & F)]; rewrite E in D; [discriminate D|].
    destruct (hd_is rbr s) eqn:Hs; [|discriminate D]. injection D as D. destruct s as [|c s]; [discriminate|]. cbn [hd_is drop1] in Hs, D. rewrite Hs in D. subst s. apply N.eqb_eq in Hs as ->.
    assert (x = p) as ->; [|exact F]. pose proof (proj1 (proj1 F)) as E3. unfold w in E3. apply app_inv_tail in E3. exact E3.
  - intros H. unfold long_close in H. pose proof (TR_long_string n (txt "[") x (txt "]") []) as R. rewrite app_nil_r in R. rewrite El. apply R; [left; reflexivity|exact H|left; reflexivity].
Qed.
Print Assumptions C07_exactly.

(** C08: a long comment is one token that ends at its close if and only if what follows is the end of the line and what
    stands between the first place where this lexer stops and the close has no newline. *)
Theorem C08_exactly : forall x b, let c := txt "--[[" ++ x ++ txt "]]" in fits_u32 (blen (c ++ b)) = true ->
  (token_at (c ++ b) [] KComment c b <-> line_end b /\ exists p y, first_close 0 (x ++ txt "]]" ++ b) p (y ++ b) /\ no_newline y).
Proof.
  intros x b c Hf. rewrite token_at_rule by exact Hf. set (w := x ++ txt "]]" ++ b).
  assert (Ew : c ++ b = txt "--" ++ txt "[[" ++ w) by (unfold c, w; rewrite <- !app_assoc; reflexivity).
  split.
  - intros (e & H). apply rule_facts in H. rewrite Ew in H. change (cls (txt "--" ++ txt "[[" ++ w)) with 5 in H. destruct H as (_ & _ & c1 & c2 & r & E & D). rewrite Ew in E. cbn in E.
    injection E as <- <- <-. assert (D' : dropw not_nl (snd (dbrackets (repeat 61%N 0 ++ txt "[" ++ w))) = b) by exact D. clear D. rename D' into D.
    destruct (open_head 0 (txt "[") w (or_introl eq_refl)) as (_ & H1 & H2 & H3 & _). unfold dbrackets, dbracket, dclose_all in D. rewrite H1, H2, H3, repeat_length in D.
    destruct (dclose_first 0 (S (S (length w))) w ltac:(lia)) as [[E F]|(p & s & E & F)]; rewrite E in D; cbn [snd] in D.
    + exfalso. assert (B : b = []) by (rewrite <- D; reflexivity). destruct (last x 0%N =? 92)%N eqn:Lx.
      * apply (F (x ++ txt "]") b). unfold w. split; [rewrite <- app_assoc; reflexivity|]. split; [change (txt "]") with [93%N]; rewrite last_snoc_c; discriminate|rewrite B; cbn; tauto].
      * apply N.eqb_neq in Lx. apply (F x (txt "]" ++ b)). unfold w. split; [reflexivity|]. split; [exact Lx|cbn; discriminate].
    + destruct (to_line_end (drop1 rbr s)) as (y & Ey & Ny & Le). rewrite D in Ey, Le. split; [exact Le|].
      destruct (drop1_split rbr s) as (c' & Es & Hc). exists p, (c' ++ y). rewrite <- app_assoc, <- Ey, <- Es. split; [exact F|].
      apply Forall_app. split; [|exact Ny]. destruct Hc as [[-> _]|[-> _]]; repeat constructor. discriminate.
  - intros (Le & p & y & F & Ny). exists None.
    assert (Epy : x ++ txt "]]" = p ++ txt "]" ++ y).
    { pose proof (proj1 (proj1 F)) as E. unfold w in E. apply (app_inv_tail b). rewrite <- !app_assoc. exact E. }
    destruct (drop1_split rbr y) as (c' & Es & Hc).
    assert (Ec : c = txt "--[[" ++ p ++ txt "]" ++ c' ++ drop1 rbr y) by (unfold c; rewrite Epy, <- Es; reflexivity). rewrite Ec.
    apply TR_long_comment; [| | |exact Le].
    + rewrite (app_assoc c'), <- Es. replace (p ++ txt "]" ++ y ++ b) with w; [exact F|]. exact (proj1 (proj1 F)).
    + destruct Hc as [[-> _]|[-> Hc]]; [left; reflexivity|right]. split; [reflexivity|]. cbn [app] in Es. rewrite <- Es. destruct y as [|d y]; [|cbn [app starts]; apply hd_is_starts in Hc; exact Hc].
      cbn [app]. destruct Le as [->|Le]; [cbn; tauto|]. destruct b as [|d b]; [cbn; tauto|]. cbn in Le |- *. subst d. discriminate.
    + rewrite Es in Ny. apply Forall_app in Ny. exact (proj2 Ny).
Qed.
Print Assumptions C08_exactly.

(** C09: a text is one number token if and only if it is a numeral as this lexer understands them. *)
Theorem C09_exactly : forall l, fits_u32 (blen l) = true -> (lexes_as l KNumber <-> numeral l).
Proof.
  intros l Hf. destruct l as [|c l]; [split; [discriminate|intros H; exfalso]|].
  - destruct H as [H|(h & H & _)]; [destruct (decimal_head _ H) as (c & r & E & _); discriminate|discriminate].
  - rewrite lexes_as_rule; [|discriminate|exact Hf]. split.
    + intros H. remember KNumber as k eqn:Ek. destruct H as [k l' b Hi Hl|k l' b Hi Hb| | l' b Hn Hl| | | | | | | | | | | ]; try discriminate Ek; try subst k.
      * exfalso. cbn [spellings In] in Hi. repeat (destruct Hi as [Hi|Hi]; [discriminate Hi|]). destruct Hi.
      * exfalso. cbn [keywords In] in Hi. repeat (destruct Hi as [Hi|Hi]; [discriminate Hi|]). destruct Hi.
      * exact Hn.
    + intros H. apply TR_number; [exact H|]. intros p _ [r E]. rewrite app_nil_r in E. rewrite E, app_length. lia.
Qed.
Print Assumptions C09_exactly.

(** Non-trivial cases: a string with an escaped quote (right), one ending in an escaped backslash (wrong); a long
    string with an escaped bracket inside (right although [no_escaped_close] fails). *)
Example C06_exactly_case : lexes_as (txt "'a\'b'") KStr /\ ~ lexes_as (txt "'a\\'") KStr.
Proof. split; [vm_compute; reflexivity|vm_compute; discriminate]. Qed.
Example C07_exactly_case : lexes_as (txt "[[a\]b]]") KStr /\ first_close 0 (txt "a\]b" ++ long_close 0) (txt "a\]b") (txt "]").
Proof.
  assert (H : lexes_as (long_open 0 ++ txt "a\]b" ++ long_close 0) KStr) by (vm_compute; reflexivity).
  split; [exact H|]. apply (C07_exactly 0 (txt "a\]b")); [reflexivity|exact H].
Qed.
Example C08_exactly_case : token_at (txt "--[[a]b]]" ++ [10%N]) [] KComment (txt "--[[a]b]]") [10%N] /\
  exists p y, first_close 0 (txt "a]b" ++ txt "]]" ++ [10%N]) p (y ++ [10%N]) /\ no_newline y.
Proof.
  assert (H : token_at (txt "--[[a]b]]" ++ [10%N]) [] KComment (txt "--[[a]b]]") [10%N]).
  { exists [mkToken KComment 9; mkToken KWhitespace 1], [], [], [mkToken KWhitespace 1]. repeat split; vm_compute; reflexivity. }
  split; [exact H|]. exact (proj2 (proj1 (C08_exactly (txt "a]b") [10%N] eq_refl) H)).
Qed.
Example C09_exactly_case : numeral (txt "1.e") /\ ~ numeral (txt "3e+5").
Proof.
  split.
  - apply (C09_exactly (txt "1.e")); [reflexivity|vm_compute; reflexivity].
  - intros H. apply (C09_exactly (txt "3e+5")) in H; [|reflexivity]. vm_compute in H. discriminate H.
Qed.
