(** CrLf.v — what a carriage return before a newline changes (for C89). *)
From Verif Require Import Base SyntaxKind Accept Lexer LexerDirect.

(** [crs t t']: [t'] is [t] with carriage returns put before some of its newlines. *)
Inductive crs : text -> text -> Prop :=
| crs_nil : crs [] []
| crs_same c t t' : crs t t' -> crs (c :: t) (c :: t')
| crs_add t t' : crs t t' -> crs (10%N :: t) (13%N :: 10%N :: t').

Lemma crs_refl t : crs t t.
Proof. induction t; constructor; auto. Qed.
Lemma crs_app a a' b b' : crs a a' -> crs b b' -> crs (a ++ b) (a' ++ b').
Proof. intros H Hb. induction H; cbn [app]; [exact Hb|now constructor|now constructor]. Qed.
Lemma crs_len t t' : crs t t' -> length t <= length t'.
Proof. induction 1; cbn [length]; lia. Qed.

(** A piece of the text and the same piece of the other; the carriage return before the newline that follows may belong to it. *)
Definition sc (t b t' b' : text) : Prop := exists x x', t = x ++ b /\ t' = x' ++ b' /\ crs b b' /\
  (crs x x' \/ exists y b0 b0', x' = y ++ [13%N] /\ crs x y /\ b = 10%N :: b0 /\ b' = 10%N :: b0').
Lemma sc_refl t t' : crs t t' -> sc t t t' t'.
Proof. intros H. exists [], []. repeat split; auto. left. constructor. Qed.
Lemma sc_crs t b t' b' : sc t b t' b' -> crs b b'.
Proof. now intros (x & x' & _ & _ & H & _). Qed.
Lemma sc_one c t t' : crs t t' -> sc (c :: t) t (c :: t') t'.
Proof. intros H. exists [c], [c]. repeat split; auto. left. apply crs_refl. Qed.
Lemma sc_trans t b c t' b' c' : sc t b t' b' -> sc b c b' c' -> sc t c t' c'.
Proof.
  intros (x & x' & -> & -> & Hb & Hx) (z & z' & E & E' & Hc & Hz). exists (x ++ z), (x' ++ z'). rewrite E, E', !app_assoc. repeat split; auto.
  destruct Hx as [Hx|(y & b0 & b0' & -> & Hy & B & B')].
  - destruct Hz as [Hz|(w & c0 & c0' & -> & Hw & C & C')]; [left; now apply crs_app|].
    right. exists (x' ++ w), c0, c0'. rewrite app_assoc. repeat split; auto. now apply crs_app.
  - subst b b'. destruct Hz as [Hz|(w & c0 & c0' & -> & Hw & C & C')].
    + destruct z as [|d z].
      * inversion Hz; subst. cbn [app] in *. subst c c'. right. exists y, b0, b0'. rewrite !app_nil_r. auto.
      * cbn [app] in E. assert (d = 10%N) by congruence. subst d. left. rewrite <- app_assoc. apply crs_app; [exact Hy|].
        inversion Hz; subst; cbn [app] in *; [now apply crs_add|discriminate E'].
    + destruct z as [|d z].
      * inversion Hw; subst. discriminate E'.
      * cbn [app] in E. assert (d = 10%N) by congruence. subst d. right. inversion Hw; subst; cbn [app] in E'; [|discriminate E'].
        exists ((y ++ [13%N]) ++ 10%N :: t'), c0, c0'. rewrite <- !app_assoc. cbn [app]. repeat split; auto. apply crs_app; [exact Hy|now apply crs_add].
Qed.
Lemma sc_top t b t' b' : sc t b t' b' -> crs t t'.
Proof.
  intros (x & x' & -> & -> & Hb & [Hx|(y & b0 & b0' & -> & Hy & -> & ->)]); [now apply crs_app|]. rewrite <- app_assoc. cbn [app]. apply crs_app; [exact Hy|]. apply crs_add. now inversion Hb.
Qed.
Lemma sc_cons c t b t' b' : sc t b t' b' -> sc (c :: t) b (c :: t') b'.
Proof. intros H. eapply sc_trans; [apply sc_one, (sc_top _ _ _ _ H)|exact H]. Qed.
Lemma sc_add t b t' b' : sc t b t' b' -> sc (10%N :: t) b (13%N :: 10%N :: t') b'.
Proof. intros H. eapply sc_trans; [|exact H]. exists [10%N], [13%N; 10%N]. repeat split; auto; [exact (sc_top _ _ _ _ H)|]. left. apply crs_add, crs_nil. Qed.
(** The carriage return alone. *)
Lemma sc_cr t t' : crs t t' -> sc (10%N :: t) (10%N :: t) (13%N :: 10%N :: t') (10%N :: t').
Proof. intros H. exists [], [13%N]. repeat split; auto; [now apply crs_same|]. right. exists [], t, t'. repeat split; auto. constructor. Qed.

(** ** The parts of the lexer *)
Definition plain (c : char) : Prop := c <> 10%N /\ c <> 13%N.
Lemma crs_hd c t t' : plain c -> crs t t' -> hd_is c t = hd_is c t'.
Proof.
  intros [H1 H2] H. destruct H as [|d t t' H|t t' H]; [reflexivity|reflexivity|]. cbn [hd_is].
  destruct (N.eqb_spec 10 c) as [E|E]; [congruence|]. destruct (N.eqb_spec 13 c) as [E'|E']; [congruence|reflexivity].
Qed.
Lemma crs_tl c t t' : plain c -> crs t t' -> hd_is c t = true -> sc t (tl t) t' (tl t').
Proof.
  intros [H1 H2] H E. destruct H as [|d t t' H|t t' H]; [discriminate|cbn [tl]; now apply sc_one|]. cbn [hd_is] in E. apply N.eqb_eq in E. congruence.
Qed.
Lemma crs_drop1 c t t' : plain c -> crs t t' -> sc t (drop1 c t) t' (drop1 c t').
Proof.
  intros Hc H. destruct (hd_is c t) eqn:E.
  - pose proof (crs_tl _ _ _ Hc H E) as S. rewrite (crs_hd c _ _ Hc H) in E. pose proof E as E2. rewrite <- (crs_hd c _ _ Hc H) in E2.
    destruct t as [|d t]; [discriminate|]. destruct t' as [|d' t']; [discriminate|]. cbn [hd_is drop1 tl] in *. now rewrite E, E2.
  - assert (E2 : hd_is c t' = false) by now rewrite <- (crs_hd c _ _ Hc H).
    assert (D : forall t, hd_is c t = false -> drop1 c t = t) by (intros [|d u] F; [reflexivity|cbn [hd_is drop1] in *; now rewrite F]).
    rewrite !D by assumption. now apply sc_refl.
Qed.
Lemma crs_dropw f t t' : (f 10%N = true -> f 13%N = true) -> crs t t' -> sc t (dropw f t) t' (dropw f t').
Proof.
  intros F H. induction H as [|c t t' H IH|t t' H IH].
  - apply sc_refl. constructor.
  - rewrite !dropw_cons. destruct (f c); [now apply sc_cons|]. apply sc_refl. now constructor.
  - rewrite !dropw_cons. destruct (f 10%N) eqn:E10.
    + rewrite (F eq_refl). now apply sc_add.
    + destruct (f 13%N); [now apply sc_cr|]. apply sc_refl. now constructor.
Qed.
Lemma crs_takew f t t' : f 10%N = false -> f 13%N = false -> crs t t' -> takew f t = takew f t'.
Proof. intros F1 F2 H. induction H as [|c t t' H IH|t t' H IH]; [reflexivity| |]; rewrite !takew_cons; [now rewrite IH|now rewrite F1, F2]. Qed.
Lemma crs_plain x y : Forall plain x -> crs x y -> y = x.
Proof. intros F H. induction H; inversion F; subst; [reflexivity|f_equal; auto|]. exfalso. match goal with H : plain 10%N |- _ => destruct H; congruence end. Qed.

Lemma crs_skip_body n : forall t t', length t' < n -> crs t t' -> sc t (skip_body t) t' (skip_body t').
Proof.
  induction n as [|n IH]; intros t t' L H; [lia|]. destruct H as [|c t t' H|t t' H].
  - apply sc_refl. constructor.
  - rewrite !skip_body_cons. cbn [length] in L. destruct (c =? backslash)%N.
    + destruct H as [|d t t' H|t t' H].
      * apply sc_one. constructor.
      * destruct (d =? rbr)%N; [do 2 apply sc_cons; apply IH; [cbn [length] in L; lia|exact H]|]. apply sc_cons, IH; [lia|now constructor].
      * change (10 =? rbr)%N with false. change (13 =? rbr)%N with false. cbv iota. apply sc_cons, IH; [lia|now constructor].
    + destruct (c =? rbr)%N; [apply sc_refl; now constructor|]. apply sc_cons, IH; [lia|exact H].
  - rewrite (skip_body_cons 10%N), (skip_body_cons 13%N), (skip_body_cons 10%N). change (10 =? backslash)%N with false. change (13 =? backslash)%N with false. change (10 =? rbr)%N with false. change (13 =? rbr)%N with false. cbv iota.
    apply sc_add, IH; [cbn [length] in L; lia|exact H].
Qed.
Lemma crs_dclose m fuel : forall fuel' t t', length t < fuel -> length t' < fuel' -> crs t t' ->
  fst (dclose fuel m t) = fst (dclose fuel' m t') /\ (fst (dclose fuel m t) = true -> sc t (snd (dclose fuel m t)) t' (snd (dclose fuel' m t'))) /\
  (fst (dclose fuel m t) = false -> snd (dclose fuel m t) = [] /\ snd (dclose fuel' m t') = []).
Proof.
  induction fuel as [|fuel IH]; intros [|fuel'] t t' L L' H; try lia. cbn [dclose].
  pose proof (crs_skip_body (S (length t')) t t' ltac:(lia) H) as S. pose proof (skip_body_len t) as K. pose proof (skip_body_len t') as K'.
  pose proof (skip_body_hd t) as Hd. pose proof (skip_body_hd t') as Hd'. pose proof (sc_crs _ _ _ _ S) as SC.
  destruct (skip_body t) as [|c r]; [inversion SC; subst; cbn [fst snd]; repeat split; auto; discriminate|].
  subst c. inversion SC as [|c0 r0 r' Hr E1 E2|]; subst. rewrite <- E2 in S, K'.
  assert (T : takew (N.eqb eqs) r = takew (N.eqb eqs) r') by (apply crs_takew; auto). rewrite <- T.
  pose proof (crs_dropw (N.eqb eqs) r r' ltac:(discriminate) Hr) as W. pose proof (dropw_len (N.eqb eqs) r) as K1. pose proof (dropw_len (N.eqb eqs) r') as K2. cbn [length] in K, K'.
  destruct (m =? length (takew (N.eqb eqs) r)); cbn [fst snd].
  - repeat split; try discriminate. intros _. eapply sc_trans; [exact S|]. now apply sc_cons.
  - destruct (IH fuel' (dropw (N.eqb eqs) r) (dropw (N.eqb eqs) r') ltac:(lia) ltac:(lia) (sc_crs _ _ _ _ W)) as (A & B & D). split; [exact A|]. split; [|exact D].
    intros F. eapply sc_trans; [exact S|]. apply sc_cons. eapply sc_trans; [exact W|]. now apply B.
Qed.
(** The rest of the text is a piece too. *)
Lemma sc_all t t' : crs t t' -> sc t [] t' [].
Proof. intros H. exists t, t'. rewrite !app_nil_r. repeat split; auto. constructor. Qed.
Lemma crs_dbracket m t t' : crs t t' -> fst (dbracket m t) = fst (dbracket m t') /\ sc t (snd (dbracket m t)) t' (snd (dbracket m t')).
Proof.
  intros H. unfold dbracket, dclose_all. assert (Pl : plain lbr) by (split; discriminate). assert (Pr : plain rbr) by (split; discriminate).
  pose proof (crs_drop1 lbr t t' Pl H) as S0. rewrite (crs_hd lbr t t' Pl H).
  match goal with |- context [dclose ?f m (drop1 lbr t)] => destruct (crs_dclose m f (S (S (length (drop1 lbr t')))) _ _ (Nat.lt_lt_succ_r _ _ (Nat.lt_succ_diag_r _)) (Nat.lt_lt_succ_r _ _ (Nat.lt_succ_diag_r _)) (sc_crs _ _ _ _ S0)) as (A & B & D) end.
  destruct (dclose _ m (drop1 lbr t)) as [f r]. destruct (dclose _ m (drop1 lbr t')) as [f' r']. cbn [fst snd] in *. subst f'. destruct f; cbn [fst snd].
  - specialize (B eq_refl). pose proof (sc_crs _ _ _ _ B) as R. rewrite (crs_hd rbr r r' Pr R). split; [reflexivity|]. eapply sc_trans; [exact S0|]. eapply sc_trans; [exact B|]. now apply crs_drop1.
  - destruct (D eq_refl) as [-> ->]. split; [reflexivity|]. now apply sc_all.
Qed.
Lemma crs_dbrackets t t' : crs t t' -> fst (dbrackets t) = fst (dbrackets t') /\ sc t (snd (dbrackets t)) t' (snd (dbrackets t')).
Proof.
  intros H. unfold dbrackets. assert (T : takew (N.eqb eqs) t = takew (N.eqb eqs) t') by (apply crs_takew; auto). rewrite <- T.
  pose proof (crs_dropw (N.eqb eqs) t t' ltac:(discriminate) H) as W. destruct (crs_dbracket (length (takew (N.eqb eqs) t)) _ _ (sc_crs _ _ _ _ W)) as [A B].
  split; [exact A|]. eapply sc_trans; [exact W|exact B].
Qed.
Lemma crs_dstr q n : is_delim q -> forall t t', length t' < n -> crs t t' -> fst (dstr q t) = fst (dstr q t') /\ sc t (snd (dstr q t)) t' (snd (dstr q t')).
Proof.
  intros Hq. assert (P : plain q) by (destruct Hq as [-> | ->]; split; discriminate). assert (N10 : (10 =? q)%N = false) by (apply N.eqb_neq; destruct P; congruence). assert (N13 : (13 =? q)%N = false) by (apply N.eqb_neq; destruct P; congruence).
  induction n as [|n IH]; intros t t' L H; [lia|]. destruct H as [|c t t' H|t t' H].
  - split; [reflexivity|]. apply sc_refl. constructor.
  - rewrite !dstr_cons. cbn [length] in L. assert (R : sc (c :: t) (c :: t) (c :: t') (c :: t')) by (apply sc_refl; now constructor). destruct (c =? eof_char)%N; [split; [reflexivity|exact R]|]. destruct (c =? newline)%N; [split; [reflexivity|exact R]|].
    destruct (c =? q)%N; [split; [reflexivity|now apply sc_one]|]. destruct (IH t t' ltac:(lia) H) as [A B]. destruct (c =? backslash)%N; [|split; [exact A|now apply sc_cons]].
    destruct H as [|d t t' H|t t' H].
    + split; [reflexivity|]. cbn [snd]. apply sc_one. constructor.
    + destruct (d =? q)%N; [|split; [exact A|now apply sc_cons]]. destruct (IH t t' ltac:(cbn [length] in L; lia) H) as [A' B']. split; [exact A'|]. now do 2 apply sc_cons.
    + rewrite N10, N13. split; [exact A|now apply sc_cons].
  - rewrite (dstr_cons q 10%N), (dstr_cons q 13%N), N13. change (13 =? eof_char)%N with false. change (13 =? newline)%N with false. change (13 =? backslash)%N with false. cbv iota. rewrite (dstr_cons q 10%N).
    change (10 =? eof_char)%N with false. change (10 =? newline)%N with true. cbv iota. cbn [fst snd]. split; [reflexivity|]. now apply sc_cr.
Qed.
Lemma crs_nonl f t t' : f 10%N = false -> crs t t' -> sc t (dropw f t) t' (dropw f t').
Proof. intros F. apply crs_dropw. congruence. Qed.
Lemma crs_number_dec t t' : crs t t' -> sc t (dnumber_dec t) t' (dnumber_dec t').
Proof.
  intros H. unfold dnumber_dec. pose proof (crs_nonl is_number t t' eq_refl H) as S1. pose proof (sc_crs _ _ _ _ S1) as H1.
  assert (Pd : plain (ch ".")) by (split; discriminate). assert (Pe : plain (ch "e")) by (split; discriminate). assert (PE : plain (ch "E")) by (split; discriminate). assert (Pm : plain (ch "-")) by (split; discriminate).
  cbv zeta. rewrite <- (crs_hd (ch ".") _ _ Pd H1).
  set (t1 := dropw is_number t) in *. set (t1' := dropw is_number t') in *.
  set (t2 := if hd_is (ch ".") t1 then dropw is_number (drop1 (ch ".") t1) else t1). set (t2' := if hd_is (ch ".") t1 then dropw is_number (drop1 (ch ".") t1') else t1').
  assert (S2 : sc t t2 t' t2').
  { unfold t2, t2'. destruct (hd_is (ch ".") t1); [|exact S1]. eapply sc_trans; [exact S1|]. pose proof (crs_drop1 (ch ".") _ _ Pd H1) as D. eapply sc_trans; [exact D|]. apply crs_nonl; [reflexivity|exact (sc_crs _ _ _ _ D)]. }
  pose proof (sc_crs _ _ _ _ S2) as H2. rewrite <- (crs_hd (ch "e") _ _ Pe H2), <- (crs_hd (ch "E") _ _ PE H2).
  destruct (hd_is (ch "e") t2 || hd_is (ch "E") t2) eqn:E; [|exact S2]. eapply sc_trans; [exact S2|].
  assert (T : sc t2 (tl t2) t2' (tl t2')) by (apply orb_true_iff in E as [E|E]; [exact (crs_tl _ _ _ Pe H2 E)|exact (crs_tl _ _ _ PE H2 E)]).
  eapply sc_trans; [exact T|]. pose proof (crs_drop1 (ch "-") _ _ Pm (sc_crs _ _ _ _ T)) as D. eapply sc_trans; [exact D|]. apply crs_nonl; [reflexivity|exact (sc_crs _ _ _ _ D)].
Qed.
Lemma dnumber_cases t : dnumber t = match t with c :: d :: r => if (c =? ch "0")%N && (d =? ch "x")%N then dropw is_hex r else dnumber_dec t | _ => dropw is_number t end.
Proof. reflexivity. Qed.
Lemma crs_dnumber t t' : crs t t' -> sc t (dnumber t) t' (dnumber t').
Proof.
  intros H. rewrite !dnumber_cases. assert (N10 : (10 =? ch "x")%N = false) by reflexivity. assert (N13 : (13 =? ch "x")%N = false) by reflexivity.
  destruct H as [|c t t' H|t t' H]; [apply sc_refl; constructor| |].
  - destruct H as [|d t t' H|t t' H].
    + apply crs_nonl; [reflexivity|repeat constructor].
    + destruct ((c =? ch "0")%N && (d =? ch "x")%N); [do 2 apply sc_cons; now apply crs_nonl|]. apply crs_number_dec. now do 2 constructor.
    + rewrite N10, N13, !andb_false_r. apply crs_number_dec. now do 2 constructor.
  - change (13 =? ch "0")%N with false. change (10 =? ch "0")%N with false. cbn [andb]. destruct t as [|d t].
    + assert (t' = []) by now inversion H. subst t'. change (dnumber_dec [13%N; 10%N]) with [13%N; 10%N]. change (dropw is_number [10%N]) with [10%N]. apply sc_refl. now constructor.
    + apply crs_number_dec. now constructor.
Qed.
Lemma crs_dcomment t t' : crs t t' -> sc t (dcomment t) t' (dcomment t').
Proof.
  intros H. unfold dcomment. assert (Pl : plain lbr) by (split; discriminate). pose proof (crs_drop1 lbr t t' Pl H) as D. pose proof (sc_crs _ _ _ _ D) as HD.
  rewrite <- (crs_hd lbr t t' Pl H), <- (crs_hd lbr _ _ Pl HD). destruct (_ && _); [|now apply crs_nonl].
  destruct (crs_dbrackets _ _ HD) as [_ B]. eapply sc_trans; [exact D|]. eapply sc_trans; [exact B|]. apply crs_nonl; [reflexivity|exact (sc_crs _ _ _ _ B)].
Qed.
Lemma crs_two c k2 k1 x r r' : plain c -> crs r r' -> fst (two c k2 k1 r) = fst (two c k2 k1 r') /\ sc (x :: r) (snd (two c k2 k1 r)) (x :: r') (snd (two c k2 k1 r')).
Proof.
  intros Hc H. unfold two. pose proof (crs_hd c r r' Hc H) as E. destruct (hd_is c r) eqn:F; rewrite <- E; cbn [fst snd]; split; auto; apply sc_cons; [now apply (crs_tl c)|now apply sc_refl].
Qed.

(** ** The first token *)
Lemma crs_dlex t t' : crs t t' -> t <> [] -> fst (dlex t) = fst (dlex t') /\ sc t (snd (dlex t)) t' (snd (dlex t')).
Proof.
  intros H Ht. destruct H as [|c r r' H|r r' H]; [congruence| |].
  2: { change (dlex (10%N :: r)) with ((KWhitespace, @None string), dropw is_whitespace r). change (dlex (13%N :: 10%N :: r')) with ((KWhitespace, @None string), dropw is_whitespace (10%N :: r')). cbn [fst snd]. split; [reflexivity|].
       rewrite dropw_cons. change (is_whitespace 10%N) with true. cbv iota.
       apply sc_add, crs_dropw; [reflexivity|exact H]. }
  assert (S1 : sc (c :: r) r (c :: r') r') by now apply sc_one. unfold dlex.
  assert (One : forall k : kind, fst ((k, @None string), r) = fst ((k, @None string), r') /\ sc (c :: r) (snd ((k, @None string), r)) (c :: r') (snd ((k, @None string), r'))) by (intros k; split; [reflexivity|exact S1]).
  assert (Two : forall d k2 k1, plain d -> fst (two d k2 k1 r) = fst (two d k2 k1 r') /\ sc (c :: r) (snd (two d k2 k1 r)) (c :: r') (snd (two d k2 k1 r'))) by (intros; now apply crs_two).
  assert (Pl : plain lbr) by (split; discriminate). assert (Pe : plain eqs) by (split; discriminate). assert (Pd : plain (ch ".")) by (split; discriminate). assert (Pm : plain (ch "-")) by (split; discriminate).
  Ltac nxt := match goal with |- fst (if ?b then _ else _) = _ /\ _ => destruct b eqn:? end.
  Ltac easy1 One Two := nxt; [first [apply One|apply Two; split; discriminate]|].
  do 6 (easy1 One Two). cbv zeta.
  nxt. { rewrite <- (crs_hd lbr r r' Pl H), <- (crs_hd eqs r r' Pe H). nxt; [|apply One]. cbn [fst snd]. destruct (crs_dbrackets r r' H) as [A B]. rewrite A. split; [reflexivity|now apply sc_cons]. }
  do 2 (easy1 One Two).
  nxt. { rewrite <- (crs_hd _ r r' Pd H). nxt; [|apply One]. match goal with E : hd_is (ch ".") r = true |- _ => pose proof (crs_tl _ _ _ Pd H E) as T end.
    destruct r as [|d r]; [discriminate|]. destruct r' as [|d' r']; [inversion H|]. cbn [tl] in *. destruct (crs_two (ch ".") KTripleDot KDoubleDot d r r' Pd (sc_crs _ _ _ _ T)) as [A B]. split; [exact A|]. eapply sc_trans; [exact S1|].
    unfold two. rewrite <- (crs_hd _ r r' Pd (sc_crs _ _ _ _ T)). destruct (hd_is (ch ".") r) eqn:E2; cbn [snd]; [eapply sc_trans; [exact T|now apply (crs_tl (ch ".")); [|exact (sc_crs _ _ _ _ T)|]]|exact T]. }
  do 11 (easy1 One Two).
  nxt. { rewrite <- (crs_hd _ r r' Pm H). nxt; [|apply One]. match goal with E : hd_is (ch "-") r = true |- _ => pose proof (crs_tl _ _ _ Pm H E) as T end. cbn [fst snd]. split; [reflexivity|]. eapply sc_trans; [exact S1|]. eapply sc_trans; [exact T|]. apply crs_dcomment. exact (sc_crs _ _ _ _ T). }
  nxt. { assert (Hd : is_delim c) by (match goal with E : _ || _ = true |- _ => apply orb_true_iff in E as [E|E]; apply N.eqb_eq in E as ->; [left|right]; reflexivity end). destruct (crs_dstr c (S (length r')) Hd r r' ltac:(lia) H) as [A B]. cbn [fst snd]. rewrite A. split; [reflexivity|now apply sc_cons]. }
  nxt. { cbn [fst snd]. rewrite (crs_takew is_ident_continue r r' eq_refl eq_refl H). split; [reflexivity|]. apply sc_cons, crs_nonl; [reflexivity|exact H]. }
  nxt. { cbn [fst snd]. split; [reflexivity|]. apply crs_dnumber. now constructor. }
  nxt. { cbn [fst snd]. split; [reflexivity|]. apply sc_cons, crs_dropw; [reflexivity|exact H]. }
  cbn [fst snd]. split; [reflexivity|exact S1].
Qed.
