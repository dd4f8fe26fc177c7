(** CrLfTokens.v — the tokens of a text with carriage returns before some newlines (for C89). *)
From Verif Require Import Base SyntaxKind Accept Lexer LexSpec LexerDirect LexerProofs LexerClass LexRules Parser Grammar
  Tree TreeSink ParserTree SinkProofs ParseProofs PropsLexRules LexClean CrLf.

Lemma crs_app_inv a : forall b c, crs (a ++ b) c -> exists a' b', c = a' ++ b' /\ crs a a' /\ crs b b'.
Proof.
  induction a as [|x a IH]; intros b c H; [exists [], c; repeat split; [constructor|exact H]|]. cbn [app] in H. inversion H as [|? ? c' H'|? c' H']; subst.
  - destruct (IH _ _ H') as (a' & b' & -> & A & B). exists (x :: a'), b'. repeat split; [now constructor|exact B].
  - destruct (IH _ _ H') as (a' & b' & -> & A & B). exists (13%N :: 10%N :: a'), b'. repeat split; [now constructor|exact B].
Qed.
Lemma crs_no_newline x y : ~ In 10%N x -> crs x y -> y = x.
Proof. intros F H. induction H; [reflexivity|f_equal; apply IHcrs; intros I; apply F; now right|]. destruct F. now left. Qed.

(** String tokens that are read right. *)
Definition strs (x x' : text) : Prop := (exists q p, quote_char q /\ x = [q] ++ p ++ [q] /\ x' = x) \/ exists n body body', x = long_open n ++ body ++ long_close n /\ x' = long_open n ++ body' ++ long_close n /\ crs body body'.
(** Tokens of the two texts. *)
Inductive al (F : Prop) : list rtok -> list rtok -> Prop :=
| al_nil : al F [] []
| al_cons k x x' r r' : sc (x ++ texts r) (texts r) (x' ++ texts r') (texts r') -> (F -> k = KStr -> strs x x') -> al F r r' -> al F ((k, x) :: r) ((k, x') :: r').

Lemma al_weaken (F G : Prop) r r' : (G -> F) -> al F r r' -> al G r r'.
Proof. intros W H. induction H; constructor; auto. Qed.
Lemma al_skip F a : forall b a' b', al F (a ++ b) (a' ++ b') -> length a = length a' -> al F b b' /\ sc (texts (a ++ b)) (texts b) (texts (a' ++ b')) (texts b').
Proof.
  induction a as [|p a IH]; intros b [|p' a'] b' H L; try discriminate; cbn [app] in *.
  - split; [exact H|]. apply sc_refl. clear L. induction H as [|k x x' r r' S _ _ _]; [constructor|]. exact (sc_top _ _ _ _ S).
  - inversion H as [|k x x' r r' S P H']; subst. destruct (IH _ _ _ H' ltac:(cbn in L; lia)) as [A B]. split; [exact A|]. eapply sc_trans; [exact S|exact B].
Qed.
Lemma al_kinds F r r' : al F r r' -> map fst r = map fst r'.
Proof. induction 1; cbn [map fst]; congruence. Qed.
Lemma al_crs F r r' : al F r r' -> crs (texts r) (texts r').
Proof. destruct 1 as [|k x x' r r' S _ _]; [constructor|]. exact (sc_top _ _ _ _ S). Qed.

(** ** The tokens *)
Lemma sc_inv x b x' b' : sc (x ++ b) b (x' ++ b') b' -> crs b b' /\
  (crs x x' \/ exists y b0 b0', x' = y ++ [13%N] /\ crs x y /\ b = 10%N :: b0 /\ b' = 10%N :: b0').
Proof. intros (z & z' & E & E' & C & H). apply app_inv_tail in E as <-. apply app_inv_tail in E' as <-. auto. Qed.
Lemma sc_split t b t' b' : sc t b t' b' -> exists x x', t = x ++ b /\ t' = x' ++ b'.
Proof. intros (x & x' & E & E' & _). eauto. Qed.

Lemma in_repeat_eq (A : Type) (c d : A) n : In c (repeat d n) -> c = d.
Proof. apply repeat_spec. Qed.
Lemma no_newline_open n : ~ In 10%N (long_open n).
Proof. unfold long_open. rewrite !in_app_iff. intros [H|[H|H]]; [cbn in H; intuition discriminate|apply repeat_spec in H; discriminate|cbn in H; intuition discriminate]. Qed.
Lemma no_newline_close n : ~ In 10%N (long_close n).
Proof. unfold long_close. rewrite !in_app_iff. intros [H|[H|H]]; [cbn in H; intuition discriminate|apply repeat_spec in H; discriminate|cbn in H; intuition discriminate]. Qed.
Lemma first_stop_newline q r p s : first_stop q r p s -> ~ In 10%N p.
Proof.
  intros [[E _] M] I. apply in_split in I as (a & b & ->). assert (stops q r a (10%N :: b ++ s)).
  { split; [rewrite E, <- app_assoc; reflexivity|]. right. left. cbn. auto. }
  apply M in H. rewrite app_length in H. cbn [length] in H. exact (Nat.nle_succ_diag_l _ (Nat.le_trans _ _ _ (Nat.le_trans _ _ _ (le_n_S _ _ (Nat.le_add_r (length a) (length b))) (eq_ind _ (fun z => z <= _) (le_n _) _ (Nat.add_succ_r _ _))) H)).
Qed.
Lemma str_cases x b : token_rule KStr None x b -> (exists q p, x = [q] ++ p ++ [q] /\ quote_char q /\ ~ In 10%N p) \/ exists n m, x = long_open n ++ m ++ long_close n.
Proof.
  intros H. inversion H as [k0 l0 b0 Hi Hl|k0 l0 b0 Hi Hb|l0 b0 Hs Hk Hb|l0 b0 Hn Hl|l0 b0 Hn Hl Hb|x0 b0 Hp Hx Hb|x0 c y b0 Hc H2 Hy Hb|x0 Hc|q p b0 Hq Hf|q p b0 Hq Hf Hb|q p b0 Hq Hf Hb|n o x0 c b0 Ho Hc H2 Ek Ee|n o x0 Ho Hc|b0 Hb|c b0 Hk]; subst.
  - destruct (spelling_kind _ _ Hi). congruence.
  - destruct (keyword_kind _ _ Hi). congruence.
  - left. exists q, p. split; [reflexivity|]. split; [exact Hq|exact (first_stop_newline _ _ _ _ Hf)].
  - right. destruct o as [|o0 o]; [discriminate Ee|]. destruct c as [|c0 c]; [discriminate Ee|]. destruct Ho as [Ho|(Ho & _)]; [|discriminate Ho]. destruct H2 as [H2|(H2 & _)]; [|discriminate H2]. rewrite Ho, H2.
    exists n, x0. unfold long_open, long_close. now rewrite <- !app_assoc.
Qed.
Lemma str_last x b : token_rule KStr None x b -> forall y, x <> y ++ [13%N].
Proof.
  intros H y E. apply str_cases in H as [(q & p & -> & Q & _)|(n & m & ->)].
  - change ([q] ++ p ++ [q]) with ((q :: p) ++ [q]) in E. apply app_inj_tail in E as [_ E]. destruct Q as [->| ->]; discriminate E.
  - unfold long_close in E. rewrite !app_assoc in E. apply app_inj_tail in E as [_ E]. discriminate E.
Qed.
Lemma str_shape x b x' b' : token_rule KStr None x b -> token_rule KStr None x' b' -> sc (x ++ b) b (x' ++ b') b' -> strs x x'.
Proof.
  intros H H' S. apply sc_inv in S as [_ [C|(y & _ & _ & E & _)]]; [|destruct (str_last _ _ H' _ E)]. clear H'. apply str_cases in H as [(q & p & -> & Q & F)|(n & m & ->)].
  - left. exists q, p. split; [exact Q|]. split; [reflexivity|]. apply crs_no_newline in C; [exact C|]. rewrite !in_app_iff. destruct Q as [->| ->]; cbn; intuition discriminate.
  - right. apply crs_app_inv in C as (a' & b0 & -> & A & B). apply crs_app_inv in B as (m' & c' & -> & B & C).
    apply crs_no_newline in A; [|apply no_newline_open]. apply crs_no_newline in C; [|apply no_newline_close]. subst. exists n, m, m'. auto.
Qed.

Lemma Lexed_crs t ls : Lexed t ls -> forall t', crs t t' -> exists ls', Lexed t' ls' /\ map lt_err ls = map lt_err ls' /\
  al (Forall (fun x => lt_err x = None) ls) (rt_of ls) (rt_of ls').
Proof.
  induction 1 as [|k e l b ls Hl Hd Hls IH]; intros t' C.
  - inversion C; subst. exists []. repeat split; constructor.
  - assert (Ht : l ++ b <> []) by (destruct l; [now destruct Hl|discriminate]).
    destruct (crs_dlex _ _ C Ht) as [E S]. rewrite Hd in E, S. cbn [fst snd] in E, S. destruct (dlex t') as [ke' b'] eqn:Hd'. cbn [fst snd] in E, S. subst ke'.
    destruct (IH _ (sc_crs _ _ _ _ S)) as (ls' & Hls' & Ee & A). destruct (sc_split _ _ _ _ S) as (x & l' & Ex & ->). apply app_inv_tail in Ex as <-.
    assert (Hl' : l' <> []).
    { intros ->. cbn [app] in *. pose proof (crs_len _ _ C) as L1. rewrite app_length in L1. pose proof (sc_inv _ _ [] _ S) as [L2 [L3|(y & ? & ? & E & _)]].
      - inversion L3; subst. now destruct Hl.
      - destruct y; discriminate E. }
    exists ((k, e, l') :: ls'). split; [now constructor|]. split; [cbn [map lt_err fst snd]; unfold lt_err in *; cbn [fst snd]; now rewrite Ee|].
    change (rt_of ((k, e, l) :: ls)) with ((k, l) :: rt_of ls). change (rt_of ((k, e, l') :: ls')) with ((k, l') :: rt_of ls').
    pose proof (Lexed_text _ _ Hls) as Tb. pose proof (Lexed_text _ _ Hls') as Tb'. rewrite <- rt_of_text in Tb, Tb'.
    apply al_cons.
    + rewrite <- Tb, <- Tb'. exact S.
    + intros F ->. apply Forall_cons_iff in F as [F _]. cbn in F. subst e. eapply str_shape; [| |exact S].
      * apply step_rule. exact (dlex_step _ _ _ _ Hl Hd).
      * apply step_rule. exact (dlex_step _ _ _ _ Hl' Hd').
    + clear - A Tb. revert A. apply al_weaken. intros F. now apply Forall_cons_iff in F.
Qed.
