(** LexClean.v — whether a lexeme is an error does not depend on what stands after it (C70, used by C35). *)
From Verif Require Import Base SyntaxKind Lexer LexSpec LexerDirect LexerProofs LexerClass LexerProps LexerFwd LexRules PropsLexRules.

Lemma mid_split {A} (x : list A) t y p q : x ++ t :: y = p ++ q ->
  (exists m, p = x ++ t :: m /\ y = m ++ q) \/ (exists m, x = p ++ m /\ q = m ++ t :: y).
Proof.
  revert p. induction x as [|a x IH]; intros p E.
  - destruct p as [|c p]; cbn in E; [right; exists []; auto|]. injection E as <- ->. left. exists p. auto.
  - destruct p as [|c p]; cbn in E; [right; exists (a :: x); auto|]. injection E as <- E. destruct (IH _ E) as [(m & -> & ->)|(m & -> & ->)]; [left|right]; exists m; auto.
Qed.
Lemma first_stop_move q p b b' : first_stop q (p ++ [q] ++ b) p ([q] ++ b) -> first_stop q (p ++ [q] ++ b') p ([q] ++ b').
Proof.
  intros [(_ & Hs) Hm]. split.
  - split; [reflexivity|]. cbn [app starts] in *. destruct Hs as [X|[X|X]]; [discriminate X|right; left; exact X|right; right; exact X].
  - intros p1 s1 (E & X). destruct (Nat.le_gt_cases (length p) (length p1)) as [L|L]; [exact L|]. cbn [app] in E.
    destruct (mid_split p q b' p1 s1 E) as [(m & -> & ->)|(m & -> & ->)]; [rewrite app_length in L; lia|].
    destruct m as [|c m]; [rewrite app_nil_r in L; lia|]. apply (Hm p1 ((c :: m) ++ q :: b)). split; [cbn [app]; now rewrite <- app_assoc|]. cbn [app starts] in *. destruct X as [X|[X|X]]; [discriminate X|auto|auto].
Qed.
Lemma first_close_move n x b b' : first_close n (x ++ txt "]" ++ repeat 61%N n ++ txt "]" ++ b) x (txt "]" ++ b) ->
  first_close n (x ++ txt "]" ++ repeat 61%N n ++ txt "]" ++ b') x (txt "]" ++ b').
Proof.
  intros [(_ & Hl & _) Hm]. split; [split; [reflexivity|]; split; [exact Hl|cbn; discriminate]|].
  intros p1 s1 (E & Hl1 & Hs1). destruct (Nat.le_gt_cases (length x) (length p1)) as [L|L]; [exact L|].
  destruct (mid_split x 93%N (repeat 61%N n ++ txt "]" ++ b') p1 (txt "]" ++ repeat 61%N n ++ s1) E) as [(m & -> & E1)|(m & -> & E1)]; [rewrite app_length in L; lia|].
  destruct m as [|c m]; [rewrite app_nil_r in L; lia|]. change (txt "]" ++ repeat 61%N n ++ s1) with (93%N :: repeat 61%N n ++ s1) in E1. cbn [app] in E1. injection E1 as <- E1. symmetry in E1.
  destruct (mid_split m 93%N _ (repeat 61%N n) s1 E1) as [(m2 & E2 & _)|(m2 & -> & ->)].
  - exfalso. assert (I : In 93%N (repeat 61%N n)) by (rewrite E2; apply in_or_app; right; left; reflexivity). apply repeat_spec in I. discriminate I.
  - apply (Hm p1 (m2 ++ 93%N :: repeat 61%N n ++ txt "]" ++ b)). split; [|split; [exact Hl1|]].
    + rewrite <- !app_assoc. cbn [app txt]. rewrite <- !app_assoc. reflexivity.
    + destruct m2; cbn [app starts] in *; [discriminate|exact Hs1].
Qed.
Lemma spelling_kind k sp : In (k, sp) spellings -> k <> KStr /\ k <> KUnknown.
Proof.
  intros H. assert (F : forallb (fun p => negb (kind_eqb (fst p) KStr) && negb (kind_eqb (fst p) KUnknown)) spellings = true) by (vm_compute; reflexivity).
  rewrite forallb_forall in F. specialize (F _ H). cbn [fst] in F. apply andb_true_iff in F as [F1 F2]. split; intros ->; discriminate.
Qed.
Lemma keyword_kind w k : In (w, k) keywords -> k <> KStr /\ k <> KUnknown.
Proof.
  intros H. assert (F : forallb (fun p => negb (kind_eqb (snd p) KStr) && negb (kind_eqb (snd p) KUnknown)) keywords = true) by (vm_compute; reflexivity).
  rewrite forallb_forall in F. specialize (F _ H). cbn [snd] in F. apply andb_true_iff in F as [F1 F2]. split; intros ->; discriminate.
Qed.

(** A closed string is the same token before every text. *)
Lemma closed_anywhere l b b' : token_rule KStr None l b -> token_rule KStr None l b'.
Proof.
  intros H. inversion H as [k0 l0 b0 Hi Hl|k0 l0 b0 Hi Hb|l0 b0 Hs Hk Hb|l0 b0 Hn Hl|l0 b0 Hn Hl Hb|x b0 Hp Hx Hb|x c y b0 Hc H2 Hy Hb|x Hc|q p b0 Hq Hf|q p b0 Hq Hf Hb|q p b0 Hq Hf Hb|n o x c b0 Ho Hc H2 Ek Ee|n o x Ho Hc|b0 Hb|c b0 Hk]; subst.
  - destruct (spelling_kind _ _ Hi). congruence.
  - destruct (keyword_kind _ _ Hi). congruence.
  - exact (TR_string q p b' Hq (first_stop_move _ _ _ _ Hf)).
  - destruct o as [|o0 o]; [discriminate Ee|]. destruct c as [|c0 c]; [discriminate Ee|]. destruct Ho as [Ho|(Ho & _)]; [|discriminate Ho]. destruct H2 as [H2|(H2 & _)]; [|discriminate H2]. rewrite Ho, H2 in *.
    exact (TR_long_string n (txt "[") x (txt "]") b' (or_introl eq_refl) (first_close_move _ _ _ _ Hc) (or_introl eq_refl)).
Qed.
Lemma error_kinds k e l b : token_rule k e l b -> k <> KStr -> k <> KUnknown -> e = None.
Proof. intros H N1 N2. destruct H; try reflexivity; congruence. Qed.

(** A lexeme that is read without an error before one text is read without an error before every other text. *)
Theorem C70_errors_need_no_context : forall k l b e' b', token_rule k None l b -> token_rule k e' l b' -> e' = None.
Proof.
  intros k l b e' b' H H'. destruct (kind_eq_dec k KStr) as [->|N1].
  - destruct (C70_no_choice _ _ _ _ _ _ _ _ H' (closed_anywhere _ _ b' H) eq_refl) as (_ & E & _). exact E.
  - destruct (kind_eq_dec k KUnknown) as [->|N2]; [|exact (error_kinds _ _ _ _ H' N1 N2)].
    inversion H as [k0 l0 b0 Hi Hl|k0 l0 b0 Hi Hb| | | | | | | | | | | |b0 Hb|]; subst.
    + destruct (spelling_kind _ _ Hi). congruence.
    + destruct (keyword_kind _ _ Hi). congruence.
    + inversion H' as [| | | | | | | | | | | | | |c b1 Hk E1 E2 E3]; try reflexivity. exfalso. assert (c = 126%N) by (change (txt "~") with [126%N] in E3; congruence). subst c. apply Hk. unfold known. auto 6.
Qed.
Print Assumptions C70_errors_need_no_context.

(** The lexeme ['a'] before a letter and at the end: no error in either place; ['a] has one in both, but not the same. *)
Example C70_errors_need_no_context_case :
  dlex (txt "'a'b") = ((KStr, None), txt "b") /\ dlex (txt "'a'") = ((KStr, None), []) /\
  dlex (txt "'a") = ((KStr, Some "Could not find closing delimiter `'`"%string), []) /\ dlex (txt "'a" ++ [10%N]) = ((KStr, Some "Unexpected newline in string"%string), [10%N]).
Proof. vm_compute. repeat split. Qed.

(** Tokens all of which appear, without an error, in other texts have no error. *)
Lemma lexed_clean : forall ls p, errors_of p (map lt_tok ls) (map lt_err ls) = [] -> Forall (fun x => lt_err x = None) ls.
Proof.
  induction ls as [|x ls IH]; intros p H; [constructor|]. cbn [map errors_of] in H. destruct (lt_err x) eqn:E; [discriminate|]. constructor; [exact E|exact (IH _ H)].
Qed.
Lemma Lexed_rule t ls : Lexed t ls -> forall x, In x ls -> exists b, token_rule (fst (fst x)) (lt_err x) (snd x) b.
Proof.
  induction 1 as [|k e l b ls Hl Hd Hls IH]; intros x Hin; [destruct Hin|]. destruct Hin as [<-|Hx]; [|exact (IH _ Hx)]. exists b. apply step_rule. now apply dlex_step.
Qed.
Lemma clean_elsewhere t ls ls' : Lexed t ls -> (forall k x, In (k, x) (map (fun y => (fst (fst y), snd y)) ls) -> exists b, token_rule k None x b) ->
  ls' = map lt_tok ls -> errors_of 0 ls' (map lt_err ls) = [].
Proof.
  intros H F ->. apply errors_of_none. apply Forall_forall. intros e Hin. apply in_map_iff in Hin as (x & <- & Hx).
  destruct (Lexed_rule _ _ H _ Hx) as (b & R). destruct (F (fst (fst x)) (snd x)) as (b' & R').
  - apply in_map_iff. exists x. auto.
  - exact (C70_errors_need_no_context _ _ _ _ _ R' R).
Qed.
