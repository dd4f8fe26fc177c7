(** PropsShape.v — C68: the implementation's own reading of programs; C69: the tree depends on the kinds of the
    tokens only. Vocabulary: LuaSyntax.v, LuaDialect.v, ParseSpec.v. *)
From Verif Require Import Base SyntaxKind TokenSet Lexer LexSpec LexerDirect LexerProofs LexerNum BindingPowers Parser Grammar
  Event EventProofs Tree TreeSink ParserTree SinkProofs GrammarSpec Ast ParseSpec ParseProofs StrictTree DressProofs
  Validation ValidProofs PropsLexer PropsParser TextEdit Ptr PropsPtr Reparse PropsReparse LuaSyntax LuaDialect LuaRun LuaComplete LuaTree PropsLua.

(** * C69 Only kinds matter *)
(** The error stands between the same two tokens in both texts, and says the same. *)
Definition same_place (xs1 xs2 : list (kind * text)) (e1 e2 : syntax_error) : Prop :=
  e_msg e1 = e_msg e2 /\ exists i j, e_range e1 = mkRange (blen (texts (firstn i xs1))) (blen (texts (firstn j xs1))) /\
    e_range e2 = mkRange (blen (texts (firstn i xs2))) (blen (texts (firstn j xs2))).

Lemma firstn_pre {A} (a b : list A) : firstn (length a) (a ++ b) = a.
Proof. rewrite firstn_app, Nat.sub_diag, firstn_all. cbn. apply app_nil_r. Qed.
Lemma same_place_at (c1 d1 r1 c2 d2 r2 : list rtok) m : length c1 = length c2 -> length d1 = length d2 ->
  same_place (c1 ++ d1 ++ r1) (c2 ++ d2 ++ r2) (mkErr m (mkRange (blen (texts c1)) (blen (texts c1) + blen (texts d1)))) (mkErr m (mkRange (blen (texts c2)) (blen (texts c2) + blen (texts d2)))).
Proof.
  intros E1 E2. split; [reflexivity|]. exists (length c1), (length (c1 ++ d1)). cbn [e_range]. split.
  - rewrite firstn_pre, app_assoc, firstn_pre, texts_app, blen_app. reflexivity.
  - rewrite E1, firstn_pre. replace (length (c1 ++ d1)) with (length (c2 ++ d2)) by (rewrite !app_length; lia). rewrite app_assoc, firstn_pre, texts_app, blen_app. reflexivity.
Qed.
Lemma kinds_len {A B} (l l' : list (A * B)) : map fst l = map fst l' -> length l = length l'.
Proof. intros E. rewrite <- (map_length fst l), E. apply map_length. Qed.
Lemma used_len (u l u' l' r r' : list rtok) : map fst r = map fst r' -> r = u ++ l -> r' = u' ++ l' -> map fst l = map fst l' -> length u = length u'.
Proof. intros A -> -> B. apply kinds_len in A. apply kinds_len in B. change (length (u ++ l) = length (u' ++ l')) in A. change (length l = length l') in B. rewrite !app_length in A. lia. Qed.
Lemma Dress_places fs pos rt a : Dress fs pos rt a -> forall pos' rt' a' c c', Dress fs pos' rt' a' -> map fst rt = map fst rt' -> length c = length c' ->
  pos = blen (texts c) -> pos' = blen (texts c') -> Forall2 (same_place (c ++ rt) (c' ++ rt')) (dr_errs a) (dr_errs a').
Proof.
  induction 1 as [pos rt|k fs pos rt tr p rest b He Hd IH|e fs pos rt b Hd IH|e fs gs pos rt tr rest a b He Ha IHa Hb IHb|k fs gs pos rt tr rest a b He Ha IHa Hb IHb];
    intros pos' rt' a' c c' H' E L P P'.
  - inversion H'. constructor.
  - inversion H' as [|k' fs' pos0 rt0 tr' p' rest' b' He' Hd'| | |]; subst. cbn [dr_errs].
    destruct (eat_kinds _ _ _ _ _ _ E He He') as [K1 K2]. cbn [map fst] in K2. injection K2 as K2 K3.
    rewrite (eat_app _ _ _ He), (eat_app _ _ _ He'). specialize (IH _ _ _ (c ++ tr ++ [p]) (c' ++ tr' ++ [p']) Hd' K3).
    replace (c ++ tr ++ p :: rest) with ((c ++ tr ++ [p]) ++ rest) by (rewrite <- !app_assoc; reflexivity). replace (c' ++ tr' ++ p' :: rest') with ((c' ++ tr' ++ [p']) ++ rest') by (rewrite <- !app_assoc; reflexivity).
    apply IH.
    + assert (LT : length tr = length tr') by exact (kinds_len _ _ K1). assert (LP : length [p] = length [p']) by reflexivity. rewrite !app_length. congruence.
    + rewrite (texts_app c), blen_app. reflexivity.
    + rewrite (texts_app c'), blen_app. reflexivity.
  - inversion H' as [| |e' fs' pos0 rt0 b' Hd'| |]; subst. cbn [dr_errs]. constructor; [|exact (IH _ _ _ _ _ Hd' E L eq_refl eq_refl)].
    pose proof (same_place_at c [] rt c' [] rt' (perr_display e) L eq_refl) as G. cbn [app] in G. unfold texts at 3 6 in G. cbn [flat_map blen] in G. rewrite !Nat.add_0_r in G. exact G.
  - inversion H' as [| | |e' fs' gs' pos0 rt0 tr' rest' a1 b1 He' Ha' Hb'|]; subst. cbn [dr_errs].
    destruct (eat_kinds _ _ _ _ _ _ E He He') as [K1 K2]. assert (LT : length tr = length tr') by exact (kinds_len _ _ K1).
    destruct (Dress_bare _ _ _ _ Ha _ _ _ Ha' K2) as [_ K3]. pose proof (Dress_used _ _ _ _ Ha) as U. pose proof (Dress_used _ _ _ _ Ha') as U'.
    assert (LU : length (dr_used a) = length (dr_used a1)) by exact (used_len _ _ _ _ _ _ K2 U U' K3).
    rewrite (eat_app _ _ _ He), (eat_app _ _ _ He').
    apply Forall2_app; [apply Forall2_app|].
    + rewrite !(app_assoc _ _ rest), !(app_assoc _ _ rest'). apply (IHa _ _ _ _ _ Ha' K2).
      * rewrite !app_length; lia.
      * rewrite texts_app, blen_app; reflexivity.
      * rewrite texts_app, blen_app; reflexivity.
    + constructor; [|constructor]. rewrite U, U'. rewrite !(app_assoc c), !(app_assoc c').
      pose proof (same_place_at (c ++ tr) (dr_used a) (dr_left a) (c' ++ tr') (dr_used a1) (dr_left a1) (perr_display e) ltac:(rewrite !app_length; lia) LU) as G.
      rewrite !(texts_app c), !(texts_app c'), !blen_app in G. exact G.
    + rewrite U, U'. rewrite !(app_assoc tr), !(app_assoc c), !(app_assoc tr'), !(app_assoc c'). apply (IHb _ _ _ _ _ Hb' K3).
      * rewrite !app_length; lia.
      * rewrite !texts_app, !blen_app; lia.
      * rewrite !texts_app, !blen_app; lia.
  - inversion H' as [| | | |k' fs' gs' pos0 rt0 tr' rest' a1 b1 He' Ha' Hb']; subst. cbn [dr_errs].
    destruct (eat_kinds _ _ _ _ _ _ E He He') as [K1 K2]. assert (LT : length tr = length tr') by exact (kinds_len _ _ K1).
    destruct (Dress_bare _ _ _ _ Ha _ _ _ Ha' K2) as [_ K3]. pose proof (Dress_used _ _ _ _ Ha) as U. pose proof (Dress_used _ _ _ _ Ha') as U'.
    assert (LU : length (dr_used a) = length (dr_used a1)) by exact (used_len _ _ _ _ _ _ K2 U U' K3).
    rewrite (eat_app _ _ _ He), (eat_app _ _ _ He').
    apply Forall2_app.
    + rewrite !(app_assoc _ _ rest), !(app_assoc _ _ rest'). apply (IHa _ _ _ _ _ Ha' K2).
      * rewrite !app_length; lia.
      * rewrite texts_app, blen_app; reflexivity.
      * rewrite texts_app, blen_app; reflexivity.
    + rewrite U, U'. rewrite !(app_assoc tr), !(app_assoc c), !(app_assoc tr'), !(app_assoc c'). apply (IHb _ _ _ _ _ Hb' K3).
      * rewrite !app_length; lia.
      * rewrite !texts_app, !blen_app; lia.
      * rewrite !texts_app, !blen_app; lia.
Qed.

(** Two texts whose tokens have the same kinds, in order: the trees differ in the texts of the tokens only, and the
    parser reports the same errors at the same tokens. *)
Theorem C69_kinds_decide : forall t1 t2 xs1 xs2, lexemes_of t1 xs1 -> lexemes_of t2 xs2 -> map fst xs1 = map fst xs2 ->
  forall toks1 e1 g1 errs1 toks2 e2 g2 errs2,
    tokenize t1 = Ok (toks1, e1) -> parse_tokens t1 toks1 = Ok (g1, errs1) ->
    tokenize t2 = Ok (toks2, e2) -> parse_tokens t2 toks2 = Ok (g2, errs2) ->
    bare g1 = bare g2 /\ green_leaves g1 = xs1 /\ green_leaves g2 = xs2 /\ Forall2 (same_place xs1 xs2) errs1 errs2.
Proof.
  intros t1 t2 xs1 xs2 L1 L2 E toks1 e1 g1 errs1 toks2 e2 g2 errs2 T1 P1 T2 P2.
  destruct (parse_tokens_inv _ _ _ _ T1 P1) as (ls1 & fs1 & a1 & H1 & _ & _ & Eq). injection Eq as -> ->.
  destruct (parse_tokens_inv _ _ _ _ T2 P2) as (ls2 & fs2 & a2 & H2 & _ & _ & Eq). injection Eq as -> ->.
  apply (parsed_lexemes_eq _ _ _ _ _ H1) in L1. apply (parsed_lexemes_eq _ _ _ _ _ H2) in L2. subst xs1 xs2.
  assert (En : map fst (nontriv (rt_of ls1)) = map fst (nontriv (rt_of ls2))).
  { revert E. generalize (rt_of ls1) (rt_of ls2). clear. induction l as [|[k x] l IH]; intros [|[k' x'] l'] E; try discriminate; [reflexivity|].
    cbn [map fst] in E. injection E as <- E. cbn [nontriv filter triv fst]. unfold triv. cbn [fst]. destruct (is_trivia k); cbn [negb map fst]; [exact (IH _ E)|f_equal; exact (IH _ E)]. }
  assert (fs1 = fs2) by exact (parsed_tree_eq _ _ _ _ _ _ _ _ H1 H2 En). subst fs2.
  pose proof (parsed_Dress _ _ _ _ H1) as D1. pose proof (parsed_Dress _ _ _ _ H2) as D2.
  destruct (Dress_bare _ _ _ _ D1 _ _ _ D2 E) as [I1 I2].
  split; [unfold root_of; cbn [bare map]; rewrite !map_app, I1, (bare_gtok _ _ I2); reflexivity|].
  split; [exact (root_leaves _ _ _ _ H1)|]. split; [exact (root_leaves _ _ _ _ H2)|].
  exact (Dress_places _ _ _ _ D1 _ _ _ [] [] D2 E eq_refl eq_refl eq_refl).
Qed.
Print Assumptions C69_kinds_decide.

(** Renaming a variable and changing a number, in a program with an error. *)
Example C69_case :
  let t1 := txt "local x = = 1" in let t2 := txt "local long  = = 0xff" in
  match tokenize t1, tokenize t2 with
  | Ok (k1, _), Ok (k2, _) => map t_kind k1 = map t_kind k2 /\
      match parse_tokens t1 k1, parse_tokens t2 k2 with
      | Ok (g1, errs1), Ok (g2, errs2) => bare g1 = bare g2 /\ errs1 <> [] /\ map e_range errs1 <> map e_range errs2 /\ map e_msg errs1 = map e_msg errs2
      | _, _ => False
      end
  | _, _ => False
  end.
Proof. vm_compute. repeat split; discriminate. Qed.

(** * C68 The own reading *)
(** Every program, written with the parentheses and separators the implementation's own rules ask for and any
    layout, is parsed without error to the tree it stands for. *)
Theorem C68_reading : forall t xs b, lexemes_of t xs -> map fst (code xs) = block_w b -> block_ok impl b = true ->
  exists toks lex_errs g, tokenize t = Ok (toks, lex_errs) /\ parse_tokens t toks = Ok (g, []) /\ skel g = [file_t b].
Proof. exact C20_own_reading. Qed.
Print Assumptions C68_reading.

(** Any expression can be written so: with the parentheses of its own table, from which the expression can be read
    back. *)
Theorem C68_any_expression : forall e t xs, leaves_ok impl e = true -> lexemes_of t xs -> map fst (code xs) = KReturnKw :: exp_w (minparen impl e) ->
  unparen (minparen impl e) = unparen e /\
  exists toks lex_errs g, tokenize t = Ok (toks, lex_errs) /\ parse_tokens t toks = Ok (g, []) /\
    skel g = [PNode KSourceFile [PNode KBlock [PNode KReturnStmt [PTok KReturnKw; PNode KMultivalExpr [exp_t (minparen impl e)]]]]].
Proof. exact C18_own_table. Qed.
Print Assumptions C68_any_expression.

(** And the reading is unique. *)
Theorem C68_unambiguous : forall b1 b2, block_ok impl b1 = true -> block_ok impl b2 = true -> block_w b1 = block_w b2 -> file_t b1 = file_t b2.
Proof. exact C20_unambiguous. Qed.
Print Assumptions C68_unambiguous.
