(** CrLfTree.v — trees and diagnostics of a text with carriage returns before some newlines (for C89). *)
From Verif Require Import Base SyntaxKind Accept Lexer LexSpec LexerDirect LexerProofs LexRules Parser Grammar
  Tree TreeSink ParserTree SinkProofs Ast ParseProofs DressProofs Validation ValidProofs ValidExact PropsPtr PropsReparse PropsLexRules LexClean CrLf CrLfTokens.

(** The same place of two texts: the rest of one is the rest of the other with carriage returns put before some newlines, and
    so is what stands before; one carriage return may stand directly before the place and belong to the newline that follows it. *)
Definition same_place (t t' : text) (n n' : nat) : Prop := exists x b x' b', t = x ++ b /\ t' = x' ++ b' /\ n = blen x /\ n' = blen x' /\ crs b b' /\
  (crs x x' \/ exists y b0 b0', x' = y ++ [13%N] /\ crs x y /\ b = 10%N :: b0 /\ b' = 10%N :: b0').
Definition same_error (t t' : text) (e e' : syntax_error) : Prop :=
  e_msg e = e_msg e' /\ same_place t t' (r_start (e_range e)) (r_start (e_range e')) /\ same_place t t' (r_end (e_range e)) (r_end (e_range e')).
Definition same_start (t t' : text) (e e' : syntax_error) : Prop :=
  e_msg e = e_msg e' /\ same_place t t' (r_start (e_range e)) (r_start (e_range e')).

(** The tokens [r] and [r'] begin at [n] and [n']. *)
Definition here (t t' : text) (n n' : nat) (r r' : list rtok) : Prop :=
  sc t (texts r) t' (texts r') /\ blen t = n + blen (texts r) /\ blen t' = n' + blen (texts r').
Lemma sc_place t t' b b' n n' : sc t b t' b' -> blen t = n + blen b -> blen t' = n' + blen b' -> same_place t t' n n'.
Proof.
  intros (x & x' & -> & -> & C & H) E E'. exists x, b, x', b'. rewrite blen_app in E, E'. repeat split; auto; lia.
Qed.
Lemma here_place t t' n n' r r' : here t t' n n' r r' -> same_place t t' n n'.
Proof. intros (S & E & E'). exact (sc_place _ _ _ _ _ _ S E E'). Qed.
Lemma here_skip F t t' n n' a b a' b' : here t t' n n' (a ++ b) (a' ++ b') -> al F (a ++ b) (a' ++ b') -> length a = length a' ->
  al F b b' /\ here t t' (n + blen (texts a)) (n' + blen (texts a')) b b'.
Proof.
  intros (S & E & E') A L. destruct (al_skip _ _ _ _ _ A L) as [B C]. split; [exact B|]. split; [exact (sc_trans _ _ _ _ _ _ S C)|].
  rewrite !texts_app, !blen_app in E, E'. split; lia.
Qed.

Lemma map_len (A B : Type) (f : A -> B) a a' : map f a = map f a' -> length a = length a'.
Proof. intros H. apply (f_equal (@length B)) in H. now rewrite !map_length in H. Qed.
Lemma Dress_len fs pos rt a : Dress fs pos rt a -> forall pos' rt' a', Dress fs pos' rt' a' -> map fst rt = map fst rt' -> length (dr_used a) = length (dr_used a').
Proof.
  intros H pos' rt' a' H' E. destruct (Dress_bare _ _ _ _ H _ _ _ H' E) as [_ L]. pose proof (Dress_used _ _ _ _ H) as U. pose proof (Dress_used _ _ _ _ H') as U'.
  apply map_len in E. apply map_len in L. rewrite U, U', !app_length in E. refine (proj1 (Nat.add_cancel_r _ _ (length (dr_left a))) (eq_trans E _)). f_equal. symmetry. exact L.
Qed.
Lemma Dress_same F t t' fs pos rt a : Dress fs pos rt a -> forall pos' rt' a', Dress fs pos' rt' a' -> al F rt rt' -> here t t' pos pos' rt rt' ->
  Forall2 (same_error t t') (dr_errs a) (dr_errs a') /\ al F (dr_left a) (dr_left a') /\
  here t t' (pos + blen (texts (dr_used a))) (pos' + blen (texts (dr_used a'))) (dr_left a) (dr_left a').
Proof.
  assert (HU : forall fs pos rt a pos' rt' a', Dress fs pos rt a -> Dress fs pos' rt' a' -> al F rt rt' -> here t t' pos pos' rt rt' ->
    al F (dr_left a) (dr_left a') /\ here t t' (pos + blen (texts (dr_used a))) (pos' + blen (texts (dr_used a'))) (dr_left a) (dr_left a')).
  { intros fs0 pos0 rt0 a0 pos1 rt1 a1 D D' A Hh. pose proof (Dress_used _ _ _ _ D) as U. pose proof (Dress_used _ _ _ _ D') as U'.
    pose proof (Dress_len _ _ _ _ D _ _ _ D' (al_kinds _ _ _ A)) as L. rewrite U, U' in A, Hh. exact (here_skip _ _ _ _ _ _ _ _ _ Hh A L). }
  assert (HE : forall rt rt' tr rest tr' rest' pos pos', eat rt = (tr, rest) -> eat rt' = (tr', rest') -> al F rt rt' -> here t t' pos pos' rt rt' ->
    al F rest rest' /\ here t t' (pos + blen (texts tr)) (pos' + blen (texts tr')) rest rest').
  { intros rt0 rt1 tr0 rest0 tr1 rest1 pos0 pos1 E E' A Hh. destruct (eat_kinds _ _ _ _ _ _ (al_kinds _ _ _ A) E E') as [K _]. apply map_len in K.
    rewrite (eat_app _ _ _ E), (eat_app _ _ _ E') in A, Hh. exact (here_skip _ _ _ _ _ _ _ _ _ Hh A K). }
  enough (G : forall fs pos rt a, Dress fs pos rt a -> forall pos' rt' a', Dress fs pos' rt' a' -> al F rt rt' -> here t t' pos pos' rt rt' -> Forall2 (same_error t t') (dr_errs a) (dr_errs a')).
  { intros D pos' rt' a' D' A Hh. split; [exact (G _ _ _ _ D _ _ _ D' A Hh)|exact (HU _ _ _ _ _ _ _ D D' A Hh)]. }
  clear fs pos rt a. induction 1 as [pos rt|k fs pos rt tr p rest b E D IH|e fs pos rt b D IH|e fs gs pos rt tr rest a b E D1 IH1 D2 IH2|k fs gs pos rt tr rest a b E D1 IH1 D2 IH2];
    intros pos' rt' a' D' A Hh; inversion D' as [|? ? ? ? tr' p' rest' b' E' X|? ? ? ? b' X|? ? ? ? ? tr' rest' x' b' E' X1 X2|? ? ? ? ? tr' rest' x' b' E' X1 X2]; subst; cbn [dr_errs].
  - constructor.
  - destruct (HE _ _ _ _ _ _ _ _ E E' A Hh) as [A1 H1]. change (p :: rest) with ([p] ++ rest) in *. change (p' :: rest') with ([p'] ++ rest') in *.
    destruct (here_skip _ _ _ _ _ _ _ _ _ H1 A1 eq_refl) as [A2 H2]. apply (IH _ _ _ X A2).
    rewrite !texts_app, !blen_app, !Nat.add_assoc. exact H2.
  - constructor; [|exact (IH _ _ _ X A Hh)]. split; [reflexivity|]. cbn [e_range r_start r_end]. split; exact (here_place _ _ _ _ _ _ Hh).
  - destruct (HE _ _ _ _ _ _ _ _ E E' A Hh) as [A1 H1]. destruct (HU _ _ _ _ _ _ _ D1 X1 A1 H1) as [A2 H2].
    apply Forall2_app; [apply Forall2_app; [exact (IH1 _ _ _ X1 A1 H1)|repeat constructor]|].
    + cbn [e_range r_start]. exact (here_place _ _ _ _ _ _ H1).
    + cbn [e_range r_end]. exact (here_place _ _ _ _ _ _ H2).
    + apply (IH2 _ _ _ X2 A2). rewrite !texts_app, !blen_app, !Nat.add_assoc. exact H2.
  - destruct (HE _ _ _ _ _ _ _ _ E E' A Hh) as [A1 H1]. destruct (HU _ _ _ _ _ _ _ D1 X1 A1 H1) as [A2 H2].
    apply Forall2_app; [exact (IH1 _ _ _ X1 A1 H1)|]. apply (IH2 _ _ _ X2 A2). rewrite !texts_app, !blen_app, !Nat.add_assoc. exact H2.
Qed.

(** The errors of the lexer. *)
Lemma errors_same F t t' ls : forall ls' n n', map lt_err ls = map lt_err ls' -> al F (rt_of ls) (rt_of ls') -> here t t' n n' (rt_of ls) (rt_of ls') ->
  Forall2 (same_error t t') (errors_of n (map lt_tok ls) (map lt_err ls)) (errors_of n' (map lt_tok ls') (map lt_err ls')).
Proof.
  induction ls as [|x ls IH]; intros [|x' ls'] n n' E A Hh; try discriminate; [constructor|]. cbn [map] in E. injection E as E1 E2.
  change (rt_of (x :: ls)) with ([(fst (fst x), snd x)] ++ rt_of ls) in *. change (rt_of (x' :: ls')) with ([(fst (fst x'), snd x')] ++ rt_of ls') in *.
  destruct (here_skip _ _ _ _ _ _ _ _ _ Hh A eq_refl) as [A1 H1]. cbn [map errors_of]. rewrite <- E1.
  assert (T : forall y : lexed_tok, texts [(fst (fst y), snd y)] = snd y) by (intros y; cbn; apply app_nil_r). rewrite !T in H1.
  change (t_len (lt_tok x)) with (blen (snd x)). change (t_len (lt_tok x')) with (blen (snd x')).
  pose proof (IH _ _ _ E2 A1 H1) as G. destruct (lt_err x); [|exact G]. constructor; [|exact G].
  split; [reflexivity|]. cbn [e_range r_start r_end]. split; [exact (here_place _ _ _ _ _ _ Hh)|exact (here_place _ _ _ _ _ _ H1)].
Qed.

(** ** Elements of the trees *)
Definition twin (F : Prop) (t t' : text) (e e' : elem) : Prop := bare (el_green e) = bare (el_green e') /\ exists c c',
  al F (green_leaves (el_green e) ++ c) (green_leaves (el_green e') ++ c') /\
  here t t' (el_off e) (el_off e') (green_leaves (el_green e) ++ c) (green_leaves (el_green e') ++ c').
Lemma twin_kind F t t' e e' : twin F t t' e e' -> el_kind e = el_kind e' /\ is_gnode (el_green e) = is_gnode (el_green e').
Proof. intros [B _]. unfold el_kind. destruct (el_green e), (el_green e'); cbn [bare] in B; try discriminate; injection B; intros; subst; auto. Qed.
Lemma twin_range F t t' e e' : twin F t t' e e' -> same_place t t' (r_start (el_range e)) (r_start (el_range e')) /\ same_place t t' (r_end (el_range e)) (r_end (el_range e')).
Proof.
  intros (B & c & c' & A & H). unfold el_range. cbn [r_start r_end]. split; [exact (here_place _ _ _ _ _ _ H)|].
  destruct (here_skip _ _ _ _ _ _ _ _ _ H A (bare_len _ _ B)) as [_ H1]. rewrite <- !green_text_leaves in H1. exact (here_place _ _ _ _ _ _ H1).
Qed.
Lemma place_twin F t t' cs : forall cs' o o' c c', map bare cs = map bare cs' -> al F (leaves cs ++ c) (leaves cs' ++ c') -> here t t' o o' (leaves cs ++ c) (leaves cs' ++ c') ->
  Forall2 (twin F t t') (place o cs) (place o' cs').
Proof.
  induction cs as [|g cs IH]; intros [|g' cs'] o o' c c' E A H; try discriminate; [constructor|]. cbn [map] in E. assert (E1 : bare g = bare g') by congruence. assert (E2 : map bare cs = map bare cs') by congruence.
  change (leaves (g :: cs)) with (green_leaves g ++ leaves cs) in *. change (leaves (g' :: cs')) with (green_leaves g' ++ leaves cs') in *. rewrite <- !app_assoc in A, H.
  cbn [place]. constructor.
  - split; [exact E1|]. exists (leaves cs ++ c), (leaves cs' ++ c'). auto.
  - destruct (here_skip _ _ _ _ _ _ _ _ _ H A (bare_len _ _ E1)) as [A1 H1]. unfold green_len. rewrite !green_text_leaves. exact (IH _ _ _ _ _ E2 A1 H1).
Qed.
Lemma twin_children F t t' e e' : twin F t t' e e' -> Forall2 (twin F t t') (el_children_with_tokens e) (el_children_with_tokens e').
Proof.
  destruct e as [o [k cs|k x]], e' as [o' [k' cs'|k' x']]; intros (B & c & c' & A & H); try discriminate; unfold el_children_with_tokens; cbn [el_green el_off] in *; [|constructor].
  cbn [bare] in B. assert (E : map bare cs = map bare cs') by congruence. exact (place_twin _ _ _ _ _ _ _ _ _ E A H).
Qed.
Lemma twin_descs F t t' : forall g o o' g', twin F t t' (mkElem o g) (mkElem o' g') -> Forall2 (twin F t t') (descendants_at o g) (descendants_at o' g').
Proof.
  refine (green_ind' _ _ _).
  - intros k x o o' [k' cs'|k' x'] [B _]; [discriminate|]. constructor.
  - intros k cs FA o o' [k' cs'|k' x'] T; [|destruct T; discriminate]. rewrite !descendants_node. constructor; [exact T|].
    apply twin_children in T. unfold el_children_with_tokens in T. cbn [el_green el_off] in T. revert o o' cs' T.
    induction FA as [|g cs Hg FA IH]; intros o o' [|g' cs'] T; cbn [place] in T; inversion T; subst; [constructor|]. cbn [descs]. apply Forall2_app; auto.
Qed.
Lemma Forall2_filter {A B : Type} (R : A -> B -> Prop) f g l l' : (forall a b, R a b -> f a = g b) -> Forall2 R l l' -> Forall2 R (filter f l) (filter g l').
Proof. intros E. induction 1 as [|a b l l' H1 H2 IH]; [constructor|]. cbn [filter]. rewrite <- (E _ _ H1). destruct (f a); [constructor; auto|exact IH]. Qed.
Lemma Forall2_len {A B : Type} (R : A -> B -> Prop) l l' : Forall2 R l l' -> length l = length l'.
Proof. induction 1; cbn; congruence. Qed.
Lemma ast_children_twin F t t' f e e' : twin F t t' e e' -> Forall2 (twin F t t') (ast_children f e) (ast_children f e').
Proof.
  intros T. unfold ast_children, el_children. apply Forall2_filter; [intros a b X; now rewrite (proj1 (twin_kind _ _ _ _ _ X))|].
  apply Forall2_filter; [intros a b X; exact (proj2 (twin_kind _ _ _ _ _ X))|]. exact (twin_children _ _ _ _ _ T).
Qed.
Lemma map_same F t t' m l l' : Forall2 (twin F t t') l l' -> Forall2 (same_error t t') (map (fun x => mkErr m (el_range x)) l) (map (fun x => mkErr m (el_range x)) l').
Proof. induction 1 as [|a b l l' H1 H2 IH]; [constructor|]. cbn [map]. constructor; [|exact IH]. split; [reflexivity|exact (twin_range _ _ _ _ _ H1)]. Qed.
Lemma one_same F t t' m e e' : twin F t t' e e' -> Forall2 (same_error t t') [mkErr m (el_range e)] [mkErr m (el_range e')].
Proof. intros T. exact (map_same F t t' m [e] [e'] (Forall2_cons _ _ T (Forall2_nil _))). Qed.

Lemma expr_stmt_same F t t' e e' : twin F t t' e e' -> Forall2 (same_error t t') (validate_expr_stmt e) (validate_expr_stmt e').
Proof.
  intros T. unfold validate_expr_stmt, expr_stmt_multival, ast_child. pose proof (ast_children_twin _ _ _ (is_kind KMultivalExpr) _ _ T) as A.
  destruct A as [|mv mv' l l' M _]; cbn [hd_error]; [exact (one_same _ _ _ _ _ _ T)|]. unfold multival_exprs. pose proof (ast_children_twin _ _ _ expr_can_cast _ _ M) as A.
  assert (C : forall a b, twin F t t' a b -> expr_is_call a = expr_is_call b) by (intros a b X; unfold expr_is_call; now rewrite (proj1 (twin_kind _ _ _ _ _ X))).
  rewrite (Forall2_len _ _ _ (Forall2_filter _ _ _ _ _ C A)). apply Forall2_app; [|apply Forall2_app].
  - apply map_same with (F := F). apply Forall2_filter; [intros a b X; now rewrite (C _ _ X)|exact A].
  - destruct (_ =? 0); [exact (one_same _ _ _ _ _ _ T)|constructor].
  - destruct (1 <? _); [exact (one_same _ _ _ _ _ _ T)|constructor].
Qed.
Lemma assign_same F t t' e e' : twin F t t' e e' -> Forall2 (same_error t t') (validate_assign e) (validate_assign e').
Proof.
  intros T. unfold validate_assign, assign_lhs, assign_rhs. pose proof (ast_children_twin _ _ _ (is_kind KMultivalExpr) _ _ T) as A.
  destruct A as [|mv mv' l l' M A]; cbn [nth_error]; [exact (one_same _ _ _ _ _ _ T)|]. destruct A as [|mw mw' l l' W A]; cbn [nth_error]; [exact (one_same _ _ _ _ _ _ T)|].
  apply map_same with (F := F). apply Forall2_filter; [|exact (ast_children_twin _ _ _ expr_can_cast _ _ M)].
  intros a b X. unfold assignable. now rewrite (proj1 (twin_kind _ _ _ _ _ X)).
Qed.

(** ** Escapes *)
Lemma unescape_plain fuel pos start c b : (c =? backslash)%N = false -> unescape (S fuel) pos start (c :: b) = unescape fuel (pos + utf8_len c) start b.
Proof. intros E. cbn [unescape]. now rewrite E. Qed.
Lemma sc_off t t' b b' c c' n n' : sc t b t' b' -> blen t = n + blen b -> blen t' = n' + blen b' -> sc b c b' c' ->
  forall d d', blen b = d + blen c -> blen b' = d' + blen c' -> sc t c t' c' /\ blen t = n + d + blen c /\ blen t' = n' + d' + blen c'.
Proof. intros S E E' S' d d' D D'. split; [exact (sc_trans _ _ _ _ _ _ S S')|]. lia. Qed.
Lemma unescape_same t t' z z' : crs z z' -> forall m body body', length body <= m -> crs body body' -> forall fuel fuel' pos pos' start start', length body < fuel -> length body' < fuel' ->
  sc t (body ++ z) t' (body' ++ z') -> blen t = pos + start + blen (body ++ z) -> blen t' = pos' + start' + blen (body' ++ z') ->
  Forall2 (same_start t t') (unescape fuel pos start body) (unescape fuel' pos' start' body').
Proof.
  intros Cz. induction m as [|m IH]; intros body body' Hm C fuel fuel' pos pos' start start' L L' S E E'.
  { destruct body as [|c body]; [|cbn in Hm; lia]. inversion C; subst. destruct fuel; [cbn in L; lia|]. destruct fuel'; [cbn in L'; lia|]. constructor. }
  destruct C as [|c b b' C|b b' C]; cbn [length app] in *; (destruct fuel as [|fuel]; [lia|]); (destruct fuel' as [|fuel']; [lia|]).
  - constructor.
  - assert (C1 : crs (b ++ z) (b' ++ z')) by now apply crs_app.
    destruct (N.eqb_spec c backslash) as [->|Hc].
    2:{ apply N.eqb_neq in Hc. rewrite !unescape_plain by exact Hc. destruct (sc_off _ _ _ _ _ _ _ _ S E E' (sc_one c _ _ C1) (utf8_len c) (utf8_len c) (blen_cons _ _) (blen_cons _ _)) as (S1 & E1 & E2).
        apply IH; auto; lia. }
    cbn [unescape]. rewrite N.eqb_refl.
    assert (HS : same_place t t' (pos + start) (pos' + start')) by exact (sc_place _ _ _ _ _ _ S E E').
    destruct C as [|d b b' C|b b' C]; cbn [length app] in *.
    + constructor; [|constructor]. split; [reflexivity|exact HS].
    + assert (C2 : crs (b ++ z) (b' ++ z')) by now apply crs_app.
      destruct (sc_off _ _ _ _ _ _ _ _ S E E' (sc_trans _ _ _ _ _ _ (sc_one backslash _ _ C1) (sc_one d _ _ C2)) (utf8_len backslash + utf8_len d) (utf8_len backslash + utf8_len d)) as (S1 & E1 & E2);
        [rewrite !blen_cons; lia|rewrite !blen_cons; lia|].
      assert (G : Forall2 (same_start t t') (unescape fuel (pos + utf8_len backslash + utf8_len d) start b) (unescape fuel' (pos' + utf8_len backslash + utf8_len d) start' b')) by (apply IH; auto; lia).
      destruct (escape_ok d); [exact G|]. constructor; [|exact G]. split; [reflexivity|exact HS].
    + change (escape_ok 10%N) with false. change (escape_ok 13%N) with false. cbn iota. constructor; [split; [reflexivity|exact HS]|].
      destruct fuel' as [|fuel']; [lia|]. rewrite unescape_plain by reflexivity. assert (C2 : crs (b ++ z) (b' ++ z')) by now apply crs_app.
      destruct (sc_off _ _ _ _ _ _ _ _ S E E' (sc_trans _ _ _ _ _ _ (sc_one backslash _ _ C1) (sc_add _ _ _ _ (sc_refl _ _ C2))) 2 3) as (S1 & E1 & E2);
        [rewrite !blen_cons; reflexivity|rewrite !blen_cons; reflexivity|].
      change (utf8_len 10%N) with 1. change (utf8_len 13%N) with 1. change (utf8_len backslash) with 1. apply IH; auto; lia.
  - assert (C1 : crs (b ++ z) (b' ++ z')) by now apply crs_app. destruct fuel' as [|fuel']; [lia|]. rewrite !unescape_plain by reflexivity.
    destruct (sc_off _ _ _ _ _ _ _ _ S E E' (sc_add _ _ _ _ (sc_refl _ _ C1)) 1 2) as (S1 & E1 & E2); [rewrite !blen_cons; reflexivity|rewrite !blen_cons; reflexivity|].
    change (utf8_len 10%N) with 1. change (utf8_len 13%N) with 1. apply IH; auto; lia.
Qed.

Lemma unquote_strs x x' : strs x x' -> exists o pre body body' post, unquote x = Ok (Some (o, body)) /\ unquote x' = Ok (Some (o, body')) /\
  x = pre ++ body ++ post /\ x' = pre ++ body' ++ post /\ blen pre = o /\ crs body body'.
Proof.
  intros [(q & p & Q & -> & ->)|(n & b & b' & -> & -> & C)].
  - exists 1, [q], p, p, [q]. rewrite !unquote_short by exact Q. repeat split; auto; [destruct Q as [->| ->]; reflexivity|apply crs_refl].
  - exists (2 + n), (long_open n), b, b', (long_close n). rewrite !unquote_long. repeat split; auto. unfold long_open. rewrite !blen_app. change (blen (txt "[")) with 1.
    replace (blen (repeat 61%N n)) with n; [lia|]. induction n as [|n IH]; [reflexivity|]. cbn [repeat]. rewrite blen_cons. change (utf8_len 61%N) with 1. now rewrite <- IH.
Qed.
Lemma find_twin F t t' l l' f : (forall a b, twin F t t' a b -> f a = f b) -> Forall2 (twin F t t') l l' ->
  match find f l, find f l' with Some a, Some b => twin F t t' a b | None, None => True | _, _ => False end.
Proof. intros E. induction 1 as [|a b l l' H1 H2 IH]; [exact I|]. cbn [find]. rewrite <- (E _ _ H1). destruct (f a); [exact H1|exact IH]. Qed.
Lemma literal_same (F : Prop) t t' e e' es es' : F -> twin F t t' e e' -> validate_literal e = Ok es -> validate_literal e' = Ok es' -> Forall2 (same_start t t') es es'.
Proof.
  intros HF T. unfold validate_literal, literal_kind_of, literal_token.
  assert (C : forall a b, twin F t t' a b -> negb (is_trivia (el_kind a)) = negb (is_trivia (el_kind b))) by (intros a b X; now rewrite (proj1 (twin_kind _ _ _ _ _ X))).
  pose proof (find_twin _ _ _ _ _ _ C (twin_children _ _ _ _ _ T)) as G.
  destruct (find _ (el_children_with_tokens e)) as [k|], (find _ (el_children_with_tokens e')) as [k'|]; try (destruct G; fail); [|discriminate].
  destruct (twin_kind _ _ _ _ _ G) as [K N0]. rewrite <- N0. destruct (is_gnode (el_green k)) eqn:Gn; [discriminate|]. cbn [rbind]. rewrite <- K.
  destruct (kind_eqb (el_kind k) KStr) eqn:Ek.
  2:{ apply kind_eqb_neq in Ek. destruct (el_kind k); cbn [rbind]; intros H1 H2; try discriminate; try congruence; injection H1 as <-; injection H2 as <-; constructor. }
  apply kind_eqb_eq in Ek. rewrite Ek in K |- *. cbn [rbind].
  destruct k as [o [kk cs|kk x]]; [discriminate Gn|]. destruct k' as [o' [kk' cs'|kk' x']]; [discriminate N0|]. unfold el_kind in Ek, K. cbn [el_green green_kind] in Ek, K. subst kk kk'.
  destruct G as (_ & c & c' & A & H). cbn [el_green el_off green_leaves green_text app] in A, H |- *. inversion A as [|? ? ? ? ? S P A']; subst.
  destruct (unquote_strs _ _ (P HF eq_refl)) as (n & pre & body & body' & post & -> & -> & -> & -> & <- & Cb). cbn [rbind].
  intros H1 H2. apply rbind_ok in H1 as (_ & _ & H1). apply rbind_ok in H1 as (_ & _ & H1). apply rbind_ok in H2 as (_ & _ & H2). apply rbind_ok in H2 as (_ & _ & H2).
  injection H1 as <-. injection H2 as <-. destruct H as (Sc & E & E'). pose proof (sc_crs _ _ _ _ S) as Cz.
  assert (Cz' : crs (post ++ texts c) (post ++ texts c')) by (apply crs_app; [apply crs_refl|exact Cz]).
  assert (CY : crs (body ++ post ++ texts c) (body' ++ post ++ texts c')) by now apply crs_app.
  assert (T1 : texts ((KStr, pre ++ body ++ post) :: c) = pre ++ body ++ post ++ texts c) by (change (texts ((KStr, pre ++ body ++ post) :: c)) with ((pre ++ body ++ post) ++ texts c); now rewrite <- !app_assoc).
  assert (T2 : texts ((KStr, pre ++ body' ++ post) :: c') = pre ++ body' ++ post ++ texts c') by (change (texts ((KStr, pre ++ body' ++ post) :: c')) with ((pre ++ body' ++ post) ++ texts c'); now rewrite <- !app_assoc).
  assert (Sc' : sc t (pre ++ body ++ post ++ texts c) t' (pre ++ body' ++ post ++ texts c')) by (rewrite <- T1, <- T2; exact Sc).
  assert (Ex : blen t = o + blen (pre ++ body ++ post ++ texts c)) by (rewrite <- T1; exact E).
  assert (Ex' : blen t' = o' + blen (pre ++ body' ++ post ++ texts c')) by (rewrite <- T2; exact E').
  destruct (sc_off _ _ _ _ (body ++ post ++ texts c) (body' ++ post ++ texts c') _ _ Sc' Ex Ex') with (d := blen pre) (d' := blen pre) as (S1 & E1 & E2).
  { exists pre, pre. repeat split; auto. left. apply crs_refl. }
  { apply blen_app. }
  { apply blen_app. }
  refine (unescape_same t t' _ _ Cz' (length body) _ _ (le_n _) Cb _ _ 0 0 _ _ (Nat.lt_succ_diag_r _) (Nat.lt_succ_diag_r _) S1 _ _); cbn [Nat.add]; assumption.
Qed.

Lemma same_error_start t t' l l' : Forall2 (same_error t t') l l' -> Forall2 (same_start t t') l l'.
Proof. induction 1 as [|a b l l' (M & S & _) _ IH]; constructor; [split; auto|exact IH]. Qed.
Lemma node_same (F : Prop) t t' e e' es es' : F -> twin F t t' e e' -> validate_node e = Ok es -> validate_node e' = Ok es' -> Forall2 (same_start t t') es es'.
Proof.
  intros HF T. unfold validate_node. rewrite <- (proj1 (twin_kind _ _ _ _ _ T)).
  destruct (el_kind e); intros H1 H2; try (injection H1 as <-; injection H2 as <-; constructor).
  all: try (exact (literal_same _ _ _ _ _ _ _ HF T H1 H2)).
  all: injection H1 as <-; injection H2 as <-; apply same_error_start; first [exact (expr_stmt_same _ _ _ _ _ T)|exact (assign_same _ _ _ _ _ T)].
Qed.
Lemma list_same (F : Prop) t t' l l' : F -> Forall2 (twin F t t') l l' -> forall es es', validate_list l = Ok es -> validate_list l' = Ok es' -> Forall2 (same_start t t') es es'.
Proof.
  intros HF. induction 1 as [|a b l l' H1 H2 IH]; intros es es' E E'; cbn [validate_list] in E, E'; [injection E as <-; injection E' as <-; constructor|].
  apply rbind_ok in E as (u & U & E). apply rbind_ok in E as (v & V & E). injection E as <-. apply rbind_ok in E' as (u' & U' & E'). apply rbind_ok in E' as (v' & V' & E'). injection E' as <-.
  apply Forall2_app; [exact (node_same _ _ _ _ _ _ _ HF H1 U U')|exact (IH _ _ V V')].
Qed.
