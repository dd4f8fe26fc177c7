(** PropsLocal.v — C67: a valid beginning of a file is parsed the same whatever follows it, and what follows is
    parsed as if it stood alone. Vocabulary: LuaSyntax.v (programs and their written form), LocalProofs.v
    ([ends_before]), LexSpec.v ([shift_err]). *)
From Coq Require Import Permutation.
From Verif Require Import Base SyntaxKind TokenSet Lexer LexSpec LexerDirect LexerProofs LexerNum BindingPowers Parser Grammar
  Event EventProofs Tree TreeSink ParserTree SinkProofs Ast ParseSpec ParseProofs StrictTree GrammarSpec DressProofs
  Validation ValidProofs PropsLexer PropsParser LuaSyntax LuaDialect LuaRun LuaComplete LuaTree PropsLua ParserFuel LocalProofs LocalDress.

(** The lexer cuts [t1 ++ t2] between the two: the tokens and the lexical errors are those of [t1] and then those
    of [t2], moved. *)
Definition cuts (t1 t2 : text) (toks1 toks2 : list token) : Prop :=
  exists lex1 lex2, tokenize t1 = Ok (toks1, lex1) /\ tokenize t2 = Ok (toks2, lex2) /\
    tokenize (t1 ++ t2) = Ok (toks1 ++ toks2, lex1 ++ map (shift_err (blen t1)) lex2).
(** The kinds of the tokens that are not whitespace or comments. *)
Definition words (toks : list token) : list kind := filter (fun k => negb (is_trivia k)) (map t_kind toks).
(** The tree of a file with the given children of the top block. *)
Definition file (cs : list green) : green := GNode KSourceFile [GNode KBlock cs].

Lemma words_rt ls : words (map lt_tok ls) = map fst (nontriv (rt_of ls)).
Proof.
  unfold words, nontriv, rt_of. induction ls as [|[[k e] x] ls IH]; [reflexivity|]. cbn [map filter lt_tok t_kind fst]. unfold triv at 1. cbn [fst].
  destruct (is_trivia k); cbn [negb map fst]; rewrite IH; reflexivity.
Qed.
Lemma rt_eq l1 l2 l : Lexed (flat_map lt_text l1) l1 -> Lexed (flat_map lt_text l2) l2 -> Lexed (flat_map lt_text l1 ++ flat_map lt_text l2) l ->
  map lt_tok l = map lt_tok l1 ++ map lt_tok l2 -> rt_of l = rt_of l1 ++ rt_of l2.
Proof.
  intros L1 L2 L E. apply lexemes_unique.
  - rewrite map_app, !rt_of_toks. exact E.
  - rewrite texts_app, !rt_of_text. symmetry. exact (Lexed_text _ _ L).
Qed.
Lemma nontriv_nil l : nontriv l = [] -> forallb triv l = true.
Proof. induction l as [|p l IH]; [reflexivity|]. cbn [nontriv filter forallb]. destruct (triv p); [exact IH|discriminate]. Qed.

Section Together.
  Variables (t1 t2 : text) (l1 l2 l : list lexed_tok) (f1 f2 f : forest) (a1 a2 a : dressed) (b : block).
  Hypothesis P1 : parsed t1 l1 f1 a1.
  Hypothesis P2 : parsed t2 l2 f2 a2.
  Hypothesis P : parsed (t1 ++ t2) l f a.
  Hypothesis T : map lt_tok l = map lt_tok l1 ++ map lt_tok l2.
  Hypothesis Hw : words (map lt_tok l1) = block_w b.
  Hypothesis Ho : block_ok impl b = true.
  Hypothesis He : ends_before b (hd KEof (words (map lt_tok l2))) = true.

  Lemma together_rt : rt_of l = rt_of l1 ++ rt_of l2.
  Proof.
    pose proof (pd_lex _ _ _ _ P1) as L1. pose proof (pd_lex _ _ _ _ P2) as L2. pose proof (pd_lex _ _ _ _ P) as L.
    pose proof (Lexed_text _ _ L1) as E1. pose proof (Lexed_text _ _ L2) as E2. rewrite E1 in L1, L. rewrite E2 in L2, L. exact (rt_eq _ _ _ L1 L2 L T).
  Qed.
  Lemma together_forest : f1 = block_t b /\ f = block_t b ++ f2.
  Proof.
    rewrite words_rt in Hw, He. split; [exact (parsed_program _ _ _ _ _ P1 Ho Hw)|].
    pose proof (pd_run _ _ _ _ P) as R.
    assert (EQ : map fst (nontriv (rt_of l)) = block_w b ++ map fst (nontriv (rt_of l2))).
    { rewrite together_rt, nontriv_split, map_app. f_equal. exact Hw. }
    rewrite EQ in R.
    refine (head_and_rest _ _ _ _ _ _ Ho _ R (pd_run _ _ _ _ P2)). destruct (map fst (nontriv (rt_of l2))); exact He.
  Qed.
  Lemma together_dress : exists a', a = dr_cat a1 a' /\ Dress f2 (blen (texts (dr_used a1))) (dr_left a1 ++ rt_of l2) a' /\
    all_green a' = map gtok (dr_left a1) ++ all_green a2 /\ map e_msg (dr_errs a') = map e_msg (dr_errs a2) /\
    Forall2 (moved (blen (texts (dr_used a1))) (blen t1)) (dr_errs a') (map (shift_err (blen t1)) (dr_errs a2)).
  Proof.
    destruct together_forest as [E1 E]. pose proof (parsed_Dress _ _ _ _ P1) as D1. pose proof (parsed_Dress _ _ _ _ P2) as D2. pose proof (parsed_Dress _ _ _ _ P) as D.
    rewrite together_rt in D. rewrite E in D. rewrite E1 in D1.
    assert (X : Dress (block_t b) 0 (rt_of l1 ++ rt_of l2) (dr_more (rt_of l2) a1)).
    { apply Dress_more; [exact D1|]. destruct b as [|s semi b']; [now left|]. right; left. apply programs_end. discriminate. }
    assert (Q : blen (texts (dr_used a1)) + blen (texts (dr_left a1)) = blen t1).
    { rewrite <- blen_app, <- texts_app, <- (pd_used _ _ _ _ P1), rt_of_text, <- (Lexed_text _ _ (pd_lex _ _ _ _ P1)). reflexivity. }
    apply (Dress_shift (blen t1)) in D2. cbn [Nat.add] in D2. rewrite <- Q in D2.
    destruct (Dress_before _ _ _ _ _ (nontriv_nil _ (pd_left _ _ _ _ P1)) D2) as (a' & Y & G & M & F). rewrite Q in *.
    exists a'. split; [|split; [exact Y|split; [exact G|split; [|exact F]]]].
    - refine (Dress_det _ _ _ _ D _ _). exact (Dress_app _ _ _ _ X _ _ Y).
    - rewrite M. unfold dr_shift. cbn [dr_errs]. rewrite map_map. reflexivity.
  Qed.
  Lemma together_clean : dr_errs a1 = [].
  Proof.
    destruct together_forest as [-> _]. pose proof (pd_msgs _ _ _ _ P1) as M. 
    assert (N : noerrs (block_t b) = true) by (apply (proj2 (proj2 (proj2 (proj2 (proj2 (proj2 (proj2 (trees_clean impl))))))) b Ho)).
    assert (E : fmsgs (block_t b) = []).
    { clear -N. revert N. set (P1 := fun t => noerr t = true -> pmsgs t = []). set (PF := fun f => noerrs f = true -> fmsgs f = []).
      generalize (block_t b). intros f. change (PF f). apply (forest_ind' P1 PF); unfold P1, PF; try reflexivity; try discriminate.
      - intros k fs IH H. exact (IH H).
      - intros t fs H1 H2 H. apply noerrs_cons in H as [A B]. unfold fmsgs in *. cbn [flat_map]. now rewrite H1, H2. }
    rewrite E in M. now apply map_eq_nil in M.
  Qed.
End Together.

(** ** The tree *)
Theorem C67_tree : forall t1 t2 toks1 toks2 b p1 p2 p, cuts t1 t2 toks1 toks2 ->
  words toks1 = block_w b -> block_ok impl b = true -> ends_before b (hd KEof (words toks2)) = true ->
  source_file_parse t1 = Ok p1 -> source_file_parse t2 = Ok p2 -> source_file_parse (t1 ++ t2) = Ok p ->
  exists cs1 cs2, pa_green p1 = file cs1 /\ pa_green p2 = file cs2 /\ pa_green p = file (cs1 ++ cs2).
Proof.
  intros t1 t2 toks1 toks2 b p1 p2 p (lex1 & lex2 & T1 & T2 & T) Hw Ho He S1 S2 S3.
  destruct (source_file_inv _ _ S1) as (l1 & f1 & a1 & v1 & P1 & V1 & G1 & X1). destruct (source_file_inv _ _ S2) as (l2 & f2 & a2 & v2 & P2 & V2 & G2 & X2).
  destruct (source_file_inv _ _ S3) as (l & f & a & v & P & V & G & X).
  rewrite (pd_lexer _ _ _ _ P1) in T1. rewrite (pd_lexer _ _ _ _ P2) in T2. rewrite (pd_lexer _ _ _ _ P) in T.
  injection T1 as <- _. injection T2 as <- _. injection T as T _.
  destruct (together_dress _ _ _ _ _ _ _ _ _ _ _ _ P1 P2 P T Hw Ho He) as (a' & -> & D & E & _).
  exists (all_green a1), (all_green a2). split; [exact G1|]. split; [exact G2|]. rewrite G. unfold root_of, file, all_green, dr_cat in *. cbn [dr_green dr_left] in *.
  rewrite <- !app_assoc, E. reflexivity.
Qed.
Print Assumptions C67_tree.

(** ** The errors *)
Lemma descs_all off a : descs off (all_green a) = descs off (dr_green a).
Proof. unfold all_green. now rewrite descs_app, descs_toks, app_nil_r. Qed.
Lemma validate_root a v : validate (root_elem (root_of a)) = Ok v -> validate_list (descs 0 (dr_green a)) = Ok v.
Proof.
  unfold validate. rewrite root_descs. cbn [app validate_list]. unfold validate_node at 1 2. unfold el_kind. cbn [el_green root_of green_kind rbind].
  intros H. apply rbind_ok in H as (x & H & E). apply rbind_ok in H as (y & H & E'). cbn [app] in E, E'. congruence.
Qed.
Lemma perm5 {A} (d l s u v : list A) : Permutation ((d ++ l ++ s) ++ u ++ v) ((l ++ u) ++ (d ++ s) ++ v).
Proof.
  rewrite <- !app_assoc. rewrite (Permutation_app_swap_app d l). apply Permutation_app_head. rewrite (app_assoc d s (u ++ v)), (app_assoc d s v). apply Permutation_app_swap_app.
Qed.
Theorem C67_errors : forall t1 t2 toks1 toks2 b p1 p2 p, cuts t1 t2 toks1 toks2 ->
  words toks1 = block_w b -> block_ok impl b = true -> ends_before b (hd KEof (words toks2)) = true ->
  source_file_parse t1 = Ok p1 -> source_file_parse t2 = Ok p2 -> source_file_parse (t1 ++ t2) = Ok p ->
  exists start errs2, start <= blen t1 /\ Permutation (pa_errors p) (pa_errors p1 ++ errs2) /\
    Forall2 (fun e' e => e' = shift_err (blen t1) e \/ (e_msg e' = e_msg e /\ e_range e = mkRange 0 0 /\ e_range e' = mkRange start start)) errs2 (pa_errors p2) /\
    (forall tok toks, toks1 = toks ++ [tok] -> is_trivia (t_kind tok) = false -> start = blen t1).
Proof.
  intros t1 t2 toks1 toks2 b p1 p2 p (lex1 & lex2 & T1 & T2 & T) Hw Ho He S1 S2 S3.
  destruct (source_file_inv _ _ S1) as (l1 & f1 & a1 & v1 & P1 & V1 & G1 & X1). destruct (source_file_inv _ _ S2) as (l2 & f2 & a2 & v2 & P2 & V2 & G2 & X2).
  destruct (source_file_inv _ _ S3) as (l & f & a & v & P & V & G & X).
  rewrite (pd_lexer _ _ _ _ P1) in T1. rewrite (pd_lexer _ _ _ _ P2) in T2. rewrite (pd_lexer _ _ _ _ P) in T.
  injection T1 as <- E1. injection T2 as <- E2. injection T as T E.
  destruct (together_dress _ _ _ _ _ _ _ _ _ _ _ _ P1 P2 P T Hw Ho He) as (a' & -> & D & GA & M & F).
  pose proof (together_clean _ _ _ _ _ _ _ _ _ _ _ _ P1 P2 P T Hw Ho He) as C1.
  apply validate_root in V1, V2, V. unfold dr_cat in V. cbn [dr_green] in V. rewrite descs_app in V. cbn [Nat.add] in V.
  rewrite (Dress_glen _ _ _ _ (parsed_Dress _ _ _ _ P1)) in V. rewrite <- (descs_all _ a'), GA, descs_app, descs_toks, glen_gtok, descs_all in V. cbn [app] in V.
  assert (Q : blen (texts (dr_used a1)) + blen (texts (dr_left a1)) = blen t1).
  { rewrite <- blen_app, <- texts_app, <- (pd_used _ _ _ _ P1), rt_of_text, <- (Lexed_text _ _ (pd_lex _ _ _ _ P1)). reflexivity. }
  rewrite Q in V. apply validate_list_app in V as (u1 & u2 & U1 & U2 & ->). rewrite U1 in V1. injection V1 as <-.
  change (blen t1) with (0 + blen t1) in U2. rewrite descs_sh in U2. pose proof (validate_list_sh _ _ _ _ U2 V2) as EU. cbn [Nat.add] in EU.
  exists (blen (texts (dr_used a1))), ((dr_errs a' ++ map (shift_err (blen t1)) lex2) ++ u2).
  split; [lia|]. split; [|split].
  - rewrite X, X1, E, E1, C1. unfold dr_cat. cbn [dr_errs]. rewrite C1. cbn [app].
    apply perm5.
  - rewrite X2, E2, EU. apply Forall2_app; [apply Forall2_app|].
    + clear -F M. revert M. remember (map (shift_err (blen t1)) (dr_errs a2)) as m eqn:Em. revert Em. generalize (dr_errs a2).
      induction F as [|e' e x y H F IH]; intros [|e0 l] Em M; try discriminate; constructor.
      * cbn [map] in Em, M. injection Em as -> Em. destruct H as [H|[H1 H2]]; [now left|]. right. split; [now injection M|]. split; [|exact H2].
        destruct (e_range e0) as [s0 e0'] eqn:Er. unfold shift_err in H1. cbn [e_range] in H1. rewrite Er in H1. cbn [r_start r_end] in H1. injection H1 as A B. f_equal; lia.
      * cbn [map] in Em, M. injection Em as _ Em. injection M as _ M. exact (IH _ Em M).
    + clear. induction lex2; constructor; [now left|assumption].
    + clear. induction v2; constructor; [now left|assumption].
  - intros tok toks Et Ht. assert (L0 : dr_left a1 = []).
    { pose proof (pd_used _ _ _ _ P1) as EU1. pose proof (pd_left _ _ _ _ P1) as NL. destruct (dr_left a1) as [|x y _] using rev_ind; [reflexivity|].
      rewrite app_assoc in EU1. assert (MM : map mktok (rt_of l1) = toks ++ [tok]) by (rewrite rt_of_toks; exact Et).
      rewrite EU1, map_app in MM. cbn [map] in MM. apply app_inj_tail in MM as [_ MM]. rewrite nontriv_split in NL. apply app_eq_nil in NL as [_ NL]. cbn [nontriv filter] in NL.
      rewrite <- MM in Ht. unfold mktok in Ht. cbn [t_kind] in Ht. unfold triv in NL. rewrite Ht in NL. discriminate NL. }
    rewrite L0 in Q. cbn in Q. lia.
Qed.
Print Assumptions C67_errors.

(** After a semicolon anything may follow. *)
Fixpoint semicolon_last (b : block) : bool :=
  match b with BNil => true | BCons _ semi BNil => semi | BCons _ _ b => semicolon_last b end.
Corollary C67_after_semicolon : forall t1 t2 toks1 toks2 b p1 p2 p, cuts t1 t2 toks1 toks2 ->
  words toks1 = block_w b -> block_ok impl b = true -> semicolon_last b = true ->
  source_file_parse t1 = Ok p1 -> source_file_parse t2 = Ok p2 -> source_file_parse (t1 ++ t2) = Ok p ->
  exists cs1 cs2, pa_green p1 = file cs1 /\ pa_green p2 = file cs2 /\ pa_green p = file (cs1 ++ cs2).
Proof.
  intros t1 t2 toks1 toks2 b p1 p2 p C W O L. refine (C67_tree _ _ _ _ b _ _ _ C W O _). clear -L.
  induction b as [|s semi b IH]; [reflexivity|]. cbn [semicolon_last ends_before] in *. destruct b; [now rewrite L|exact (IH L)].
Qed.
Print Assumptions C67_after_semicolon.

(** [local x = f()] and a line break, then a statement with an error. *)
Definition first_part : block := BCons (SLocalInit 0 (One (ECall EName ANone))) false BNil.
Example C67_case : let t1 := txt "local x = f() -- c
" in let t2 := txt "x = = 2 y()" in
  match tokenize t1, tokenize t2 with
  | Ok (k1, e1), Ok (k2, e2) => tokenize (t1 ++ t2) = Ok (k1 ++ k2, e1 ++ map (shift_err (blen t1)) e2) /\ words k1 = block_w first_part /\
      block_ok impl first_part = true /\ ends_before first_part (hd KEof (words k2)) = true
  | _, _ => False
  end /\
  match source_file_parse t1, source_file_parse t2, source_file_parse (t1 ++ t2) with
  | Ok p1, Ok p2, Ok p => pa_errors p1 = [] /\ length (pa_errors p2) = 2 /\ pa_errors p = map (shift_err (blen t1)) (pa_errors p2)
  | _, _, _ => False
  end.
Proof. split; vm_compute; repeat split. Qed.
