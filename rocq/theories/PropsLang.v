(** PropsLang.v — C73: exactly which token sequences the parser accepts without a complaint, and the only tree it gives
    each of them. Vocabulary: ParseSpec.v (the grammar [Tree true]), Grouping.v ([well_grouped]). *)
From Verif Require Import Base SyntaxKind TokenSet Lexer LexSpec LexerDirect LexerProofs LexerClass BindingPowers Parser Grammar
  Event EventProofs Tree TreeSink ParserTree ParserRefine SinkProofs GrammarSpec ParserTotal ParserTotal2 Ast ParseSpec ParseProofs StrictTree DressProofs
  Validation ValidProofs ValidSpec ValidExact PropsLexer PropsParser PropsValid LuaSyntax LuaDialect LuaRun LuaComplete LuaTree PropsLua PropsPtr Grouping GroupProofs PropsGroup TreeComplete.

(** * C73 The language of the parser *)
(** The kinds of the tokens that are neither white space nor comments. *)
Definition written (toks : list token) : list kind := filter (fun k => negb (is_trivia k)) (map t_kind toks).
(** [f] is a tree for the written tokens [w]: derived by the grammar, grouped by the rules of Grouping.v. *)
Definition reading (w : list kind) (f : forest) : Prop :=
  Tree true NSource f /\ well_grouped f KEof /\ flat_map toks f = w.

Lemma strict_noerrs n f : Tree true n f -> noerrs f = true.
Proof.
  assert (NE : forall f, is_err true f -> False) by (intros f0 [H0 _]; discriminate H0).
  assert (OE : forall x, x = [] \/ is_err true x -> x = []) by (intros x [->|H0]; [reflexivity|destruct (NE _ H0)]).
  induction 1; try (exfalso; match goal with H0 : is_err _ _ |- _ => exact (NE _ H0) end); try discriminate;
    try match goal with H0 : ?x = [] \/ is_err _ ?x |- _ => apply OE in H0; subst x end;
    repeat match goal with H0 : req true _ _ |- _ => apply req_true in H0; subst | H0 : ?sc = [] \/ ?sc = [PTok KSemicolon] |- _ => destruct H0; subst sc end;
    repeat first [assumption|reflexivity|lazymatch goal with
      | |- noerrs (_ ++ _) = true => apply StrictTree.noerrs_app; split
      | |- noerrs (_ :: _) = true => apply StrictTree.noerrs_cons; split
      | |- noerr (PNode _ _) = true => apply noerr_node
      end|match goal with H0 : noerrs (_ :: _) = true |- _ => apply StrictTree.noerrs_cons in H0 as [? ?] end].
Qed.
Lemma clean_msgs f : noerrs f = true -> fmsgs f = [].
Proof.
  set (P1 := fun t => noerr t = true -> pmsgs t = []). set (PF := fun f => noerrs f = true -> fmsgs f = []).
  change (PF f). apply (forest_ind' P1 PF); unfold P1, PF; try reflexivity; try discriminate.
  - intros k fs IH H. exact (IH H).
  - intros t fs H1 H2 H. apply StrictTree.noerrs_cons in H as [A B]. unfold fmsgs in *. cbn [flat_map]. now rewrite H1, H2.
Qed.
Lemma written_lexed ls : written (map lt_tok ls) = map fst (nontriv (rt_of ls)).
Proof.
  unfold written. rewrite <- rt_of_toks. clear. induction (rt_of ls) as [|[k x] l IH]; [reflexivity|].
  cbn [map mktok t_kind fst filter nontriv]. unfold nontriv in *. cbn [filter]. unfold triv at 1. cbn [fst]. destruct (is_trivia k); cbn [negb]; [exact IH|].
  cbn [map fst]. now rewrite IH.
Qed.
Lemma parsed_reading t ls fs a f : parsed t ls fs a -> reading (written (map lt_tok ls)) f -> f = [PNode KSourceFile [PNode KBlock fs]].
Proof.
  intros H (HT & HG & HW). rewrite written_lexed in HW. pose proof (pd_run _ _ _ _ H) as R. rewrite <- HW in R. rewrite (root_tree_complete f) in R; [congruence|exact HT|exact HG|].
  rewrite HW. unfold parse_fuel, ts_new_source. cbn [ts_pairs]. rewrite <- (rt_of_toks ls), ts_filter_length, map_length.
  assert (HL : forall n, 2 * n + 2 <= 4 * n + 8) by lia. apply HL.
Qed.

(** For every text: the parser gives the tree [f] without a complaint exactly when [f] is a reading of its tokens. *)
Theorem C73_exact_language : forall t toks lex_errs f, tokenize t = Ok (toks, lex_errs) ->
  ((exists g, parse_tokens t toks = Ok (g, []) /\ skel g = f) <-> reading (written toks) f).
Proof.
  intros t toks le f Ht. split.
  - intros (g & P & <-). destruct (C23_no_error_means_derivation _ _ _ _ Ht P) as [TR _].
    destruct (parse_tokens_inv _ _ _ _ Ht P) as (ls & fs & a & Hp & -> & _ & Eq). injection Eq as -> E.
    assert (Hn : noerrs fs = true) by (apply fmsgs_nil; rewrite <- (pd_msgs _ _ _ _ Hp), <- E; reflexivity).
    split; [exact TR|]. split; [rewrite (root_skel _ _ _ _ Hp); exact (parsed_grouped _ _ _ _ Hp)|].
    rewrite (root_skel _ _ _ _ Hp), (erase_noerr _ Hn), written_lexed, !W_node. rewrite <- (pd_kinds _ _ _ _ Hp). unfold fkinds. now rewrite toks_pkinds.
  - intros R. destruct (parse_exists t (tokenize_ok_fits _ _ Ht)) as (ls & fs & a & Hp). pose proof (pd_lexer _ _ _ _ Hp) as E. rewrite Ht in E. injection E as -> ->.
    pose proof (parsed_reading _ _ _ _ _ Hp R) as Ef. exists (root_of a).
    assert (Hn : noerrs fs = true).
    { destruct R as (HT & _). apply strict_noerrs in HT. rewrite Ef in HT. apply StrictTree.noerrs_cons in HT as [HT _]. apply noerr_node in HT. apply StrictTree.noerrs_cons in HT as [HT _]. now apply noerr_node in HT. }
    split; [|now rewrite (root_skel _ _ _ _ Hp), erase_noerr].
    rewrite (pd_parse _ _ _ _ Hp). unfold root_of. do 2 f_equal. pose proof (pd_msgs _ _ _ _ Hp) as M. rewrite (clean_msgs _ Hn) in M. now apply map_eq_nil in M.
Qed.
Print Assumptions C73_exact_language.

(** A token sequence has at most one reading. *)
Theorem C73_unambiguous : forall w f1 f2, reading w f1 -> reading w f2 -> f1 = f2.
Proof.
  intros w f1 f2 (T1 & G1 & W1) (T2 & G2 & W2). pose proof (root_tree_complete f1 _ T1 G1 (le_n _)) as R1. pose proof (root_tree_complete f2 _ T2 G2 (le_n _)) as R2.
  rewrite W1 in R1. rewrite W2, R1 in R2. congruence.
Qed.
Print Assumptions C73_unambiguous.

(** Every text that fits gets a tree, and a syntax error is reported exactly when its tokens have no reading. *)
Theorem C73_rejected : forall t toks lex_errs, tokenize t = Ok (toks, lex_errs) ->
  exists g errs, parse_tokens t toks = Ok (g, errs) /\ (errs <> [] <-> ~ exists f, reading (written toks) f).
Proof.
  intros t toks le Ht. destruct (parse_exists t (tokenize_ok_fits _ _ Ht)) as (ls & fs & a & Hp). pose proof (pd_lexer _ _ _ _ Hp) as E. rewrite Ht in E. injection E as -> ->.
  eexists _, _. split; [exact (pd_parse _ _ _ _ Hp)|]. pose proof (pd_parse _ _ _ _ Hp) as P. split.
  - intros N (f & R). apply (C73_exact_language _ _ _ f Ht) in R as (g & P' & _). rewrite P in P'. apply N. congruence.
  - intros N E. apply N. exists (skel (root_of a)). apply (C73_exact_language _ _ _ _ Ht). exists (root_of a). split; [|reflexivity]. rewrite P. unfold root_of. now rewrite E.
Qed.
Print Assumptions C73_rejected.

(** Cases. A text with a reading, and its tree: [-a ^ b .. c . d] is [(-(a ^ b)) .. (c.d)]. *)
Definition case73 : text := txt "return -a ^ b .. c.d".
Definition case73_tree : forest :=
  [PNode KSourceFile [PNode KBlock [PNode KReturnStmt [PTok KReturnKw; PNode KMultivalExpr
    [PNode KInfixExpr [PNode KPrefixExpr [PTok KMinus; PNode KInfixExpr [name_ref_t; PTok KCaret; name_ref_t]];
       PTok KDoubleDot; PNode KDotExpr [name_ref_t; PTok KDot; PTok KIdent]]]]]]].
Lemma case73_parsed : match tokenize case73 with
  | Ok (toks, []) => match parse_tokens case73 toks with Ok (g, []) => skel g = case73_tree | _ => False end
  | _ => False end.
Proof. vm_compute. reflexivity. Qed.
Example C73_case : reading [KReturnKw; KMinus; KIdent; KCaret; KIdent; KDoubleDot; KIdent; KDot; KIdent] case73_tree.
Proof.
  pose proof case73_parsed as H. destruct (tokenize case73) as [[toks [|e es]]| |] eqn:T; try contradiction.
  destruct (parse_tokens case73 toks) as [[g [|e es]]| |] eqn:P; try contradiction.
  assert (E : written toks = [KReturnKw; KMinus; KIdent; KCaret; KIdent; KDoubleDot; KIdent; KDot; KIdent]) by (vm_compute in T; injection T as <-; reflexivity).
  rewrite <- E. apply (C73_exact_language _ _ _ _ T). eauto.
Qed.
(** A text without one. *)
Example C73_case_rejected : ~ exists f, reading [KReturnKw; KMinus; KIdent; KCaret] f.
Proof.
  set (t := txt "return -a ^"). destruct (tokenize t) as [[toks le]| |] eqn:T; [|vm_compute in T; discriminate|vm_compute in T; discriminate].
  destruct (C73_rejected _ _ _ T) as (g & errs & P & H). vm_compute in T. injection T as <- <-. apply H. vm_compute in P. injection P as <- <-. discriminate.
Qed.
