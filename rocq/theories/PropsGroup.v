(** PropsGroup.v — C72: how every tree of the parser is grouped, for all texts, and the exact forms of C18–C21 that
    follow. Vocabulary: Grouping.v, LuaSyntax.v, LuaDialect.v, ParseSpec.v. *)
From Verif Require Import Base SyntaxKind TokenSet Lexer LexSpec LexerDirect LexerProofs LexerClass BindingPowers Parser Grammar
  Event EventProofs Tree TreeSink ParserTree ParserRefine SinkProofs GrammarSpec ParserTotal ParserTotal2 Ast ParseSpec ParseProofs StrictTree DressProofs
  Validation ValidProofs ValidSpec ValidExact PropsLexer PropsParser PropsValid LuaSyntax LuaDialect LuaRun LuaComplete LuaTree PropsLua PropsPtr Grouping GroupProofs.

(** * C72 Grouping *)
Lemma parsed_grouped t ls fs a : parsed t ls fs a -> well_grouped [PNode KSourceFile [PNode KBlock (ers fs)]] KEof.
Proof.
  intros H. pose proof (pd_run _ _ _ _ H) as R. destruct (PC_root _ _ _ _ _ R) as (g & r & E & E1 & G & _).
  cbn [app] in E. assert (Er : r = []) by congruence. assert (Eg : g = [PNode KSourceFile [PNode KBlock fs]]) by congruence. subst r g. exact G.
Qed.
(** Whatever the text, the tree it is given groups operators, operands, calls and statements by the rules of Grouping.v. *)
Theorem C72_grouping : forall t p, source_file_parse t = Ok p -> well_grouped (skel (pa_green p)) KEof.
Proof.
  intros t p H. destruct (source_file_inv _ _ H) as (ls & fs & a & v & Hp & _ & -> & _). rewrite (root_skel _ _ _ _ Hp). exact (parsed_grouped _ _ _ _ Hp).
Qed.
Print Assumptions C72_grouping.

(** * C20, exactly *)
(** Generic-for nodes have at most one expression. *)
Definition one_exp (k : kind) (fs : forest) : Prop := k = KGenericFor -> length fs <= 3.
Lemma single_forest s n f : Tree s n f -> (n = NExprO \/ n = NExpr \/ n = NLhs \/ exists c, n = NPost c) -> length f = 1.
Proof.
  induction 1; intros HN; try reflexivity; try (exfalso; destruct HN as [HN|[HN|[HN|[? HN]]]]; discriminate HN).
  - apply IHTree. auto.
  - match goal with H : is_err _ _ |- _ => destruct H as (_ & e & [->|(ks & ->)]); reflexivity end.
  - apply IHTree. auto.
  - apply IHTree. eauto.
Qed.
Lemma Tree_one_exp n f : Tree true n f -> every one_exp f.
Proof.
  assert (NE : forall f, is_err true f -> False) by (intros f0 [H0 _]; discriminate H0).
  assert (OE : forall x, x = [] \/ is_err true x -> x = []) by (intros x [->|H0]; [reflexivity|destruct (NE _ H0)]).
  induction 1; try (exfalso; match goal with H0 : is_err _ _ |- _ => exact (NE _ H0) end);
    try match goal with H0 : ?x = [] \/ is_err _ ?x |- _ => apply OE in H0; subst x end;
    repeat first [ match goal with
      | H0 : every _ ?f |- every _ ?f => exact H0
      | |- every _ (_ ++ _) => apply every_app; split
      | |- every _ [] => apply every_nil
      | |- every _ [PTok _] => apply every_tok
      | |- every _ [PNode _ _] => apply every_node; split
      | |- every _ (_ :: _) => apply every_cons; split
      | H0 : req _ _ ?f |- every _ ?f => exact (every_req _ _ _ _ H0)
      | H0 : ?sc = [] \/ ?sc = [PTok KSemicolon] |- every _ ?sc => exact (every_sc _ _ H0)
      end | intros E0; discriminate E0 ]; try discriminate.
  intros _. destruct H0 as [->|[H0 _]]; [|discriminate H0]. cbn [length app]. rewrite (single_forest _ _ _ H1); auto.
Qed.

Lemma toks_names n : flat_map toks (names_t n) = names_w n.
Proof. induction n as [|n IH]; [reflexivity|]. cbn [names_t flat_map toks app names_w name_t]. now rewrite IH. Qed.
Lemma toks_path n : flat_map toks (path_t n) = path_w n.
Proof. induction n as [|n IH]; [reflexivity|]. cbn [path_t flat_map toks app path_w name_ref_t]. now rewrite IH. Qed.
Lemma toks_params n va : toks (params_t n va) = params_w n va.
Proof.
  unfold params_t, params_w. cbn [toks flat_map app]. f_equal. rewrite flat_map_app. destruct n as [|n], va; cbn [flat_map toks app]; rewrite ?app_nil_r; try reflexivity.
  - now rewrite flat_map_app, toks_names, <- !app_assoc.
  - now rewrite toks_names.
Qed.
Lemma toks_fname f : toks (fname_t f) = fname_w f.
Proof.
  unfold fname_t, fname_w. destruct f; cbn [toks flat_map app name_t]; rewrite ?app_nil_r; try reflexivity; now rewrite ?flat_map_app, toks_path, <- ?app_assoc.
Qed.
Lemma toks_lua :
  (forall e, toks (exp_t e) = exp_w e) /\ (forall es, flat_map toks (exps_t es) = exps_w es) /\ (forall a, toks (args_t a) = args_w a) /\
  (forall fs, flat_map toks (fields_t fs) = fields_w fs) /\ (forall f, toks (field_t f) = field_w f) /\ (forall s, toks (stat_t s) = stat_w s) /\
  (forall t, flat_map toks (iftail_t t) = iftail_w t) /\ (forall b, flat_map toks (block_t b) = block_w b).
Proof.
  apply lua_ind; intros;
    cbn [exp_t exps_t args_t fields_t field_t stat_t iftail_t block_t exp_w exps_w args_w fields_w field_w stat_w iftail_w block_w toks flat_map app name_t name_ref_t label_delim_t];
    repeat (rewrite ?flat_map_app, ?app_nil_r; cbn [toks flat_map app name_t name_ref_t label_delim_t]);
    repeat match goal with H : _ = _ |- _ => rewrite H; clear H end; rewrite ?toks_names, ?toks_params, ?toks_fname, <- ?app_assoc; cbn [app]; try reflexivity.
  destruct semi; reflexivity.
Qed.
Lemma toks_block b : flat_map toks (block_t b) = block_w b.
Proof. apply toks_lua. Qed.

(** What is used of a tree: it is grouped, and its generic-for nodes have one expression. *)
Definition fine (f : forest) : Prop := (exists nx, well_grouped f nx) /\ every one_exp f.
Lemma fine_cons t f : fine (t :: f) -> fine [t] /\ fine f.
Proof. intros [(nx & W) V]. apply wg_cons in W as [W1 W2]. apply every_cons in V as [V1 V2]. split; split; eauto. Qed.
Lemma fine_app a b : fine (a ++ b) -> fine a /\ fine b.
Proof. intros [(nx & W) V]. apply wg_app in W as [W1 W2]. apply every_app in V as [V1 V2]. split; split; eauto. Qed.
Lemma fine_node K fs : fine [PNode K fs] -> fine fs.
Proof. intros [(nx & W) V]. apply wg_node in W as [_ W]. apply every_node in V as [_ V]. split; eauto. Qed.
Lemma is_exp_t e : is_exp (exp_t e) = true.
Proof. destruct e; reflexivity. Qed.
Lemma extends_bin l o r k : extends (exp_t (EBin o l r)) k = ((right_power (binop_kind o) <=? left_power k) || extends (exp_t r) k).
Proof. cbn [exp_t extends kind_eqb]. change (kind_eqb KInfixExpr KInfixExpr) with true. cbv iota. now rewrite is_exp_t. Qed.
Lemma extends_un o e k : extends (exp_t (EUn o e)) k = ((unary_power (unop_kind o) <=? left_power k) || extends (exp_t e) k).
Proof. cbn [exp_t extends]. change (kind_eqb KPrefixExpr KInfixExpr) with false. change (kind_eqb KPrefixExpr KPrefixExpr) with true. cbv iota. now rewrite is_exp_t. Qed.
(** After a table constructor or a function, a parenthesis would be a call. *)
Lemma extends_constructor e : ends_constructor e = true -> extends (exp_t e) KLParen = true.
Proof.
  induction e; cbn [ends_constructor]; intros H; try discriminate; try reflexivity.
  - rewrite extends_un, IHe, orb_true_r; auto.
  - rewrite extends_bin, IHe2, orb_true_r; auto.
Qed.
Lemma closed_last es nx : closed (exps_t es) nx -> last_constructor es = true -> nx = KLParen -> False.
Proof.
  induction es as [e|e es IH]; cbn [exps_t closed last_constructor].
  - intros [H _] L ->. change (next [] KLParen) with KLParen in H. rewrite (extends_constructor _ L) in H. discriminate.
  - intros (_ & _ & H). auto.
Qed.
Lemma multi_closed fs nx : well_grouped [PNode KMultivalExpr fs] nx -> closed fs nx.
Proof. intros W. apply wg_node in W as [[W _] _]. apply W. cbn. tauto. Qed.
Lemma stat_closed s : well_grouped [stat_t s] KLParen -> stat_constructor s = false.
Proof.
  intros W. destruct (stat_constructor s) eqn:B; [|reflexivity]. exfalso.
  destruct s; cbn [stat_constructor] in B; try discriminate; cbn [stat_t] in W; apply wg_node in W as [W0 W].
  - apply wg_cons in W as [_ W]. apply wg_cons in W as [_ W]. apply (closed_last es KLParen); auto. now apply multi_closed.
  - do 3 apply wg_cons in W as [_ W]. apply (closed_last es KLParen); auto. now apply multi_closed.
  - destruct W0 as [W0 _]. specialize (W0 ltac:(cbn; tauto)). cbn [closed] in W0. destruct W0 as (_ & _ & _ & W0 & _). change (next [] KLParen) with KLParen in W0.
    rewrite (extends_constructor _ B) in W0. discriminate.
  - apply wg_cons in W as [_ W]. apply (closed_last es KLParen); auto. now apply multi_closed.
Qed.
(** A looser operator of the same Lua precedence on the left would take the right operand. *)
Lemma left_same o l : left_ok lua o l = true -> extends (exp_t l) (binop_kind o) = false -> same_level o l = true.
Proof.
  destruct l; try reflexivity. rewrite extends_bin. intros H X. apply orb_false_iff in X as [X _]. cbn [same_level]. unfold left_ok in H. cbn [level] in H.
  destruct o, o0; cbn in H, X |- *; try reflexivity; discriminate.
Qed.

Ltac fine_split := repeat match goal with
  | H : fine [PNode _ _] |- _ => apply fine_node in H
  | H : fine (_ ++ _) |- _ => apply fine_app in H as [? ?]
  | H : fine [PTok _] |- _ => clear H
  | H : fine [] |- _ => clear H
  | H : fine (_ :: _ :: _) |- _ => apply fine_cons in H as [? ?]
  | H : fine (_ :: _ ++ _) |- _ => apply fine_cons in H as [? ?]
  | H : fine (PTok _ :: _) |- _ => apply fine_cons in H as [? ?]
  | H : fine (PNode _ _ :: _) |- _ => apply fine_cons in H as [? ?]
  end.
Lemma fine_same :
  (forall e, exp_ok lua e = true -> fine [exp_t e] -> exp_same e = true) /\
  (forall es, exps_ok lua es = true -> fine (exps_t es) -> exps_same es = true) /\
  (forall a, args_ok lua a = true -> fine [args_t a] -> args_same a = true) /\
  (forall fs, fields_ok lua fs = true -> fine (fields_t fs) -> fields_same fs = true) /\
  (forall f, field_ok lua f = true -> fine [field_t f] -> field_same f = true) /\
  (forall s, stat_ok lua s = true -> fine [stat_t s] -> stat_same s = true) /\
  (forall t, iftail_ok lua t = true -> fine (iftail_t t) -> iftail_same t = true) /\
  (forall b, block_ok lua b = true -> fine (block_t b) -> block_same b = true).
Proof.
  assert (BC : forall D s semi b, block_ok D (BCons s semi b) = stat_ok D s && block_ok D b && (negb (is_return s) || is_nil b) &&
      (semi || negb (open_stat D s && starts_paren b))) by reflexivity.
  apply lua_ind; intros;
    try match goal with |- block_same (BCons _ _ _) = true => rewrite BC in * end;
    cbn [exp_ok exps_ok args_ok fields_ok field_ok stat_ok iftail_ok
         exp_same exps_same args_same fields_same field_same stat_same iftail_same block_same
         exp_t exps_t args_t fields_t field_t stat_t iftail_t block_t app] in *;
    rewrite ?andb_true_iff in *; try reflexivity.
  5: { destruct H1 as [[[H1 H3] H4] H5]. assert (X : extends (exp_t l) (binop_kind o) = false).
       { destruct H2 as [(nx & W) _]. apply wg_node in W as [[W _] _]. specialize (W ltac:(cbn; tauto)). exact (proj1 W). }
       pose proof (left_same _ _ H1 X). fine_split. auto. }
  28: { assert (L : is_one es = true).
        { destruct H2 as [_ V]. apply every_node in V as [_ V]. apply every_cons in V as [_ V]. apply every_cons in V as [V _]. apply every_node in V as [_ V].
          apply every_node in V as [V _]. specialize (V eq_refl). destruct es; [reflexivity|]. cbn [exps_t length] in V. destruct es; cbn [exps_t length] in V; lia. }
        destruct H1 as [[_ H1] H3]. fine_split. auto. }
  31: { destruct H1 as [[[H1 H3] H4] H5]. assert (L : semi || negb (stat_constructor s && starts_paren b) = true).
        { destruct semi; [reflexivity|]. cbn [orb]. destruct (starts_paren b) eqn:SP; [|now rewrite andb_false_r]. rewrite andb_true_r. apply negb_true_iff, stat_closed.
          destruct H2 as [(nx & W) _]. apply wg_cons in W as [W _]. cbn [semi_t app] in W. unfold next in W. rewrite toks_block in W. unfold starts_paren in SP.
          destruct (block_w b) as [|k w]; [discriminate|]. destruct k; try discriminate. exact W. }
        apply fine_cons in H2 as [F1 F2]. apply fine_app in F2 as [_ F2]. auto. }
  all: fine_split; intuition auto.
Qed.

(** A Lua program is given its tree, without an error of the parser, if and only if it has none of the three
    deviations of LuaDialect.v. *)
Theorem C20_exactly : forall t xs b, lexemes_of t xs -> map fst (code xs) = block_w b -> block_ok lua b = true ->
  ((exists toks lex_errs g, tokenize t = Ok (toks, lex_errs) /\ parse_tokens t toks = Ok (g, []) /\ skel g = [file_t b]) <-> block_same b = true).
Proof.
  intros t xs b L Hw Ho. split; [|exact (C20_programs_parse_partial t xs b L Hw Ho)]. intros (toks & le & g & T & P & E).
  destruct (C23_no_error_means_derivation _ _ _ _ T P) as [TR _]. destruct (parse_tokens_inv _ _ _ _ T P) as (ls & fs & a & Hp & _ & _ & Eq). injection Eq as -> _.
  apply fine_same; [exact Ho|]. rewrite E in TR. apply Tree_one_exp in TR. unfold file_t in TR. apply every_node in TR as [_ TR]. apply every_node in TR as [_ TR].
  split; [|exact TR]. pose proof (parsed_grouped _ _ _ _ Hp) as W. rewrite <- (root_skel _ _ _ _ Hp), E in W. unfold file_t in W. apply wg_node in W as [_ W].
  apply wg_node in W as [_ W]. eauto.
Qed.
Print Assumptions C20_exactly.

(** * C18, exactly *)
Lemma chains_exact e : leaves_ok lua e = true -> leaves_ok impl e = true -> exp_same (minparen lua e) = true -> chains_ok e = true.
Proof.
  induction e; intros H1 H2 H3; try reflexivity.
  - exact (IHe H1 H2 H3).
  - cbn [chains_ok leaves_ok] in *. apply IHe; auto. change (exp_same (paren_unless (un_ok lua (minparen lua e)) (minparen lua e)) = true) in H3. destruct (un_ok lua (minparen lua e)); exact H3.
  - cbn [chains_ok leaves_ok] in *. apply andb_true_iff in H1 as [A1 A2], H2 as [B1 B2].
    change (same_level o (paren_unless (left_ok lua o (minparen lua e1)) (minparen lua e1)) &&
            exp_same (paren_unless (left_ok lua o (minparen lua e1)) (minparen lua e1)) &&
            exp_same (paren_unless (right_ok lua o (minparen lua e2)) (minparen lua e2)) = true) in H3.
    apply andb_true_iff in H3 as [H3 C3]. apply andb_true_iff in H3 as [C1 C2].
    assert (X : forall b x, exp_same (paren_unless b x) = true -> exp_same x = true) by (intros [|] x; auto).
    rewrite (IHe1 A1 B1 (X _ _ C2)), (IHe2 A2 B2 (X _ _ C3)), !andb_true_r. destruct (left_ok lua o (minparen lua e1)) eqn:L.
    + destruct e1; exact C1 || reflexivity.
    + destruct e1; try reflexivity. cbn [same_level]. change (left_ok lua o (EBin o0 EName EName) = false) in L. clear -L.
      destruct o, o0; try reflexivity; discriminate L.
Qed.
(** Written with Lua's parentheses, an expression whose operands both readings understand is read back as it is if
    and only if no left operand is a looser operator of the same Lua precedence. *)
Theorem C18_exactly : forall e t xs, leaves_ok lua e = true -> leaves_ok impl e = true ->
  lexemes_of t xs -> map fst (code xs) = KReturnKw :: exp_w (minparen lua e) ->
  ((exists toks lex_errs g, tokenize t = Ok (toks, lex_errs) /\ parse_tokens t toks = Ok (g, []) /\
     skel g = [PNode KSourceFile [PNode KBlock [PNode KReturnStmt [PTok KReturnKw; PNode KMultivalExpr [exp_t (minparen lua e)]]]]])
   <-> chains_ok e = true).
Proof.
  intros e t xs Hl Hi L Hw. split; [|intros Hc; exact (C18_lua_table_partial e t xs Hl Hi Hc L Hw)]. intros H. apply chains_exact; auto.
  assert (HL : exp_ok lua (minparen lua e) = true) by (apply minparen_ok; auto; try (intros []; cbn; lia); cbn; lia).
  assert (Hs : block_same (return_of (minparen lua e)) = true).
  { apply (C20_exactly t xs); [exact L| |now rewrite return_ok|exact H]. rewrite Hw. unfold return_of. cbn [block_w stat_w exps_w semi_w app]. now rewrite app_nil_r. }
  unfold return_of in Hs. cbn [block_same stat_same exps_same] in Hs. rewrite !andb_true_iff in Hs. tauto.
Qed.
Print Assumptions C18_exactly.

(** * C21, exactly *)
(** A run that leaves an error behind. *)
Definition Fails {A} (m : D A) (rem : list kind) : Prop :=
  forall f0 a st', m (mkDS rem f0) = Ok (a, st') -> exists g r, st' = mkDS r (f0 ++ g) /\ noerrs g = false.
Lemma noerrs_app a b : noerrs (a ++ b) = noerrs a && noerrs b.
Proof. apply forallb_app. Qed.
Lemma Fails_first {A B} (m : D A) (k : A -> D B) rem : Fails m rem -> (forall a r, PC false (k a) r any) -> Fails (@bind TO A B m k) rem.
Proof.
  intros H1 H2 f0 b st' Hr. change (rbind (m (mkDS rem f0)) (fun p => k (fst p) (snd p)) = Ok (b, st')) in Hr. apply rbind_ok in Hr as ((a & st) & R1 & R2).
  destruct (H1 _ _ _ R1) as (g & r & -> & N). cbn [fst snd] in R2. destruct (H2 _ _ _ _ _ R2) as (h & s & -> & _). exists (g ++ h), s.
  rewrite app_assoc. split; [reflexivity|]. now rewrite noerrs_app, N.
Qed.
Lemma Fails_then {A B} (m : D A) (k : A -> D B) rem r f : DoesX m rem r f -> (forall a, Fails (k a) r) -> Fails (@bind TO A B m k) rem.
Proof.
  intros H1 H2 f0 b st' Hr. destruct (H1 f0) as [a Ha]. rewrite (bind_run _ _ _ _ _ Ha) in Hr. destruct (H2 _ _ _ _ Hr) as (g & s & -> & N).
  exists (f ++ g), s. rewrite app_assoc. split; [reflexivity|]. now rewrite noerrs_app, N, andb_false_r.
Qed.
Lemma Fails_with {A B} (m : D A) (k : A -> D B) rem r a f : Does m rem r a f -> Fails (k a) r -> Fails (@bind TO A B m k) rem.
Proof.
  intros H1 H2 f0 b st' Hr. rewrite (bind_run _ _ _ _ _ (H1 f0)) in Hr. destruct (H2 _ _ _ Hr) as (g & s & -> & N).
  exists (f ++ g), s. rewrite app_assoc. split; [reflexivity|]. now rewrite noerrs_app, N, andb_false_r.
Qed.
Lemma Fails_node {A} K (body : D A) rem : Fails body rem -> Fails (@node_ TO A K body) rem.
Proof.
  intros H f0 u st' Hr. unfold node_ in Hr. match type of Hr with @bind TO _ _ ?m ?k ?st = _ => change (rbind (m st) (fun p => k (fst p) (snd p)) = Ok (u, st')) in Hr end.
  apply rbind_ok in Hr as ((i & st) & H1 & H2). cbn [fst snd] in H2. apply ret_inv in H2 as [_ <-]. unfold node in H1.
  destruct (node_by_inv _ _ _ _ _ H1) as (K' & st1 & HB & _ & ->).
  match type of HB with @bind TO _ _ ?m ?k ?st' = _ => change (rbind (m st') (fun p => k (fst p) (snd p)) = Ok (K', st1)) in HB end.
  apply rbind_ok in HB as ((a & st2) & HB & H3). cbn [fst snd] in H3. apply ret_inv in H3 as [_ <-]. destruct (H _ _ _ HB) as (g & r & -> & N).
  exists [PNode K' g], r. split; [reflexivity|]. cbn [noerrs forallb noerr]. change (forallb noerr g) with (noerrs g). now rewrite N.
Qed.
Lemma Fails_expect k rem : hd0 rem <> k -> Fails (@p_expect TO k) rem.
Proof.
  intros H f0 a st' Hr. unfold p_expect in Hr. rewrite cur_run in Hr. apply kind_eqb_neq in H. rewrite H in Hr.
  match type of Hr with @bind TO _ _ ?m ?k ?st = _ => change (rbind (m st) (fun p => k (fst p) (snd p)) = Ok (a, st')) in Hr end.
  apply rbind_ok in Hr as ((u & st) & H1 & H2). cbn [fst snd] in H2. apply ret_inv in H2 as [_ <-]. cbv in H1. injection H1 as <- <-. eexists [_], rem. split; reflexivity.
Qed.
Lemma Fails_cur {B} (k : kind -> D B) rem : Fails (k (hd0 rem)) rem -> Fails (@bind TO kind B (@p_current TO) k) rem.
Proof. intros H f0 a st' Hr. apply (H f0 a). rewrite <- cur_run. exact Hr. Qed.

(** The generic for with more than one expression, at the start of a text: an error, whatever follows. *)
Lemma for_content_run n e rest m : exp_ok impl e = true -> 2 * length (names_w n ++ KInKw :: exp_w e ++ KComma :: rest) + 1 <= m ->
  DoesX (@for_content TO m (expr_f m)) (names_w n ++ KInKw :: exp_w e ++ KComma :: rest) (KComma :: rest)
    [PNode KForContent [PNode KGenericFor [PNode KMultiName (names_t n); PTok KInKw; exp_t e]]].
Proof.
  intros Ho Hm. destruct (proj1 lua_complete e Ho) as [HL _]. apply Loop_Run in HL. pose proof (names_w_len n) as HN. apply (X_D _ _ _ tt).
  unfold for_content. eapply (D_node_ _ _ _ _ tt). apply D_at. rewrite names_w_hd. cbn [pacc_test]. change (kind_eqb KIdent KIdent) with true. cbv iota. apply D_nth. rewrite names_w_nth1.
  replace (kind_eqb _ KEq) with false by (destruct n; reflexivity). unfold generic_for.
  eapply (D_bind _ _ _ _ _ _ _ []); [apply D_at; rewrite names_w_hd; apply D_ret|]. eapply X_node_.
  match goal with |- DoesX _ _ _ [?a; ?b; ?c] => change [a; b; c] with ([a] ++ [b] ++ [c]) end.
  eapply X_bind; [apply D_multi_name; [discriminate|len]|]. eapply X_bind; [dleaf|]. apply X_O. unfold expr_single. apply RunE_soft; auto. len.
Qed.
Lemma for_list_fails n e rest m : exp_ok impl e = true -> 2 * length (KForKw :: names_w n ++ KInKw :: exp_w e ++ KComma :: rest) + 2 <= m ->
  Fails (@root_f TO m) (KForKw :: names_w n ++ KInKw :: exp_w e ++ KComma :: rest).
Proof.
  intros Ho Hm. destruct m as [|m]; [len|]. destruct (PC_all (S m)) as [HS _]. unfold root_f, root, root_block, block_raw. apply Fails_node, Fails_node. unfold p_while. cbn [p_loop]. apply Fails_first.
  - apply (Fails_with _ _ _ (KForKw :: names_w n ++ KInKw :: exp_w e ++ KComma :: rest) true []); [apply D_at; dleaf|]. cbv iota. apply Fails_first; [|intros; pc]. clear HS.
    cbn [stmt_f]. destruct (PC_all m) as [HS HE]. unfold stmt_body. apply Fails_first; [|intros; pc]. apply Fails_cur. cbn [hd0].
    change (Fails (@for_stmt TO m (stmt_f m) (expr_f m)) (KForKw :: names_w n ++ KInKw :: exp_w e ++ KComma :: rest)). unfold for_stmt. apply Fails_node.
    eapply Fails_with; [dleaf|]. eapply Fails_then; [apply for_content_run; [exact Ho|len]|]. intros _. apply Fails_first; [apply Fails_expect; discriminate|].
    intros _ r. pc. exact (PC_block m _ HS _ _).
  - intros b r. destruct b; [|pc]. apply PC_loop. intros r'. pc. apply HS.
Qed.
(** A generic for whose first expression is followed by a comma is reported, in every text that begins with one. *)
Theorem C21_exactly : forall n e rest t xs, exp_ok impl e = true -> lexemes_of t xs ->
  map fst (code xs) = KForKw :: names_w n ++ KInKw :: exp_w e ++ KComma :: rest ->
  forall toks lex_errs g errs, tokenize t = Ok (toks, lex_errs) -> parse_tokens t toks = Ok (g, errs) -> errs <> [].
Proof.
  intros n e rest t xs Ho L Hw toks le g errs T P. destruct (parse_tokens_inv _ _ _ _ T P) as (ls & fs & a & Hp & _ & _ & Eq). injection Eq as _ ->.
  pose proof (pd_run _ _ _ _ Hp) as R. rewrite (parsed_lexemes_eq _ _ _ _ _ Hp L) in Hw.
  change (code (rt_of ls)) with (nontriv (rt_of ls)) in Hw. rewrite Hw in R.
  assert (Hf : 2 * length (KForKw :: names_w n ++ KInKw :: exp_w e ++ KComma :: rest) + 2 <= parse_fuel (ts_new_source (map lt_tok ls))).
  { rewrite <- Hw. unfold parse_fuel, ts_new_source. cbn [ts_pairs]. rewrite <- (rt_of_toks ls), ts_filter_length, map_length.
    assert (HL : forall n, 2 * n + 2 <= 4 * n + 8) by lia. apply HL. }
  destruct (for_list_fails _ _ _ _ Ho Hf _ _ _ R) as (f & r & E & N). cbn [app] in E. assert (Ef : f = [PNode KSourceFile [PNode KBlock fs]]) by congruence. subst f.
  intros E0. assert (NE : noerrs fs = true) by (apply fmsgs_nil; rewrite <- (pd_msgs _ _ _ _ Hp), E0; reflexivity).
  cbn [noerrs forallb noerr] in N. change (forallb noerr fs) with (noerrs fs) in N. rewrite NE in N. discriminate N.
Qed.
Print Assumptions C21_exactly.

(** The rules decide: [return a + b - c] is grouped to the right here, and not to the left. *)
Definition nm : ptree := PNode KNameRef [PTok KIdent].
Definition ret_of (e : ptree) : forest := [PNode KSourceFile [PNode KBlock [PNode KReturnStmt [PTok KReturnKw; PNode KMultivalExpr [e]]]]].
Definition right_tree : ptree := PNode KInfixExpr [nm; PTok KPlus; PNode KInfixExpr [nm; PTok KMinus; nm]].
Definition left_tree : ptree := PNode KInfixExpr [PNode KInfixExpr [nm; PTok KPlus; nm]; PTok KMinus; nm].
Example C72_case : match source_file_parse (txt "return a + b - c") with Ok p => skel (pa_green p) = ret_of right_tree | _ => False end /\
  Tree true NSource (ret_of left_tree) /\ ~ well_grouped (ret_of left_tree) KEof.
Proof.
  split; [vm_compute; reflexivity|]. split.
  - assert (N : Tree true NExpr [nm]) by (apply T_expr_lhs, (T_post _ true), T_nameref_expr).
    apply T_source, T_block. change [PNode KReturnStmt [PTok KReturnKw; PNode KMultivalExpr [left_tree]]] with ([PNode KReturnStmt (PTok KReturnKw :: [PNode KMultivalExpr ([left_tree] ++ [])])] ++ [] ++ []).
    apply T_stmts_cons; [|reflexivity|now left|apply T_stmts_nil]. apply T_return_val, T_multi; [|apply T_multi_nil]. apply T_expr. unfold left_tree.
    apply T_infix; [|cbn; tauto|now apply T_expr]. apply T_infix; [exact N|cbn; tauto|now apply T_expr].
  - intros W. unfold ret_of in W. apply wg_node in W as [_ W]. apply wg_node in W as [_ W]. apply wg_node in W as [_ W]. apply wg_cons in W as [_ W]. apply wg_node in W as [_ W].
    apply wg_node in W as [[W _] _]. specialize (W ltac:(cbn; tauto)). destruct W as [W _]. vm_compute in W. discriminate W.
Qed.
(** A text full of errors: its tree has 38 nodes and the parser reports 8 errors. *)
Example C72_case_errors : match source_file_parse (txt "x = - not + 1 for i in (a b) f{}'s' return return -2 ^ -3") with
  | Ok p => length (nodes_of (skel (pa_green p)) KEof) = 38 /\ length (pa_errors p) = 8 | _ => False end.
Proof. vm_compute. auto. Qed.
Example C21_exactly_case : match tokenize (txt "for k, v in next, t do end") with
  | Ok (toks, _) => map fst (code [(KForKw, txt "for"); (KIdent, txt "k"); (KComma, txt ","); (KIdent, txt "v"); (KInKw, txt "in"); (KIdent, txt "next"); (KComma, txt ",")])
        = KForKw :: names_w 1 ++ KInKw :: exp_w EName ++ KComma :: [] /\
      match parse_tokens (txt "for k, v in next, t do end") toks with Ok (g, errs) => length errs = 3 | _ => False end
  | _ => False end.
Proof. vm_compute. auto. Qed.
