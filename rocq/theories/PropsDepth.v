(** PropsDepth.v — C86: the stack that parsing needs follows the nesting of the code. *)
From Verif Require Import Base SyntaxKind TokenSet Lexer BindingPowers Parser Grammar Event EventProofs Tree TreeSink ParserTree ParserRefine SinkProofs
  LexSpec LexerDirect LexerProofs GrammarSpec ParserTotal ParserTotal2 ParseSpec ParseProofs DressProofs ParserFuel Depth DepthSpec DepthProofs.

(** * Proofs *)

Lemma measure_toks of l : flat_map (measure of) (map gtok l) = [].
Proof. induction l as [|p l IH]; [reflexivity|exact IH]. Qed.
Lemma measure_dress of fs pos rt a : Dress fs pos rt a -> flat_map (measure of) (dr_green a) = kids of fs.
Proof.
  induction 1 as [|k fs pos rt tr p rest b E H IH|e fs pos rt b H IH|e fs gs pos rt tr rest a b E H1 IH1 H2 IH2|k fs gs pos rt tr rest a b E H1 IH1 H2 IH2]; cbn [dr_green]; [reflexivity| |exact IH| |].
  - rewrite !flat_map_app, measure_toks, IH. reflexivity.
  - rewrite !flat_map_app, measure_toks, IH2. cbn [flat_map app measure]. rewrite IH1. reflexivity.
  - rewrite !flat_map_app, measure_toks, IH2. cbn [flat_map app measure]. rewrite IH1. reflexivity.
Qed.
Lemma measure_parsed of t ls fs a : parsed t ls fs a ->
  list_max (measure of (GNode KSourceFile [GNode KBlock (dr_green a ++ map gtok (dr_left a))])) = top of [PNode KSourceFile [PNode KBlock fs]].
Proof.
  intros P. unfold top, kids. cbn [measure flat_map kid app]. rewrite flat_map_app, measure_toks, app_nil_r, (measure_dress of _ _ _ _ (dress_rel _ _ _ _ (pd_dress _ _ _ _ P))). reflexivity.
Qed.

(** What the two parsers do on one text. *)
Lemma within t ls fs a d : parsed t ls fs a ->
  match @root_d TO (parse_fuel (ts_new_source (map lt_tok ls))) d (mkDS (map fst (nontriv (rt_of ls))) []) with
  | Ok (_, ds) => ds_for ds = [PNode KSourceFile [PNode KBlock fs]] /\ parse_text_within d t = parse_text t
  | Panic => False
  | OutOfFuel => parse_text_within d t = OutOfFuel /\ d + 2 <= top level_of [PNode KSourceFile [PNode KBlock fs]]
  end.
Proof.
  intros P. pose proof (rel_root_d (parse_fuel (ts_new_source (map lt_tok ls))) d _ _ _ (pd_run _ _ _ _ P)) as [_ R]. cbn [ds_for] in R.
  pose proof (run_grammar_refines (fun n => @root_d event_ops n d) (fun n => @root_d TO n d) (map lt_tok ls) (fun n => root_d_rg n d)) as HR. cbv zeta beta in HR.
  assert (Hpairs : map (fun p => t_kind (fst p)) (ts_pairs (ts_new_source (map lt_tok ls))) = map fst (nontriv (rt_of ls))) by (rewrite <- rt_of_toks; apply ts_filter_kinds).
  rewrite Hpairs in HR. destruct R as [R|[R G]]; rewrite R in *.
  - split; [reflexivity|]. destruct HR as (ev & Hev & Henc). cbn [ds_for] in Henc. unfold parse_text_within, parse_text. rewrite (pd_lexer _ _ _ _ P). cbn [rbind]. unfold parse_tokens.
    destruct (pd_steps _ _ _ _ P) as (ev' & E1 & E2). rewrite Hev, E1. cbn [rbind]. rewrite E2, (process_encF _ _ Henc).
    + unfold flats. cbn [flat_map]. rewrite app_nil_r. reflexivity.
    + apply no_tombs_every. apply every_node. assert (HT : Tree false NSource [PNode KSourceFile [PNode KBlock fs]]) by (constructor; constructor; apply (pd_tree _ _ _ _ P)). pose proof (Tree_every _ _ _ HT) as EV. apply every_node in EV. exact EV.
  - split; [|lia]. unfold parse_text_within. rewrite (pd_lexer _ _ _ _ P). cbn [rbind]. rewrite HR. reflexivity.
Qed.

(** C86: [parse_text_within d] parses with room for [d] activations of the recursive functions. It does what
    the parser does, or runs out of stack, which happens only for a tree higher than [d + 1]. *)
Theorem C86_enough : forall d t g errs, parse_text t = Ok (g, errs) ->
  parse_text_within d t = Ok (g, errs) \/ parse_text_within d t = OutOfFuel /\ d + 2 <= height g.
Proof.
  intros d t g errs H. destruct (parse_exists t (parse_text_fits _ _ H)) as (ls & fs & a & P). pose proof (within t ls fs a d P) as W. rewrite (parsed_text _ _ _ _ P) in H. injection H as <- <-.
  unfold height. rewrite (measure_parsed level_of _ _ _ _ P). rewrite (parsed_text _ _ _ _ P) in W.
  match type of W with match ?x with _ => _ end => destruct x as [[[] ds]| |] end; [|contradiction|now right].
  left. destruct W as [_ W]. exact W.
Qed.
Print Assumptions C86_enough.
(** When it succeeds, the code is nested at most [d] deep. *)
Theorem C86_needed : forall d t g errs, parse_text_within d t = Ok (g, errs) -> parse_text t = Ok (g, errs) /\ nesting g <= d.
Proof.
  intros d t g errs H.
  assert (F : fits_u32 (blen t) = true) by (unfold parse_text_within in H; apply rbind_ok in H as (x & Hx & _); exact (tokenize_ok_fits _ _ Hx)).
  destruct (parse_exists t F) as (ls & fs & a & P). pose proof (within t ls fs a d P) as W.
  pose proof (low_root_d (parse_fuel (ts_new_source (map lt_tok ls))) d (mkDS (map fst (nontriv (rt_of ls))) [])) as LW.
  match type of W with match ?x with _ => _ end => destruct x as [[[] ds]| |] eqn:EX end; [|contradiction|destruct W as [W _]; congruence].
  destruct W as [E W]. rewrite W in H. split; [exact H|]. rewrite (parsed_text _ _ _ _ P) in H. injection H as <- _.
  unfold nesting. rewrite (measure_parsed nest_of _ _ _ _ P). specialize (LW _ _ eq_refl). rewrite E in LW. cbn [ds_for] in LW. change (top nest_of []) with 0 in LW. lia.
Qed.
Print Assumptions C86_needed.

(** No stack is enough for every text: [d] opening parentheses need more than [d] activations. *)
Definition parens (n : nat) : text := repeat (ch "(") n.
Lemma parens_lexed n : Lexed (parens n) (repeat (KLParen, None, [ch "("]) n).
Proof. induction n as [|n IH]; [constructor|]. cbn [parens repeat]. apply (L_cons KLParen None [ch "("] (parens n)); [discriminate|reflexivity|exact IH]. Qed.
Lemma parens_kinds n : map fst (nontriv (rt_of (repeat (KLParen, None, [ch "("]) n))) = repeat KLParen n.
Proof. induction n as [|n IH]; [reflexivity|]. cbn. f_equal. exact IH. Qed.
Lemma bind_out {A B} (m : D A) (f : A -> D B) st : m st = OutOfFuel -> @bind TO A B m f st = OutOfFuel.
Proof. intros H. cbn [bind tree_ops]. unfold tr_bind. now rewrite H. Qed.
Lemma bind_ok {A B} (m : D A) (f : A -> D B) st a st' : m st = Ok (a, st') -> @bind TO A B m f st = f a st'.
Proof. intros H. cbn [bind tree_ops]. unfold tr_bind. now rewrite H. Qed.
Lemma node_out {A} k (m : D A) st : m (mkDS (ds_rem st) []) = OutOfFuel -> @node TO A k m st = OutOfFuel.
Proof. intros H. unfold node. cbn [node_by tree_ops]. unfold tr_node. now rewrite (bind_out m _ _ H). Qed.
Lemma node__out {A} k (m : D A) st : m (mkDS (ds_rem st) []) = OutOfFuel -> @node_ TO A k m st = OutOfFuel.
Proof. intros H. unfold node_. apply bind_out. now apply node_out. Qed.
Ltac step := etransitivity; [eapply bind_ok; reflexivity|cbv beta].
Lemma expr_out n : forall d r b f, @expr_d TO n d b (mkDS (repeat KLParen (S d) ++ r) f) = OutOfFuel.
Proof.
  induction d as [|d IH]; intros r b f; [reflexivity|]. change (@expr_d TO n (S d) b) with (@expr_bp_body TO n (@stmt_d TO n d) (@expr_d TO n d) b). revert IH. generalize (@stmt_d TO n d) (@expr_d TO n d). intros sm ex IH.
  cbn [repeat app]. unfold expr_bp_body. apply (bind_out (A := option nat)). unfold lhs. step. cbn [ds_rem nth]. change (NOT_AN_OP <? prefix_binding_power KLParen) with false. cbv iota. apply (bind_out (A := option (nat * bool))).
  unfold atom_expr. step. cbn [ds_rem nth]. change (0 <? prefix_binding_power KLParen) with false. cbv iota. step. change (pacc_test (PSet LITERAL_FIRST) (nth 0 (KLParen :: KLParen :: repeat KLParen d ++ r) KEof)) with false. cbv iota. step.
  cbn [ds_rem nth kind_eqb]. apply (bind_out (A := nat)). unfold paren_expr. apply node_out. cbn [ds_rem]. step. apply (bind_out (A := option nat)). apply (IH r).
Qed.
Lemma root_out n d : 0 < n -> @root_d TO n d (mkDS (repeat KLParen (S d)) []) = OutOfFuel.
Proof.
  intros N. destruct n as [|n]; [lia|]. unfold root_d, root, root_block, block_raw. apply node__out. cbn [ds_rem]. apply node__out. cbn [ds_rem]. unfold p_while. cbn [p_loop]. apply (bind_out (A := bool)). step.
  change (pacc_test (PSet ROOT_END) (nth 0 (ds_rem {| ds_rem := repeat KLParen (S d); ds_for := [] |}) KEof)) with false. cbn [negb]. apply (bind_out (A := unit)).
  destruct d as [|d]; [reflexivity|]. change (@stmt_d TO (S n) (S d)) with (@stmt_body_d TO (S n) (@stmt_d TO (S n) d) (@expr_d TO (S n) d) (@elseif_d TO (S n) d)).
  assert (E : forall f, @expr_d TO (S n) d LOWEST (mkDS (repeat KLParen (S (S d))) f) = OutOfFuel).
  { intros f. replace (repeat KLParen (S (S d))) with (repeat KLParen (S d) ++ [KLParen]) by (symmetry; apply (repeat_cons (S d))). apply expr_out. }
  revert E. generalize (@stmt_d TO (S n) d) (@expr_d TO (S n) d) (@elseif_d TO (S n) d). intros sm ex el E. cbn [repeat] in *.
  unfold stmt_body_d. step. cbn [ds_rem nth kind_eqb]. unfold stmt_body. apply (bind_out (A := unit)). step. cbn [ds_rem nth kind_eqb]. unfold expr_stmt. apply (bind_out (A := nat)). cbn [node_by tree_ops]. unfold tr_node. 
  rewrite (bind_out (@expr TO (S n) ex)); [reflexivity|]. unfold expr, expr_multi. apply node__out. apply (bind_out (A := option nat)). apply E.
Qed.

Theorem C86_no_stack_is_enough : forall d, fits_u32 (S d) = true -> parse_text_within d (parens (S d)) = OutOfFuel.
Proof.
  intros d F. assert (B : forall n, blen (parens n) = n) by (induction n as [|n IH]; [reflexivity|]; cbn [parens repeat blen]; rewrite <- IH at 2; reflexivity).
  destruct (parse_exists (parens (S d))) as (ls & fs & a & P); [now rewrite B|]. pose proof (within _ _ _ _ d P) as W. rewrite (Lexed_fun _ _ (pd_lex _ _ _ _ P) _ (parens_lexed (S d))), parens_kinds in W.
  rewrite root_out in W; [apply W|]. unfold parse_fuel. lia.
Qed.
Print Assumptions C86_no_stack_is_enough.

(** A file with one level of nesting, and long chains of operands, calls and statements: what it needs and
    what its measures allow. *)
Definition C86_file : text := txt "local x = a.b(1).c[2] + 3 + 4 + 5 - f 'x' .. 'y' do x = (1) end print(x) print(x) print(x)".
Example C86_ex : match parse_text C86_file with
  | Ok (g, errs) => nesting g = 2 /\ height g = 9 /\ errs = [] /\ parse_text_within 4 C86_file = Ok (g, errs) /\ parse_text_within 3 C86_file = OutOfFuel
  | _ => False end.
Proof. vm_compute. repeat split. Qed.
