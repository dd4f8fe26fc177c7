(** PropsWork.v — C88: the work of the parser is linear in the tokens. Work.v counts the parser's operations; each is a constant
    amount of work on vectors. *)
From Verif Require Import Base SyntaxKind TokenSet Lexer LexSpec LexerDirect LexerProofs Parser Grammar
  Event Tree TreeSink ParserTree ParserRefine SinkProofs GrammarSpec ParserTotal ParserTotal2 ParseSpec ParseProofs TreeSize PropsLang PropsSize Work WorkProofs.

(** ** The events of a tree *)
Lemma enc_len : (forall fp t ev j, EncX fp t ev j -> length ev <= nk [t] + 2 * fw [t]) /\ (forall t ev, Enc1 t ev -> length ev <= nk [t] + 2 * fw [t]) /\
  (forall f ev, EncF f ev -> length ev <= nk f + 2 * fw f).
Proof.
  apply Enc_mutind.
  - intros fp k fs ev _ IH. rewrite nk_node, fw_node, nk_nil, fw_nil. cbn [length]. rewrite app_length. cbn [length]. lia.
  - intros fp k t pre post evt j evp evq _ IH1 _ IH2 _ IH3. rewrite nk_node, fw_node, nk_nil, fw_nil. change (t :: pre ++ post) with ([t] ++ pre ++ post). rewrite !nk_app, !fw_app.
    rewrite !app_length. cbn [length]. rewrite app_length. cbn [length]. lia.
  - intros k. cbn. lia.
  - intros e. cbn. lia.
  - intros fs e ev _ IH. replace (nk [PErrN fs e]) with (nk fs) by (unfold nk; cbn; now rewrite app_nil_r). change (fw [PErrN fs e]) with (S (fw fs) + 0). cbn [length]. rewrite app_length. cbn [length]. lia.
  - intros t ev j _ IH. exact IH.
  - cbn. lia.
  - intros t f ev ev' _ IH1 _ IH2. change (t :: f) with ([t] ++ f). rewrite nk_app, fw_app, app_length. lia.
Qed.
Lemma parsed_events t ls fs a : parsed t ls fs a -> exists evs, parse_events (ts_new_source (map lt_tok ls)) = Ok evs /\ length evs <= 33 * length (written (map lt_tok ls)) + 4.
Proof.
  intros H. rewrite written_lexed, <- (pd_kinds _ _ _ _ H). change (length (fkinds fs)) with (nk fs).
  destruct (tree_bounded _ _ _ (pd_tree _ _ _ _ H)) as ((A & B) & _ & _). cbn [zs fst snd] in *. unfold TreeSize.A in B.
  pose proof (run_grammar_refines (@root_f event_ops) (@root_f tree_ops) (map lt_tok ls) root_f_rg) as HR. cbv zeta in HR.
  assert (Hpairs : map (fun p => t_kind (fst p)) (ts_pairs (ts_new_source (map lt_tok ls))) = map fst (nontriv (rt_of ls))) by (rewrite <- rt_of_toks; apply ts_filter_kinds).
  rewrite Hpairs, (pd_run _ _ _ _ H) in HR. cbn [ds_for] in HR. destruct HR as (evs & Hev & Henc). exists evs. split; [exact Hev|].
  apply enc_len in Henc. rewrite !nk_node, !fw_node, !nk_nil, !fw_nil in Henc. lia.
Qed.

(** ** The walk over the events *)
(** Start events with a link. *)
Definition links (evs : list event) : nat := length (filter (fun e => match e with EStart _ (Some _) => true | _ => false end) evs).
Lemma links_set evs i : links (list_set evs i tombstone) <= links evs.
Proof. unfold links. revert i. induction evs as [|e evs IH]; intros [|i]; cbn [list_set filter length]; [lia|lia| |]; [destruct e as [? [|]| | | | |]; cbn; lia|]. specialize (IH i). destruct e as [? [|]| | | | |]; cbn [length]; lia. Qed.
Lemma links_set_some evs i k f : nth_error evs i = Some (EStart k (Some f)) -> S (links (list_set evs i tombstone)) = links evs.
Proof.
  unfold links. revert i. induction evs as [|e evs IH]; intros [|i] H; try discriminate; cbn [nth_error] in H.
  - injection H as ->. reflexivity.
  - cbn [list_set filter]. specialize (IH i H). destruct e as [? [|]| | | | |]; cbn [length]; lia.
Qed.
Lemma walk_bound fuel : forall evs idx fp w evs', walk_work fuel evs idx fp = (w, evs') -> w + links evs' <= links evs + match fp with Some _ => 1 | None => 0 end.
Proof.
  induction fuel as [|fuel IH]; intros evs idx [f|] w evs' H; cbn [walk_work] in H; try (injection H as <- <-; lia).
  destruct (nth_error evs (idx + f)) as [[k fp'| | | | | ]|] eqn:E; try (injection H as <- <-; lia).
  destruct (walk_work fuel _ _ _) as [w1 evs1] eqn:E1. injection H as <- <-. apply IH in E1. destruct fp' as [g|]; [apply links_set_some in E; lia|].
  pose proof (links_set evs (idx + f)). lia.
Qed.
Lemma process_bound todo : forall i evs, process_work todo i evs <= todo + links evs.
Proof.
  induction todo as [|todo IH]; intros i evs; cbn [process_work]; [lia|].
  destruct (nth_error evs i) as [[k fp| | | | | ]|] eqn:E; try (pose proof (links_set evs i); specialize (IH (S i) (list_set evs i tombstone)); lia).
  destruct (kind_eqb k KTombstone); [pose proof (links_set evs i); specialize (IH (S i) (list_set evs i tombstone)); lia|].
  destruct (walk_work _ _ _ _) as [w evs'] eqn:E1. apply walk_bound in E1. specialize (IH (S i) evs').
  destruct fp as [g|]; [apply links_set_some in E; lia|]. pose proof (links_set evs i). lia.
Qed.
(** The steps [process] makes: at most one for each turn and link. *)
Lemma walk_steps fuel : forall evs idx fp acc ks evs', walk fuel evs idx fp acc = Ok (ks, evs') -> exists w, walk_work fuel evs idx fp = (w, evs') /\ length ks <= length acc + w.
Proof.
  induction fuel as [|fuel IH]; intros evs idx [f|] acc ks evs' H; cbn [walk walk_work] in *; try discriminate; try (injection H as <- <-; exists 0; split; [reflexivity|lia]).
  destruct (nth_error evs (idx + f)) as [[k fp'| | | | | ]|] eqn:E; try discriminate. destruct (IH _ _ _ _ _ _ H) as (w & -> & L). exists (S w). split; [reflexivity|].
  destruct (kind_eqb k KTombstone); [lia|]. rewrite app_length in L. cbn [length] in L. lia.
Qed.
Lemma process_steps todo : forall i evs sts, process_loop todo i evs = Ok sts -> length sts <= process_work todo i evs.
Proof.
  induction todo as [|todo IH]; intros i evs sts H; cbn [process_loop process_work] in *; [injection H as <-; cbn; lia|].
  destruct (nth_error evs i) as [e|] eqn:E; [|discriminate].
  destruct e as [k fp| | | | | ].
  { destruct (kind_eqb k KTombstone); [specialize (IH _ _ _ H); lia|]. apply rbind_ok in H as ([ks evs'] & Hw & H). apply rbind_ok in H as (rest & Hr & H).
    destruct (walk_steps _ _ _ _ _ _ _ Hw) as (w & -> & L). injection H as <-. rewrite app_length, map_length, rev_length. specialize (IH _ _ _ Hr). cbn [length] in L. lia. }
  all: apply rbind_ok in H as (rest & Hr & H); injection H as <-; specialize (IH _ _ _ Hr); cbn [length]; lia.
Qed.

(** * C88 Linear work *)
(** For the tokens of any text: the counted parser makes the same events as the parser, with at most 12 operations for each; the
    events are at most 33 for each token that is no white space or comment, and 4; turning them into calls on the tree builder takes
    at most two steps for each event, and there are at most so many calls. *)
Theorem C88_parser : forall t toks lex_errs, tokenize t = Ok (toks, lex_errs) ->
  exists evs w sts, parse_work (ts_new_source toks) = Ok (evs, w) /\ parse_events (ts_new_source toks) = Ok evs /\ process evs = Ok sts /\
    let n := length (written toks) in
    length evs <= 33 * n + 4 /\ w <= 12 * length evs /\ process_work (length evs) 0 evs <= 2 * length evs /\ length sts <= process_work (length evs) 0 evs.
Proof.
  intros t toks le Ht. destruct (parse_exists t (tokenize_ok_fits _ _ Ht)) as (ls & fs & a & Hp).
  assert (E : toks = map lt_tok ls) by (pose proof (pd_lexer _ _ _ _ Hp); congruence). subst toks.
  destruct (parsed_events _ _ _ _ Hp) as (evs & He & L). pose proof (parse_work_spec (ts_new_source (map lt_tok ls))) as S. rewrite He in S. destruct S as (w & Hw & B).
  destruct (pd_steps _ _ _ _ Hp) as (ev & He' & Hs). assert (ev = evs) by congruence. subst ev. exists evs, w. eexists. repeat split; eauto.
  - pose proof (process_bound (length evs) 0 evs) as P. enough (links evs <= length evs) by lia. unfold links. clear. induction evs as [|e l IH]; cbn [filter length]; [lia|]. destruct e as [? [|]| | | | |]; cbn [length]; lia.
  - exact (process_steps _ _ _ _ Hs).
Qed.
Print Assumptions C88_parser.
(** So the operations are at most 396 for each token and 48. *)
Corollary C88_linear : forall t toks lex_errs, tokenize t = Ok (toks, lex_errs) ->
  exists evs w, parse_work (ts_new_source toks) = Ok (evs, w) /\ w <= 396 * length (written toks) + 48.
Proof. intros t toks le Ht. destruct (C88_parser _ _ _ Ht) as (evs & w & sts & H & _ & _ & L). exists evs, w. split; [exact H|]. cbv zeta in L. lia. Qed.
Print Assumptions C88_linear.
(** A text with an error in it: its events, the operations of the parser, and the steps of the walk over the events. *)
Definition case88 : text := Eval vm_compute in txt "local a = f(x.y, {1}) + ; end return -a .. b".
Example C88_case : match tokenize case88 with
  | Ok (toks, _) => match parse_work (ts_new_source toks) with
      | Ok (evs, w) => (length (written toks), length evs, w, process_work (length evs) 0 evs) = (21, 73, 185, 77)
      | _ => False end
  | _ => False end.
Proof. vm_compute. reflexivity. Qed.
