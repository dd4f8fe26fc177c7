(** ParseProofs.v — the whole pipeline: tokenize, parse, process, sink. *)
From Verif Require Import Base SyntaxKind TokenSet Lexer LexSpec LexerProofs LexerDirect LexerClass BindingPowers Parser Grammar
  Event EventProofs Tree TreeSink ParserTree ParserRefine SinkProofs GrammarSpec ParserTotal ParserTotal2 Ast ParseSpec.

(** ** Lexer facts in terms of [rtok] *)
Definition rt_of (ls : list lexed_tok) : list rtok := map (fun x => (fst (fst x), snd x)) ls.

Lemma rt_of_toks ls : map mktok (rt_of ls) = map lt_tok ls.
Proof. unfold rt_of. rewrite map_map. reflexivity. Qed.
Lemma rt_of_text ls : texts (rt_of ls) = flat_map lt_text ls.
Proof. induction ls as [|x ls IH]; [reflexivity|]. cbn [rt_of map texts flat_map]. unfold rt_of, texts in IH. now rewrite IH. Qed.

(** What we need of a lexer token: its kind, and that strings start like strings. *)
Definition rtok_ok (p : rtok) : Prop :=
  In (fst p) lexer_kinds /\
  (fst p = KStr -> exists c r, snd p = c :: r /\ (c = squote \/ c = dquote \/ c = lbr)) /\ snd p <> [].

Lemma step_kind k e l b : Step k e l b -> In k lexer_kinds.
Proof.
  intros H. unfold lexer_kinds. destruct H; rewrite ?in_app_iff; try (right; right; cbn; tauto).
  - left. apply (in_map fst) in H. exact H.
  - destruct (kw_kind (c :: r)) eqn:E; try (right; right; cbn; tauto); unfold kw_kind in E;
      destruct (from_keyword (c :: r)) as [k|] eqn:F; try discriminate E; subst k;
      apply from_keyword_spec in F; right; left; exact (in_map snd _ _ F).
Qed.

Lemma op_not_str sp : ~ In (KStr, sp) spellings.
Proof. intros H. apply (in_map fst) in H. cbn in H. intuition discriminate. Qed.

Lemma step_str k e l b : Step k e l b -> k = KStr -> exists c r, l = c :: r /\ (c = squote \/ c = dquote \/ c = lbr).
Proof.
  destruct 1; intros E; try discriminate; subst; eauto 6.
  - now apply op_not_str in H.
  - destruct H as [->| ->]; eauto 6.
  - unfold kw_kind in E. destruct (from_keyword (c :: r)) as [k|] eqn:F; [|discriminate]. subst k.
    apply from_keyword_spec in F. apply (in_map snd) in F. cbn in F. intuition discriminate.
Qed.

Lemma Lexed_ok t ls : Lexed t ls -> Forall rtok_ok (rt_of ls).
Proof.
  induction 1 as [|k e l b ls Hl Hd Hls IH]; [constructor|]. cbn [rt_of map]. constructor; [|exact IH].
  pose proof (dlex_step _ _ _ _ Hl Hd) as Hs. split; [|split]; cbn [fst snd].
  - exact (step_kind _ _ _ _ Hs).
  - exact (step_str _ _ _ _ Hs).
  - exact Hl.
Qed.

Lemma lexer_no_eof : ~ In KEof lexer_kinds.
Proof. vm_compute. intuition discriminate. Qed.

(** ** The token source *)
Lemma ts_filter_kinds rt : forall n, map (fun p => t_kind (fst p)) (ts_filter n (map mktok rt)) = map fst (nontriv rt).
Proof.
  induction rt as [|[k x] rt IH]; intros n; [reflexivity|]. cbn [map ts_filter mktok fst snd t_kind t_len nontriv filter triv].
  change (triv (k, x)) with (is_trivia k).
  destruct (is_trivia k) eqn:E; cbn [negb]; [apply IH|]. cbn [map fst t_kind]. now rewrite IH.
Qed.
Lemma ts_filter_length n rt : length (ts_filter n (map mktok rt)) = length (nontriv rt).
Proof. rewrite <- (map_length (fun p => t_kind (fst p))), ts_filter_kinds, map_length. reflexivity. Qed.

(** ** Trees of the grammar have no tombstones; error nodes hold only tokens *)
Fixpoint subs (t : ptree) : list (kind * forest) :=
  match t with
  | PTok _ | PErr _ => []
  | PErrN fs _ => (KError, fs) :: flat_map subs fs
  | PNode k fs => (k, fs) :: flat_map subs fs
  end.
Definition fsubs (f : forest) : list (kind * forest) := flat_map subs f.

(** A property of (kind, children) that holds at every node. *)
Definition every (P : kind -> forest -> Prop) (f : forest) : Prop := Forall (fun x => P (fst x) (snd x)) (fsubs f).
Lemma every_nil P : every P [].
Proof. constructor. Qed.
Lemma every_app P a b : every P (a ++ b) <-> every P a /\ every P b.
Proof. unfold every, fsubs. rewrite flat_map_app. apply Forall_app. Qed.
Lemma every_cons P t f : every P (t :: f) <-> every P [t] /\ every P f.
Proof. apply (every_app P [t] f). Qed.
Lemma every_node P k fs : every P [PNode k fs] <-> P k fs /\ every P fs.
Proof.
  unfold every at 1, fsubs. cbn [flat_map subs app]. rewrite app_nil_r. rewrite Forall_cons_iff. reflexivity.
Qed.
Lemma every_tok P k : every P [PTok k].
Proof. constructor. Qed.
Lemma every_err P e : every P [PErr e].
Proof. constructor. Qed.
Lemma every_toks P ks : every P (map PTok ks).
Proof. induction ks as [|k ks IH]; [constructor|]. cbn [map]. apply every_cons. split; [constructor|exact IH]. Qed.
Lemma every_errn P fs e : every P [PErrN fs e] <-> P KError fs /\ every P fs.
Proof.
  unfold every at 1, fsubs. cbn [flat_map subs app]. rewrite app_nil_r. rewrite Forall_cons_iff. reflexivity.
Qed.

Definition local (k : kind) (fs : forest) : Prop :=
  In k node_kinds /\
  (k = KError -> exists ks, fs = map PTok ks) /\
  (k = KLiteral -> exists l, In l literals /\ fs = [PTok l]) /\
  (k = KName -> fs = [PTok KIdent]) /\
  (k = KNameRef -> fs = [PTok KIdent] \/ exists e, fs = [PErr e]).

Lemma every_req s k f P : req s k f -> every P f.
Proof. intros [->|[_ [e ->]]]; constructor. Qed.
Lemma every_is_err s f : is_err s f -> every local f.
Proof.
  intros (_ & e & [->|(ks & ->)]); [constructor|]. apply every_errn. split; [|apply every_toks].
  repeat split; try discriminate; [left; reflexivity|eauto].
Qed.
Lemma every_junk j : Forall junk j -> every local j.
Proof.
  induction 1 as [|t j Ht _ IH]; [constructor|]. apply every_cons. split; [|exact IH].
  destruct Ht as [(ks & e & ->)|(s & Hs & ->)].
  - apply every_errn. split; [|apply every_toks]. repeat split; try discriminate; [left; reflexivity|eauto].
  - apply every_node. split; [|constructor]. repeat split; try discriminate. cbn. tauto.
Qed.
Lemma every_sc sc P : sc = [] \/ sc = [PTok KSemicolon] -> every P sc.
Proof. intros [->| ->]; constructor. Qed.
Lemma every_opt s x : x = [] \/ is_err s x -> every local x.
Proof. intros [->|H]; [constructor|now apply every_is_err in H]. Qed.
Lemma every_alt (A B : Prop) x : (A -> every local x) -> (B -> every local x) -> A \/ B -> every local x.
Proof. tauto. Qed.
Lemma local_req s n : req s KIdent n -> local KNameRef n.
Proof.
  intros H. repeat split; try discriminate; [cbn; tauto|]. intros _. destruct H as [->|[_ H]]; auto.
Qed.

Ltac loc := repeat split; try discriminate; try (intros _; reflexivity); try (cbn; tauto); eauto.
Ltac ev1 :=
  match goal with
  | H : every _ ?f |- every _ ?f => exact H
  | |- every _ (_ ++ _) => apply every_app; split
  | |- every _ [] => apply every_nil
  | |- every _ [PTok _] => apply every_tok
  | |- every _ [PNode _ _] => apply every_node; split
  | |- every _ (_ :: _) => apply every_cons; split
  | H : req _ _ ?f |- every _ ?f => exact (every_req _ _ _ _ H)
  | H : is_err _ ?f |- every _ ?f => exact (every_is_err _ _ H)
  | H : Forall junk ?f |- every _ ?f => exact (every_junk _ H)
  | H : ?sc = [] \/ ?sc = [PTok KSemicolon] |- every _ ?sc => exact (every_sc _ _ H)
  | H : ?sc = [] \/ is_err _ ?sc |- every _ ?sc => exact (every_opt _ _ H)
  | H : req _ KIdent ?n |- local KNameRef ?n => exact (local_req _ _ H)
  end.

Lemma Tree_every s n f : Tree s n f -> every local f.
Proof.
  induction 1; repeat ev1; try (unfold local; repeat split; intros; try discriminate; auto; try (cbn; tauto); eauto; fail).
Qed.

Lemma no_tombs_every f : every local f -> no_tombs f = true.
Proof.
  set (P1 := fun t => every local [t] -> no_tomb t = true).
  set (PF := fun f => every local f -> no_tombs f = true).
  apply (forest_ind' P1 PF); unfold P1, PF; try reflexivity.
  - intros fs e IH H. apply every_errn in H as [_ H]. exact (IH H).
  - intros k fs IH H. apply every_node in H as [H1 H]. cbn [no_tomb]. specialize (IH H). unfold no_tombs in IH. rewrite IH, andb_true_r.
    destruct H1 as [H1 _]. destruct k; try reflexivity. exfalso. revert H1. vm_compute. intuition discriminate.
  - intros t fs H1 HF H. apply every_cons in H as [Ha Hb]. cbn [no_tombs forallb]. rewrite (H1 Ha). exact (HF Hb).
Qed.

(** The parser on any token list the lexer can produce. *)
Lemma parse_events_tree rt : Forall rtok_ok rt ->
  exists fs ev, @root_f TO (parse_fuel (ts_new_source (map mktok rt))) (mkDS (map fst (nontriv rt)) [])
      = Ok (tt, mkDS [] [PNode KSourceFile [PNode KBlock fs]]) /\
    Tree false NStmts fs /\ fkinds fs = map fst (nontriv rt) /\
    parse_events (ts_new_source (map mktok rt)) = Ok ev /\
    process ev = Ok (flat (PNode KSourceFile [PNode KBlock fs])).
Proof.
  intros Hok. set (s := ts_new_source (map mktok rt)).
  assert (HN : NEof (map fst (nontriv rt))).
  { intros H. apply in_map_iff in H as (p & Hp & Hin). apply filter_In in Hin as [Hin _].
    rewrite Forall_forall in Hok. destruct (Hok p Hin) as [Hk _]. rewrite Hp in Hk. now apply lexer_no_eof. }
  assert (Hfuel : 2 * length (map fst (nontriv rt)) + 2 <= parse_fuel s).
  { assert (HL : length (map fst (nontriv rt)) = length (ts_pairs s)).
    { rewrite map_length. symmetry. exact (ts_filter_length 0 rt). }
    unfold parse_fuel. rewrite HL. lia. }
  destruct (root_total _ _ Hfuel HN) as (f & Hrun & Hk & HT).
  assert (E : exists fs, f = [PNode KSourceFile [PNode KBlock fs]] /\ Tree false NStmts fs).
  { inversion HT; subst. match goal with H : Tree _ NBlock _ |- _ => inversion H; subst end. eauto. }
  destruct E as (fs & -> & Hfs).
  pose proof (run_grammar_refines (@root_f event_ops) (@root_f TO) (map mktok rt) root_f_rg) as HR.
  cbv zeta in HR. fold s in HR.
  assert (Hpairs : map (fun p => t_kind (fst p)) (ts_pairs s) = map fst (nontriv rt)) by apply ts_filter_kinds.
  rewrite Hpairs, Hrun in HR. cbn [ds_for] in HR. destruct HR as (ev & Hev & Henc).
  exists fs, ev. split; [exact Hrun|]. split; [exact Hfs|]. split.
  - rewrite <- Hk. rewrite fkinds_node1, fkinds_node1. reflexivity.
  - split; [exact Hev|]. rewrite (process_encF _ _ Henc).
    + unfold flats. cbn [flat_map]. now rewrite app_nil_r.
    + apply no_tombs_every. exact (Tree_every _ _ _ HT).
Qed.

Lemma eat_all_triv l tr rest : eat l = (tr, rest) -> map fst (nontriv l) = [] -> rest = [] /\ tr = l.
Proof.
  intros He Hn. pose proof (eat_app _ _ _ He) as ->. destruct (eat_triv _ _ _ He) as [_ Hr].
  destruct rest as [|p rest]; [rewrite app_nil_r; auto|].
  rewrite nontriv_app, map_app in Hn. apply app_eq_nil in Hn as [_ Hn].
  cbn [nontriv filter] in Hn. rewrite Hr in Hn. discriminate Hn.
Qed.

(** Everything about parsing a text. *)
Record parsed (t : text) (ls : list lexed_tok) (fs : forest) (a : dressed) : Prop := mkParsed
  { pd_lex : Lexed t ls;
    pd_fits : fits_u32 (blen t) = true;
    pd_tree : Tree false NStmts fs;
    pd_kinds : fkinds fs = map fst (nontriv (rt_of ls));
    pd_dress : dress_f fs 0 (rt_of ls) = Some a;
    pd_used : rt_of ls = dr_used a ++ dr_left a;
    pd_leaves : leaves (dr_green a) = dr_used a;
    pd_left : nontriv (dr_left a) = [];
    pd_msgs : map e_msg (dr_errs a) = fmsgs fs;
    pd_run : @root_f TO (parse_fuel (ts_new_source (map lt_tok ls))) (mkDS (map fst (nontriv (rt_of ls))) [])
      = Ok (tt, mkDS [] [PNode KSourceFile [PNode KBlock fs]]);
    pd_steps : exists ev, parse_events (ts_new_source (map lt_tok ls)) = Ok ev /\
      process ev = Ok (flat (PNode KSourceFile [PNode KBlock fs]));
    pd_lexer : tokenize t = Ok (map lt_tok ls, errors_of 0 (map lt_tok ls) (map lt_err ls));
    pd_parse : parse_tokens t (map lt_tok ls) =
      Ok (GNode KSourceFile [GNode KBlock (dr_green a ++ map gtok (dr_left a))], dr_errs a) }.

Theorem parse_exists t : fits_u32 (blen t) = true -> exists ls fs a, parsed t ls fs a.
Proof.
  intros Hf. destruct (Lexed_total t) as [ls Hls]. pose proof (Lexed_ok _ _ Hls) as Hok.
  destruct (parse_events_tree _ Hok) as (fs & ev & Hrun & HT & Hk & Hev & Hpr).
  rewrite rt_of_toks in Hrun, Hev.
  destruct dress_total as [_ HD].
  destruct (HD fs 0 (rt_of ls) []) as (a & Ha & Hu & Hl & Hleft & Hm).
  { now rewrite app_nil_r. }
  exists ls, fs, a. split; auto.
  - apply map_eq_nil in Hleft. exact Hleft.
  - eauto.
  - exact (tokenize_direct _ _ Hls Hf).
  - destruct (eat (dr_left a)) as [tr rest] eqn:He.
    destruct (eat_all_triv _ _ _ He Hleft) as [-> ->].
    unfold parse_tokens. rewrite Hev. cbn [rbind]. rewrite Hpr. cbn [rbind].
    rewrite <- (rt_of_toks ls).
    replace t with (texts (rt_of ls)) by (rewrite rt_of_text; symmetry; exact (Lexed_text _ _ Hls)).
    exact (run_dsink_root _ _ _ _ _ _ _ Ha He).
Qed.

Lemma parsed_text t ls fs a : parsed t ls fs a ->
  parse_text t = Ok (GNode KSourceFile [GNode KBlock (dr_green a ++ map gtok (dr_left a))],
                     dr_errs a ++ errors_of 0 (map lt_tok ls) (map lt_err ls)).
Proof. intros H. unfold parse_text. rewrite (pd_lexer _ _ _ _ H). cbn [rbind]. rewrite (pd_parse _ _ _ _ H). reflexivity. Qed.

Lemma parse_text_fits t r : parse_text t = Ok r -> fits_u32 (blen t) = true.
Proof. unfold parse_text. intros H. apply rbind_ok in H as (x & Hx & _). exact (tokenize_ok_fits _ _ Hx). Qed.
