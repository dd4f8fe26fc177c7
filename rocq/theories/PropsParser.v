(** PropsParser.v — parser properties C11–C17, C22, C23, C28, C30 of properties.jsonl.
    Vocabulary: ParseSpec.v, GrammarSpec.v, LexSpec.v. *)
From Verif Require Import Base SyntaxKind TokenSet Lexer LexSpec LexerDirect LexerProofs LexerClass BindingPowers Parser Grammar
  Event EventProofs Tree TreeSink ParserTree ParserRefine SinkProofs GrammarSpec ParserTotal ParserTotal2 Ast ParseSpec ParseProofs DressProofs
  Validation ValidProofs StrictTree.

(** * C11 Parsing is total *)
(** The bound: [fits_u32 (S n)] says n + 1 < 2^32. One byte is lost because an unclosed
    [[=] at the very end of a text makes validation compute a position one past the end. *)
Theorem C11_parse_total : forall t : text, fits_u32 (S (blen t)) = true -> exists p, source_file_parse t = Ok p.
Proof.
  intros t Hf. destruct (parse_exists t) as (ls & fs & a & H); [exact (fits_le (S (blen t)) (blen t) (Nat.le_succ_diag_r _) Hf)|].
  destruct (parsed_source_file _ _ _ _ H Hf) as (v & _ & E). eauto.
Qed.
Print Assumptions C11_parse_total.

(** Tree and parser/lexer errors exist for every text below 4 GiB. *)
Theorem C11_parse_text_total : forall t : text, fits_u32 (blen t) = true -> exists g errs, parse_text t = Ok (g, errs).
Proof. intros t Hf. destruct (parse_exists t Hf) as (ls & fs & a & H). rewrite (parsed_text _ _ _ _ H). eauto. Qed.
Print Assumptions C11_parse_text_total.

Example C11_case : exists p, source_file_parse (txt "if x then f( end end ) 'a\q") = Ok p /\ length (pa_errors p) = 6.
Proof. eexists. split; [vm_compute; reflexivity|reflexivity]. Qed.

(** * C12 Lossless *)
Theorem C12_lossless : forall t p, source_file_parse t = Ok p -> green_text (pa_green p) = t.
Proof. intros t p H. destruct (source_file_inv _ _ H) as (ls & fs & a & v & Hp & _ & -> & _). exact (root_text _ _ _ _ Hp). Qed.
Print Assumptions C12_lossless.

(** * C13 Leaves are the lexer's tokens *)
Lemma parsed_lexemes t ls fs a : parsed t ls fs a -> lexemes_of t (rt_of ls).
Proof.
  intros H. split.
  - eexists. rewrite (pd_lexer _ _ _ _ H). do 2 f_equal. symmetry. exact (rt_of_toks ls).
  - rewrite <- flat_map_concat_map. change (flat_map snd (rt_of ls)) with (texts (rt_of ls)). rewrite rt_of_text.
    symmetry. exact (Lexed_text _ _ (pd_lex _ _ _ _ H)).
Qed.
Theorem C13_leaves_are_tokens : forall t p, source_file_parse t = Ok p -> lexemes_of t (green_leaves (pa_green p)).
Proof.
  intros t p H. destruct (source_file_inv _ _ H) as (ls & fs & a & v & Hp & _ & -> & _).
  rewrite (root_leaves _ _ _ _ Hp). exact (parsed_lexemes _ _ _ _ Hp).
Qed.
Print Assumptions C13_leaves_are_tokens.

Example C13_case : exists p, source_file_parse (txt " x = --c") = Ok p /\
  green_leaves (pa_green p) = [(KWhitespace, txt " "); (KIdent, txt "x"); (KWhitespace, txt " "); (KEq, txt "=");
                               (KWhitespace, txt " "); (KComment, txt "--c")].
Proof. eexists. split; [vm_compute; reflexivity|reflexivity]. Qed.

(** * C14 Root shape and kinds *)
Lemma parsed_kinds t ls fs a e : parsed t ls fs a -> In e (el_descendants (root_elem (root_of a))) -> In (el_kind e) node_kinds.
Proof.
  intros H Hin. rewrite root_descs in Hin. destruct Hin as [<-|[<-|Hin]]; [cbn; tauto|cbn; tauto|].
  destruct (parsed_origin _ _ _ _ _ H Hin) as (k & f & c & rt & b & K & Hs & _ & _ & _ & Hg & _).
  unfold el_kind. rewrite Hg. exact (proj1 (every_in _ _ _ _ (parsed_local _ _ _ _ H) Hs)).
Qed.
Theorem C14_root_shape : forall t p, source_file_parse t = Ok p ->
  (exists cs, pa_green p = GNode KSourceFile [GNode KBlock cs]) /\
  (forall e, In e (el_descendants (root_elem (pa_green p))) -> In (el_kind e) node_kinds) /\
  (forall k x, In (k, x) (green_leaves (pa_green p)) -> In k lexer_kinds).
Proof.
  intros t p H. destruct (source_file_inv _ _ H) as (ls & fs & a & v & Hp & _ & -> & _). split; [|split].
  - unfold root_of. eauto.
  - intros e. exact (parsed_kinds _ _ _ _ _ Hp).
  - intros k x. rewrite (root_leaves _ _ _ _ Hp). intros Hin. pose proof (Lexed_ok _ _ (pd_lex _ _ _ _ Hp)) as Hok.
    rewrite Forall_forall in Hok. exact (proj1 (Hok _ Hin)).
Qed.
Print Assumptions C14_root_shape.
(** The two lists of kinds are disjoint and contain neither the tombstone nor eof. *)
Example C14_kinds_disjoint : forallb (fun k => negb (existsb (kind_eqb k) lexer_kinds)) node_kinds = true /\
  existsb (kind_eqb KTombstone) (node_kinds ++ lexer_kinds) = false /\ existsb (kind_eqb KEof) (node_kinds ++ lexer_kinds) = false.
Proof. vm_compute. auto. Qed.

(** * C15 Error ranges *)
Lemma bnd_boundary rt n : bnd rt n -> token_boundary (map mktok rt) n /\ n <= blen (texts rt).
Proof.
  intros (c & r & -> & ->). split.
  - exists (length c). rewrite map_length, app_length. split; [lia|]. rewrite map_app, firstn_app, map_length, Nat.sub_diag.
    cbn [firstn]. rewrite app_nil_r. rewrite firstn_all2 by (rewrite map_length; lia).
    induction c as [|p c IH]; [reflexivity|]. cbn [map list_sum fold_right]. unfold texts. cbn [flat_map]. rewrite blen_app.
    unfold texts in IH. unfold list_sum in IH |- *. cbn [fold_right map]. rewrite <- IH. destruct p; reflexivity.
  - rewrite texts_app, blen_app. lia.
Qed.
Lemma errors_of_bnd ls : forall c es e, length es = length ls ->
  In e (errors_of (blen (texts c)) (map mktok ls) es) ->
  bnd (c ++ ls) (r_start (e_range e)) /\ bnd (c ++ ls) (r_end (e_range e)) /\ r_start (e_range e) <= r_end (e_range e).
Proof.
  induction ls as [|p ls IH]; intros c [|o es] e Hl He; try discriminate Hl; [destruct He|]. cbn [map errors_of mktok t_len] in He.
  assert (E : blen (texts c) + blen (snd p) = blen (texts (c ++ [p]))) by (now rewrite texts_app, blen_app, blen_texts1).
  rewrite E in He. replace (c ++ p :: ls) with ((c ++ [p]) ++ ls) by (rewrite <- app_assoc; reflexivity).
  assert (Hrest : In e (errors_of (blen (texts (c ++ [p]))) (map mktok ls) es) ->
    bnd ((c ++ [p]) ++ ls) (r_start (e_range e)) /\ bnd ((c ++ [p]) ++ ls) (r_end (e_range e)) /\ r_start (e_range e) <= r_end (e_range e)).
  { apply IH. cbn in Hl. lia. }
  destruct o as [m|]; [|exact (Hrest He)]. destruct He as [<-|He]; [|exact (Hrest He)]. cbn [e_range r_start r_end].
  split; [|split].
  - exists c, (p :: ls). now rewrite <- app_assoc.
  - exists (c ++ [p]), ls. auto.
  - lia.
Qed.
Theorem C15_error_ranges : forall t g errs toks lex_errs, parse_text t = Ok (g, errs) -> tokenize t = Ok (toks, lex_errs) ->
  forall e, In e errs ->
    token_boundary toks (r_start (e_range e)) /\ token_boundary toks (r_end (e_range e)) /\
    r_start (e_range e) <= r_end (e_range e) /\ r_end (e_range e) <= blen t.
Proof.
  intros t g errs toks lex_errs H Ht e He. destruct (parse_text_inv _ _ H) as (ls & fs & a & Hp & E). injection E as -> ->.
  rewrite (pd_lexer _ _ _ _ Hp) in Ht. injection Ht as <- <-. rewrite <- rt_of_toks in *.
  assert (HB : bnd (rt_of ls) (r_start (e_range e)) /\ bnd (rt_of ls) (r_end (e_range e)) /\ r_start (e_range e) <= r_end (e_range e)).
  { apply in_app_iff in He as [He|He].
    - pose proof (Dress_bnd _ _ _ _ (parsed_Dress _ _ _ _ Hp) (rt_of ls) [] eq_refl eq_refl) as HB.
      rewrite Forall_forall in HB. exact (HB _ He).
    - apply (errors_of_bnd (rt_of ls) [] (map lt_err ls) e); [|exact He]. unfold rt_of. now rewrite !map_length. }
  destruct HB as (B1 & B2 & B3). apply bnd_boundary in B1 as [B1 _]. apply bnd_boundary in B2 as [B2 B4].
  repeat split; auto. rewrite rt_of_text, <- (Lexed_text _ _ (pd_lex _ _ _ _ Hp)) in B4. exact B4.
Qed.
Print Assumptions C15_error_ranges.

Example C15_case : exists g, parse_text (txt "f( ) then @") = Ok (g,
   [mkErr "Expected a statement" (mkRange 5 9); mkErr "Expected a statement" (mkRange 10 11);
    mkErr "Got an unknown token" (mkRange 10 11)]).
Proof. eexists. vm_compute. reflexivity. Qed.

(** * C16 Error nodes and error reports *)
Lemma Dress_tight f pos rt a : Dress f pos rt a -> every local f ->
  (fst (eat rt) = [] -> forall c cs, dr_green a = c :: cs -> is_trivia (green_kind c) = false) /\
  (forall c cs, dr_green a = cs ++ [c] -> is_trivia (green_kind c) = false).
Proof.
  assert (HK : forall k fs, local k fs -> is_trivia k = false).
  { intros k fs [Hk _]. cbn in Hk. repeat destruct Hk as [<-|Hk]; try reflexivity. destruct Hk. }
  assert (Hlast : forall (x : green) gs c cs, (forall c cs, gs = cs ++ [c] -> is_trivia (green_kind c) = false) ->
    is_trivia (green_kind x) = false -> forall tr, (tr ++ [x]) ++ gs = cs ++ [c] -> is_trivia (green_kind c) = false).
  { intros x gs c cs Hg Hx tr E. destruct gs as [|g gs] using rev_ind.
    - rewrite app_nil_r in E. apply app_inj_tail in E as [_ <-]. exact Hx.
    - rewrite app_assoc in E. apply app_inj_tail in E as [_ <-]. exact (Hg _ _ eq_refl). }
  induction 1; intros HL; cbn [dr_green].
  - split; [discriminate|]. intros c cs E. destruct cs; discriminate.
  - apply every_cons in HL as [_ HL]. destruct (IHDress HL) as [_ I2]. destruct (eat_triv _ _ _ H) as [_ Hp]. split.
    + rewrite H. cbn [fst]. intros -> c cs E. injection E as <- _. exact Hp.
    + intros c cs E. eapply Hlast; [exact I2| |exact E]. exact Hp.
  - apply every_cons in HL as [_ HL]. exact (IHDress HL).
  - apply every_cons in HL as [_ HL2]. destruct (IHDress2 HL2) as [_ I2]. split.
    + rewrite H. cbn [fst]. intros -> c cs E. injection E as <- _. reflexivity.
    + intros c cs E. eapply Hlast; [exact I2| |exact E]. reflexivity.
  - apply every_cons in HL as [HL1 HL2]. apply every_node in HL1 as [Hk _]. destruct (IHDress2 HL2) as [_ I2]. split.
    + rewrite H. cbn [fst]. intros -> c cs E. injection E as <- _. exact (HK _ _ Hk).
    + intros c cs E. eapply Hlast; [exact I2| |exact E]. exact (HK _ _ Hk).
Qed.
Lemma fsubs_every P f k fs : every P f -> In (k, fs) (fsubs f) -> every P fs.
Proof.
  intros H Hin. unfold every in *. rewrite Forall_forall in *. intros y Hy. apply H.
  clear H. set (P1 := fun t => In (k, fs) (subs t) -> In y (subs t)). set (PF := fun f => In (k, fs) (fsubs f) -> In y (fsubs f)).
  revert Hin. change (PF f). apply (forest_ind' P1 PF); unfold P1, PF; try (intros; contradiction).
  - intros g e IH [E|Hg]; [injection E as _ <-|]; right; [exact Hy|exact (IH Hg)].
  - intros k' g IH [E|Hg]; [injection E as _ <-|]; right; [exact Hy|exact (IH Hg)].
  - intros t g H1 HF Hg. unfold fsubs in *. cbn [flat_map] in *. apply in_app_iff in Hg as [Hg|Hg]; apply in_app_iff; auto.
Qed.
Lemma parsed_tight t ls fs a e : parsed t ls fs a -> In e (descs 0 (dr_green a)) -> tight e.
Proof.
  intros H Hin. destruct (parsed_origin _ _ _ _ _ H Hin) as (k & f & c & rt & b & K & Hs & _ & _ & HD & Hg & He & _).
  unfold tight. rewrite Hg. pose proof (fsubs_every _ _ _ _ (parsed_local _ _ _ _ H) Hs) as HL.
  destruct (Dress_tight _ _ _ _ HD HL) as [T1 T2]. split; [exact (T1 He)|exact T2].
Qed.

Lemma errs_only_in e l : In e (errs_only l) -> In e l /\ el_kind e = KError.
Proof. unfold errs_only. intros H. apply filter_In in H as [H1 H2]. apply kind_eqb_eq in H2. auto. Qed.

Theorem C16_error_nodes_match : forall t toks lex_errs g perrs, tokenize t = Ok (toks, lex_errs) ->
  parse_tokens t toks = Ok (g, perrs) ->
  errors_match (error_nodes g) perrs /\ Forall tight (error_nodes g).
Proof.
  intros t toks lex_errs g perrs Ht H. destruct (parse_tokens_inv _ _ _ _ Ht H) as (ls & fs & a & Hp & _ & _ & E). injection E as -> ->.
  unfold error_nodes. rewrite root_descs. cbn [app filter el_kind el_green green_kind root_of].
  change (kind_eqb KSourceFile KError) with false. change (kind_eqb KBlock KError) with false. cbn iota.
  change (filter (fun e => kind_eqb (el_kind e) KError)) with errs_only. split.
  - exact (Dress_errors _ _ _ _ (parsed_Dress _ _ _ _ Hp) (parsed_local _ _ _ _ Hp) (Tree_plain _ _ _ (pd_tree _ _ _ _ Hp))).
  - apply Forall_forall. intros e He. apply errs_only_in in He as [He _]. exact (parsed_tight _ _ _ _ _ Hp He).
Qed.
Print Assumptions C16_error_nodes_match.

Theorem C16_no_error_no_node : forall t toks lex_errs g, tokenize t = Ok (toks, lex_errs) -> parse_tokens t toks = Ok (g, []) ->
  error_nodes g = [].
Proof.
  intros t toks le g Ht H. destruct (C16_error_nodes_match _ _ _ _ _ Ht H) as [HM _]. inversion HM. reflexivity.
Qed.
Print Assumptions C16_no_error_no_node.

Example C16_case :
  match tokenize (txt "a( then b") with
  | Ok (toks, []) => match parse_tokens (txt "a( then b") toks with
                     | Ok (g, es) => map el_range (error_nodes g) = [mkRange 3 7] /\
                                     map e_range es = [mkRange 3 7; mkRange 7 7]
                     | _ => False end
  | _ => False end.
Proof. vm_compute. auto. Qed.

(** * C17 Layout independence *)
Lemma blen_app_inj (x y u v : text) : x ++ u = y ++ v -> blen x = blen y -> x = y /\ u = v.
Proof.
  revert y. induction x as [|c x IH]; intros [|d y] E Hl; cbn [app] in *; auto.
  - rewrite blen_cons in Hl. pose proof (utf8_len_pos d). cbn in Hl. lia.
  - rewrite blen_cons in Hl. pose proof (utf8_len_pos c). cbn in Hl. lia.
  - injection E as <- E. rewrite !blen_cons in Hl. destruct (IH y E) as [-> ->]; [lia|auto].
Qed.
Lemma lexemes_unique xs : forall ys, map mktok xs = map mktok ys -> texts xs = texts ys -> xs = ys.
Proof.
  induction xs as [|[k x] xs IH]; intros [|[k' y] ys] E1 E2; try discriminate E1; [reflexivity|].
  cbn [map] in E1. injection E1 as Ek El E1. unfold texts in E2. cbn [flat_map snd] in E2. cbn [fst snd] in *. subst k'.
  destruct (blen_app_inj _ _ _ _ E2 El) as [-> E3]. f_equal. exact (IH _ E1 E3).
Qed.
Lemma parsed_lexemes_eq t ls fs a xs : parsed t ls fs a -> lexemes_of t xs -> xs = rt_of ls.
Proof.
  intros H [[errs Ht] Hx]. rewrite (pd_lexer _ _ _ _ H) in Ht. injection Ht as Ht _. apply lexemes_unique.
  - rewrite rt_of_toks. symmetry. exact Ht.
  - rewrite rt_of_text, <- (Lexed_text _ _ (pd_lex _ _ _ _ H)). unfold texts. now rewrite flat_map_concat_map.
Qed.
(** The grammar depends on the non-trivia kinds only. *)
Lemma parsed_tree_eq t1 ls1 fs1 a1 t2 ls2 fs2 a2 : parsed t1 ls1 fs1 a1 -> parsed t2 ls2 fs2 a2 ->
  map fst (nontriv (rt_of ls1)) = map fst (nontriv (rt_of ls2)) -> fs1 = fs2.
Proof.
  intros H1 H2 E. pose proof (pd_run _ _ _ _ H1) as R1. pose proof (pd_run _ _ _ _ H2) as R2.
  assert (F : parse_fuel (ts_new_source (map lt_tok ls1)) = parse_fuel (ts_new_source (map lt_tok ls2))).
  { unfold parse_fuel, ts_new_source. cbn [ts_pairs]. rewrite <- !rt_of_toks, !ts_filter_length.
    pose proof (f_equal (@length _) E) as EL. rewrite !map_length in EL. do 2 f_equal. exact EL. }
  rewrite F, E, R2 in R1. now injection R1.
Qed.
Theorem C17_layout_independence : forall t1 t2 xs1 xs2, lexemes_of t1 xs1 -> lexemes_of t2 xs2 -> code xs1 = code xs2 ->
  forall toks1 e1 g1 errs1 toks2 e2 g2 errs2,
    tokenize t1 = Ok (toks1, e1) -> parse_tokens t1 toks1 = Ok (g1, errs1) ->
    tokenize t2 = Ok (toks2, e2) -> parse_tokens t2 toks2 = Ok (g2, errs2) ->
    strip g1 = strip g2 /\ map e_msg errs1 = map e_msg errs2.
Proof.
  intros t1 t2 xs1 xs2 L1 L2 Ec toks1 e1 g1 errs1 toks2 e2 g2 errs2 T1 P1 T2 P2.
  destruct (parse_tokens_inv _ _ _ _ T1 P1) as (ls1 & fs1 & a1 & H1 & _ & _ & E). injection E as -> ->.
  destruct (parse_tokens_inv _ _ _ _ T2 P2) as (ls2 & fs2 & a2 & H2 & _ & _ & E). injection E as -> ->.
  apply (parsed_lexemes_eq _ _ _ _ _ H1) in L1. apply (parsed_lexemes_eq _ _ _ _ _ H2) in L2. subst xs1 xs2.
  change (code (rt_of ls1)) with (nontriv (rt_of ls1)) in Ec. change (code (rt_of ls2)) with (nontriv (rt_of ls2)) in Ec.
  assert (fs1 = fs2) by (apply (parsed_tree_eq _ _ _ _ _ _ _ _ H1 H2); now rewrite Ec). subst fs2.
  destruct (Dress_strip _ _ _ _ (parsed_Dress _ _ _ _ H1) _ _ _ (parsed_Dress _ _ _ _ H2) Ec) as (A & B & C).
  split; [|exact C]. unfold root_of. cbn [strip flat_map]. rewrite !app_nil_r, !flat_map_app, A.
  assert (HT : forall l, nontriv l = [] -> flat_map strip (map gtok l) = []).
  { intros l Hl. apply strip_triv. clear -Hl. induction l as [|p l IH]; [reflexivity|]. cbn [nontriv filter forallb] in *.
    destruct (triv p); [exact (IH Hl)|discriminate]. }
  rewrite (HT _ (pd_left _ _ _ _ H1)), (HT _ (pd_left _ _ _ _ H2)). reflexivity.
Qed.
Print Assumptions C17_layout_independence.

Example C17_case : exists xs1 xs2, lexemes_of (txt "f(a)--c") xs1 /\ lexemes_of (txt " f  ( a)") xs2 /\ code xs1 = code xs2 /\ xs1 <> xs2.
Proof.
  exists [(KIdent, txt "f"); (KLParen, txt "("); (KIdent, txt "a"); (KRParen, txt ")"); (KComment, txt "--c")],
    [(KWhitespace, txt " "); (KIdent, txt "f"); (KWhitespace, txt "  "); (KLParen, txt "("); (KWhitespace, txt " "); (KIdent, txt "a"); (KRParen, txt ")")].
  split; [|split; [|split]].
  - split; [eexists; vm_compute; reflexivity|reflexivity].
  - split; [eexists; vm_compute; reflexivity|reflexivity].
  - reflexivity.
  - discriminate.
Qed.

(** * C22 Well-nested sink calls *)
Lemma nested_app a b : nested a -> nested b -> nested (a ++ b).
Proof.
  intros Ha. revert b. induction Ha; intros b' Hb; cbn [app]; auto using nested.
  - rewrite <- app_assoc. cbn [app]. apply ns_node; auto.
  - rewrite <- app_assoc. cbn [app]. apply ns_errnode; auto.
Qed.
Definition is_stok (s : step) : bool := match s with STok => true | _ => false end.
Lemma flats_nested : forall f, nested (flats f) /\ length (filter is_stok (flats f)) = length (fkinds f).
Proof.
  set (P1 := fun t => nested (flat t) /\ length (filter is_stok (flat t)) = length (pkinds t)).
  set (PF := fun f => nested (flats f) /\ length (filter is_stok (flats f)) = length (fkinds f)).
  apply (forest_ind' P1 PF); unfold P1, PF; cbn [flat pkinds].
  - intros k. split; [auto using nested|reflexivity].
  - intros e. split; [auto using nested|reflexivity].
  - intros fs e [I1 I2]. change (flat_map flat fs) with (flats fs). change (flat_map pkinds fs) with (fkinds fs). split.
    + apply ns_errnode; auto using nested.
    + cbn [filter is_stok]. rewrite filter_app, app_length. cbn [filter is_stok length]. lia.
  - intros k fs [I1 I2]. change (flat_map flat fs) with (flats fs). change (flat_map pkinds fs) with (fkinds fs). split.
    + apply ns_node; auto using nested.
    + cbn [filter is_stok]. rewrite filter_app, app_length. cbn [filter is_stok length]. lia.
  - split; [constructor|reflexivity].
  - intros t fs [A1 A2] [B1 B2]. change (flats (t :: fs)) with (flat t ++ flats fs). change (fkinds (t :: fs)) with (pkinds t ++ fkinds fs). split.
    + apply nested_app; auto.
    + rewrite filter_app, !app_length. lia.
Qed.

(** For every token list without the end-of-file marker. *)
Lemma parse_events_any toks : Forall (fun k => t_kind k <> KEof) toks ->
  exists fs ev, Tree false NStmts fs /\ fkinds fs = filter (fun k => negb (is_trivia k)) (map t_kind toks) /\
    parse_events (ts_new_source toks) = Ok ev /\ process ev = Ok (flat (PNode KSourceFile [PNode KBlock fs])).
Proof.
  intros Hok. set (s := ts_new_source toks).
  assert (HP : forall n, map (fun p => t_kind (fst p)) (ts_filter n toks) = filter (fun k => negb (is_trivia k)) (map t_kind toks)).
  { clear. induction toks as [|k toks IH]; intros n; [reflexivity|]. cbn [ts_filter map filter]. destruct (is_trivia (t_kind k)); cbn [negb]; [apply IH|].
    cbn [map fst]. now rewrite IH. }
  assert (Hpairs : map (fun p => t_kind (fst p)) (ts_pairs s) = filter (fun k => negb (is_trivia k)) (map t_kind toks)) by apply HP.
  set (rem := filter (fun k => negb (is_trivia k)) (map t_kind toks)) in *.
  assert (HN : NEof rem).
  { intros H. apply filter_In in H as [H _]. apply in_map_iff in H as (k & Hk & Hin). rewrite Forall_forall in Hok. exact (Hok _ Hin Hk). }
  assert (Hfuel : 2 * length rem + 2 <= parse_fuel s).
  { unfold parse_fuel. rewrite <- Hpairs, map_length. lia. }
  destruct (root_total _ _ Hfuel HN) as (f & Hrun & Hk & HT).
  assert (E : exists fs, f = [PNode KSourceFile [PNode KBlock fs]] /\ Tree false NStmts fs).
  { inversion HT; subst. match goal with H : Tree _ NBlock _ |- _ => inversion H; subst end. eauto. }
  destruct E as (fs & -> & Hfs).
  pose proof (run_grammar_refines (@root_f event_ops) (@root_f TO) toks root_f_rg) as HR.
  cbv zeta in HR. fold s in HR. rewrite Hpairs, Hrun in HR. cbn [ds_for] in HR. destruct HR as (ev & Hev & Henc).
  exists fs, ev. split; [exact Hfs|]. split; [rewrite <- Hk, !fkinds_node1; reflexivity|]. split; [exact Hev|].
  rewrite (process_encF _ _ Henc); [unfold flats; cbn [flat_map]; now rewrite app_nil_r|].
  apply no_tombs_every. exact (Tree_every _ _ _ HT).
Qed.
Theorem C22_well_nested_calls : forall toks, Forall (fun k => t_kind k <> KEof) toks ->
  exists evs steps, parse_events (ts_new_source toks) = Ok evs /\ process evs = Ok steps /\
    (exists body, steps = SStart KSourceFile :: SStart KBlock :: body ++ [SFinish; SFinish] /\ nested body) /\
    length (filter is_stok steps) = length (filter (fun k => negb (is_trivia (t_kind k))) toks).
Proof.
  intros toks H. destruct (parse_events_any toks H) as (fs & ev & _ & Hk & Hev & Hpr). exists ev. eexists. split; [exact Hev|]. split; [exact Hpr|].
  split.
  - exists (flats fs). split; [|apply flats_nested]. cbn [flat flat_map]. rewrite app_nil_r. cbn [app]. do 2 f_equal.
    rewrite <- app_assoc. reflexivity.
  - destruct (flats_nested [PNode KSourceFile [PNode KBlock fs]]) as [_ HL]. unfold flats in HL. cbn [flat_map] in HL. rewrite app_nil_r in HL.
    rewrite HL, !fkinds_node1, Hk. clear. induction toks as [|k toks IH]; [reflexivity|]. cbn [map filter]. destruct (negb _); cbn [length]; now rewrite IH.
Qed.
Print Assumptions C22_well_nested_calls.

(** The calls are those of a tree of the grammar: nodes completed late (by [precede]) enclose exactly
    the operand already built and what follows ([T_infix], [T_call], [T_index_expr], [T_assign] ...). *)
Theorem C22_calls_follow_grammar : forall toks, Forall (fun k => t_kind k <> KEof) toks ->
  exists evs f, parse_events (ts_new_source toks) = Ok evs /\ process evs = Ok (flat_map flat f) /\ Tree false NSource f /\
    fkinds f = filter (fun k => negb (is_trivia k)) (map t_kind toks).
Proof.
  intros toks H. destruct (parse_events_any toks H) as (fs & ev & HT & Hk & Hev & Hpr). exists ev, [PNode KSourceFile [PNode KBlock fs]].
  split; [exact Hev|]. split; [cbn [flat_map]; rewrite app_nil_r; exact Hpr|]. split; [apply T_source, T_block, HT|].
  now rewrite !fkinds_node1.
Qed.
Print Assumptions C22_calls_follow_grammar.

Example C22_case :
  match parse_events (ts_new_source [mkToken KIdent 1; mkToken KLParen 1; mkToken KNumber 1; mkToken KThenKw 4]) with
  | Ok evs => process evs = Ok
    [SStart KSourceFile; SStart KBlock; SStart KExprStmt;
     SStart KMultivalExpr; SStart KCallExpr; SStart KNameRef; STok; SFinish;
     SStart KCallArgs; SStart KArgList; STok; SStart KMultivalExpr;
     SStart KLiteral; STok; SFinish; SFinish;
     SErr (PExpected KRParen KThenKw); SFinish; SFinish; SFinish; SFinish;
     SFinish; SStartErr; STok; SFinishErr (PMsg "Expected a statement");
     SFinish; SFinish]
  | _ => False end.
Proof. vm_compute. reflexivity. Qed.

(** * C23 An error-free parse is a derivation *)
Lemma erase_noerr : forall f, noerrs f = true -> flat_map erase f = f.
Proof.
  set (P1 := fun t => noerr t = true -> erase t = [t]). set (PF := fun f => noerrs f = true -> flat_map erase f = f).
  apply (forest_ind' P1 PF); unfold P1, PF; try discriminate; try reflexivity.
  - intros k fs IH H. cbn [erase]. rewrite IH; [reflexivity|exact H].
  - intros t fs H1 HF H. apply noerrs_cons in H as [Ha Hb]. cbn [flat_map]. rewrite (H1 Ha), (HF Hb). reflexivity.
Qed.
Lemma fmsgs_nil : forall f, fmsgs f = [] -> noerrs f = true.
Proof.
  set (P1 := fun t => pmsgs t = [] -> noerr t = true). set (PF := fun f => fmsgs f = [] -> noerrs f = true).
  apply (forest_ind' P1 PF); unfold P1, PF; try reflexivity; try discriminate.
  - intros fs e IH H. cbn [pmsgs] in H. apply app_eq_nil in H as [_ H]. discriminate.
  - intros k fs IH H. exact (IH H).
  - intros t fs H1 HF H. unfold fmsgs in H. cbn [flat_map] in H. apply app_eq_nil in H as [Ha Hb]. apply noerrs_cons. auto.
Qed.
Lemma root_skel t ls fs a : parsed t ls fs a -> skel (root_of a) = [PNode KSourceFile [PNode KBlock (flat_map erase fs)]].
Proof.
  intros H. unfold root_of. cbn [skel flat_map]. rewrite app_nil_r, flat_map_app.
  rewrite (Dress_skel _ _ _ _ [] (parsed_Dress _ _ _ _ H)).
  - rewrite skel_triv; [now rewrite app_nil_r|]. pose proof (pd_left _ _ _ _ H) as Hl. clear -Hl.
    induction (dr_left a) as [|p l IH]; [reflexivity|]. cbn [nontriv filter forallb] in *. destruct (triv p); [exact (IH Hl)|discriminate].
  - rewrite app_nil_r. symmetry. exact (pd_kinds _ _ _ _ H).
Qed.
Theorem C23_no_error_means_derivation : forall t toks lex_errs g, tokenize t = Ok (toks, lex_errs) -> parse_tokens t toks = Ok (g, []) ->
  Tree true NSource (skel g) /\ map fst (code_leaves g) = filter (fun k => negb (is_trivia k)) (map t_kind toks).
Proof.
  intros t toks le g Ht H. destruct (parse_tokens_inv _ _ _ _ Ht H) as (ls & fs & a & Hp & -> & _ & E). injection E as -> E.
  assert (Hn : noerrs fs = true). { apply fmsgs_nil. rewrite <- (pd_msgs _ _ _ _ Hp), <- E. reflexivity. }
  split.
  - rewrite (root_skel _ _ _ _ Hp), (erase_noerr _ Hn). apply T_source, T_block. exact (Tree_strict _ _ (pd_tree _ _ _ _ Hp) Hn).
  - unfold code_leaves. rewrite (root_leaves _ _ _ _ Hp), <- rt_of_toks. clear.
    induction (rt_of ls) as [|[k x] l IH]; [reflexivity|]. cbn [filter map mktok t_kind fst]. destruct (is_trivia k); cbn [negb]; [exact IH|].
    cbn [map fst]. now rewrite IH.
Qed.
Print Assumptions C23_no_error_means_derivation.

Example C23_case : match tokenize (txt "local function f(a, ...) return {a = -1, [2] = 'x'; ...} end") with
  | Ok (toks, []) => match parse_tokens (txt "local function f(a, ...) return {a = -1, [2] = 'x'; ...} end") toks with
                     | Ok (g, []) => skel g <> [] | _ => False end
  | _ => False end.
Proof. vm_compute. discriminate. Qed.

(** * C28 Validation ranges: false for an unterminated level-one bracket at the end of the text *)
Theorem C28_validation_ranges_partial : forall t g errs verrs toks lex_errs, parse_text t = Ok (g, errs) -> tokenize t = Ok (toks, lex_errs) ->
  validate (root_elem g) = Ok verrs -> forall e, In e verrs ->
    r_start (e_range e) <= r_end (e_range e) /\ r_end (e_range e) <= S (blen t) /\
    (lex_errs = [] -> r_end (e_range e) <= blen t).
Proof.
  intros t g errs verrs toks le H Ht Hv e He. destruct (parse_text_inv _ _ H) as (ls & fs & a & Hp & E). injection E as -> ->.
  rewrite (pd_lexer _ _ _ _ Hp) in Ht. injection Ht as <- <-. exact (parsed_validate_range _ _ _ _ _ _ Hp Hv He).
Qed.
Print Assumptions C28_validation_ranges_partial.

Theorem C28_refuted : ~ (forall t g errs verrs, parse_text t = Ok (g, errs) -> validate (root_elem g) = Ok verrs ->
  forall e, In e verrs -> r_end (e_range e) <= blen t).
Proof.
  intros H. assert (E : match parse_text (txt "x = [=\q") with Ok (g, _) => match validate (root_elem g) with
     Ok [e] => r_end (e_range e) = 9 | _ => False end | _ => False end) by (vm_compute; reflexivity).
  destruct (parse_text (txt "x = [=\q")) as [[g errs]| |] eqn:E1; try contradiction.
  destruct (validate (root_elem g)) as [[|e [|]]| |] eqn:E2; try contradiction.
  specialize (H _ _ _ _ E1 E2 e (or_introl eq_refl)). rewrite E in H. vm_compute in H. lia.
Qed.
Print Assumptions C28_refuted.

Example C28_case : match source_file_parse (txt "x = 'a\qb' y") with
  | Ok p => map e_range (pa_errors p) = [mkRange 6 8; mkRange 11 12; mkRange 11 12] | _ => False end.
Proof. vm_compute. reflexivity. Qed.

(** * C30 Name accessors: false for [goto] without a name *)
Theorem C30_name_text : forall t p e, source_file_parse t = Ok p -> In e (el_descendants (root_elem (pa_green p))) -> el_kind e = KName ->
  exists x, name_text e = Ok x /\ green_text (el_green e) = x /\ In (KIdent, x) (green_leaves (pa_green p)).
Proof.
  intros t p e H Hin Hk. destruct (source_file_inv _ _ H) as (ls & fs & a & v & Hp & _ & Hg & _). rewrite Hg in *.
  destruct (parsed_name _ _ _ _ _ Hp Hin Hk) as (x & c & r & G & Hrt & _). exists x. unfold name_text. rewrite G.
  split; [reflexivity|]. split; [cbn; now rewrite app_nil_r|]. rewrite (root_leaves _ _ _ _ Hp), Hrt. apply in_app_iff. right. now left.
Qed.
Print Assumptions C30_name_text.

Lemma Dress_err1 e pos rt a : Dress [PErr e] pos rt a -> dr_green a = [].
Proof. intros H. inversion H; subst. match goal with G : Dress [] _ _ _ |- _ => inversion G; subst end. reflexivity. Qed.

Theorem C30_name_ref_text_partial : forall t p e, source_file_parse t = Ok p -> In e (el_descendants (root_elem (pa_green p))) -> el_kind e = KNameRef ->
  green_text (el_green e) <> [] -> exists x, name_text e = Ok x /\ green_text (el_green e) = x /\ In (KIdent, x) (green_leaves (pa_green p)).
Proof.
  intros t p e H Hin Hk Hne. destruct (source_file_inv _ _ H) as (ls & fs & a & v & Hp & _ & Hg & _). rewrite Hg in *. pose proof Hin as Hin0.
  rewrite root_descs in Hin. destruct Hin as [<-|[<-|Hin]]; try discriminate Hk.
  pose proof (parsed_origin _ _ _ _ _ Hp Hin) as (k & f & c & rt & b & K & Hs & Hall & Hoff & HD & Hge & He & HK).
  assert (Ek : k = KNameRef) by (unfold el_kind in Hk; rewrite Hge in Hk; exact Hk). subst k.
  destruct (every_in _ _ _ _ (parsed_local _ _ _ _ Hp) Hs) as (_ & _ & _ & _ & Hn). destruct (Hn eq_refl) as [->|[er ->]].
  - assert (Ho : origin (rt_of ls) [PNode KNameRef [PTok KIdent]] e).
    { exists KNameRef, [PTok KIdent], c, rt, b, K. split; [left; reflexivity|]. auto 6. }
    destruct (origin_tok _ _ _ KIdent Ho) as (x & c' & r & G1 & G2 & G3); [|reflexivity|].
    { intros f' Hf'. rewrite Hk in Hf'. cbn in Hf'. destruct Hf' as [E|[]]. now injection E. }
    exists x. unfold name_text. rewrite G1. split; [reflexivity|]. split; [cbn; now rewrite app_nil_r|].
    rewrite (root_leaves _ _ _ _ Hp), G2. apply in_app_iff. right. now left.
  - exfalso. apply Hne. rewrite Hge, (Dress_err1 _ _ _ _ HD). reflexivity.
Qed.
Print Assumptions C30_name_ref_text_partial.

(** Without parser errors every NameRef has its identifier. *)
Lemma noerrs_fsubs : forall f k fs, noerrs f = true -> In (k, fs) (fsubs f) -> noerrs fs = true.
Proof.
  intros f k fs. set (P1 := fun t => noerr t = true -> In (k, fs) (subs t) -> noerrs fs = true).
  set (PF := fun f => noerrs f = true -> In (k, fs) (fsubs f) -> noerrs fs = true). change (PF f).
  apply (forest_ind' P1 PF); unfold P1, PF; try discriminate; try (intros; contradiction).
  - intros k' g IH H [E|Hg]; [injection E as _ <-; exact H|exact (IH H Hg)].
  - intros t g H1 HF H Hg. apply noerrs_cons in H as [Ha Hb]. unfold fsubs in *. cbn [flat_map] in *. apply in_app_iff in Hg as [Hg|Hg]; auto.
Qed.
Theorem C30_name_ref_text_no_errors : forall t toks lex_errs g e, tokenize t = Ok (toks, lex_errs) -> parse_tokens t toks = Ok (g, []) ->
  In e (el_descendants (root_elem g)) -> el_kind e = KNameRef -> exists x, name_text e = Ok x /\ green_text (el_green e) = x.
Proof.
  intros t toks le g e Ht H Hin Hk. destruct (parse_tokens_inv _ _ _ _ Ht H) as (ls & fs & a & Hp & -> & _ & E). injection E as -> E.
  assert (Hn : noerrs fs = true). { apply fmsgs_nil. rewrite <- (pd_msgs _ _ _ _ Hp), <- E. reflexivity. }
  rewrite root_descs in Hin. destruct Hin as [<-|[<-|Hin]]; try discriminate Hk.
  pose proof (parsed_origin _ _ _ _ _ Hp Hin) as Ho.
  destruct (origin_tok _ _ _ KIdent Ho) as (x & c' & r & G1 & G2 & G3); [|reflexivity|].
  - intros f Hf. rewrite Hk in Hf. destruct (every_in _ _ _ _ (parsed_local _ _ _ _ Hp) Hf) as (_ & _ & _ & _ & Hr).
    destruct (Hr eq_refl) as [->|[er ->]]; [reflexivity|]. pose proof (noerrs_fsubs _ _ _ Hn Hf). discriminate.
  - exists x. unfold name_text. rewrite G1. split; [reflexivity|]. cbn. now rewrite app_nil_r.
Qed.
Print Assumptions C30_name_ref_text_no_errors.

Theorem C30_refuted : ~ (forall t p e, source_file_parse t = Ok p -> In e (el_descendants (root_elem (pa_green p))) -> el_kind e = KNameRef ->
  exists x, name_text e = Ok x).
Proof.
  intros H. destruct (source_file_parse (txt "goto")) as [p| |] eqn:E; [|vm_compute in E; discriminate|vm_compute in E; discriminate].
  assert (G : exists e, In e (el_descendants (root_elem (pa_green p))) /\ el_kind e = KNameRef /\ name_text e = Panic).
  { vm_compute in E. injection E as <-. exists (mkElem 4 (GNode KNameRef [])). vm_compute. auto 9. }
  destruct G as (e & G1 & G2 & G3). destruct (H _ _ _ E G1 G2) as [x Hx]. rewrite G3 in Hx. discriminate.
Qed.
Print Assumptions C30_refuted.

Example C30_case : match source_file_parse (txt "local abc = x") with
  | Ok p => map name_text (filter (fun e => kind_eqb (el_kind e) KName || kind_eqb (el_kind e) KNameRef) (el_descendants (root_elem (pa_green p))))
            = [Ok (txt "abc"); Ok (txt "x")]
  | _ => False end.
Proof. vm_compute. reflexivity. Qed.
