(** PropsBlock.v — C35 for the block path: when reparsing one block gives the tree of a full parse. *)
From Verif Require Import Base SyntaxKind TokenSet Accept Lexer LexSpec LexerDirect LexerProofs LexerClass BindingPowers Parser Grammar
  Event EventProofs Tree TreeSink ParserTree ParserRefine SinkProofs GrammarSpec ParserTotal ParserTotal2 Ast ParseSpec ParseProofs StrictTree DressProofs LocalDress
  Validation ValidProofs TextEdit Ptr Reparse LexerProps LexerFwd LexRules LexClean PropsLexer PropsParser PropsReparse Grouping GroupProofs PropsGroup TreeComplete PropsLang BlockSwap BlockDress.

Lemma path_repl : forall p g off e new g', elem_at p (mkElem off g) = Some e -> replace_path p new g = Ok g' -> repl (el_green e) new [g] [g'].
Proof.
  induction p as [|i p IH]; intros g off e new g' H Hr.
  - cbn in H. injection H as <-. cbn [el_green]. cbn [replace_path] in Hr. destruct (kind_eqb _ _); [|discriminate]. injection Hr as <-. exact (rp_here _ _ [] []).
  - cbn [elem_at] in H. destruct (nth_error (el_children_with_tokens (mkElem off g)) i) as [c|] eqn:Hc; [|discriminate].
    destruct g as [kk cs|kk y]; [|destruct i; discriminate]. unfold el_children_with_tokens in Hc. cbn [el_green el_off] in Hc.
    destruct (place_nth _ _ _ _ Hc) as (a & g & b & -> & <- & ->).
    cbn [replace_path] in Hr. rewrite nth_mid in Hr. destruct (replace_path p new g) as [c'| |] eqn:Hc'; try discriminate.
    cbn [rbind] in Hr. apply (f_equal (fun r => match r with Ok x => x | _ => g end)) in Hr. cbv beta iota in Hr. subst g'.
    rewrite firstn_app, Nat.sub_diag, firstn_all. cbn [firstn].
    replace (skipn (S (length a)) (a ++ g :: b)) with b.
    2:{ rewrite skipn_app. rewrite skipn_all2 by lia. replace (S (length a) - length a) with 1 by lia. reflexivity. }
    rewrite app_nil_r. pose proof (IH _ _ _ _ _ H Hc') as R. apply (rp_in _ _ [] kk (a ++ g :: b) (a ++ c' :: b) []).
    apply repl_one in R as [(-> & E)|(k & cs & cs' & -> & E & R)].
    + assert (c' = new) by congruence. subst c'. constructor.
    + assert (c' = GNode k cs') by congruence. subst c'. now constructor.
Qed.

(** The parser run on the text of a block. *)
Lemma block_run rt : Forall rtok_ok rt -> exists fs ev r,
  run_grammar (@block_f event_ops) (ts_new_source (map mktok rt)) = Ok ev /\ process ev = Ok (flat (PNode KBlock fs)) /\
  map fst (nontriv rt) = fkinds fs ++ r /\ Tree false NStmts fs /\ well_grouped (ers fs) (hd KEof r).
Proof.
  intros Hok. set (s := ts_new_source (map mktok rt)). set (rem := map fst (nontriv rt)).
  assert (Hpairs : map (fun p => t_kind (fst p)) (ts_pairs s) = rem) by apply ts_filter_kinds.
  assert (HN : NEof rem).
  { intros H. apply in_map_iff in H as ([k x] & Hk & Hin). apply filter_In in Hin as [Hin _]. rewrite Forall_forall in Hok.
    destruct (Hok _ Hin) as (A & _). cbn [fst] in *. subst k. exact (lexer_no_eof A). }
  assert (Hfuel : 2 * length rem + 2 <= parse_fuel s). { unfold parse_fuel. rewrite <- Hpairs, map_length. lia. }
  destruct (block_total _ _ Hfuel HN) as (f & r & Hrun & Hk & HT & Hend).
  assert (E : exists fs, f = [PNode KBlock fs]) by (inversion HT; subst; eauto). destruct E as (fs & ->).
  pose proof (run_grammar_refines (@block_f event_ops) (@block_f TO) (map mktok rt) block_f_rg) as HR.
  cbv zeta in HR. fold s in HR. rewrite Hpairs, Hrun in HR. cbn [ds_for] in HR. destruct HR as (ev & Hev & Henc).
  exists fs, ev, r. split; [exact Hev|]. split; [|split; [|split]].
  - rewrite (process_encF _ _ Henc); [unfold flats; cbn [flat_map]; now rewrite app_nil_r|]. apply no_tombs_every. exact (Tree_every _ _ _ HT).
  - fold rem. rewrite Hk, fkinds_node1. reflexivity.
  - inversion HT; assumption.
  - destruct (PC_all (parse_fuel s)) as [PS _]. pose proof (PC_block (parse_fuel s) _ PS false rem) as PB.
    destruct (PB [] _ _ Hrun) as (g & r0 & E1 & E2 & G & _). cbn [app] in E1. assert (r0 = r) by congruence. assert (g = [PNode KBlock fs]) by congruence. subst r0 g.
    cbn [flat_map ers erase] in G. unfold ers in *. cbn [flat_map erase app] in G. apply wg_node in G as [_ G]. destruct r; exact G.
Qed.

(** What the block path does. *)
Lemma reparse_block_inv root edit g' errs r : reparse_block root edit = Ok (Some (g', errs, r)) ->
  exists p n t ls lerrs fs k0 a cs, elem_at p (root_elem root) = Some n /\ el_kind n = KBlock /\ is_gnode (el_green n) = true /\ get_text_after_edit n edit = Ok t /\
    Lexed t ls /\ fits_u32 (blen t) = true /\ tokenize t = Ok (map lt_tok ls, lerrs) /\ rt_of ls <> [] /\
    map fst (nontriv (rt_of ls)) = fkinds fs ++ k0 /\ Tree false NStmts fs /\ well_grouped (ers fs) (hd KEof k0) /\
    Dress [PNode KBlock fs] 0 (rt_of ls) a /\ dr_green a = [GNode KBlock cs] /\ replace_path p (GNode KBlock cs) root = Ok g' /\ errs = dr_errs a ++ lerrs /\
    map e_msg (dr_errs a) = fmsgs fs /\ r = el_range n.
Proof.
  unfold reparse_block. intros H. apply rbind_ok in H as ([p0 e0] & Hc & H). destruct (find_reparsable p0 (root_elem root)) as [[q n]|] eqn:Hf; [|discriminate].
  destruct (find_reparsable_at _ _ _ _ Hf) as (Hq & Hk & Hg). apply rbind_ok in H as (t & Ht & H). apply rbind_ok in H as ([toks lerrs] & Htk & H).
  destruct (is_balanced toks) eqn:Hb; [|discriminate]. cbn [negb] in H. rewrite Hk in H. change (reparser KBlock) with (Some (@block_f event_ops)) in H. cbv iota beta in H.
  apply rbind_ok in H as (evs & Hev & H). apply rbind_ok in H as (steps & Hst & H). apply rbind_ok in H as ([g es] & Hs & H).
  apply rbind_ok in H as (root' & Hr & H). injection H as <- <- <-.
  destruct (Lexed_total t) as [ls Hls]. pose proof (tokenize_ok_fits _ _ Htk) as Hfit. pose proof (tokenize_direct _ _ Hls Hfit) as Hd. rewrite Htk in Hd. assert (toks = map lt_tok ls) by congruence. subst toks.
  pose proof (Lexed_ok _ _ Hls) as Hok. destruct (block_run _ Hok) as (fs & ev & rr & Hev' & Hst' & Hkk & HT & HW). rewrite rt_of_toks in Hev'.
  rewrite Hev in Hev'. injection Hev' as <-. rewrite Hst in Hst'. assert (steps = flat (PNode KBlock fs)) by congruence. subst steps.
  destruct dress_total as [HD _]. destruct (HD (PNode KBlock fs) 0 (rt_of ls) rr) as (a & Ha & Hu & Hl & Hleft & Hm).
  { rewrite pkinds_node. exact Hkk. }
  assert (Et : t = texts (rt_of ls)) by (rewrite rt_of_text; exact (Lexed_text _ _ Hls)).
  rewrite Et, <- rt_of_toks in Hs. rewrite (run_tsink_node _ (PNode KBlock fs) _ Logic.I Ha) in Hs.
  destruct (dr_green a) as [|[k cs|] [|]] eqn:Ga; try discriminate. assert (g = GNode k cs) by congruence. assert (es = dr_errs a) by congruence. subst g es.
  assert (HDr : Dress [PNode KBlock fs] 0 (rt_of ls) a).
  { apply dress_rel. cbn [dress_f]. rewrite Ha. cbn. destruct a as [x y z w]. cbn [dr_green dr_errs dr_used dr_left]. now rewrite !app_nil_r. }
  assert (k = KBlock).
  { inversion HDr as [| | | |k1 fs1 gs1 pos1 rt1 tr1 rest1 a1 b1 He1 Ha1 Hb1 X1 X2 X3 X4]. inversion Hb1; subst. cbn [dr_green] in Ga. rewrite app_nil_r in Ga. destruct tr1 as [|? [|]]; cbn in Ga; congruence. }
  subst k. exists q, n, t, ls, lerrs, fs, rr, a, cs. repeat (split; [first [assumption|reflexivity]|]). split; [|repeat (split; [first [assumption|reflexivity]|]); reflexivity].
  intros E. rewrite <- rt_of_toks, E in Hb. discriminate Hb.
Qed.

(** The same block in both trees: either the whole file, or a block inside it. *)
Lemma texts_nil l : Forall rtok_ok l -> texts l = [] -> l = [].
Proof.
  intros H E. destruct H as [|p l Hp _]; [reflexivity|]. destruct p as [k x]. unfold texts in E. cbn [flat_map snd] in E. apply app_eq_nil in E as [E _]. exfalso. subst x. destruct Hp as (_ & _ & N). now apply N.
Qed.

Lemma block_core t ls fs a0 edit g' r t' ls' fs' a' : parsed t ls fs a0 -> noerrs fs = true -> reparse_block (root_of a0) edit = Ok (Some (g', [], r)) ->
  indel_apply edit t = Ok t' -> lexemes_of t' (green_leaves g') -> parsed t' ls' fs' a' ->
  g' = root_of a' /\ noerrs fs' = true /\ exists tb lb, Lexed tb lb /\ Forall (fun x => lt_err x = None) lb /\ incl (rt_of ls') (rt_of ls ++ rt_of lb).
Proof.
  intros Hp HN HR Ha HL Hp'.
  destruct (reparse_block_inv _ _ _ _ _ HR) as (p & n & tb & lb & lerrs & b' & k0 & a & cs & Hq & Hk & Hg & Ht & Hlb & Hfit & Htk & Hne & Hkk & HT & HW & HD & Ga & Hrp & Herr & Hm & _).
  symmetry in Herr. apply app_eq_nil in Herr as [He Hle].
  assert (HNb : noerrs b' = true) by (apply fmsgs_nil; rewrite <- Hm, He; reflexivity).
  inversion HD as [| | | |k1 fs1 gs1 pos1 rt1 tr1 rest1 a1 b1 He1 Ha1 Hb1 X1 X2 X3 X4]. subst k1 fs1 gs1 pos1 rt1. inversion Hb1; subst b1. rewrite <- X4 in Ga, Hm, He. clear X4 Hb1. cbn [dr_green dr_errs dr_used dr_left] in *.
  rewrite app_nil_r in Ga. assert (Etr : tr1 = []) by (destruct tr1 as [|? [|]]; cbn in Ga; congruence). subst tr1. cbn [app map] in *. assert (Ecs : cs = dr_green a1) by congruence. subst cs. clear Ga.
  pose proof (eat_app _ _ _ He1) as Erest. cbn [app] in Erest. subst rest1. change (settled (rt_of lb)) in He1. rewrite Nat.add_0_r in Ha1 || cbn in Ha1.
  (* nothing is lost *)
  destruct (path_leaves _ _ _ _ Hq) as (pre & suf & E1 & E2 & E3). specialize (E3 _ _ Hrp). cbn [root_elem el_off] in E2. cbn [root_elem] in E1.
  pose proof (after_edit (texts pre) (texts suf) n edit tb Ht E2) as A. rewrite green_text_leaves in A.
  assert (Et : t = texts pre ++ texts (green_leaves (el_green n)) ++ texts suf).
  { transitivity (texts (green_leaves (root_of a0))); [|rewrite E1, !texts_app; reflexivity]. rewrite (root_leaves _ _ _ _ Hp), rt_of_text. exact (Lexed_text _ _ (pd_lex _ _ _ _ Hp)). }
  rewrite <- Et, Ha in A. assert (Et' : t' = texts pre ++ tb ++ texts suf) by congruence.
  assert (Eb : tb = texts (rt_of lb)) by (rewrite rt_of_text; exact (Lexed_text _ _ Hlb)).
  pose proof (Dress_used _ _ _ _ Ha1) as U1. pose proof (Dress_leaves _ _ _ _ Ha1) as L1.
  assert (Hleft : dr_left a1 = []).
  { apply texts_nil; [pose proof (Lexed_ok _ _ Hlb) as F; rewrite U1 in F; apply Forall_app in F; apply F|].
    destruct HL as [_ HL]. rewrite E3 in HL. assert (X : texts pre ++ texts (dr_used a1) ++ texts suf = t').
    { rewrite <- HL. rewrite <- flat_map_concat_map. change (flat_map snd ?l) with (texts l). rewrite !texts_app. cbn [green_leaves]. change (flat_map green_leaves (dr_green a1)) with (leaves (dr_green a1)). now rewrite L1. }
    rewrite Et', Eb, U1, texts_app in X. apply app_inv_head in X. rewrite <- app_assoc in X. apply app_inv_head in X. apply (f_equal (@length _)) in X. rewrite app_length in X. destruct (texts (dr_left a1)); [reflexivity|cbn in X; lia]. }
  rewrite Hleft, app_nil_r in U1.
  pose proof (Dress_kinds _ _ _ _ _ Ha1 Hkk) as Ek0. rewrite Hleft in Ek0. cbn in Ek0. subst k0. cbn [hd] in HW. rewrite (erase_noerr _ HNb) in HW.
  pose proof (Tree_strict _ _ HT HNb) as HTb. rewrite app_nil_r in Hkk.
  apply (parsed_lexemes_eq _ _ _ _ _ Hp') in HL.
  assert (Hw : written (map lt_tok ls') = map fst (nontriv (green_leaves g'))) by (rewrite written_lexed, HL; reflexivity).
  assert (HX : exists tb lb, Lexed tb lb /\ Forall (fun x => lt_err x = None) lb /\ incl (rt_of ls') (rt_of ls ++ rt_of lb)).
  { exists tb, lb. split; [exact Hlb|]. split.
    - rewrite (tokenize_direct _ _ Hlb Hfit) in Htk. apply (lexed_clean lb 0). congruence.
    - rewrite <- HL, E3. cbn [green_leaves]. change (flat_map green_leaves (dr_green a1)) with (leaves (dr_green a1)). rewrite L1, <- U1.
      assert (Es : rt_of ls = green_leaves (root_of a0)) by (symmetry; exact (root_leaves _ _ _ _ Hp)). rewrite Es, E1.
      intros x Hx. rewrite !in_app_iff in *. tauto. }
  assert (HG : g' = root_of a' /\ noerrs fs' = true); [|destruct HG as [HG1 HG2]; split; [exact HG1|]; split; [exact HG2|exact HX]].
  clear HX.
  (* where the block is *)
  pose proof (path_repl _ _ _ _ _ _ Hq Hrp) as R. destruct n as [noff [nk nb|nk nx]]; [|discriminate Hg]. unfold el_kind in Hk. cbn [el_green green_kind] in *. subst nk.
  apply repl_one in R as [(E & _)|(k & c0 & c1 & E & Eg & R)]; [discriminate E|]. unfold root_of in E. assert (k = KSourceFile) by congruence. assert (c0 = [GNode KBlock (dr_green a0 ++ map gtok (dr_left a0))]) by congruence. subst k c0. clear E.
  assert (Eg' : g' = GNode KSourceFile c1) by congruence. clear Eg.
  apply repl_one in R as [(_ & Ec)|(k & c2 & c3 & E & Ec & R)].
  - (* the whole file *)
    subst c1. rewrite Eg' in *. cbn [green_leaves flat_map] in *. rewrite !app_nil_r in *. change (flat_map green_leaves (dr_green a1)) with (leaves (dr_green a1)) in *. rewrite L1, <- U1 in *.
    assert (RD : reading (written (map lt_tok ls')) [PNode KSourceFile [PNode KBlock b']]).
    { split; [apply T_source, T_block; exact HTb|]. split.
      - apply wg_node. split; [apply grouped_leaf; reflexivity|]. apply wg_node. split; [apply grouped_leaf; reflexivity|exact HW].
      - rewrite Hw, !W_node, toks_pkinds. symmetry. exact Hkk. }
    pose proof (parsed_reading _ _ _ _ _ Hp' RD) as Ef. assert (fs' = b') by congruence. subst fs'.
    pose proof (parsed_Dress _ _ _ _ Hp') as D'. rewrite <- HL in D'. rewrite <- (Dress_det _ _ _ _ Ha1 _ D'). unfold root_of. rewrite Hleft. cbn [map]. rewrite app_nil_r. split; [reflexivity|exact HNb].
  - (* a block inside *)
    assert (k = KBlock) by congruence. assert (c2 = dr_green a0 ++ map gtok (dr_left a0)) by congruence. subst k c2. clear E. subst c1.
    apply repl_app in R as [(gs' & -> & R)|(q' & _ & R)]; [|exfalso; exact (repl_toks _ _ _ _ _ R)].
    assert (HE : ends b' = true).
    { destruct (proj2 (Tree_ends _ _ HTb) eq_refl) as [->|X]; [|exact X]. exfalso. apply Hne. rewrite U1. inversion Ha1; subst. reflexivity. }
    destruct (dress_swap nb b' (rt_of lb) a1 Ha1 Hleft Hkk HNb HE He1 Hne fs 0 (rt_of ls) a0 (parsed_Dress _ _ _ _ Hp) HN gs' R) as (b & F' & used' & SW & D & _ & KF).
    assert (Elv : green_leaves g' = used' ++ dr_left a0).
    { rewrite Eg'. cbn [green_leaves flat_map]. rewrite !app_nil_r. change (flat_map green_leaves ?x) with (leaves x). rewrite leaves_app, leaves_gtok. pose proof (Dress_leaves _ _ _ _ D) as LL. cbn [dr_green dr_used] in LL. now rewrite LL. }
    pose proof (Tree_strict _ _ (pd_tree _ _ _ _ Hp) HN) as HTf. pose proof (parsed_grouped _ _ _ _ Hp) as HG. rewrite (erase_noerr _ HN) in HG.
    destruct (swap_reading fs b b' F' (T_source _ _ (T_block _ _ HTf)) HG HTb HW SW) as [RT RG].
    assert (RD : reading (written (map lt_tok ls')) [PNode KSourceFile [PNode KBlock F']]).
    { split; [exact RT|]. split; [exact RG|]. rewrite Hw, Elv, !W_node, nontriv_app, (pd_left _ _ _ _ Hp), app_nil_r. unfold fkinds in KF. rewrite toks_pkinds.
      symmetry. apply (KF []). rewrite app_nil_r. symmetry. exact (pd_kinds _ _ _ _ Hp). }
    pose proof (parsed_reading _ _ _ _ _ Hp' RD) as Ef. assert (fs' = F') by congruence. subst fs'.
    pose proof (parsed_Dress _ _ _ _ Hp') as D'. rewrite <- HL, Elv in D'. rewrite <- (Dress_det _ _ _ _ D _ D'). rewrite Eg'. split; [reflexivity|]. exact (swap_noerrs _ _ _ _ SW HN HNb).
Qed.

(** A block reparse that reports nothing, in a file without errors, gives the tree of a full parse exactly when the leaves of its
    tree are the tokens of the new text. *)
Theorem C35_block_edit_tree : forall t p edit g' r t' q,
  source_file_parse t = Ok p -> pa_errors p = [] -> reparse_block (pa_green p) edit = Ok (Some (g', [], r)) ->
  indel_apply edit t = Ok t' -> source_file_parse t' = Ok q ->
  (g' = pa_green q <-> lexemes_of t' (green_leaves g')).
Proof.
  intros t p edit g' r t' q Hp He Hr Ha Hq. split; [intros ->; exact (C13_leaves_are_tokens _ _ Hq)|]. intros L.
  destruct (source_file_inv _ _ Hp) as (ls & fs & a & v & P & _ & G & X). destruct (source_file_inv _ _ Hq) as (ls' & fs' & a' & v' & P' & _ & G' & _).
  rewrite G in Hr. rewrite G'. rewrite He in X. symmetry in X. apply app_eq_nil in X as [X _]. apply app_eq_nil in X as [X _].
  refine (proj1 (block_core _ _ _ _ _ _ _ _ _ _ _ P _ Hr Ha L P')). apply fmsgs_nil. rewrite <- (pd_msgs _ _ _ _ P), X. reflexivity.
Qed.
Print Assumptions C35_block_edit_tree.


(** A [do] turned into a [while] inside a function: the hypotheses are met, the trees are equal, and they differ from the old one. *)
Example C35_block_edit_case :
  let t := txt "function f() do x = 1 end end y = 2" in let edit := mkIndel (txt "while z do") (mkRange 13 15) in let t' := txt "function f() while z do x = 1 end end y = 2" in
  match source_file_parse t, source_file_parse t' with
  | Ok p, Ok q => match reparse_block (pa_green p) edit with
                  | Ok (Some (g', es, _)) => pa_errors p = [] /\ es = [] /\ indel_apply edit t = Ok t' /\ g' = pa_green q /\ length (green_leaves g') = length (green_leaves (pa_green p)) + 4
                  | _ => False end
  | _, _ => False end.
Proof. vm_compute. repeat (split; [reflexivity|]). reflexivity. Qed.

(** Typing [end ] before that [do]: the reparsed block stops at the new [end], what follows it is lost, nothing is reported, and the
    tree is not that of the new text. *)
Theorem C35_block_edit_loses_text : exists t p edit g' r t' q, source_file_parse t = Ok p /\ pa_errors p = [] /\
  reparse_block (pa_green p) edit = Ok (Some (g', [], r)) /\ indel_apply edit t = Ok t' /\ source_file_parse t' = Ok q /\ pa_errors q <> [] /\
  length (texts (green_leaves g')) < length t'.
Proof.
  assert (A : exists p, source_file_parse (txt "function f() do x = 1 end end") = Ok p /\ pa_errors p = [] /\
    exists g' r, reparse_block (pa_green p) (mkIndel (txt "end do") (mkRange 13 15)) = Ok (Some (g', [], r)) /\ length (texts (green_leaves g')) = 17).
  { eexists. split; [vm_compute; reflexivity|]. split; [reflexivity|]. eexists. eexists. split; [vm_compute; reflexivity|vm_compute; reflexivity]. }
  assert (B : exists q, source_file_parse (txt "function f() end do x = 1 end end") = Ok q /\ length (pa_errors q) = 1).
  { eexists. split; [vm_compute; reflexivity|reflexivity]. }
  destruct A as (p & A1 & A2 & g' & r & A3 & A4). destruct B as (q & B1 & B2).
  exists (txt "function f() do x = 1 end end"), p, (mkIndel (txt "end do") (mkRange 13 15)), g', r, (txt "function f() end do x = 1 end end"), q.
  split; [exact A1|]. split; [exact A2|]. split; [exact A3|]. split; [vm_compute; reflexivity|]. split; [exact B1|].
  split; [intros X; rewrite X in B2; discriminate B2|]. rewrite A4. apply Nat.ltb_lt. vm_compute. reflexivity.
Qed.
Print Assumptions C35_block_edit_loses_text.

(** ** The whole of [reparse], in a file without errors *)
Lemma rule_in t ls : Lexed t ls -> Forall (fun x => lt_err x = None) ls -> forall k x, In (k, x) (rt_of ls) -> exists b, token_rule k None x b.
Proof.
  intros H F k x Hin. apply in_map_iff in Hin as (y & E & Hy). destruct (Lexed_rule _ _ H _ Hy) as (b & R). rewrite Forall_forall in F. rewrite (F _ Hy) in R.
  exists b. cbv beta in E. assert (fst (fst y) = k) by congruence. assert (snd y = x) by congruence. subst k x. exact R.
Qed.
Lemma token_clean w k b' e : first_syntax_kind w = Ok (Some (k, None)) -> k <> KUnknown -> token_rule k e w b' -> e = None.
Proof.
  intros Hf N2 R. destruct (kind_eq_dec k KStr) as [->|N1].
  - unfold first_syntax_kind in Hf. apply rbind_ok in Hf as (o & Ho & Hf). destruct w as [|c w]; [exfalso; exact (PropsLexRules.rule_nonempty _ _ _ _ R eq_refl)|].
    assert (HF : fits_u32 (blen (c :: w)) = true).
    { unfold first_token, source_new in Ho. destruct (fits_u32 (blen (c :: w))); [reflexivity|discriminate Ho]. }
    destruct (step_exists (c :: w)) as (k1 & e1 & l1 & b1 & E & Hd & St); [discriminate|].
    rewrite (first_token_direct c w HF k1 e1 b1 l1 Hd E) in Ho. injection Ho as <-. cbn [option_map fst snd t_kind] in Hf.
    assert (k1 = KStr) by congruence. assert (e1 = None) by (destruct e1; [discriminate Hf|reflexivity]). subst k1 e1. apply PropsLexRules.step_rule in St.
    pose proof (closed_anywhere _ _ (b1 ++ b') St) as R2. destruct (PropsLexRules.C70_no_choice _ _ _ _ _ _ _ _ R R2) as (_ & -> & _); [|reflexivity].
    rewrite E, <- app_assoc. reflexivity.
  - exact (error_kinds _ _ _ _ R N1 N2).
Qed.

Lemma reparse_core t ls fs a0 edit g' r t' ls' fs' a' : parsed t ls fs a0 -> noerrs fs = true -> Forall (fun x => lt_err x = None) ls ->
  incremental_reparse (root_of a0) edit [] = Ok (Some (g', [], r)) -> indel_apply edit t = Ok t' -> lexemes_of t' (green_leaves g') -> parsed t' ls' fs' a' ->
  noerrs fs' = true /\ errors_of 0 (map lt_tok ls') (map lt_err ls') = [].
Proof.
  intros Hp HN HC HI Ha HL Hp'. unfold incremental_reparse in HI. apply rbind_ok in HI as (o & Ho & HI). destruct o as [[[g news] r0]|].
  - apply rbind_ok in HI as (m & Hm & HI). assert (Em : m = []) by congruence. assert (g = g') by congruence. subst m g.
    assert (news = []). { unfold merge_errors in Hm. cbn [merge_old rbind] in Hm. destruct news as [|n ns]; [reflexivity|]. cbn [merge_new] in Hm. apply rbind_ok in Hm as (x & Hx & Hm). apply rbind_ok in Hx as (y & Hy & Hx). apply rbind_ok in Hx as (z & Hz & Hx). exfalso. cbn [app] in Hm. congruence. }
    subst news. destruct (reparse_token_inv _ _ _ _ _ Ho) as (p & e & k & w & w' & err & Hc & G & Hk & _ & Hf & Hrp & Herr & _). apply covering_at in Hc.
    destruct (path_leaves _ _ _ _ Hc) as (pre & suf & E1 & _ & E3). specialize (E3 _ _ Hrp). rewrite G in E1. cbn [green_leaves app] in E1, E3.
    apply (parsed_lexemes_eq _ _ _ _ _ Hp') in HL.
    assert (Els : rt_of ls = pre ++ (k, w) :: suf) by (rewrite <- E1; symmetry; exact (root_leaves _ _ _ _ Hp)).
    assert (Els' : rt_of ls' = pre ++ (k, w') :: suf) by (rewrite <- E3; symmetry; exact HL).
    split.
    + rewrite (parsed_tree_eq _ _ _ _ _ _ _ _ Hp' Hp); [exact HN|]. rewrite Els, Els'. rewrite !nontriv_app. unfold nontriv at 2 4. cbn [filter]. unfold triv. cbn [fst]. destruct (is_trivia k); cbn [negb]; rewrite !map_app; reflexivity.
    + apply errors_of_none. apply Forall_forall. intros x Hx. apply in_map_iff in Hx as (y & <- & Hy). destruct (Lexed_rule _ _ (pd_lex _ _ _ _ Hp') _ Hy) as (b' & R).
      assert (Hin : In (fst (fst y), snd y) (rt_of ls')) by (apply in_map_iff; exists y; auto). rewrite Els' in Hin. apply in_app_iff in Hin.
      assert (OLD : In (fst (fst y), snd y) pre \/ In (fst (fst y), snd y) suf -> lt_err y = None).
      { intros X. destruct (rule_in _ _ (pd_lex _ _ _ _ Hp) HC (fst (fst y)) (snd y)) as (b & R2); [rewrite Els; apply in_app_iff; cbn [In]; tauto|]. exact (C70_errors_need_no_context _ _ _ _ _ R2 R). }
      destruct Hin as [Hin|[Hin|Hin]]; [auto| |auto]. assert (fst (fst y) = k) by congruence. assert (snd y = w') by congruence.
      subst k w'. destruct err; [discriminate Herr|]. refine (token_clean _ _ _ _ Hf _ R). intros X. rewrite X in Hk. cbn in Hk. intuition discriminate.
  - apply rbind_ok in HI as (o & Hb & HI). destruct o as [[[g news] r0]|]; [|discriminate]. apply rbind_ok in HI as (m & Hm & HI). assert (Em : m = []) by congruence. assert (g = g') by congruence. subst m g.
    assert (news = []). { unfold merge_errors in Hm. cbn [merge_old rbind] in Hm. destruct news as [|n ns]; [reflexivity|]. cbn [merge_new] in Hm. apply rbind_ok in Hm as (x & Hx & Hm). apply rbind_ok in Hx as (y & Hy & Hx). apply rbind_ok in Hx as (z & Hz & Hx). exfalso. cbn [app] in Hm. congruence. }
    subst news. destruct (block_core _ _ _ _ _ _ _ _ _ _ _ Hp HN Hb Ha HL Hp') as (_ & HN' & tb & lb & Hlb & Hcb & Hi). split; [exact HN'|].
    apply (clean_elsewhere _ _ _ (pd_lex _ _ _ _ Hp')); [|reflexivity]. intros k x Hin. apply Hi in Hin. apply in_app_iff in Hin as [Hin|Hin]; [exact (rule_in _ _ (pd_lex _ _ _ _ Hp) HC _ _ Hin)|exact (rule_in _ _ Hlb Hcb _ _ Hin)].
Qed.

(** A reparse of a file without errors that reports none: the leaves of its tree are the tokens of the new text exactly when it is the
    tree of a full parse, and then the full parse reports what validation finds in that tree and nothing else. *)
Theorem C35_clean_tree : forall t p edit q t' f,
  source_file_parse t = Ok p -> pa_errors p = [] -> reparse p edit = Ok q -> pa_errors q = [] ->
  indel_apply edit t = Ok t' -> source_file_parse t' = Ok f ->
  (pa_green q = pa_green f <-> lexemes_of t' (green_leaves (pa_green q))) /\
  (pa_green q = pa_green f -> validate (root_elem (pa_green q)) = Ok (pa_errors f)).
Proof.
  intros t p edit q t' f Hp He Hr Hq Ha Hf. unfold reparse in Hr. rewrite He in Hr. apply rbind_ok in Hr as (o & Ho & Hr).
  destruct (source_file_inv _ _ Hp) as (ls & fs & a & v & P & _ & G & X). destruct (source_file_inv _ _ Hf) as (ls' & fs' & a' & v' & P' & V' & G' & X').
  rewrite He in X. symmetry in X. apply app_eq_nil in X as [X _]. apply app_eq_nil in X as [X XL].
  assert (HN : noerrs fs = true) by (apply fmsgs_nil; rewrite <- (pd_msgs _ _ _ _ P), X; reflexivity).
  destruct o as [[[g es] r]|].
  - assert (q = mkParse g es) by congruence. subst q. cbn [pa_green pa_errors] in *. subst es.
    assert (IFF : g = pa_green f <-> lexemes_of t' (green_leaves g)).
    { unfold incremental_reparse in Ho. apply rbind_ok in Ho as (o & Ho1 & Ho). destruct o as [[[g1 news] r1]|].
      - apply rbind_ok in Ho as (m & _ & Ho). assert (g1 = g) by congruence. subst g1. exact (C35_token_edit_tree _ _ _ _ _ _ _ _ Hp Ho1 Ha Hf).
      - apply rbind_ok in Ho as (o & Ho2 & Ho). destruct o as [[[g1 news] r1]|]; [|discriminate]. apply rbind_ok in Ho as (m & Hm & Ho). assert (m = []) by congruence. assert (g1 = g) by congruence. subst m g1.
        assert (news = []). { unfold merge_errors in Hm. cbn [merge_old rbind] in Hm. destruct news as [|n ns]; [reflexivity|]. cbn [merge_new] in Hm. apply rbind_ok in Hm as (x & Hx & Hm). apply rbind_ok in Hx as (y & Hy & Hx). apply rbind_ok in Hx as (z & Hz & Hx). exfalso. cbn [app] in Hm. congruence. }
        subst news. exact (C35_block_edit_tree _ _ _ _ _ _ _ Hp He Ho2 Ha Hf). }
    split; [exact IFF|]. intros Eg. pose proof (proj1 IFF Eg) as L. rewrite G in Ho.
    destruct (reparse_core _ _ _ _ _ _ _ _ _ _ _ P HN (lexed_clean _ _ XL) Ho Ha L P') as [N1 N2].
    assert (D' : dr_errs a' = []) by (pose proof (pd_msgs _ _ _ _ P') as M; rewrite (clean_msgs _ N1) in M; now apply map_eq_nil in M).
    rewrite X', D', N2. cbn [app]. rewrite Eg, G'. exact V'.
  - unfold full_reparse in Hr. rewrite (C12_lossless _ _ Hp), Ha in Hr. cbn [rbind] in Hr. assert (q = f) by congruence. subst q. split.
    + split; [intros _; exact (C13_leaves_are_tokens _ _ Hf)|reflexivity].
    + intros _. rewrite Hq in X'. symmetry in X'. apply app_eq_nil in X' as [_ X']. rewrite Hq, G', <- X'. exact V'.
Qed.
Print Assumptions C35_clean_tree.

(** So a clean reparse is the full parse exactly when it loses and merges no tokens and the new text has no errors. *)
Theorem C35_clean_exact : forall t p edit q t' f,
  source_file_parse t = Ok p -> pa_errors p = [] -> reparse p edit = Ok q -> pa_errors q = [] ->
  indel_apply edit t = Ok t' -> source_file_parse t' = Ok f ->
  (q = f <-> lexemes_of t' (green_leaves (pa_green q)) /\ pa_errors f = []).
Proof.
  intros t p edit q t' f Hp He Hr Hq Ha Hf. destruct (C35_clean_tree _ _ _ _ _ _ Hp He Hr Hq Ha Hf) as [IFF _]. split.
  - intros ->. split; [apply IFF; reflexivity|exact Hq].
  - intros [L E]. apply IFF in L. destruct q, f. cbn in L, E, Hq. congruence.
Qed.
Print Assumptions C35_clean_exact.
(** The same edit through [reparse]: the block path is taken. *)
Example C35_clean_case :
  let t := txt "function f() do x = 1 end end y = 2" in let edit := mkIndel (txt "while z do") (mkRange 13 15) in
  match source_file_parse t, indel_apply edit t with
  | Ok p, Ok t' => match reparse p edit, source_file_parse t' with Ok q, Ok f => pa_errors p = [] /\ reparse_token (pa_green p) edit = Ok None /\ pa_errors q = [] /\ q = f | _, _ => False end
  | _, _ => False end.
Proof. vm_compute. repeat split. Qed.
(** A string with a bad escape typed inside a function: the trees agree, validation's complaint is missed. *)
Example C35_clean_missed_case :
  let t := txt "function f() do x = 1 end end" in let edit := mkIndel (txt "y = '\q' do") (mkRange 13 15) in
  match source_file_parse t, indel_apply edit t with
  | Ok p, Ok t' => match reparse p edit, source_file_parse t' with Ok q, Ok f => pa_errors p = [] /\ pa_errors q = [] /\ pa_green q = pa_green f /\ length (pa_errors f) = 1 | _, _ => False end
  | _, _ => False end.
Proof. vm_compute. repeat split. Qed.
