(** PropsReparse.v — C34–C36: incremental reparsing. Vocabulary: ParseSpec.v (lexemes_of), TextEdit.v
    (indel_apply: what the edit does to a text). *)
From Verif Require Import Base SyntaxKind TokenSet Lexer LexSpec LexerDirect LexerProofs LexerClass LexerNum BindingPowers Parser Grammar
  Event EventProofs Tree TreeSink ParserTree ParserRefine SinkProofs GrammarSpec ParserTotal ParserTotal2 Ast ParseSpec ParseProofs DressProofs
  Validation ValidProofs PropsParser TextEdit Ptr PropsPtr Reparse PropsLineIndex.

(** ** Editing a part of a text *)
Lemma bsplit_mid (pre m suf : text) n x y : bsplit n m = Some (x, y) -> bsplit (blen pre + n) (pre ++ m ++ suf) = Some (pre ++ x, y ++ suf).
Proof.
  intros H. apply bsplit_some in H as [-> <-]. rewrite <- blen_app, <- app_assoc, (app_assoc pre x). apply bsplit_app.
Qed.
Lemma indel_lift (pre m suf m' ins : text) a b : indel_apply (mkIndel ins (mkRange a b)) m = Ok m' ->
  indel_apply (mkIndel ins (mkRange (blen pre + a) (blen pre + b))) (pre ++ m ++ suf) = Ok (pre ++ m' ++ suf).
Proof.
  unfold indel_apply, i_start, i_end. cbn [i_delete i_insert r_start r_end]. destruct (b <? a) eqn:E; [discriminate|].
  apply Nat.ltb_ge in E. replace (blen pre + b <? blen pre + a) with false by (symmetry; apply Nat.ltb_ge; lia).
  destruct (bsplit a m) as [[x1 y1]|] eqn:E1; [|discriminate]. destruct (bsplit b m) as [[x2 y2]|] eqn:E2; [|discriminate].
  rewrite (bsplit_mid pre m suf _ _ _ E1), (bsplit_mid pre m suf _ _ _ E2). intros [= <-]. rewrite <- !app_assoc. reflexivity.
Qed.
Lemma after_edit pre suf e edit w : get_text_after_edit e edit = Ok w -> el_off e = blen pre ->
  indel_apply edit (pre ++ green_text (el_green e) ++ suf) = Ok (pre ++ w ++ suf).
Proof.
  unfold get_text_after_edit, usub. intros H Ho. destruct edit as [ins [a b]]. unfold i_start, i_end in H. cbn [i_delete i_insert r_start r_end] in H.
  destruct (el_off e <=? a) eqn:Ea; [|discriminate]. destruct (el_off e <=? b) eqn:Eb; [|discriminate]. cbn [rbind] in H.
  apply Nat.leb_le in Ea, Eb. apply (indel_lift pre _ suf) in H. rewrite Ho in *.
  replace (blen pre + (a - blen pre)) with a in H by lia. replace (blen pre + (b - blen pre)) with b in H by lia. exact H.
Qed.

(** ** Paths *)
Lemma place_nth : forall cs off i c, nth_error (place off cs) i = Some c ->
  exists a g b, cs = a ++ g :: b /\ length a = i /\ c = mkElem (off + glen a) g.
Proof.
  induction cs as [|g cs IH]; intros off i c H; [destruct i; discriminate|]. destruct i as [|i]; cbn [place nth_error] in H.
  - injection H as <-. exists [], g, cs. unfold glen. cbn. rewrite Nat.add_0_r. auto.
  - destruct (IH _ _ _ H) as (a & d & b & -> & <- & ->). exists (g :: a), d, b. rewrite glen_cons, Nat.add_assoc. auto.
Qed.
Lemma nth_mid {A} (a : list A) x b : nth_error (a ++ x :: b) (length a) = Some x.
Proof. rewrite nth_error_app2, Nat.sub_diag; [reflexivity|lia]. Qed.

(** The element at a path splits the leaves of the tree, and replacing it replaces its leaves. *)
Lemma path_leaves : forall p g off e, elem_at p (mkElem off g) = Some e -> exists pre suf,
  green_leaves g = pre ++ green_leaves (el_green e) ++ suf /\ el_off e = off + blen (texts pre) /\
  forall new g', replace_path p new g = Ok g' -> green_leaves g' = pre ++ green_leaves new ++ suf.
Proof.
  induction p as [|i p IH]; intros g off e H.
  - cbn in H. injection H as <-. exists [], []. cbn [el_green el_off app]. rewrite app_nil_r. split; [reflexivity|]. split; [cbn; lia|].
    intros new g' H. cbn [replace_path] in H. destruct (kind_eqb _ _); [|discriminate]. injection H as <-. now rewrite app_nil_r.
  - cbn [elem_at] in H. destruct (nth_error (el_children_with_tokens (mkElem off g)) i) as [c|] eqn:Hc; [|discriminate].
    destruct g as [k cs|k x]; [|destruct i; discriminate]. unfold el_children_with_tokens in Hc. cbn [el_green el_off] in Hc.
    destruct (place_nth _ _ _ _ Hc) as (a & g & b & -> & <- & ->).
    destruct (IH g _ _ H) as (pre & suf & E1 & E2 & E3). exists (leaves a ++ pre), (suf ++ leaves b).
    split; [|split].
    + cbn [green_leaves]. rewrite flat_map_app. cbn [flat_map]. rewrite E1. unfold leaves. rewrite <- !app_assoc. reflexivity.
    + rewrite E2, texts_app, blen_app, glen_leaves. lia.
    + intros new g' Hr. cbn [replace_path] in Hr. rewrite nth_mid in Hr. destruct (replace_path p new g) as [c'| |] eqn:Hc'; try discriminate.
      cbn [rbind] in Hr. apply (f_equal (fun r => match r with Ok x => x | _ => g end)) in Hr. cbv beta iota in Hr. subst g'. cbn [green_leaves]. rewrite firstn_app, Nat.sub_diag, firstn_all. cbn [firstn].
      replace (skipn (S (length a)) (a ++ g :: b)) with b.
      2:{ rewrite skipn_app. rewrite skipn_all2 by lia. replace (S (length a) - length a) with 1 by lia. reflexivity. }
      rewrite app_nil_r, flat_map_app. cbn [flat_map]. rewrite (E3 _ _ Hc'). unfold leaves. rewrite <- !app_assoc. reflexivity.
Qed.

Lemma covering_at : forall g r off p e, covering r g off = Ok (p, e) -> elem_at p (mkElem off g) = Some e.
Proof.
  refine (green_ind' _ _ _).
  - intros k t r off p e. cbn [covering]. destruct (negb _); [discriminate|]. intros [= <- <-]. reflexivity.
  - intros k cs F r off p e. cbn [covering]. destruct (negb _); [discriminate|].
    destruct (child_at_range r (place off cs)) as [[i c]|] eqn:Hc; [|intros [= <- <-]; reflexivity].
    assert (Hn : nth_error (place off cs) i = Some c).
    { unfold child_at_range in Hc. set (j := match first_overlap 0 r (place off cs) with Some i => i | None => _ end) in Hc. destruct (nth_error (place off cs) j) as [c0|] eqn:E; [|discriminate].
      destruct (contains_range _ _); [|discriminate]. injection Hc as <- <-. exact E. }
    destruct (place_nth _ _ _ _ Hn) as (a & g & b & -> & <- & ->). rewrite map_app. cbn [map].
    replace (nth_error _ (length a)) with (Some (covering r g)) by (rewrite <- (map_length (covering r) a); symmetry; apply nth_mid).
    cbn [el_off]. destruct (covering r g (off + glen a)) as [[q d]| |] eqn:Hq; try discriminate. cbn [rbind]. intros [= <- <-].
    cbn [elem_at]. unfold el_children_with_tokens at 1. cbn [el_green el_off]. rewrite Hn.
    apply Forall_app in F as [_ F]. exact (Forall_inv F _ _ _ _ Hq).
Qed.

Lemma find_reparsable_at : forall p e q n, find_reparsable p e = Some (q, n) -> elem_at q e = Some n /\ el_kind n = KBlock /\ is_gnode (el_green n) = true.
Proof.
  induction p as [|i p IH]; intros e q n H; cbn [find_reparsable] in H.
  - destruct (is_gnode (el_green e)) eqn:G; [|discriminate]. unfold reparser in H. destruct (kind_eqb (el_kind e) KBlock) eqn:K; [|discriminate].
    cbn [andb] in H. injection H as <- <-. apply kind_eqb_eq in K. auto.
  - destruct (nth_error (el_children_with_tokens e) i) as [c|] eqn:Hc.
    + destruct (find_reparsable p c) as [[q' n']|] eqn:Hf.
      * injection H as <- <-. destruct (IH _ _ _ Hf) as (A & B & C). cbn [elem_at]. rewrite Hc. auto.
      * destruct (is_gnode (el_green e)) eqn:G; [|discriminate]. unfold reparser in H. destruct (kind_eqb (el_kind e) KBlock) eqn:K; [|discriminate].
        cbn [andb] in H. injection H as <- <-. apply kind_eqb_eq in K. auto.
    + destruct (is_gnode (el_green e)) eqn:G; [|discriminate]. unfold reparser in H. destruct (kind_eqb (el_kind e) KBlock) eqn:K; [|discriminate].
      cbn [andb] in H. injection H as <- <-. apply kind_eqb_eq in K. auto.
Qed.

(** ** The token path *)
Lemma reparse_token_inv root edit g' errs r : reparse_token root edit = Ok (Some (g', errs, r)) ->
  exists p e k w w' err, covering (i_delete edit) root 0 = Ok (p, e) /\ el_green e = GTok k w /\ In k [KWhitespace; KComment; KIdent; KStr] /\
    get_text_after_edit e edit = Ok w' /\ first_syntax_kind w' = Ok (Some (k, err)) /\ replace_path p (GTok k w') root = Ok g' /\
    errs = match err with Some x => [x] | None => [] end /\ r = el_range e /\
    (In k [KWhitespace; KComment] -> forall a d b, w = a ++ d ++ b -> i_start edit = el_off e + blen a -> i_end edit = el_off e + blen a + blen d -> ~ In 10%N d).
Proof.
  unfold reparse_token. intros H. apply rbind_ok in H as ([p e] & Hc & H). destruct (el_green e) as [|k w] eqn:G; [discriminate|].
  assert (Hk : In k [KWhitespace; KComment; KIdent; KStr]) by (destruct k; try discriminate H; cbn; tauto).
  match type of H with match k with _ => _ end = _ => idtac end.
  assert (H' : exists stop : bool, (stop = false -> In k [KWhitespace; KComment] -> forall a d b, w = a ++ d ++ b -> i_start edit = el_off e + blen a -> i_end edit = el_off e + blen a + blen d -> ~ In 10%N d) /\ (if stop then Ok None
      else
        let? new_text := get_text_after_edit e edit in
        let? o := first_syntax_kind new_text in
        match o with
        | None => Ok None
        | Some (nk, nerr) =>
          if negb (kind_eqb nk k) then Ok None
          else
            let? g := replace_path p (GTok k new_text) root in
            Ok (Some (g, match nerr with Some x => [x] | None => [] end, el_range e))
        end) = Ok (Some (g', errs, r))).
  { assert (NL : forall stop, (let? a := usub (i_start edit) (el_off e) in let? b := usub (i_end edit) (el_off e) in let? d := bslice w a b in Ok (existsb (N.eqb 10) d)) = Ok stop ->
      stop = false -> forall a d b, w = a ++ d ++ b -> i_start edit = el_off e + blen a -> i_end edit = el_off e + blen a + blen d -> ~ In 10%N d).
    { intros stop Hs -> a d b -> Ea Eb Hin. apply rbind_ok in Hs as (x & Hx & Hs). apply rbind_ok in Hs as (y & Hy & Hs). unfold usub in Hx, Hy.
      destruct (el_off e <=? i_start edit); [|discriminate]. destruct (el_off e <=? i_end edit); [|discriminate]. injection Hx as <-. injection Hy as <-.
      replace (i_start edit - el_off e) with (blen a) in Hs by lia. replace (i_end edit - el_off e) with (blen a + blen d) in Hs by lia. rewrite bslice_app in Hs. cbn [rbind] in Hs.
      injection Hs as Hs. apply eq_true_false_abs in Hs; [exact Hs|]. apply existsb_exists. exists 10%N. auto. }
    destruct k; try discriminate H; apply rbind_ok in H as (stop & Hs & H); exists stop; (split; [|exact H]); intros E0 Hin; try (cbn in Hin; intuition discriminate); exact (NL _ Hs E0). }
  destruct H' as ([|] & HNL & H'); [discriminate|]. specialize (HNL eq_refl). apply rbind_ok in H' as (w' & Hw & H'). apply rbind_ok in H' as ([[nk nerr]|] & Hf & H'); [|discriminate].
  destruct (kind_eqb nk k) eqn:Ek; [|discriminate]. cbn [negb] in H'. apply kind_eqb_eq in Ek as ->. apply rbind_ok in H' as (g & Hg & H').
  injection H' as <- <- <-. exists p, e, k, w, w', nerr. auto 12.
Qed.

Lemma reparse_token_text root edit g' errs r : reparse_token root edit = Ok (Some (g', errs, r)) ->
  indel_apply edit (green_text root) = Ok (green_text g').
Proof.
  intros H. destruct (reparse_token_inv _ _ _ _ _ H) as (p & e & k & w & w' & err & Hc & G & _ & Hw & _ & Hr & _).
  apply covering_at in Hc. destruct (path_leaves _ _ _ _ Hc) as (pre & suf & E1 & E2 & E3). specialize (E3 _ _ Hr).
  rewrite !green_text_leaves, E1, E3, !texts_app. rewrite G. cbn [green_leaves]. 
  pose proof (after_edit (texts pre) (texts suf) e edit w' Hw E2) as A. rewrite G in A. cbn [green_text] in A.
  unfold texts in *. cbn [flat_map snd]. rewrite !app_nil_r. exact A.
Qed.

(** ** The block path *)
(** What a lost piece of text looks like: it starts, after trivia, with a keyword that closes a block. *)
Definition closing : list kind := [KEndKw; KElseKw; KElseifKw; KUntilKw].
Definition starts_closing (t : text) : Prop :=
  exists xs k w ys, lexemes_of t xs /\ code xs = (k, w) :: ys /\ In k closing.

Lemma block_steps rt : Forall rtok_ok rt -> exists fs ev r,
  run_grammar (@block_f event_ops) (ts_new_source (map mktok rt)) = Ok ev /\ process ev = Ok (flat (PNode KBlock fs)) /\
  map fst (nontriv rt) = fkinds fs ++ r /\ (r = [] \/ exists k r', r = k :: r' /\ In k closing).
Proof.
  intros Hok. set (s := ts_new_source (map mktok rt)). set (rem := map fst (nontriv rt)).
  assert (Hpairs : map (fun p => t_kind (fst p)) (ts_pairs s) = rem) by apply ts_filter_kinds.
  assert (HN : NEof rem).
  { intros H. apply in_map_iff in H as ([k x] & Hk & Hin). apply filter_In in Hin as [Hin _]. rewrite Forall_forall in Hok.
    destruct (Hok _ Hin) as (A & _). cbn [fst] in *. subst k. exact (lexer_no_eof A). }
  assert (Hfuel : 2 * length rem + 2 <= parse_fuel s). { unfold parse_fuel. rewrite <- Hpairs, map_length. lia. }
  destruct (block_total _ _ Hfuel HN) as (f & r & Hrun & Hk & HT & Hend).
  assert (E : exists fs, f = [PNode KBlock fs]) by (inversion HT; subst; eauto). destruct E as (fs & ->).
  pose proof (run_grammar_refines (@block_f event_ops) (@block_f TO) (map mktok rt) block_f_rg) as HR.
  cbv zeta in HR. fold s in HR. rewrite Hpairs, Hrun in HR. cbn [ds_for] in HR. destruct HR as (ev & Hev & Henc).
  exists fs, ev, r. split; [exact Hev|]. split; [|split].
  - rewrite (process_encF _ _ Henc); [unfold flats; cbn [flat_map]; now rewrite app_nil_r|]. apply no_tombs_every. exact (Tree_every _ _ _ HT).
  - fold rem. rewrite Hk, fkinds_node1. reflexivity.
  - destruct r as [|k r]; [now left|right]. exists k, r. split; [reflexivity|]. cbn [nth] in Hend.
    assert (k <> KEof). { intros ->. apply HN. rewrite Hk. apply in_or_app. right. now left. }
    destruct k; try discriminate Hend; cbn; try tauto; congruence.
Qed.

Lemma lexemes_tail t a b : lexemes_of t (a ++ b) -> lexemes_of (texts b) b.
Proof.
  intros [[errs H] E]. split; [|unfold texts; now rewrite flat_map_concat_map]. rewrite map_app in H.
  destruct (tokenize_resume t _ _ _ (texts a) (texts b) H) as (e1 & e2 & H' & _).
  - rewrite <- E, map_app, concat_app. unfold texts. now rewrite !flat_map_concat_map.
  - clear. unfold texts. induction a as [|[k x] a IH]; [reflexivity|]. cbn [flat_map snd map t_len fst]. rewrite blen_app. rewrite IH. reflexivity.
  - eauto.
Qed.

Lemma exists_last_or {A} (l : list A) : l = [] \/ exists l' x, l = l' ++ [x].
Proof. destruct l as [|y l]; [now left|right]. destruct (@exists_last A (y :: l)) as (l' & x & E); [discriminate|eauto]. Qed.

Lemma reparse_block_text root edit g' errs r : reparse_block root edit = Ok (Some (g', errs, r)) ->
  exists a kept lost b, indel_apply edit (green_text root) = Ok (a ++ kept ++ lost ++ b) /\ green_text g' = a ++ kept ++ b /\
    (lost = [] \/ starts_closing lost).
Proof.
  unfold reparse_block. intros H. apply rbind_ok in H as ([p0 e0] & Hc & H). destruct (find_reparsable p0 (root_elem root)) as [[q n]|] eqn:Hf; [|discriminate].
  destruct (find_reparsable_at _ _ _ _ Hf) as (Hq & Hk & _). apply rbind_ok in H as (t & Ht & H). apply rbind_ok in H as ([toks lerrs] & Htk & H).
  destruct (is_balanced toks) eqn:Hb; [|discriminate]. cbn [negb] in H. rewrite Hk in H. change (reparser KBlock) with (Some (@block_f event_ops)) in H. cbv iota beta in H.
  apply rbind_ok in H as (evs & Hev & H). apply rbind_ok in H as (steps & Hst & H). apply rbind_ok in H as ([g es] & Hs & H).
  apply rbind_ok in H as (root' & Hr & H). injection H as <- <- <-.
  destruct (path_leaves _ _ _ _ Hq) as (pre & suf & E1 & E2 & E3). specialize (E3 _ _ Hr). cbn [root_elem] in E2.
  destruct (Lexed_total t) as [ls Hls]. pose proof (tokenize_direct _ _ Hls (tokenize_ok_fits _ _ Htk)) as Hd. rewrite Htk in Hd. injection Hd as -> _.
  pose proof (Lexed_ok _ _ Hls) as Hok. destruct (block_steps _ Hok) as (fs & ev & rr & Hev' & Hst' & Hkk & Hcl). rewrite rt_of_toks in Hev'.
  rewrite Hev in Hev'. injection Hev' as <-. rewrite Hst in Hst'. assert (steps = flat (PNode KBlock fs)) by congruence. subst steps.
  destruct dress_total as [HD _]. destruct (HD (PNode KBlock fs) 0 (rt_of ls) rr) as (a & Ha & Hu & Hl & Hleft & _).
  { rewrite pkinds_node. exact Hkk. }
  assert (Et : t = texts (rt_of ls)) by (rewrite rt_of_text; exact (Lexed_text _ _ Hls)).
  rewrite Et, <- rt_of_toks in Hs. rewrite (run_tsink_node _ (PNode KBlock fs) _ Logic.I Ha) in Hs.
  destruct (dr_green a) as [|[k cs|] [|]] eqn:Ga; try discriminate. injection Hs as <- _.
  exists (texts pre), (texts (dr_used a)), (texts (dr_left a)), (texts suf).
  rewrite !green_text_leaves, E1, E3, !texts_app. split; [|split].
  - pose proof (after_edit (texts pre) (texts suf) n edit t Ht E2) as A. rewrite green_text_leaves in A. rewrite A.
    rewrite Et, Hu, texts_app, <- !app_assoc. reflexivity.
  - rewrite <- Hl. unfold leaves. cbn [flat_map]. rewrite app_nil_r. reflexivity.
  - destruct Hcl as [->|(k0 & r' & -> & Hin)].
    + left. destruct (exists_last_or (dr_left a)) as [->|(l & x & El)]; [reflexivity|]. exfalso.
      rewrite <- rt_of_toks, Hu, El, app_assoc, map_app in Hb. unfold is_balanced in Hb. rewrite rev_app_distr in Hb. cbn [map rev app] in Hb.
      destruct x as [kx x]. cbn in Hb. apply kind_eqb_eq in Hb. subst kx. rewrite El, nontriv_app, map_app in Hleft.
      apply app_eq_nil in Hleft as [_ Hx]. discriminate.
    + right. assert (Hlx : lexemes_of t (rt_of ls)).
      { split; [|rewrite Et; unfold texts; now rewrite flat_map_concat_map]. exists lerrs. rewrite Htk. do 2 f_equal. symmetry. exact (rt_of_toks ls). }
      rewrite Hu in Hlx. apply lexemes_tail in Hlx.
      destruct (code (dr_left a)) as [|[kc w] ys] eqn:Ec.
      * change (map fst (code (dr_left a)) = k0 :: r') in Hleft. rewrite Ec in Hleft. discriminate.
      * exists (dr_left a), kc, w, ys. split; [exact Hlx|]. split; [exact Ec|].
        change (map fst (code (dr_left a)) = k0 :: r') in Hleft. rewrite Ec in Hleft. injection Hleft as -> _. exact Hin.
Qed.

(** * C34 What incremental reparsing does to the text *)
(** The token path keeps the text exactly. *)
Theorem C34_token_path : forall root edit g' errs r, reparse_token root edit = Ok (Some (g', errs, r)) ->
  indel_apply edit (green_text root) = Ok (green_text g').
Proof. exact reparse_token_text. Qed.
Print Assumptions C34_token_path.

(** [Parse::reparse] gives the tree the edited text, except that a piece of it that starts with a keyword closing
    a block may be lost (C34_refuted shows that it is). *)
Theorem C34_text_partial : forall t p edit q, source_file_parse t = Ok p -> reparse p edit = Ok q ->
  exists a kept lost b, indel_apply edit t = Ok (a ++ kept ++ lost ++ b) /\ green_text (pa_green q) = a ++ kept ++ b /\
    (lost = [] \/ starts_closing lost).
Proof.
  intros t p edit q Hp Hr. rewrite <- (C12_lossless _ _ Hp). clear Hp. unfold reparse in Hr.
  apply rbind_ok in Hr as (o & Ho & Hr). unfold incremental_reparse in Ho.
  apply rbind_ok in Ho as (o1 & H1 & Ho). destruct o1 as [[[g1 n1] r1]|].
  - apply rbind_ok in Ho as (m & Hm & Ho). injection Ho as <-. injection Hr as <-. cbn [pa_green].
    apply reparse_token_text in H1. exists (green_text g1), [], [], []. cbn [app]. rewrite app_nil_r. auto.
  - apply rbind_ok in Ho as (o2 & H2 & Ho). destruct o2 as [[[g2 n2] r2]|].
    + apply rbind_ok in Ho as (m & Hm & Ho). injection Ho as <-. injection Hr as <-. cbn [pa_green].
      exact (reparse_block_text _ _ _ _ _ H2).
    + injection Ho as <-. unfold full_reparse in Hr. apply rbind_ok in Hr as (t' & Ht & Hr).
      rewrite Ht. apply C12_lossless in Hr. exists t', [], [], []. cbn [app]. rewrite app_nil_r. auto.
Qed.
Print Assumptions C34_text_partial.

(** [do x=1 end], replacing [1] by [1 end]: the reparser reads the block [x=1 end] and drops [ end]. *)
Theorem C34_refuted : exists t p edit q t', source_file_parse t = Ok p /\ reparse p edit = Ok q /\ indel_apply edit t = Ok t' /\
  green_text (pa_green q) <> t'.
Proof.
  pose (t := txt "do x=1 end"). pose (edit := mkIndel (txt "1 end") (mkRange 5 6)).
  destruct (source_file_parse t) as [p| |] eqn:E; [|vm_compute in E; discriminate..].
  destruct (reparse p edit) as [q| |] eqn:E2; [|vm_compute in E; injection E as <-; vm_compute in E2; discriminate..].
  exists t, p, edit, q, (txt "do x=1 end end"). split; [exact E|]. split; [exact E2|]. split; [vm_compute; reflexivity|].
  vm_compute in E. injection E as <-. vm_compute in E2. injection E2 as <-. vm_compute. discriminate.
Qed.
Print Assumptions C34_refuted.

(** [f() do end], deleting [f()]: the reparsed block starts with a space, and [Parse::reparse] panics. *)
Theorem C34_refuted_panic : exists t p edit, source_file_parse t = Ok p /\ reparse p edit = Panic /\
  exists t' q, indel_apply edit t = Ok t' /\ source_file_parse t' = Ok q.
Proof.
  pose (t := txt "f() do end"). pose (edit := mkIndel [] (mkRange 0 3)).
  destruct (source_file_parse t) as [p| |] eqn:E; [|vm_compute in E; discriminate..].
  destruct (source_file_parse (txt " do end")) as [q| |] eqn:E2; [|vm_compute in E2; discriminate..].
  exists t, p, edit. split; [exact E|]. split; [vm_compute in E; injection E as <-; vm_compute; reflexivity|].
  exists (txt " do end"), q. split; [vm_compute; reflexivity|exact E2].
Qed.
Print Assumptions C34_refuted_panic.

(** * C35 When the token path gives the tree of a full parse *)
(** A tree without the texts of its tokens. *)
Fixpoint bare (g : green) : green :=
  match g with GTok k _ => GTok k [] | GNode k cs => GNode k (map bare cs) end.
Lemma bare_len g : forall h, bare g = bare h -> length (green_leaves g) = length (green_leaves h).
Proof.
  revert g. refine (green_ind' _ _ _).
  - intros k t [k' cs|k' t'] E; [discriminate|]. reflexivity.
  - intros k cs F [k' cs'|k' t'] E; [|discriminate]. cbn [bare] in E. injection E as _ E. cbn [green_leaves].
    revert cs' E. induction F as [|c cs Hc F IH]; intros [|c' cs'] E; try discriminate; [reflexivity|]. cbn [map] in E. injection E as E1 E2.
    cbn [flat_map]. rewrite !app_length, (Hc _ E1), (IH _ E2). reflexivity.
Qed.
Lemma app_len_inj {A} (a a' b b' : list A) : length a = length a' -> a ++ b = a' ++ b' -> a = a' /\ b = b'.
Proof.
  revert a'. induction a as [|x a IH]; intros [|x' a'] L E; try discriminate; [auto|]. cbn in *. injection L as L. injection E as -> E.
  destruct (IH _ L E) as [-> ->]. auto.
Qed.
(** The shape and the leaves determine the tree. *)
Lemma bare_leaves g : forall h, bare g = bare h -> green_leaves g = green_leaves h -> g = h.
Proof.
  revert g. refine (green_ind' _ _ _).
  - intros k t [k' cs|k' t'] E L; [discriminate|]. cbn in L. injection L as -> ->. reflexivity.
  - intros k cs F [k' cs'|k' t'] E L; [|discriminate]. cbn [bare] in E. injection E as -> E. cbn [green_leaves] in L. f_equal.
    revert cs' E L. induction F as [|c cs Hc F IH]; intros [|c' cs'] E L; try discriminate; [reflexivity|]. cbn [map] in E. injection E as E1 E2.
    cbn [flat_map] in L. apply app_len_inj in L as [L1 L2]; [|exact (bare_len _ _ E1)]. f_equal; [exact (Hc _ E1 L1)|exact (IH _ E2 L2)].
Qed.
Lemma replace_bare : forall p g off k w w' g', elem_at p (mkElem off g) = Some w -> el_green w = GTok k w' ->
  forall x, replace_path p (GTok k x) g = Ok g' -> bare g' = bare g.
Proof.
  induction p as [|i p IH]; intros g off k w w' g' H G x Hr.
  - cbn in H. injection H as <-. cbn [el_green] in G. subst g. cbn [replace_path] in Hr. destruct (kind_eqb _ _); [|discriminate]. injection Hr as <-. reflexivity.
  - cbn [elem_at] in H. destruct (nth_error (el_children_with_tokens (mkElem off g)) i) as [c|] eqn:Hc; [|discriminate].
    destruct g as [kk cs|kk y]; [|destruct i; discriminate]. unfold el_children_with_tokens in Hc. cbn [el_green el_off] in Hc.
    destruct (place_nth _ _ _ _ Hc) as (a & g & b & -> & <- & ->).
    cbn [replace_path] in Hr. rewrite nth_mid in Hr. destruct (replace_path p (GTok k x) g) as [c'| |] eqn:Hc'; try discriminate.
    cbn [rbind] in Hr. apply (f_equal (fun r => match r with Ok x => x | _ => g end)) in Hr. cbv beta iota in Hr. subst g'.
    cbn [bare]. rewrite firstn_app, Nat.sub_diag, firstn_all. cbn [firstn].
    replace (skipn (S (length a)) (a ++ g :: b)) with b.
    2:{ rewrite skipn_app. rewrite skipn_all2 by lia. replace (S (length a) - length a) with 1 by lia. reflexivity. }
    rewrite app_nil_r, !map_app. cbn [map]. rewrite (IH _ _ _ _ _ _ H G _ Hc'). reflexivity.
Qed.
(** The shape of a dressed tree depends on the kinds of the tokens only. *)
Lemma eat_kinds rt : forall rt' tr rest tr' rest', map fst rt = map fst rt' -> eat rt = (tr, rest) -> eat rt' = (tr', rest') ->
  map fst tr = map fst tr' /\ map fst rest = map fst rest'.
Proof.
  induction rt as [|[k x] rt IH]; intros [|[k' x'] rt'] tr rest tr' rest' E H H'; try discriminate.
  - injection H as <- <-. injection H' as <- <-. auto.
  - cbn [map fst] in E. injection E as <- E. cbn [eat] in H, H'. unfold triv in H, H'. cbn [fst] in H, H'. destruct (is_trivia k).
    + destruct (eat rt) as [a b] eqn:Ea. destruct (eat rt') as [a' b'] eqn:Eb. injection H as <- <-. injection H' as <- <-.
      destruct (IH _ _ _ _ _ E eq_refl Eb) as [A B]. cbn [map fst]. now rewrite A, B.
    + injection H as <- <-. injection H' as <- <-. cbn [map fst]. now rewrite E.
Qed.
Lemma bare_gtok tr tr' : map fst tr = map fst tr' -> map bare (map gtok tr) = map bare (map gtok tr').
Proof. revert tr'. induction tr as [|[k x] tr IH]; intros [|[k' x'] tr'] E; try discriminate; [reflexivity|]. cbn [map fst] in E. injection E as <- E. cbn [map gtok bare fst snd]. f_equal. exact (IH _ E). Qed.
Lemma Dress_bare fs pos rt a : Dress fs pos rt a -> forall pos' rt' a', Dress fs pos' rt' a' -> map fst rt = map fst rt' ->
  map bare (dr_green a) = map bare (dr_green a') /\ map fst (dr_left a) = map fst (dr_left a').
Proof.
  induction 1; intros pos' rt' a' H' E; inversion H'; subst; cbn [dr_green dr_left] in *.
  - auto.
  - match goal with A : eat rt = _, B : eat rt' = _ |- _ => destruct (eat_kinds _ _ _ _ _ _ E A B) as [K1 K2] end. cbn [map fst] in K2.
    injection K2 as K2 K3. match goal with A : Dress fs _ rest0 _ |- _ => destruct (IHDress _ _ _ A K3) as [I1 I2] end.
    rewrite !map_app, I1. rewrite (bare_gtok _ _ K1). destruct p as [k1 x1], p0 as [k2 x2]. cbn in K2. subst k2. auto.
  - eauto.
  - match goal with A : eat rt = _, B : eat rt' = _ |- _ => destruct (eat_kinds _ _ _ _ _ _ E A B) as [K1 K2] end.
    match goal with A : Dress fs _ rest0 _ |- _ => destruct (IHDress1 _ _ _ A K2) as [I1 I2] end.
    match goal with A : Dress gs _ (dr_left _) _ |- _ => destruct (IHDress2 _ _ _ A I2) as [I3 I4] end.
    rewrite !map_app, I3, (bare_gtok _ _ K1). cbn [map bare]. rewrite I1. auto.
  - match goal with A : eat rt = _, B : eat rt' = _ |- _ => destruct (eat_kinds _ _ _ _ _ _ E A B) as [K1 K2] end.
    match goal with A : Dress fs _ rest0 _ |- _ => destruct (IHDress1 _ _ _ A K2) as [I1 I2] end.
    match goal with A : Dress gs _ (dr_left _) _ |- _ => destruct (IHDress2 _ _ _ A I2) as [I3 I4] end.
    rewrite !map_app, I3, (bare_gtok _ _ K1). cbn [map bare]. rewrite I1. auto.
Qed.
(** Two texts with the same kinds of tokens, trivia included, have trees of one shape. *)
Lemma parsed_bare t1 t2 p1 p2 xs1 xs2 : source_file_parse t1 = Ok p1 -> source_file_parse t2 = Ok p2 ->
  lexemes_of t1 xs1 -> lexemes_of t2 xs2 -> map fst xs1 = map fst xs2 -> bare (pa_green p1) = bare (pa_green p2).
Proof.
  intros H1 H2 L1 L2 E. destruct (source_file_inv _ _ H1) as (ls1 & fs1 & a1 & v1 & P1 & _ & -> & _).
  destruct (source_file_inv _ _ H2) as (ls2 & fs2 & a2 & v2 & P2 & _ & -> & _).
  apply (parsed_lexemes_eq _ _ _ _ _ P1) in L1. apply (parsed_lexemes_eq _ _ _ _ _ P2) in L2. subst xs1 xs2.
  assert (En : map fst (nontriv (rt_of ls1)) = map fst (nontriv (rt_of ls2))).
  { revert E. generalize (rt_of ls1) (rt_of ls2). clear. induction l as [|[k x] l IH]; intros [|[k' x'] l'] E; try discriminate; [reflexivity|].
    cbn [map fst] in E. injection E as <- E. cbn [nontriv filter triv fst]. unfold triv. cbn [fst]. destruct (is_trivia k); cbn [negb map fst]; [exact (IH _ E)|f_equal; exact (IH _ E)]. }
  assert (fs1 = fs2) by exact (parsed_tree_eq _ _ _ _ _ _ _ _ P1 P2 En). subst fs2.
  destruct (Dress_bare _ _ _ _ (parsed_Dress _ _ _ _ P1) _ _ _ (parsed_Dress _ _ _ _ P2) E) as [I1 I2].
  unfold root_of. cbn [bare map]. rewrite !map_app, I1. rewrite (bare_gtok _ _ I2). reflexivity.
Qed.

(** What a token reparse does: it edits one whitespace, comment, name or string token, which keeps its kind and whose
    new text lexes as a single token of that kind; line breaks are never removed from whitespace or comments. *)
Theorem C35_token_edit : forall root edit g' errs r, reparse_token root edit = Ok (Some (g', errs, r)) ->
  exists pre k a d b suf, green_leaves root = pre ++ (k, a ++ d ++ b) :: suf /\ green_leaves g' = pre ++ (k, a ++ i_insert edit ++ b) :: suf /\
    bare g' = bare root /\ i_start edit = blen (texts pre) + blen a /\ i_end edit = blen (texts pre) + blen a + blen d /\
    In k [KWhitespace; KComment; KIdent; KStr] /\ (In k [KWhitespace; KComment] -> ~ In 10%N d) /\
    r = mkRange (blen (texts pre)) (blen (texts pre) + blen (a ++ d ++ b)) /\
    exists err, first_syntax_kind (a ++ i_insert edit ++ b) = Ok (Some (k, err)) /\ errs = match err with Some x => [x] | None => [] end.
Proof.
  intros root edit g' errs r H. destruct (reparse_token_inv _ _ _ _ _ H) as (p & e & k & w & w' & err & Hc & G & Hk & Hw & Hf & Hr & He & Hre & HNL).
  apply covering_at in Hc. destruct (path_leaves _ _ _ _ Hc) as (pre & suf & E1 & E2 & E3). pose proof (E3 _ _ Hr) as E4. pose proof (replace_bare _ _ _ _ _ _ _ Hc G _ Hr) as Hb.
  rewrite G in E1. cbn [green_leaves app] in E1, E4, E2.
  unfold get_text_after_edit in Hw. apply rbind_ok in Hw as (x & Hx & Hw). apply rbind_ok in Hw as (y & Hy & Hw). unfold usub in Hx, Hy.
  destruct (Nat.leb_spec (el_off e) (i_start edit)); [|discriminate]. destruct (Nat.leb_spec (el_off e) (i_end edit)); [|discriminate]. injection Hx as <-. injection Hy as <-.
  rewrite G in Hw. cbn [green_text] in Hw. apply indel_apply_inv in Hw as (a & d & b & -> & A & B & ->). unfold i_start, i_end in A, B. cbn [i_insert i_delete r_start r_end] in *.
  fold (i_start edit) in A. fold (i_end edit) in B. rewrite blen_app in B.
  exists pre, k, a, d, b, suf. split; [exact E1|]. split; [exact E4|]. split; [exact Hb|]. split; [lia|]. split; [lia|]. split; [exact Hk|].
  split; [intros Hin; apply (HNL Hin a d b eq_refl); lia|]. split; [rewrite Hre; unfold el_range; rewrite G, E2; reflexivity|]. exists err. auto.
Qed.
Print Assumptions C35_token_edit.

(** A token reparse gives the tree of a full parse exactly when the leaves of its tree are the tokens of the new text. *)
Theorem C35_token_edit_tree : forall t p edit g' errs r t' q,
  source_file_parse t = Ok p -> reparse_token (pa_green p) edit = Ok (Some (g', errs, r)) ->
  indel_apply edit t = Ok t' -> source_file_parse t' = Ok q ->
  (g' = pa_green q <-> lexemes_of t' (green_leaves g')).
Proof.
  intros t p edit g' errs r t' q Hp Hr Ha Hq. split; [intros ->; exact (C13_leaves_are_tokens _ _ Hq)|]. intros L.
  destruct (reparse_token_inv _ _ _ _ _ Hr) as (pp & e & k & w & w' & err & Hc & G & _ & _ & _ & Hrp & _).
  apply covering_at in Hc. pose proof (replace_bare _ _ _ _ _ _ _ Hc G _ Hrp) as Hb.
  apply bare_leaves.
  - rewrite Hb. apply (parsed_bare _ _ _ _ _ _ Hp Hq (C13_leaves_are_tokens _ _ Hp) L).
    destruct (path_leaves _ _ _ _ Hc) as (pre & suf & E1 & _ & E3). rewrite E1, (E3 _ _ Hrp), G. cbn [green_leaves]. rewrite !map_app. reflexivity.
  - destruct (C13_leaves_are_tokens _ _ Hq) as [[e1 T1] X1]. destruct L as [[e2 T2] X2]. rewrite T1 in T2. injection T2 as T2 _.
    apply lexemes_unique; [symmetry; exact T2|]. transitivity t'; [exact (eq_trans (flat_map_concat_map _ _) X2)|exact (eq_sym (eq_trans (flat_map_concat_map _ _) X1))].
Qed.
Print Assumptions C35_token_edit_tree.

(** Renaming the variable in a call: the hypotheses are met and the trees are equal. *)
Example C35_token_edit_case :
  match source_file_parse (txt "local foo = 'a'"), source_file_parse (txt "local bar = 'a'") with
  | Ok p, Ok q => match reparse_token (pa_green p) (mkIndel (txt "bar") (mkRange 6 9)) with
                  | Ok (Some (g', _, _)) => g' = pa_green q /\ indel_apply (mkIndel (txt "bar") (mkRange 6 9)) (txt "local foo = 'a'") = Ok (txt "local bar = 'a'")
                  | _ => False end
  | _, _ => False end.
Proof. vm_compute. split; reflexivity. Qed.

(** Two texts whose tokens, trivia included, have the same kinds give trees of the same shape. *)
Theorem C35_same_kinds_same_shape : forall t1 t2 p1 p2 xs1 xs2, source_file_parse t1 = Ok p1 -> source_file_parse t2 = Ok p2 ->
  lexemes_of t1 xs1 -> lexemes_of t2 xs2 -> map fst xs1 = map fst xs2 -> bare (pa_green p1) = bare (pa_green p2).
Proof. exact parsed_bare. Qed.
Print Assumptions C35_same_kinds_same_shape.

(** [foo] edited to [foo bar]: one identifier token with a space in it. *)
Theorem C35_refuted_tree : exists t p edit q t' q', source_file_parse t = Ok p /\ reparse p edit = Ok q /\
  indel_apply edit t = Ok t' /\ source_file_parse t' = Ok q' /\ pa_green q <> pa_green q'.
Proof.
  pose (t := txt "foo()"). pose (edit := mkIndel (txt " bar") (mkRange 3 3)).
  destruct (source_file_parse t) as [p| |] eqn:E; [|vm_compute in E; discriminate..].
  destruct (source_file_parse (txt "foo bar()")) as [q'| |] eqn:E3; [|vm_compute in E3; discriminate..].
  destruct (reparse p edit) as [q| |] eqn:E2; [|vm_compute in E; injection E as <-; vm_compute in E2; discriminate..].
  exists t, p, edit, q, (txt "foo bar()"), q'. split; [exact E|]. split; [exact E2|]. split; [vm_compute; reflexivity|]. split; [exact E3|].
  vm_compute in E. injection E as <-. vm_compute in E2. injection E2 as <-. vm_compute in E3. injection E3 as <-. vm_compute. discriminate.
Qed.
Print Assumptions C35_refuted_tree.

(** A bad escape typed into a string: the tree is right, but the error is missed. *)
Theorem C35_refuted_errors : exists t p edit q t' q', source_file_parse t = Ok p /\ reparse p edit = Ok q /\
  indel_apply edit t = Ok t' /\ source_file_parse t' = Ok q' /\ pa_green q = pa_green q' /\ pa_errors q = [] /\ pa_errors q' <> [].
Proof.
  pose (t := txt "x = 'a'"). pose (edit := mkIndel (txt "\q") (mkRange 6 6)).
  destruct (source_file_parse t) as [p| |] eqn:E; [|vm_compute in E; discriminate..].
  destruct (source_file_parse (txt "x = 'a\q'")) as [q'| |] eqn:E3; [|vm_compute in E3; discriminate..].
  destruct (reparse p edit) as [q| |] eqn:E2; [|vm_compute in E; injection E as <-; vm_compute in E2; discriminate..].
  exists t, p, edit, q, (txt "x = 'a\q'"), q'. split; [exact E|]. split; [exact E2|]. split; [vm_compute; reflexivity|]. split; [exact E3|].
  vm_compute in E. injection E as <-. vm_compute in E2. injection E2 as <-. vm_compute in E3. injection E3 as <-. vm_compute. split; [reflexivity|].
  split; [reflexivity|discriminate].
Qed.
Print Assumptions C35_refuted_errors.

(** * C36 Merging errors *)
Definition moved (n : nat) (e : syntax_error) : syntax_error := mkErr (e_msg e) (mkRange (r_start (e_range e) + n) (r_end (e_range e) + n)).
(** What a merge should give: errors before the range unchanged, errors after it moved by [grow], the others dropped; the new ones moved to the
    start of the range. *)
Definition merged (olds news : list syntax_error) (r : range) (grow : nat) : list syntax_error :=
  flat_map (fun e => if r_end (e_range e) <=? r_start r then [e] else if r_end r <=? r_start (e_range e) then [moved grow e] else []) olds
  ++ map (moved (r_start r)) news.

Lemma uadd_ok a b : fits_u32 (a + b) = true -> uadd a b = Ok (a + b).
Proof. intros H. unfold uadd. now rewrite H. Qed.

Definition after (r : range) (e : syntax_error) : Prop := r_end r <= r_start (e_range e) /\ r_start r < r_end (e_range e).

(** When the edit does not shrink the text and positions fit 32 bits. *)
Theorem C36_merge_partial : forall olds news r edit n,
  blen (i_insert edit) = (r_end (i_delete edit) - r_start (i_delete edit)) + n ->
  fits_u32 (blen (i_insert edit)) = true ->
  Forall (fun e => r_start (e_range e) <= r_end (e_range e) /\ fits_u32 (r_end (e_range e) + n) = true) olds ->
  Forall (fun e => r_start (e_range e) <= r_end (e_range e) /\ fits_u32 (r_end (e_range e) + r_start r) = true) news ->
  merge_errors olds news r edit = Ok (merged olds news r n).
Proof.
  intros olds news r edit n Hn Hf Ho Hw. unfold merge_errors, merged.
  assert (Hoff : indel_offset edit = Ok n).
  { unfold indel_offset, size_of, usub, range_len. rewrite Hf. cbn [rbind]. rewrite Hn.
    replace (_ <=? _) with true by (symmetry; apply Nat.leb_le; lia). f_equal. lia. }
  assert (A : merge_old olds r edit = Ok (flat_map (fun e => if r_end (e_range e) <=? r_start r then [e] else if r_end r <=? r_start (e_range e) then [moved n e] else []) olds)).
  { clear Hw news. induction Ho as [|e olds [H1 H2] Ho IH]; [reflexivity|]. cbn [merge_old flat_map]. rewrite IH. cbn [rbind].
    destruct (r_end (e_range e) <=? r_start r); [reflexivity|]. destruct (r_end r <=? r_start (e_range e)); [|reflexivity].
    rewrite Hoff. cbn [rbind]. unfold range_add. rewrite !uadd_ok; [reflexivity|exact H2|]. refine (fits_le _ _ _ H2). clear H2 Hf. lia. }
  rewrite A. cbn [rbind].
  assert (B : merge_new news r = Ok (map (moved (r_start r)) news)).
  { clear - Hw. induction Hw as [|e news [H1 H2] Hw IH]; [reflexivity|]. cbn [merge_new map]. unfold range_add. rewrite !uadd_ok; [cbn [rbind]; rewrite IH; reflexivity|exact H2|].
    refine (fits_le _ _ _ H2). clear H2. lia. }
  rewrite B. reflexivity.
Qed.
Print Assumptions C36_merge_partial.

(** When it shrinks the text, merging panics as soon as one old error lies after the range (the difference of two [TextSize]s underflows),
    and only then. *)
Theorem C36_shrink_panics : forall olds news r edit,
  blen (i_insert edit) < r_end (i_delete edit) - r_start (i_delete edit) -> fits_u32 (r_end (i_delete edit)) = true ->
  Exists (after r) olds -> merge_errors olds news r edit = Panic.
Proof.
  intros olds news r edit Hlt Hf He. unfold merge_errors.
  assert (Hoff : indel_offset edit = Panic).
  { unfold indel_offset, size_of, usub, range_len. replace (fits_u32 (blen (i_insert edit))) with true by (symmetry; refine (fits_le _ _ _ Hf); clear Hf; lia).
    cbn [rbind]. replace (_ <=? _) with false by (symmetry; apply Nat.leb_gt; exact Hlt). reflexivity. }
  assert (A : merge_old olds r edit = Panic).
  { clear news. induction olds as [|e olds IH]; [inversion He|]. cbn [merge_old]. destruct (r_end (e_range e) <=? r_start r) eqn:E1.
    - apply Nat.leb_le in E1. inversion He as [? ? [_ Ha]|? ? Ha]; subst; [lia|]. rewrite (IH Ha). reflexivity.
    - destruct (r_end r <=? r_start (e_range e)) eqn:E2; [rewrite Hoff; reflexivity|]. apply Nat.leb_gt in E2.
      inversion He as [? ? [Ha _]|? ? Ha]; subst; [lia|]. exact (IH Ha). }
  rewrite A. reflexivity.
Qed.
Print Assumptions C36_shrink_panics.

Theorem C36_shrink_without_later_errors : forall olds news r edit n,
  Forall (fun e => ~ after r e) olds ->
  Forall (fun e => r_start (e_range e) <= r_end (e_range e) /\ fits_u32 (r_end (e_range e) + r_start r) = true) news ->
  merge_errors olds news r edit = Ok (merged olds news r n).
Proof.
  intros olds news r edit n Ho Hw. unfold merge_errors, merged.
  assert (A : merge_old olds r edit = Ok (flat_map (fun e => if r_end (e_range e) <=? r_start r then [e] else if r_end r <=? r_start (e_range e) then [moved n e] else []) olds)).
  { clear Hw news. induction Ho as [|e olds H1 Ho IH]; [reflexivity|]. cbn [merge_old flat_map]. rewrite IH. cbn [rbind].
    destruct (r_end (e_range e) <=? r_start r) eqn:E1; [reflexivity|]. destruct (r_end r <=? r_start (e_range e)) eqn:E2; [|reflexivity].
    apply Nat.leb_gt in E1. apply Nat.leb_le in E2. destruct H1. split; lia. }
  rewrite A. cbn [rbind].
  assert (B : merge_new news r = Ok (map (moved (r_start r)) news)).
  { clear - Hw. induction Hw as [|e news [H1 H2] Hw IH]; [reflexivity|]. cbn [merge_new map]. unfold range_add. rewrite !uadd_ok; [cbn [rbind]; rewrite IH; reflexivity|exact H2|].
    refine (fits_le _ _ _ H2). clear H2. lia. }
  rewrite B. reflexivity.
Qed.
Print Assumptions C36_shrink_without_later_errors.

(** Deleting a character of a name before an unclosed string panics. *)
Theorem C36_refuted : exists t p edit t' q, source_file_parse t = Ok p /\ reparse p edit = Panic /\
  indel_apply edit t = Ok t' /\ source_file_parse t' = Ok q.
Proof.
  pose (t := txt "foo = 'a"). pose (edit := mkIndel [] (mkRange 1 2)).
  destruct (source_file_parse t) as [p| |] eqn:E; [|vm_compute in E; discriminate..].
  destruct (source_file_parse (txt "fo = 'a")) as [q| |] eqn:E3; [|vm_compute in E3; discriminate..].
  exists t, p, edit, (txt "fo = 'a"), q. split; [exact E|]. split; [vm_compute in E; injection E as <-; vm_compute; reflexivity|].
  split; [vm_compute; reflexivity|exact E3].
Qed.
Print Assumptions C36_refuted.

(** Growing it instead: the error is moved by one. *)
Example C36_merge_case :
  match source_file_parse (txt "foo = 'a"), source_file_parse (txt "fooo = 'a") with
  | Ok p, Ok q => match reparse p (mkIndel (txt "o") (mkRange 1 1)) with Ok q' => pa_errors q' = pa_errors q /\ length (pa_errors q) = 1 | _ => False end
  | _, _ => False end.
Proof. vm_compute. split; reflexivity. Qed.

(** When no part can be reparsed, the new text is parsed from scratch. *)
Theorem C35_full : forall t p edit, source_file_parse t = Ok p -> incremental_reparse (pa_green p) edit (pa_errors p) = Ok None ->
  forall t', indel_apply edit t = Ok t' -> reparse p edit = source_file_parse t'.
Proof.
  intros t p edit H Hi t' Ht. unfold reparse. rewrite Hi. cbn [rbind]. unfold full_reparse.
  rewrite (C12_lossless _ _ H), Ht. reflexivity.
Qed.
Print Assumptions C35_full.
Example C35_full_case :
  let t := txt "local x = 1" in let edit := mkIndel (txt "y,") (mkRange 6 9) in
  match source_file_parse t, indel_apply edit t with
  | Ok p, Ok t' => incremental_reparse (pa_green p) edit (pa_errors p) = Ok None /\ reparse p edit = source_file_parse t' /\ t' = txt "local y, 1"
  | _, _ => False end.
Proof. vm_compute. auto. Qed.
