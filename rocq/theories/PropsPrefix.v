(** PropsPrefix.v — C81: what follows a top level statement by more than one token does not change anything about
    it. Vocabulary: [file], [cuts], [words] (PropsLocal.v), [text_of], [first_code] (PropsSuffix.v). *)
From Coq Require Import Permutation.
From Verif Require Import Base SyntaxKind TokenSet Lexer LexSpec LexerDirect LexerProofs LexerNum BindingPowers Parser Grammar
  Event EventProofs Tree TreeSink ParserTree ParserTotal ParserTotal2 SinkProofs Ast ParseSpec ParseProofs StrictTree GrammarSpec
  Validation ValidProofs PropsLexer PropsParser LuaSyntax LuaDialect LuaRun LuaComplete LuaTree PropsLua ParserFuel LocalProofs LocalDress BlockDress PropsLocal DressProofs
  SuffixProofs LookProofs PropsSuffix.

(** ** The statements of a run *)
Lemma stmts_inv f : Tree false NStmts f -> ~ semi_first f.
Proof.
  intros H S. remember NStmts as n eqn:E. destruct H; try discriminate E; [destruct S|].
  destruct (stmt_one _ H H0) as (t & -> & _ & K). cbn [app] in S. destruct t as [k| | |]; cbn in S; try destruct S. exact (K k eq_refl).
Qed.
Lemma step_parts n w : 2 * length w + 2 <= n -> NEof w -> pacc_test (PSet ROOT_END) (nth 0 w KEof) = false ->
  exists t sc r, @stmt_f TO n (mkDS w []) = Ok (tt, mkDS r (t :: sc)) /\ w = fkinds (t :: sc) ++ r /\ (sc = [] \/ sc = [PTok KSemicolon]) /\ length r < length w.
Proof.
  intros Hn HN ET. destruct (knot n) as [Hs _].
  assert (HT : Tr (@stmt_f TO n) w (fun _ g r => exists t sc, g = t :: sc /\ (sc = [] \/ sc = [PTok KSemicolon]) /\ length r < length w)).
  { apply Hs; [exact Hn|]. intros g sc r Hg Hh Hsc Hl. assert (W : w <> []) by (intros ->; discriminate ET).
    destruct (stmt_one _ Hg (Hh W)) as (t & -> & Hp & Hk). exists t, sc. cbn [app]. auto 6. }
  destruct (HT HN []) as ([] & g & r & E1 & E2 & t & sc & -> & Hsc & Hl). exists t, sc, r. auto.
Qed.
Lemma step_run n m w f : block_body n (S m) ROOT_END (mkDS w []) = Ok (tt, mkDS [] f) ->
  (pacc_test (PSet ROOT_END) (nth 0 w KEof) = true /\ f = []) \/
  (pacc_test (PSet ROOT_END) (nth 0 w KEof) = false /\ forall r g, @stmt_f TO n (mkDS w []) = Ok (tt, mkDS r g) ->
     exists h, f = g ++ h /\ block_body n m ROOT_END (mkDS r []) = Ok (tt, mkDS [] h)).
Proof.
  intros HR. unfold block_body, p_while in HR. cbn [p_loop] in HR.
  unfold p_at, p_current in HR. cbn [bind tree_ops p_nth ret] in HR. unfold tr_bind, tr_nth, tr_ret in HR. cbn [rbind fst snd ds_rem ds_for] in HR.
  destruct (pacc_test (PSet ROOT_END) (nth 0 w KEof)) eqn:ET; cbn [negb rbind fst snd] in HR; [left; split; [reflexivity|congruence]|].
  right. split; [reflexivity|]. intros r g E1. rewrite E1 in HR. cbn [rbind fst snd] in HR.
  change (block_body n m ROOT_END (mkDS r g) = Ok (tt, mkDS [] f)) in HR. rewrite fr_block_body in HR.
  destruct (block_body n m ROOT_END (mkDS r [])) as [[[] [r' g']]| |] eqn:EB; cbn [rbind ds_rem ds_for] in HR; try discriminate HR.
  exists g'. split; congruence.
Qed.
(** The run over [w] has the statements [f1] before the tokens [v]; so has the run over every [w'] that goes on with [v]. *)
Lemma loop_head n : forall m w f, 2 * length w + 2 <= n -> NEof w -> block_body n m ROOT_END (mkDS w []) = Ok (tt, mkDS [] f) ->
  forall f1 f2 v x y, f = f1 ++ f2 -> ~ semi_first f2 -> w = fkinds f1 ++ v ++ x -> v <> [] ->
  forall m' f', block_body n m' ROOT_END (mkDS (fkinds f1 ++ v ++ y) []) = Ok (tt, mkDS [] f') ->
  exists f2' m2, f' = f1 ++ f2' /\ block_body n m2 ROOT_END (mkDS (v ++ y) []) = Ok (tt, mkDS [] f2').
Proof.
  induction m as [|m IH]; intros w f Hn HN HR f1 f2 v x y Ef NS Ew Lv m' f' HR'; [discriminate HR|].
  destruct f1 as [|z f1]; [exists f', m'; split; [reflexivity|exact HR']|].
  destruct m' as [|m']; [discriminate HR'|]. apply step_run in HR as [[_ HR]|[ET HR]]; [rewrite HR in Ef; discriminate Ef|].
  destruct (step_parts n w Hn HN ET) as (t & sc & r & E1 & E2 & Hsc & Hl).
  destruct (HR _ _ E1) as (h & Eh & EB). rewrite Ef in Eh. cbn [app] in Eh. assert (z = t /\ f1 ++ f2 = sc ++ h) as [-> EQ] by (split; congruence).
  assert (K : exists f1', f1 = sc ++ f1' /\ h = f1' ++ f2).
  { destruct Hsc as [->| ->]; cbn [app] in *; [now exists f1|]. destruct f1 as [|u f1]; cbn [app] in EQ.
    - exfalso. apply NS. rewrite EQ. exact I.
    - exists f1. split; congruence. }
  destruct K as (f1' & -> & Eg).
  assert (FK : fkinds (t :: sc ++ f1') = fkinds (t :: sc) ++ fkinds f1') by (change (t :: sc ++ f1') with ((t :: sc) ++ f1'); unfold fkinds; now rewrite flat_map_app).
  rewrite FK, <- app_assoc in Ew. assert (Er : r = fkinds f1' ++ v ++ x) by (rewrite E2 in Ew; now apply app_inv_head in Ew).
  destruct (proj1 (loc_knot n) _ _ _ _ _ E1) as (c & Ec & Kc). assert (c = fkinds (t :: sc)) by (rewrite E2 in Ec; now apply app_inv_tail in Ec). subst c.
  assert (Nv : fkinds f1' ++ v <> []) by (intros E; apply app_eq_nil in E as [_ E]; contradiction).
  assert (Lv' : one (hd0 (fkinds f1' ++ v)) <= length (fkinds f1' ++ v)) by (unfold cst; destruct (fkinds f1' ++ v); [contradiction|cbn [length]; lia]).
  specialize (Kc HN eq_refl (fkinds f1' ++ v) x y). rewrite <- !app_assoc in Kc. specialize (Kc Er Nv Lv').
  rewrite FK, <- app_assoc in HR'. apply step_run in HR' as [[ET' _]|[_ HR']].
  { exfalso. rewrite E2 in ET, Hl. rewrite app_length in Hl. destruct (fkinds (t :: sc)) as [|k ks]; [cbn in Hl; lia|]. cbn [app nth] in ET, ET'. congruence. }
  destruct (HR' _ _ Kc) as (h' & -> & EB'). 
  assert (Hn' : 2 * length r + 2 <= n) by lia. assert (HN' : NEof r) by (rewrite E2 in HN; exact (SuffixProofs.NEof_app _ _ HN)).
  destruct (IH _ _ Hn' HN' EB _ _ v x y Eg NS Er Lv _ _ EB') as (f2' & m2 & -> & R2). exists f2', m2. split; [|exact R2]. cbn [app]. now rewrite <- app_assoc.
Qed.
Lemma root_head n1 n2 w f1 f2 v x y f' : NEof w -> NEof (v ++ y) -> @root_f TO n1 (mkDS w []) = Ok (tt, mkDS [] [PNode KSourceFile [PNode KBlock (f1 ++ f2)]]) -> ~ semi_first f2 ->
  w = fkinds f1 ++ v ++ x -> v <> [] -> @root_f TO n2 (mkDS (fkinds f1 ++ v ++ y) []) = Ok (tt, mkDS [] [PNode KSourceFile [PNode KBlock f']]) ->
  exists f2', f' = f1 ++ f2' /\ ~ semi_first f2'.
Proof.
  intros HN HN' R1 NS Ew Lv R2. set (N := n1 + n2 + (2 * length w + 2) + (2 * length (v ++ y) + 2)).
  apply (up_root_f n1 N) in R1; [|unfold N; lia]. apply (up_root_f n2 N) in R2; [|unfold N; lia]. apply root_body in R1, R2.
  assert (HL : 2 * length w + 2 <= N) by (unfold N; lia).
  destruct (loop_head N N _ _ HL HN R1 _ _ v x y eq_refl NS Ew Lv _ _ R2) as (f2' & m2 & -> & R). exists f2'. split; [reflexivity|].
  assert (HL2 : 2 * length (v ++ y) + 2 <= N + m2) by (unfold N; lia).
  destruct (root_total (N + m2) (v ++ y) HL2 HN') as (g & Rg & _ & Tg).
  assert (Eg : exists fs, g = [PNode KSourceFile [PNode KBlock fs]] /\ Tree false NStmts fs).
  { inversion Tg; subst. match goal with H : Tree _ NBlock _ |- _ => inversion H; subst end. eauto. }
  destruct Eg as (fs & -> & Hfs). apply root_body in Rg.
  assert (U : up (block_body N m2 ROOT_END) (block_body (N + m2) (N + m2) ROOT_END)).
  { unfold block_body. apply up_while; [apply up_refl|apply up_knot; lia|lia]. }
  rewrite (U _ _ R) in Rg. assert (f2' = fs) by congruence. subst f2'. exact (stmts_inv _ Hfs).
Qed.

(** ** Dressing *)
Lemma Dress_app_inv f g : forall pos rt a, Dress (f ++ g) pos rt a -> exists a1 a2, Dress f pos rt a1 /\ Dress g (pos + blen (texts (dr_used a1))) (dr_left a1) a2 /\ a = dr_cat a1 a2.
Proof.
  induction f as [|t f IH]; intros pos rt a H.
  - exists (mkDr [] [] [] rt), a. split; [constructor|]. cbn [app dr_used dr_left] in *. unfold texts. cbn [flat_map blen]. split; [|destruct a; reflexivity].
    rewrite Nat.add_0_r. exact H.
  - cbn [app] in H. inversion H as [|k fs pos' rt' tr p rest b He Hd|e fs pos' rt' b Hd|e fs gs pos' rt' tr rest a0 b He Ha Hb|k fs gs pos' rt' tr rest a0 b He Ha Hb]; subst.
    + destruct (IH _ _ _ Hd) as (a1 & a2 & H1 & H2 & ->). eexists _, a2. split; [exact (D_tok k _ _ _ _ _ _ _ He H1)|]. unfold dr_cat. cbn [dr_green dr_errs dr_used dr_left].
      split; [|now rewrite <- !app_assoc]. rewrite (texts_app (tr ++ [p])), blen_app, Nat.add_assoc. exact H2.
    + destruct (IH _ _ _ Hd) as (a1 & a2 & H1 & H2 & ->). eexists _, a2. split; [exact (D_err e _ _ _ _ H1)|]. unfold dr_cat. cbn [dr_green dr_errs dr_used dr_left app]. split; [exact H2|reflexivity].
    + destruct (IH _ _ _ Hb) as (a1 & a2 & H1 & H2 & ->). eexists _, a2. split; [exact (D_errn e _ _ _ _ _ _ _ _ He Ha H1)|]. unfold dr_cat. cbn [dr_green dr_errs dr_used dr_left].
      split; [|now rewrite <- !app_assoc]. rewrite (texts_app (tr ++ dr_used a0)), (blen_app _ (texts (dr_used a1))), Nat.add_assoc. exact H2.
    + destruct (IH _ _ _ Hb) as (a1 & a2 & H1 & H2 & ->). eexists _, a2. split; [exact (D_node k _ _ _ _ _ _ _ _ He Ha H1)|]. unfold dr_cat. cbn [dr_green dr_errs dr_used dr_left].
      split; [|now rewrite <- !app_assoc]. rewrite (texts_app (tr ++ dr_used a0)), (blen_app _ (texts (dr_used a1))), Nat.add_assoc. exact H2.
Qed.
(** Other tokens after a dressed forest. *)
Lemma Dress_other f pos rt a : Dress f pos rt a -> forall l, (settled (dr_left a) -> settled l) -> Dress f pos (dr_used a ++ l) (dr_with l a).
Proof.
  induction 1 as [pos rt|k fs pos rt tr p rest b He Hd IH|e fs pos rt b Hd IH|e fs gs pos rt tr rest a b He Ha IHa Hb IHb|k fs gs pos rt tr rest a b He Ha IHa Hb IHb]; intros l HL;
    unfold dr_with in *; cbn [dr_green dr_errs dr_used dr_left] in *.
  - constructor.
  - destruct (eat_triv _ _ _ He) as [T P]. rewrite <- !app_assoc. cbn [app].
    assert (He' : eat (tr ++ p :: dr_used b ++ l) = (tr, p :: dr_used b ++ l)) by (apply eat_settled; [exact T|unfold settled; cbn [eat]; now rewrite P]).
    pose proof (D_tok k fs pos _ tr p _ _ He' (IH l HL)) as G. cbn [dr_green dr_errs dr_used dr_left] in G. rewrite <- !app_assoc in G. cbn [app] in G. exact G.
  - exact (D_err e _ _ _ _ (IH l HL)).
  - assert (T : forallb triv tr = true) by (pose proof (eat_triv _ _ _ He) as X; destruct rest; [apply X|apply X]).
    pose proof (eat_eat _ _ _ He) as S0. pose proof (Dress_used _ _ _ _ Ha) as U1. pose proof (Dress_used _ _ _ _ Hb) as U2.
    assert (C1 : settled (dr_left a) -> settled (dr_used b ++ l)) by (rewrite U2; intros S1; exact (settled_app _ _ _ S1 HL)).
    assert (C0 : settled (dr_used a ++ dr_used b ++ l)) by (change (settled rest) in S0; rewrite U1 in S0; exact (settled_app _ _ _ S0 C1)).
    rewrite <- (app_assoc (tr ++ dr_used a)), <- (app_assoc tr). pose proof (D_errn e fs gs pos _ tr _ _ _ (eat_settled _ _ T C0) (IHa _ C1) (IHb _ HL)) as G.
    cbn [dr_green dr_errs dr_used dr_left] in G. exact G.
  - assert (T : forallb triv tr = true) by (pose proof (eat_triv _ _ _ He) as X; destruct rest; [apply X|apply X]).
    pose proof (eat_eat _ _ _ He) as S0. pose proof (Dress_used _ _ _ _ Ha) as U1. pose proof (Dress_used _ _ _ _ Hb) as U2.
    assert (C1 : settled (dr_left a) -> settled (dr_used b ++ l)) by (rewrite U2; intros S1; exact (settled_app _ _ _ S1 HL)).
    assert (C0 : settled (dr_used a ++ dr_used b ++ l)) by (change (settled rest) in S0; rewrite U1 in S0; exact (settled_app _ _ _ S0 C1)).
    rewrite <- (app_assoc (tr ++ dr_used a)), <- (app_assoc tr). pose proof (D_node k fs gs pos _ tr _ _ _ (eat_settled _ _ T C0) (IHa _ C1) (IHb _ HL)) as G.
    cbn [dr_green dr_errs dr_used dr_left] in G. exact G.
Qed.
Lemma settled_other c x y : settled (c ++ x) -> c <> [] -> settled (c ++ y).
Proof. unfold settled. destruct c as [|p c]; [contradiction|]. intros H _. cbn [app eat] in *. destruct (triv p); [|reflexivity]. destruct (eat (c ++ x)); discriminate. Qed.
(** Trivia in front of a forest that does not start with an error mark. *)
Lemma Dress_front t0 f pos rt a : forallb triv t0 = true -> Forall placed f -> Dress f pos (t0 ++ rt) a ->
  exists a2, Dress f (pos + blen (texts t0)) rt a2 /\ all_green a = map gtok t0 ++ all_green a2 /\ dr_errs a = dr_errs a2.
Proof.
  intros T PL H.
  assert (EB : forall tr x, eat (t0 ++ rt) = (tr, x) -> exists tr2, tr = t0 ++ tr2 /\ eat rt = (tr2, x)).
  { intros tr x E. destruct (eat rt) as [tr2 x2] eqn:E2. rewrite (eat_before _ _ _ _ E2 T) in E. injection E as <- <-. eauto. }
  inversion H as [|k fs pos' rt' tr p rest b He Hd|e fs pos' rt' b Hd|e fs gs pos' rt' tr rest a0 b He Ha Hb|k fs gs pos' rt' tr rest a0 b He Ha Hb]; subst.
  - exists (mkDr [] [] [] rt). split; [constructor|]. unfold all_green. cbn [dr_green dr_left dr_errs app]. now rewrite map_app.
  - destruct (EB _ _ He) as (tr2 & -> & E2). eexists. split; [apply (D_tok k fs _ _ tr2 p rest b E2)|].
    + rewrite <- app_assoc, texts_app, blen_app, Nat.add_assoc in Hd. exact Hd.
    + unfold all_green. cbn [dr_green dr_left dr_errs]. rewrite map_app, <- !app_assoc. auto.
  - apply Forall_cons_iff in PL as [[] _].
  - destruct (EB _ _ He) as (tr2 & -> & E2). eexists. split; [apply (D_errn e fs gs _ _ tr2 rest a0 b E2)|].
    + rewrite texts_app, blen_app, Nat.add_assoc in Ha. exact Ha.
    + rewrite <- app_assoc, texts_app, blen_app, Nat.add_assoc in Hb. exact Hb.
    + unfold all_green. cbn [dr_green dr_left dr_errs]. rewrite map_app, <- !app_assoc. rewrite texts_app, blen_app, !Nat.add_assoc. auto.
  - destruct (EB _ _ He) as (tr2 & -> & E2). eexists. split; [apply (D_node k fs gs _ _ tr2 rest a0 b E2)|].
    + rewrite texts_app, blen_app, Nat.add_assoc in Ha. exact Ha.
    + rewrite <- app_assoc, texts_app, blen_app, Nat.add_assoc in Hb. exact Hb.
    + unfold all_green. cbn [dr_green dr_left dr_errs]. rewrite map_app, <- !app_assoc. auto.
Qed.

(** ** Lexing *)
Lemma errors_of_low toks : forall p es e, In e (errors_of p toks es) -> p <= r_start (e_range e).
Proof.
  induction toks as [|x toks IH]; intros p [|y es] e H; try destruct H. cbn [errors_of] in H. destruct y as [m|].
  - destruct H as [<-|H]; [cbn; lia|]. apply IH in H. lia.
  - apply IH in H. lia.
Qed.
Lemma errors_of_inj toks : Forall (fun k => 0 < t_len k) toks -> forall p es es', length es = length toks -> length es' = length toks ->
  errors_of p toks es = errors_of p toks es' -> es = es'.
Proof.
  induction 1 as [|x toks Hx HF IH]; intros p [|y es] [|y' es'] L L' E; try discriminate; [reflexivity|]. cbn [errors_of] in E. cbn [length] in L, L'.
  destruct y as [m|], y' as [m'|].
  - injection E as -> E. f_equal. apply (IH _ es es' ltac:(lia) ltac:(lia) E).
  - exfalso. assert (I : In (mkErr m (mkRange p (p + t_len x))) (errors_of (p + t_len x) toks es')) by (rewrite <- E; now left). apply errors_of_low in I. cbn in I. lia.
  - exfalso. assert (I : In (mkErr m' (mkRange p (p + t_len x))) (errors_of (p + t_len x) toks es)) by (rewrite E; now left). apply errors_of_low in I. cbn in I. lia.
  - f_equal. apply (IH _ es es' ltac:(lia) ltac:(lia) E).
Qed.
Lemma lexed_eq : forall l l', rt_of l = rt_of l' -> map lt_err l = map lt_err l' -> l = l'.
Proof.
  induction l as [|[[k e] x] l IH]; intros [|[[k' e'] x'] l'] E1 E2; try discriminate; [reflexivity|]. unfold rt_of in E1. cbn [map fst snd lt_err] in E1, E2.
  injection E1 as -> -> E1. injection E2 as -> E2. f_equal. exact (IH _ E1 E2).
Qed.
Lemma tok_pos t l : Lexed t l -> Forall (fun k => 0 < t_len k) (map lt_tok l).
Proof.
  induction 1 as [|k e x b l Hl Hd Hls IH]; [constructor|]. cbn [map]. constructor; [|exact IH]. cbn [lt_tok t_len snd]. destruct x as [|c x]; [contradiction|]. cbn [blen]. pose proof (utf8_len_pos c). lia.
Qed.
Lemma cuts_lexed am b toks r l : cuts am b toks r -> Lexed (am ++ b) l -> exists lam lb, Lexed am lam /\ Lexed b lb /\ l = lam ++ lb /\ toks = map lt_tok lam.
Proof.
  intros (x1 & x2 & T1 & T2 & T) L. destruct (Lexed_total am) as [lam La]. destruct (Lexed_total b) as [lb Lb]. exists lam, lb.
  pose proof (tokenize_direct _ _ La (tokenize_ok_fits _ _ T1)) as D1. pose proof (tokenize_direct _ _ Lb (tokenize_ok_fits _ _ T2)) as D2. pose proof (tokenize_direct _ _ L (tokenize_ok_fits _ _ T)) as D.
  rewrite T1 in D1. rewrite T2 in D2. rewrite T in D. injection D1 as E1 F1. injection D2 as E2 F2. injection D as E F. split; [exact La|]. split; [exact Lb|]. split; [|exact E1].
  assert (ET : map lt_tok l = map lt_tok lam ++ map lt_tok lb) by (rewrite <- E, E1, E2; reflexivity).
  assert (ER : rt_of l = rt_of (lam ++ lb)).
  { unfold rt_of at 2. rewrite map_app. pose proof (Lexed_text _ _ La) as EA. pose proof (Lexed_text _ _ Lb) as EB. rewrite EA in La, L. rewrite EB in Lb, L. exact (rt_eq _ _ _ La Lb L ET). }
  apply lexed_eq; [exact ER|]. rewrite map_app. 
  apply (errors_of_inj (map lt_tok l) (tok_pos _ _ L) 0); [now rewrite !map_length|rewrite <- map_app, !map_length; transitivity (length (rt_of (lam ++ lb))); [unfold rt_of; now rewrite map_length|rewrite <- ER; unfold rt_of; now rewrite map_length]|].
  rewrite <- F, F1, F2, ET, errors_of_app by (now rewrite !map_length). f_equal.
  replace (list_sum (map t_len (map lt_tok lam))) with (blen am); [symmetry; exact (errors_of_shift (blen am) (map lt_tok lb) 0 (map lt_err lb))|].
  clear -La. induction La as [|k e x b l Hl Hd Hls IH]; [reflexivity|]. rewrite blen_app, IH. reflexivity.
Qed.

(** ** The beginning of a file *)
Lemma prefix_all a m b b' toks r r' tm em p p' cs1 cs2 : cuts (a ++ m) b toks r -> cuts (a ++ m) b' toks r' -> tokenize m = Ok (tm, em) -> words tm <> [] ->
  source_file_parse ((a ++ m) ++ b) = Ok p -> source_file_parse ((a ++ m) ++ b') = Ok p' ->
  pa_green p = file (cs1 ++ cs2) -> text_of cs1 = a -> first_code cs2 <> Some KSemicolon ->
  exists cs2', pa_green p' = file (cs1 ++ cs2') /\
    forall p2 p2', source_file_parse (text_of cs2) = Ok p2 -> source_file_parse (text_of cs2') = Ok p2' -> pa_green p2' = file cs2' /\
      exists errs1, Permutation (pa_errors p) (errs1 ++ map (shift_err (blen a)) (pa_errors p2)) /\ Permutation (pa_errors p') (errs1 ++ map (shift_err (blen a)) (pa_errors p2')).
Proof.
  intros CU CU' TM LW S S' G EA NF.
  destruct (source_file_inv _ _ S) as (l & f & d & v & P & V & GP & X). destruct (source_file_inv _ _ S') as (l' & f' & d' & v' & P' & V' & GP' & X').
  rewrite GP in G. unfold root_of, file in G. assert (GA : all_green d = cs1 ++ cs2) by (unfold all_green; congruence).
  pose proof (parsed_Dress _ _ _ _ P) as D.
  destruct (Dress_cut _ _ _ _ D (stmts_placed _ (pd_tree _ _ _ _ P)) (pd_left _ _ _ _ P) _ _ GA) as (f1 & f2 & a1 & a2 & t0 & rt2 & C).
  pose proof C as C0. destruct C as [C1 C2 C3 C4 C5 C6 C7 C8].
  pose proof (Dress_used _ _ _ _ C2) as U1. pose proof (Dress_used _ _ _ _ C6) as U2.
  set (r1 := dr_used a1 ++ t0) in *. assert (RT : rt_of l = r1 ++ rt2) by (unfold r1; rewrite U1, C3, app_assoc; reflexivity).
  assert (L1 : texts r1 = a).
  { rewrite <- EA. unfold text_of. rewrite green_texts_leaves, C5, leaves_app, leaves_gtok, (Dress_leaves _ _ _ _ C2). reflexivity. }
  assert (KK : map fst (nontriv (rt_of l)) = fkinds f1 ++ fkinds f2) by (rewrite <- (pd_kinds _ _ _ _ P), C1; unfold fkinds; now rewrite flat_map_app).
  pose proof (Dress_kinds _ _ _ _ _ C2 KK) as K2. rewrite C3, nontriv_split in K2.
  assert (N0 : nontriv t0 = []). { clear -C4. induction t0 as [|q t0 IH]; [reflexivity|]. cbn [forallb nontriv filter] in *. apply andb_true_iff in C4 as [-> C4]. exact (IH C4). }
  rewrite N0 in K2. cbn [app] in K2.
  assert (NS : ~ semi_first f2) by (intros NS; apply NF; rewrite C7; exact (first_semi _ _ _ _ C6 K2 NS)).
  (* the tokens *)
  destruct (cuts_lexed _ _ _ _ _ CU (pd_lex _ _ _ _ P)) as (lam & lb & La & Lb & -> & Et). destruct (cuts_lexed _ _ _ _ _ CU' (pd_lex _ _ _ _ P')) as (lam' & lb' & La' & Lb' & -> & Et').
  rewrite <- (Lexed_fun _ _ La _ La') in *. clear lam' La' Et'.
  assert (RL : rt_of (lam ++ lb) = rt_of lam ++ rt_of lb) by (unfold rt_of; apply map_app). assert (RL' : rt_of (lam ++ lb') = rt_of lam ++ rt_of lb') by (unfold rt_of; apply map_app).
  assert (TA : texts (rt_of lam) = a ++ m) by (rewrite rt_of_text; symmetry; exact (Lexed_text _ _ La)).
  assert (ZZ : exists z, rt_of lam = r1 ++ z /\ rt2 = z ++ rt_of lb).
  { pose proof RT as E. rewrite RL in E. apply cut_app in E as [(z & E1 & E2)|(z & E1 & E2)]; [eauto|]. exists []. rewrite app_nil_r. cbn [app].
    assert (Ez : z = []).
    { destruct z as [|q z]; [reflexivity|]. exfalso. assert (Q : In q (rt_of lb)) by (rewrite E2; now left). pose proof (Lexed_ok _ _ Lb) as OK. rewrite Forall_forall in OK. destruct (OK _ Q) as (_ & _ & NE).
      apply (f_equal texts) in E1. rewrite L1, texts_app, TA in E1. apply (f_equal blen) in E1. rewrite !blen_app in E1. change (texts (q :: z)) with (snd q ++ texts z) in E1. rewrite blen_app in E1.
      assert (NB : 0 < blen (snd q)) by (destruct (snd q) as [|ch qq]; [exfalso; exact (NE eq_refl)|cbn [blen]; pose proof (utf8_len_pos ch); lia]). lia. }
    subst z. rewrite app_nil_r in E1. cbn [app] in E2. auto. }
  destruct ZZ as (z & EZ & ER2).
  assert (TZ : texts z = m). { rewrite EZ, texts_app, L1 in TA. now apply app_inv_head in TA. }
  assert (SL : forall q, blen (texts q) = list_sum (map t_len (map mktok q))).
  { clear. induction q as [|q0 q IH]; [reflexivity|]. unfold texts in *. cbn [flat_map map list_sum fold_right mktok t_len]. rewrite blen_app, IH. destruct q0. reflexivity. }
  assert (MZ : map mktok z = tm).
  { destruct CU as (x1 & x2 & T1 & _ & _). rewrite Et, <- rt_of_toks, EZ, map_app in T1. assert (BA : blen a = list_sum (map t_len (map mktok r1))) by (rewrite <- SL, L1; reflexivity).
    destruct (C10_resume _ _ _ _ _ _ T1 eq_refl BA) as (y1 & y2 & T2 & _). congruence. }
  set (w := map fst (nontriv z)) in *.
  assert (LV : w <> []).
  { assert (LL : length (words tm) = length w); [|intros E; rewrite E in LL; destruct (words tm); [contradiction|discriminate LL]].
    unfold w. rewrite map_length. rewrite <- MZ. unfold words.
    clear. induction z as [|[k x] z IH]; [reflexivity|]. cbn [map filter mktok t_kind fst nontriv]. unfold triv at 1. cbn [fst]. destruct (is_trivia k); cbn [negb length]; [exact IH|now rewrite IH]. }
  assert (K2' : fkinds f2 = w ++ map fst (nontriv (rt_of lb))) by (rewrite <- K2, ER2, nontriv_split, map_app; reflexivity).
  assert (W1 : map fst (nontriv (rt_of (lam ++ lb))) = fkinds f1 ++ w ++ map fst (nontriv (rt_of lb))) by (rewrite KK, K2'; reflexivity).
  assert (WR : map fst (nontriv r1) = fkinds f1).
  { rewrite RL, EZ, (nontriv_split (r1 ++ z)), (nontriv_split r1 z), !map_app in W1. fold w in W1. rewrite <- app_assoc in W1. now apply app_inv_tail in W1. }
  assert (W2 : map fst (nontriv (rt_of (lam ++ lb'))) = fkinds f1 ++ w ++ map fst (nontriv (rt_of lb'))) by (rewrite RL', EZ, (nontriv_split (r1 ++ z)), (nontriv_split r1 z), !map_app; transitivity ((fkinds f1 ++ w) ++ map fst (nontriv (rt_of lb'))); [apply (f_equal (fun u => u ++ map fst (nontriv (rt_of lb')))); apply (f_equal (fun u => u ++ w)); exact WR|now rewrite <- app_assoc]).
  (* the forest *)
  pose proof (pd_run _ _ _ _ P) as R1. rewrite C1 in R1. pose proof (pd_run _ _ _ _ P') as R2. rewrite W2 in R2.
  pose proof (parsed_neof _ _ _ _ P) as NE1. pose proof (parsed_neof _ _ _ _ P') as NE2. rewrite W2 in NE2. apply SuffixProofs.NEof_app in NE2.
  destruct (root_head _ _ _ _ _ _ _ _ _ NE1 NE2 R1 NS W1 LV R2) as (f2' & Ef' & NS'). 
  (* dressing *)
  assert (RT' : rt_of (lam ++ lb') = dr_used a1 ++ t0 ++ z ++ rt_of lb') by (rewrite RL', EZ; unfold r1; rewrite <- !app_assoc; reflexivity).
  pose proof (parsed_Dress _ _ _ _ P') as D'. rewrite Ef' in D'. rewrite RT' in D'.
  assert (ZN : z <> []) by (intros ->; apply LV; reflexivity).
  assert (SE : settled (dr_left a1) -> settled (t0 ++ z ++ rt_of lb')).
  { rewrite C3, ER2, !app_assoc. intros SS. apply (settled_other _ _ _ SS). intros E. apply app_eq_nil in E as [_ E]. contradiction. }
  pose proof (Dress_other _ _ _ _ C2 _ SE) as D1'.
  destruct (Dress_app_inv _ _ _ _ _ D') as (b1 & b2 & DB1 & DB2 & Ed').
  pose proof (Dress_det _ _ _ _ D1' _ DB1) as EB1. rewrite <- EB1 in DB2. unfold dr_with in DB2. cbn [dr_used dr_left] in DB2.
  assert (PL : Forall placed f2') by (pose proof (stmts_placed _ (pd_tree _ _ _ _ P')) as PL; rewrite Ef' in PL; now apply Forall_app in PL).
  destruct (Dress_front _ _ _ _ _ C4 PL DB2) as (c2 & DC2 & GC2 & EC2).
  assert (GA' : all_green d' = cs1 ++ all_green c2).
  { rewrite Ed'. unfold dr_cat, all_green. cbn [dr_green dr_left]. rewrite <- EB1 at 1. cbn [dr_with dr_green]. rewrite <- app_assoc. change (dr_green b2 ++ map gtok (dr_left b2)) with (all_green b2).
    rewrite GC2, C5, <- app_assoc. reflexivity. }
  assert (CUT : dcut f' 0 (rt_of (lam ++ lb')) d' cs1 (all_green c2) f1 f2' b1 c2 t0 (z ++ rt_of lb')).
  { constructor; rewrite <- ?EB1; cbn [dr_with dr_green dr_errs dr_used dr_left]; auto.
    - rewrite RT'. exact D1'.
    - rewrite texts_app, blen_app, Nat.add_assoc. exact DC2.
    - rewrite Ed'. unfold dr_cat. cbn [dr_errs]. rewrite <- EB1, EC2. reflexivity. }
  exists (all_green c2). split; [rewrite GP'; unfold root_of, file; change (dr_green d' ++ map gtok (dr_left d')) with (all_green d'); rewrite GA'; reflexivity|].
  intros p2 p2' S2 S2'. destruct (suffix_cut _ _ _ _ _ _ _ _ _ _ _ _ _ _ P V C0 GA NS S2) as (A1 & u1 & VU & PE & _).
  destruct (suffix_cut _ _ _ _ _ _ _ _ _ _ _ _ _ _ P' V' CUT GA' NS' S2') as (A2 & u2 & VU' & PE' & _).
  split; [exact A2|]. assert (u2 = u1) by congruence. subst u2.
  assert (EB : before b1 (dr_used b1 ++ t0) (lam ++ lb') u1 = before a1 r1 (lam ++ lb) u1).
  { rewrite <- EB1. unfold before. cbn [dr_with dr_errs dr_used]. fold r1. do 2 f_equal.
    assert (LEN : length r1 <= length (map lt_err lam)) by (rewrite map_length; transitivity (length (rt_of lam)); [rewrite EZ, app_length; apply Nat.le_add_r|unfold rt_of; rewrite map_length; apply Nat.le_refl]).
    rewrite !map_app, !firstn_app. replace (length r1 - length (map lt_err lam)) with 0 by lia. reflexivity. }
  exists (before a1 r1 (lam ++ lb) u1). rewrite EA in PE, PE'. split; [rewrite X; exact PE|]. rewrite X', <- EB. exact PE'.
Qed.

(** [a ++ m] begins two files; in the first one the top level is cut after [a], and [m] has at least one token that
    is neither white space nor a comment. Then the second file starts with the same children of the top level, and
    its remaining children [cs2'] and errors are those of the remaining text parsed alone. *)
Theorem C81_beginning_kept : forall a m b b' toks r r' tm em p p' cs1 cs2, cuts (a ++ m) b toks r -> cuts (a ++ m) b' toks r' -> tokenize m = Ok (tm, em) -> words tm <> [] ->
  source_file_parse ((a ++ m) ++ b) = Ok p -> source_file_parse ((a ++ m) ++ b') = Ok p' ->
  pa_green p = file (cs1 ++ cs2) -> text_of cs1 = a -> first_code cs2 <> Some KSemicolon ->
  exists cs2', pa_green p' = file (cs1 ++ cs2') /\
    forall p2 p2', source_file_parse (text_of cs2) = Ok p2 -> source_file_parse (text_of cs2') = Ok p2' -> pa_green p2' = file cs2' /\
      exists errs1, Permutation (pa_errors p) (errs1 ++ map (shift_err (blen a)) (pa_errors p2)) /\ Permutation (pa_errors p') (errs1 ++ map (shift_err (blen a)) (pa_errors p2')).
Proof. exact prefix_all. Qed.
Print Assumptions C81_beginning_kept.

(** The errors that start before the cut are the same in both files. *)
Lemma text_of_app x y : text_of (x ++ y) = text_of x ++ text_of y.
Proof. unfold text_of. now rewrite flat_map_app. Qed.
Lemma file_text cs : green_text (file cs) = text_of cs.
Proof. unfold file. cbn [green_text flat_map]. now rewrite !app_nil_r. Qed.
Theorem C81_errors_kept : forall a m b b' toks r r' tm em p p' cs1 cs2, cuts (a ++ m) b toks r -> cuts (a ++ m) b' toks r' -> tokenize m = Ok (tm, em) -> words tm <> [] ->
  source_file_parse ((a ++ m) ++ b) = Ok p -> source_file_parse ((a ++ m) ++ b') = Ok p' ->
  pa_green p = file (cs1 ++ cs2) -> text_of cs1 = a -> first_code cs2 <> Some KSemicolon ->
  forall e, r_start (e_range e) < blen a -> (In e (pa_errors p) <-> In e (pa_errors p')).
Proof.
  intros a m b b' toks r r' tm em p p' cs1 cs2 CU CU' TM LW S S' G EA NF e He.
  destruct (prefix_all _ _ _ _ _ _ _ _ _ _ _ _ _ CU CU' TM LW S S' G EA NF) as (cs2' & G' & K).
  assert (FT : forall x q q1 q2 tk rr, cuts (a ++ m) x tk rr -> source_file_parse ((a ++ m) ++ x) = Ok q -> pa_green q = file (q1 ++ q2) -> text_of q1 = a -> exists p2, source_file_parse (text_of q2) = Ok p2).
  { intros x q q1 q2 tk rr (x1 & x2 & _ & _ & T) SQ GQ E1. apply C11_parse_total. pose proof (C12_lossless _ _ SQ) as TX. rewrite GQ, file_text, text_of_app, E1 in TX.
    apply (fits_le (blen ((a ++ m) ++ x))); [|exact (tokenize_ok_fits _ _ T)]. apply (f_equal blen) in TX. rewrite blen_app in TX. lia. }
  destruct (FT _ _ _ _ _ _ CU S G EA) as (p2 & S2). destruct (FT _ _ _ _ _ _ CU' S' G' EA) as (p2' & S2').
  destruct (K _ _ S2 S2') as (_ & errs1 & P1 & P2).
  assert (C : forall q qs, Permutation q (errs1 ++ map (shift_err (blen a)) qs) -> (In e q <-> In e errs1)).
  { intros q qs PQ. split; intros I.
    - apply (Permutation_in _ PQ) in I. apply in_app_or in I as [I|I]; [exact I|]. apply in_map_iff in I as (e0 & <- & _). cbn in He. lia.
    - apply (Permutation_in _ (Permutation_sym PQ)). apply in_or_app. now left. }
  rewrite (C _ _ P1), (C _ _ P2). reflexivity.
Qed.
Print Assumptions C81_errors_kept.

(** One token is needed: [f()] is a statement before [ g()], but not before [ ()]. *)
Theorem C81_one_token_needed : exists a b b' toks r r' p p' cs1 cs2, cuts (a ++ []) b toks r /\ cuts (a ++ []) b' toks r' /\
  source_file_parse ((a ++ []) ++ b) = Ok p /\ source_file_parse ((a ++ []) ++ b') = Ok p' /\ pa_green p = file (cs1 ++ cs2) /\ text_of cs1 = a /\ first_code cs2 <> Some KSemicolon /\
  forall cs2', pa_green p' <> file (cs1 ++ cs2').
Proof.
  exists (txt "f()"), (txt " g()"), (txt " ()").
  do 5 eexists. eexists (firstn 1 _), (skipn 1 _). split; [do 2 eexists; split; [vm_compute; reflexivity|]; split; vm_compute; reflexivity|].
  split; [do 2 eexists; split; [vm_compute; reflexivity|]; split; vm_compute; reflexivity|].
  split; [vm_compute; reflexivity|]. split; [vm_compute; reflexivity|]. cbn [pa_green pa_errors]. split; [rewrite firstn_skipn; reflexivity|]. split; [vm_compute; reflexivity|].
  split; [vm_compute; discriminate|]. intros cs2' E. apply (f_equal (fun g => match g with GNode _ [GNode _ (c :: _)] => length (green_text c) | _ => 0 end)) in E. vm_compute in E. discriminate E.
Qed.
Print Assumptions C81_one_token_needed.

(** A broken statement and an unmatched [end], then [ y]; the files go on with [ = 1; z(] and with [() = ) x]. *)
Example C81_case : exists toks r r' tm em p p' cs1 cs2, cuts (txt "x = = 2 end" ++ txt " y") (txt " = 1; z(") toks r /\ cuts (txt "x = = 2 end" ++ txt " y") (txt "() = ) x") toks r' /\
  tokenize (txt " y") = Ok (tm, em) /\ words tm <> [] /\ source_file_parse ((txt "x = = 2 end" ++ txt " y") ++ txt " = 1; z(") = Ok p /\ source_file_parse ((txt "x = = 2 end" ++ txt " y") ++ txt "() = ) x") = Ok p' /\
  pa_green p = file (cs1 ++ cs2) /\ text_of cs1 = txt "x = = 2 end" /\ first_code cs2 <> Some KSemicolon /\ length cs1 = 5 /\ length cs2 = 5 /\ length (pa_errors p) = 5 /\ length (pa_errors p') = 7 /\
  length (filter (fun e => r_start (e_range e) <? 11) (pa_errors p)) = 3.
Proof.
  do 7 eexists. eexists (firstn 5 _), (skipn 5 _). split; [do 2 eexists; split; [vm_compute; reflexivity|]; split; vm_compute; reflexivity|].
  split; [do 2 eexists; split; [vm_compute; reflexivity|]; split; vm_compute; reflexivity|]. split; [vm_compute; reflexivity|]. split; [vm_compute; discriminate|].
  split; [vm_compute; reflexivity|]. split; [vm_compute; reflexivity|]. cbn [pa_green pa_errors]. split; [rewrite firstn_skipn; reflexivity|]. split; [vm_compute; reflexivity|]. split; [vm_compute; discriminate|].
  vm_compute. repeat split.
Qed.
