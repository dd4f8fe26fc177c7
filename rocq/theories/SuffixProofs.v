(** SuffixProofs.v — proof tools for PropsSuffix.v: the statements of a file are parsed one after the other, each
    from the tokens that follow it on; a dressed file can be cut between two top level elements. *)
From Verif Require Import Base SyntaxKind TokenSet Lexer BindingPowers Parser Grammar ParserTree Event EventProofs Tree TreeSink SinkProofs Ast Validation ParseSpec ParseProofs
  ParserTotal ParserTotal2 GrammarSpec LuaSyntax LuaRun LuaComplete ParserFuel LexSpec LocalProofs LocalDress BlockDress DressProofs.

(** * The loop over the statements can be entered at every statement *)
Definition semi_first (f : forest) : Prop := match f with PTok KSemicolon :: _ => True | _ => False end.
Definition placed (t : ptree) : Prop := match t with PErr _ => False | _ => True end.
(** A statement is one node, or one error node, with a token in it. *)
Lemma stmt_one f : Tree false NStmt f -> existsb has_tok f = true -> exists t, f = [t] /\ placed t /\ (forall k, t <> PTok k).
Proof.
  intros H T. inversion H; subst; try (eexists; split; [reflexivity|]; split; [exact I|]; intros ? ?; discriminate).
  match goal with I : is_err _ _ |- _ => destruct I as (_ & e & [->|(ks & ->)]) end; [discriminate T|].
  eexists; split; [reflexivity|]; split; [exact I|]; intros ? ?; discriminate.
Qed.
Lemma stmts_placed f : Tree false NStmts f -> Forall placed f.
Proof.
  intros H. remember NStmts as x eqn:E. revert E. induction H; intros E; try discriminate E; [constructor|].
  destruct (stmt_one _ H H0) as (t & -> & P & _). apply Forall_app. split; [constructor; [exact P|constructor]|].
  apply Forall_app. split; [|auto]. destruct H1 as [->| ->]; repeat constructor.
Qed.
Lemma NEof_app a b : NEof (a ++ b) -> NEof b.
Proof. unfold NEof. intros H X. apply H, in_or_app. now right. Qed.
Lemma loop_cut n : forall m w f, 2 * length w + 2 <= n -> NEof w -> block_body n m ROOT_END (mkDS w []) = Ok (tt, mkDS [] f) ->
  forall f1 f2, f = f1 ++ f2 -> ~ semi_first f2 ->
  exists w2 m2, m2 <= m /\ w = fkinds f1 ++ w2 /\ block_body n m2 ROOT_END (mkDS w2 []) = Ok (tt, mkDS [] f2).
Proof.
  induction m as [|m IH]; intros w f Hn HN HR f1 f2 Ef NS; [discriminate HR|].
  destruct f1 as [|x f1].
  { exists w, (S m). cbn [app] in Ef. subst f. split; [lia|]. split; [reflexivity|exact HR]. }
  unfold block_body, p_while in HR. cbn [p_loop] in HR.
  unfold p_at, p_current in HR. cbn [bind tree_ops p_nth ret] in HR. unfold tr_bind, tr_nth, tr_ret in HR. cbn [rbind fst snd ds_rem ds_for] in HR.
  destruct (pacc_test (PSet ROOT_END) (nth 0 w KEof)) eqn:ET; cbn [negb rbind fst snd] in HR.
  { exfalso. assert (f = []) by congruence. subst f. discriminate. }
  destruct (knot n) as [Hs _].
  assert (HT : Tr (@stmt_f TO n) w (fun _ g r => exists t sc, g = t :: sc /\ placed t /\ (forall k, t <> PTok k) /\ (sc = [] \/ sc = [PTok KSemicolon]) /\ length r < length w)).
  { apply Hs; [exact Hn|]. intros g sc r Hg Hh Hsc Hl. assert (W : w <> []) by (intros ->; discriminate ET).
    destruct (stmt_one _ Hg (Hh W)) as (t & -> & Hp & Hk). exists t, sc. cbn [app]. auto 6. }
  destruct (HT HN []) as ([] & g & r & E1 & E2 & t & sc & -> & Hp & Hk & Hsc & Hl). cbn [app] in E1.
  rewrite E1 in HR. cbn [rbind fst snd] in HR.
  change (block_body n m ROOT_END (mkDS r (t :: sc)) = Ok (tt, mkDS [] f)) in HR.
  rewrite fr_block_body in HR. destruct (block_body n m ROOT_END (mkDS r [])) as [[[] [r' g']]| |] eqn:EB; cbn [rbind ds_rem ds_for] in HR; try discriminate HR.
  assert (EQ : f = (t :: sc) ++ g' /\ r' = []) by (split; congruence). destruct EQ as [EQ ->]. rewrite Ef in EQ. cbn [app] in EQ.
  assert (x = t /\ f1 ++ f2 = sc ++ g') as [-> EQ'] by (split; congruence).
  assert (HN' : NEof r) by (rewrite E2 in HN; exact (NEof_app _ _ HN)).
  assert (Hn' : 2 * length r + 2 <= n) by lia.
  assert (K : exists f1', f1 = sc ++ f1' /\ g' = f1' ++ f2).
  { destruct Hsc as [->| ->]; cbn [app] in *; [now exists f1|]. destruct f1 as [|y f1]; cbn [app] in EQ'.
    - exfalso. apply NS. rewrite EQ'. exact I.
    - exists f1. split; congruence. }
  destruct K as (f1' & -> & Eg). destruct (IH _ _ Hn' HN' EB _ _ Eg NS) as (w2 & m2 & M & W & R).
  exists w2, m2. split; [lia|]. split; [|exact R]. rewrite E2, W. change (t :: sc ++ f1') with ((t :: sc) ++ f1'). unfold fkinds. rewrite flat_map_app, <- app_assoc. reflexivity.
Qed.
Lemma root_body M w fs : @root_f TO M (mkDS w []) = Ok (tt, mkDS [] [PNode KSourceFile [PNode KBlock fs]]) <-> block_body M M ROOT_END (mkDS w []) = Ok (tt, mkDS [] fs).
Proof.
  unfold root_f, root, root_block, block_raw, node_, node. fold (block_body M M ROOT_END). cbn [bind node_by tree_ops]. unfold tr_bind, tr_node. cbn [ds_rem ds_for].
  destruct (block_body M M ROOT_END (mkDS w [])) as [[[] [r0 f0]]| |]; cbn [rbind fst snd ds_rem ds_for tr_ret ret app]; split; try discriminate.
  - intros E. injection E as -> ->. reflexivity.
  - intros E. injection E as -> ->. reflexivity.
Qed.
(** Cutting the run of the whole grammar. *)
Theorem root_cut n1 n2 w w2 f1 f2 g : NEof w -> @root_f TO n1 (mkDS w []) = Ok (tt, mkDS [] [PNode KSourceFile [PNode KBlock (f1 ++ f2)]]) -> ~ semi_first f2 ->
  w = fkinds f1 ++ w2 -> @root_f TO n2 (mkDS w2 []) = Ok (tt, mkDS [] [PNode KSourceFile [PNode KBlock g]]) -> g = f2.
Proof.
  intros HN R1 NS Ew R2. set (N := n1 + n2 + (2 * length w + 2)).
  apply (up_root_f n1 N) in R1; [|unfold N; lia]. apply (up_root_f n2 N) in R2; [|unfold N; lia]. apply root_body in R1, R2.
  assert (HL : 2 * length w + 2 <= N) by (unfold N; lia).
  destruct (loop_cut N N _ _ HL HN R1 _ _ eq_refl NS) as (w2' & m2 & M & W & R).
  assert (w2' = w2) by (rewrite W in Ew; now apply app_inv_head in Ew). subst w2'.
  assert (U : up (block_body N m2 ROOT_END) (block_body N N ROOT_END)).
  { unfold block_body. apply up_while; [apply up_refl|apply up_refl|exact M]. }
  rewrite (U _ _ R) in R2. congruence.
Qed.

(** * Cutting a dressed file *)
Lemma cut_map {A B} (h : A -> B) l x y : map h l = x ++ y -> exists l1 l2, l = l1 ++ l2 /\ x = map h l1 /\ y = map h l2.
Proof. intros H. apply map_eq_app in H as (l1 & l2 & -> & <- & <-). eauto. Qed.
Lemma cut_app {A} (a b x y : list A) : a ++ b = x ++ y -> (exists a2, a = x ++ a2 /\ y = a2 ++ b) \/ (exists x2, x = a ++ x2 /\ b = x2 ++ y).
Proof.
  revert x. induction a as [|z a IH]; intros x H; cbn [app] in H; [right; now exists x|]. destruct x as [|z' x]; cbn [app] in H.
  - left. exists (z :: a). auto.
  - injection H as -> H. destruct (IH _ H) as [(a2 & -> & ->)|(x2 & -> & ->)]; [left; now exists a2|right; now exists x2].
Qed.
Lemma eat_tail l tr1 tr2 rest : eat l = (tr1 ++ tr2, rest) -> eat (tr2 ++ rest) = (tr2, rest) /\ l = tr1 ++ tr2 ++ rest /\ forallb triv tr1 = true.
Proof.
  intros H. pose proof (eat_app _ _ _ H) as E. pose proof (eat_eat _ _ _ H) as S0. assert (T : forallb triv (tr1 ++ tr2) = true) by (pose proof (eat_triv _ _ _ H) as X; destruct rest; apply X).
  rewrite forallb_app, andb_true_iff in T. destruct T as [T1 T2]. split; [exact (eat_settled _ _ T2 S0)|]. split; [|exact T1]. now rewrite E, <- app_assoc.
Qed.

(** A file cut at [cs1 | cs2]: the trees of both sides and what they are dressed with. *)
Record dcut (f : forest) (pos : nat) (rt : list rtok) (a : dressed) (cs1 cs2 : list green) (f1 f2 : forest) (a1 a2 : dressed) (t0 rt2 : list rtok) : Prop := mkDcut
  { dc_f : f = f1 ++ f2;
    dc_one : Dress f1 pos rt a1;
    dc_left : dr_left a1 = t0 ++ rt2;
    dc_triv : forallb triv t0 = true;
    dc_cs1 : cs1 = dr_green a1 ++ map gtok t0;
    dc_two : Dress f2 (pos + blen (texts (dr_used a1 ++ t0))) rt2 a2;
    dc_cs2 : cs2 = all_green a2;
    dc_errs : dr_errs a = dr_errs a1 ++ dr_errs a2 }.
Lemma Dress_cut f pos rt a : Dress f pos rt a -> Forall placed f -> nontriv (dr_left a) = [] -> forall cs1 cs2, all_green a = cs1 ++ cs2 ->
  exists f1 f2 a1 a2 t0 rt2, dcut f pos rt a cs1 cs2 f1 f2 a1 a2 t0 rt2.
Proof.
  induction 1 as [pos rt|k fs pos rt tr p rest b He Hd IH|e fs pos rt b Hd IH|e fs gs pos rt tr rest a b He Ha IHa Hb IHb|k fs gs pos rt tr rest a b He Ha IHa Hb IHb]; intros HP HL cs1 cs2 HG.
  - unfold all_green in HG. cbn [dr_green dr_left app] in HG. apply cut_map in HG as (l1 & l2 & -> & -> & ->). cbn [dr_left] in HL.
    rewrite nontriv_split in HL. apply app_eq_nil in HL as [HL1 _].
    exists [], [], (mkDr [] [] [] (l1 ++ l2)), (mkDr [] [] [] l2), l1, l2. constructor; cbn [app dr_green dr_errs dr_used dr_left]; try reflexivity.
    + constructor.
    + clear -HL1. induction l1 as [|q l IH]; [reflexivity|]. cbn [nontriv filter forallb] in *. destruct (triv q); [exact (IH HL1)|discriminate].
    + constructor.
  - apply Forall_cons_iff in HP as [_ HP]. cbn [dr_left] in HL. unfold all_green in HG. cbn [dr_green dr_left] in HG. rewrite <- !app_assoc in HG. cbn [app] in HG.
    apply cut_app in HG as [(t2 & HG & ->)|(x2 & -> & HG)].
    + apply cut_map in HG as (l1 & l2 & -> & -> & ->). destruct (eat_tail _ _ _ _ He) as (E1 & E2 & T).
      exists [], (PTok k :: fs), (mkDr [] [] [] rt), (mkDr ((map gtok l2 ++ [gtok p]) ++ dr_green b) (dr_errs b) ((l2 ++ [p]) ++ dr_used b) (dr_left b)), l1, (l2 ++ p :: rest).
      constructor; cbn [app dr_green dr_errs dr_used dr_left]; try reflexivity; try assumption.
      * constructor.
      * apply (D_tok k fs _ _ l2 p rest b E1). rewrite <- app_assoc in Hd. rewrite texts_app, blen_app, Nat.add_assoc in Hd. exact Hd.
      * unfold all_green. cbn [dr_green dr_left]. rewrite <- !app_assoc. reflexivity.
    + destruct x2 as [|x x2]; cbn [app] in HG.
      { subst cs2. exists [], (PTok k :: fs), (mkDr [] [] [] rt), (mkDr ((map gtok [] ++ [gtok p]) ++ dr_green b) (dr_errs b) (([] ++ [p]) ++ dr_used b) (dr_left b)), tr, (p :: rest).
        destruct (eat_tail rt tr [] (p :: rest)) as (E1 & E2 & T); [now rewrite app_nil_r|]. rewrite app_nil_r.
        constructor; cbn [app dr_green dr_errs dr_used dr_left]; try reflexivity; try assumption.
        * constructor.
        * apply (D_tok k fs _ _ [] p rest b E1). cbn [app]. rewrite texts_app, blen_app, Nat.add_assoc in Hd. exact Hd. }
      assert (x = gtok p /\ dr_green b ++ map gtok (dr_left b) = x2 ++ cs2) as [-> HG'] by (split; congruence).
      destruct (IH HP HL _ _ HG') as (f1 & f2 & a1 & a2 & t0 & rt2 & C). destruct C as [C1 C2 C3 C4 C5 C6 C7 C8].
      exists (PTok k :: f1), f2, (mkDr ((map gtok tr ++ [gtok p]) ++ dr_green a1) (dr_errs a1) ((tr ++ [p]) ++ dr_used a1) (dr_left a1)), a2, t0, rt2.
      constructor; cbn [app dr_green dr_errs dr_used dr_left]; try assumption.
      * now rewrite C1.
      * exact (D_tok k f1 pos rt tr p rest a1 He C2).
      * rewrite C5, <- !app_assoc. reflexivity.
      * rewrite <- (app_assoc (tr ++ [p])). rewrite texts_app, blen_app, Nat.add_assoc. exact C6.
  - apply Forall_cons_iff in HP as [[] _].
  - apply Forall_cons_iff in HP as [_ HP]. cbn [dr_left] in HL. unfold all_green in HG. cbn [dr_green dr_left] in HG. rewrite <- !app_assoc in HG. cbn [app] in HG.
    set (er := mkErr (perr_display e) (mkRange (pos + blen (texts tr)) (pos + blen (texts tr) + blen (texts (dr_used a))))) in *.
    assert (EN : forall l1 l2, tr = l1 ++ l2 -> eat (l2 ++ rest) = (l2, rest) ->
      Dress (PErrN fs e :: gs) (pos + blen (texts l1)) (l2 ++ rest) (mkDr ((map gtok l2 ++ [GNode KError (dr_green a)]) ++ dr_green b) ((dr_errs a ++ [er]) ++ dr_errs b) ((l2 ++ dr_used a) ++ dr_used b) (dr_left b))).
    { intros l1 l2 -> E1. rewrite texts_app, blen_app, Nat.add_assoc in Ha. rewrite <- app_assoc in Hb. rewrite texts_app, blen_app, Nat.add_assoc in Hb.
      unfold er. rewrite texts_app, blen_app, !Nat.add_assoc. exact (D_errn e fs gs _ _ l2 rest a b E1 Ha Hb). }
    apply cut_app in HG as [(t2 & HG & ->)|(x2 & -> & HG)].
    + apply cut_map in HG as (l1 & l2 & -> & -> & ->). destruct (eat_tail _ _ _ _ He) as (E1 & E2 & T).
      eexists [], (PErrN fs e :: gs), (mkDr [] [] [] rt), _, l1, (l2 ++ rest).
      constructor; cbn [app dr_green dr_errs dr_used dr_left]; [reflexivity|constructor|exact E2|exact T|reflexivity|exact (EN _ _ eq_refl E1)| |reflexivity].
      unfold all_green. cbn [dr_green dr_left]. rewrite <- !app_assoc. reflexivity.
    + destruct x2 as [|x x2]; cbn [app] in HG.
      { subst cs2. destruct (eat_tail rt tr [] rest) as (E1 & E2 & T); [now rewrite app_nil_r|]. rewrite app_nil_r.
        eexists [], (PErrN fs e :: gs), (mkDr [] [] [] rt), _, tr, rest.
        constructor; cbn [app dr_green dr_errs dr_used dr_left]; [reflexivity|constructor|exact E2|exact T|reflexivity|exact (EN tr [] (eq_sym (app_nil_r tr)) E1)| |reflexivity].
        reflexivity. }
      assert (x = GNode KError (dr_green a) /\ dr_green b ++ map gtok (dr_left b) = x2 ++ cs2) as [-> HG'] by (split; congruence).
      destruct (IHb HP HL _ _ HG') as (f1 & f2 & a1 & a2 & t0 & rt2 & C). destruct C as [C1 C2 C3 C4 C5 C6 C7 C8].
      eexists (PErrN fs e :: f1), f2, _, a2, t0, rt2.
      constructor; cbn [app]; [now rewrite C1|exact (D_errn e fs f1 pos rt tr rest a a1 He Ha C2)|exact C3|exact C4| | |exact C7|]; cbn [app dr_green dr_errs dr_used dr_left].
      * rewrite C5, <- !app_assoc. reflexivity.
      * rewrite <- (app_assoc (tr ++ dr_used a)). rewrite texts_app, blen_app, Nat.add_assoc. exact C6.
      * rewrite C8. unfold er. rewrite <- !app_assoc. reflexivity.
  - apply Forall_cons_iff in HP as [_ HP]. cbn [dr_left] in HL. unfold all_green in HG. cbn [dr_green dr_left] in HG. rewrite <- !app_assoc in HG. cbn [app] in HG.
    assert (EN : forall l1 l2, tr = l1 ++ l2 -> eat (l2 ++ rest) = (l2, rest) ->
      Dress (PNode k fs :: gs) (pos + blen (texts l1)) (l2 ++ rest) (mkDr ((map gtok l2 ++ [GNode k (dr_green a)]) ++ dr_green b) (dr_errs a ++ dr_errs b) ((l2 ++ dr_used a) ++ dr_used b) (dr_left b))).
    { intros l1 l2 -> E1. rewrite texts_app, blen_app, Nat.add_assoc in Ha. rewrite <- app_assoc in Hb. rewrite texts_app, blen_app, Nat.add_assoc in Hb.
      exact (D_node k fs gs _ _ l2 rest a b E1 Ha Hb). }
    apply cut_app in HG as [(t2 & HG & ->)|(x2 & -> & HG)].
    + apply cut_map in HG as (l1 & l2 & -> & -> & ->). destruct (eat_tail _ _ _ _ He) as (E1 & E2 & T).
      eexists [], (PNode k fs :: gs), (mkDr [] [] [] rt), _, l1, (l2 ++ rest).
      constructor; cbn [app dr_green dr_errs dr_used dr_left]; [reflexivity|constructor|exact E2|exact T|reflexivity|exact (EN _ _ eq_refl E1)| |reflexivity].
      unfold all_green. cbn [dr_green dr_left]. rewrite <- !app_assoc. reflexivity.
    + destruct x2 as [|x x2]; cbn [app] in HG.
      { subst cs2. destruct (eat_tail rt tr [] rest) as (E1 & E2 & T); [now rewrite app_nil_r|]. rewrite app_nil_r.
        eexists [], (PNode k fs :: gs), (mkDr [] [] [] rt), _, tr, rest.
        constructor; cbn [app dr_green dr_errs dr_used dr_left]; [reflexivity|constructor|exact E2|exact T|reflexivity|exact (EN tr [] (eq_sym (app_nil_r tr)) E1)| |reflexivity].
        reflexivity. }
      assert (x = GNode k (dr_green a) /\ dr_green b ++ map gtok (dr_left b) = x2 ++ cs2) as [-> HG'] by (split; congruence).
      destruct (IHb HP HL _ _ HG') as (f1 & f2 & a1 & a2 & t0 & rt2 & C). destruct C as [C1 C2 C3 C4 C5 C6 C7 C8].
      eexists (PNode k fs :: f1), f2, _, a2, t0, rt2.
      constructor; cbn [app]; [now rewrite C1|exact (D_node k fs f1 pos rt tr rest a a1 He Ha C2)|exact C3|exact C4| | |exact C7|]; cbn [app dr_green dr_errs dr_used dr_left].
      * rewrite C5, <- !app_assoc. reflexivity.
      * rewrite <- (app_assoc (tr ++ dr_used a)). rewrite texts_app, blen_app, Nat.add_assoc. exact C6.
      * rewrite C8. rewrite <- !app_assoc. reflexivity.
Qed.
