(** PropsFirst.v — C90: where the first syntax error is. *)
From Verif Require Import Base SyntaxKind TokenSet Lexer LexSpec LexerDirect LexerProofs BindingPowers Parser Grammar
  Event EventProofs Tree TreeSink ParserTree ParserRefine SinkProofs GrammarSpec ParserTotal ParserTotal2 ParserFuel Ast ParseSpec ParseProofs StrictTree DressProofs
  ValidProofs PropsLexer PropsParser Grouping GroupProofs PropsGroup TreeComplete PropsLang FirstProofs.

(** ** The first error of a tree, in the text *)
(** Error nodes hold only tokens. *)
Definition plain_errors (f : forest) : Prop := every (fun k fs => k = KError -> exists ks, fs = map PTok ks) f.
Lemma fl_toks ks : fl (map PTok ks) = map Some ks.
Proof. induction ks as [|k ks IH]; [reflexivity|]. cbn [map]. change (fl (PTok k :: map PTok ks)) with (Some k :: fl (map PTok ks)). now rewrite IH. Qed.
Lemma clean_somes ks : clean (map Some ks).
Proof. unfold clean. induction ks as [|k ks IH]; cbn; congruence. Qed.
Lemma fl_cons_node k fs gs : fl (PNode k fs :: gs) = fl fs ++ fl gs.
Proof. reflexivity. Qed.
Lemma nontriv_trivia tr : forallb triv tr = true -> nontriv tr = [].
Proof. induction tr as [|p tr IH]; cbn; [reflexivity|]. destruct (triv p) eqn:E; [|discriminate]. cbn. exact IH. Qed.
Definition located (f : forest) (pos : nat) (rt : list rtok) (a : dressed) : Prop :=
  match dr_errs a with
  | [] => clean (fl f) /\ map fst (nontriv (dr_used a)) = lead (fl f)
  | e :: _ => dirty (fl f) /\ exists xa xb, rt = xa ++ xb /\ r_start (e_range e) = pos + blen (texts xa) /\ map fst (nontriv xa) = lead (fl f)
  end.
Lemma eat_all rt tr rest : eat rt = (tr, rest) -> rt = tr ++ rest /\ nontriv tr = [].
Proof.
  intros H. split; [exact (eat_app _ _ _ H)|]. apply nontriv_trivia. pose proof (eat_triv _ _ _ H) as X. destruct rest; [apply X|apply X].
Qed.
Lemma first_located f pos rt a : Dress f pos rt a -> forall K, map fst (nontriv rt) = fkinds f ++ K -> plain_errors f -> located f pos rt a.
Proof.
  induction 1 as [pos rt|k fs pos rt tr p rest b He Hb IH|e fs pos rt b Hb IH|e fs gs pos rt tr rest a b He Ha IHa Hb IHb|k fs gs pos rt tr rest a b He Ha IHa Hb IHb]; intros K EK PL; unfold located in *; cbn [dr_errs dr_used] in *.
  - split; reflexivity.
  - destruct (eat_all _ _ _ He) as [Ert Ntr]. destruct (eat_triv _ _ _ He) as [_ Tp].
    assert (Np : nontriv [p] = [p]) by (unfold nontriv; cbn [filter]; now rewrite Tp).
    rewrite Ert, nontriv_app, Ntr in EK. cbn [app] in EK. change (p :: rest) with ([p] ++ rest) in EK. rewrite nontriv_app, Np in EK. cbn [app map fkinds flat_map pkinds] in EK.
    injection EK as Ek EK. specialize (IH K EK). apply every_cons in PL as [_ PL]. specialize (IH PL).
    change (fl (PTok k :: fs)) with ([Some k] ++ fl fs). assert (C1 : clean [Some k]) by reflexivity.
    destruct (dr_errs b) as [|er es].
    + destruct IH as [C L]. split; [now apply clean_app|]. rewrite !nontriv_app, Ntr, Np. cbn [app map lead]. now rewrite L, Ek.
    + destruct IH as [D (xa & xb & E1 & E2 & E3)]. split; [now apply dirty_app_r|]. exists (tr ++ p :: xa), xb. split; [rewrite Ert, E1, <- app_assoc; reflexivity|]. split.
      * rewrite E2. replace (tr ++ p :: xa) with ((tr ++ [p]) ++ xa) by now rewrite <- app_assoc. rewrite (texts_app (tr ++ [p]) xa), blen_app. lia.
      * cbn [lead app]. rewrite <- E3. change (tr ++ p :: xa) with (tr ++ [p] ++ xa). rewrite !nontriv_app, Ntr, Np. cbn [app map]. now rewrite Ek.
  - split; [cbv; lia|]. exists [], rt. split; [reflexivity|]. split; [cbn; lia|reflexivity].
  - destruct (eat_all _ _ _ He) as [Ert Ntr]. apply every_cons in PL as [PL1 PL]. apply every_errn in PL1 as [PL1 PL2]. destruct (PL1 eq_refl) as (ks & ->).
    rewrite Ert, nontriv_app, Ntr in EK. cbn [app] in EK.
    assert (EK1 : map fst (nontriv rest) = fkinds (map PTok ks) ++ fkinds gs ++ K) by (rewrite EK; unfold fkinds; cbn [flat_map pkinds]; now rewrite app_assoc).
    specialize (IHa _ EK1 PL2). rewrite fl_toks in IHa. destruct (dr_errs a) as [|er es]; [|destruct IHa as [D _]; destruct (clean_not _ (clean_somes ks) D)].
    cbn [app]. split; [cbv; lia|]. exists tr, rest. split; [exact Ert|]. split; [reflexivity|]. now rewrite Ntr.
  - destruct (eat_all _ _ _ He) as [Ert Ntr]. apply every_cons in PL as [PL1 PL]. apply every_node in PL1 as [_ PL2].
    rewrite Ert, nontriv_app, Ntr in EK. cbn [app] in EK.
    assert (EK1 : map fst (nontriv rest) = fkinds fs ++ fkinds gs ++ K) by (rewrite EK; unfold fkinds; cbn [flat_map pkinds]; now rewrite app_assoc).
    specialize (IHa _ EK1 PL2). rewrite fl_cons_node.
    destruct (dr_errs a) as [|er es] eqn:Ea; cbn [app].
    + destruct IHa as [C L]. assert (EK2 : map fst (nontriv (dr_left a)) = fkinds gs ++ K) by (exact (Dress_kinds _ _ _ _ _ Ha EK1)). specialize (IHb _ EK2 PL).
      destruct (dr_errs b) as [|er es].
      * destruct IHb as [C' L']. split; [now apply clean_app|]. rewrite !nontriv_app, Ntr. cbn [app]. refine (eq_trans (map_app _ _ _) _). refine (eq_trans _ (eq_sym (lead_app_clean _ _ C))). f_equal; assumption.
      * destruct IHb as [D (xa & xb & E1 & E2 & E3)]. split; [now apply dirty_app_r|]. exists ((tr ++ dr_used a) ++ xa), xb. split; [rewrite Ert, (Dress_used _ _ _ _ Ha), E1, <- !app_assoc; reflexivity|]. split.
        -- rewrite E2. rewrite (texts_app (tr ++ dr_used a) xa), blen_app. lia.
        -- rewrite !nontriv_app, Ntr. cbn [app]. refine (eq_trans (map_app _ _ _) _). refine (eq_trans _ (eq_sym (lead_app_clean _ _ C))). f_equal; assumption.
    + destruct IHa as [D (xa & xb & E1 & E2 & E3)]. split; [now apply dirty_app|]. exists (tr ++ xa), xb. split; [rewrite Ert, E1, <- app_assoc; reflexivity|]. split.
      * rewrite E2, texts_app, blen_app. lia.
      * rewrite nontriv_app, Ntr. cbn [app]. now rewrite E3, lead_app_dirty by exact D.
Qed.
Lemma local_plain f : every local f -> plain_errors f.
Proof. unfold plain_errors, every. apply Forall_impl. intros x (_ & H & _). exact H. Qed.
Lemma tw_root_f n : T1 (@root_f TO n).
Proof. unfold root_f, root, root_block. destruct (tw_knot n) as [H _]. apply tw_node_, tw_block_raw. exact H. Qed.

Lemma code_nontriv xs : code xs = nontriv xs.
Proof. reflexivity. Qed.
Lemma dirty_noerrs f : noerrs f = true -> clean (fl f).
Proof.
  set (P1 := fun t => noerr t = true -> clean (fl1 t)). set (PF := fun f => noerrs f = true -> clean (fl f)).
  change (PF f). apply (forest_ind' P1 PF); unfold P1, PF; try discriminate.
  - reflexivity.
  - intros k fs IH H. exact (IH H).
  - reflexivity.
  - intros t fs H1 H2 H. apply StrictTree.noerrs_cons in H as [A B]. change (fl (t :: fs)) with (fl1 t ++ fl fs). apply clean_app. auto.
Qed.
Lemma clean_toks f : clean (fl f) -> lead (fl f) = fkinds f.
Proof.
  set (P1 := fun t => clean (fl1 t) -> lead (fl1 t) = pkinds t). set (PF := fun f => clean (fl f) -> lead (fl f) = fkinds f).
  change (PF f). apply (forest_ind' P1 PF); unfold P1, PF; try discriminate.
  - reflexivity.
  - intros k fs IH H. exact (IH H).
  - reflexivity.
  - intros t fs H1 H2 H. change (fl (t :: fs)) with (fl1 t ++ fl fs) in *. apply clean_app in H as [A B]. rewrite lead_app_clean by exact A. rewrite H1, H2 by assumption. reflexivity.
Qed.
(** Two token sequences that begin alike. *)
Lemma twin_runs n v k x y fs1 fs2 : @root_f TO n (mkDS (v ++ k :: x) []) = Ok (tt, mkDS [] fs1) -> @root_f TO n (mkDS (v ++ k :: y) []) = Ok (tt, mkDS [] fs2) ->
  dirty (fl fs1) -> cp (fl fs1) <= length v -> dirty (fl fs2).
Proof.
  intros R1 R2 D L. destruct (tw_root_f n) as [_ T]. destruct (T _ _ _ _ _ _ _ _ _ _ _ clean_nil eq_refl R1 R2) as [(v' & _ & _ & E & _)|[[_ H]|H]].
  - symmetry in E. apply app_eq_nil in E as [_ E]. discriminate E.
  - exact H.
  - cbn [fl flat_map length] in H. lia.
Qed.
Lemma parsed_first t ls fs a e es : parsed t ls fs a -> dr_errs a = e :: es -> dirty (fl fs) /\
  exists xa xb, rt_of ls = xa ++ xb /\ r_start (e_range e) = blen (texts xa) /\ map fst (nontriv xa) = lead (fl fs).
Proof.
  intros H E. assert (L : located fs 0 (rt_of ls) a).
  { apply (first_located fs 0 (rt_of ls) a (dress_rel _ _ _ _ (pd_dress _ _ _ _ H)) []); [rewrite app_nil_r; symmetry; exact (pd_kinds _ _ _ _ H)|].
    apply local_plain. exact (Tree_every _ _ _ (pd_tree _ _ _ _ H)). }
  unfold located in L. rewrite E in L. exact L.
Qed.
(** What comes before the first error, followed by what comes after it, is the beginning of no program. *)
Lemma stop_here t ls fs a xa xb : parsed t ls fs a -> dirty (fl fs) -> rt_of ls = xa ++ xb -> map fst (nontriv xa) = lead (fl fs) ->
  match nontriv xb with
  | [] => forall f, ~ reading (lead (fl fs)) f
  | (k, _) :: _ => forall w f, ~ reading (lead (fl fs) ++ k :: w) f
  end.
Proof.
  intros Hp D E1 E3.
  assert (RR : forall w, map fst (nontriv xa) = w -> fkinds fs = w ++ map fst (nontriv xb)) by (intros w <-; rewrite (pd_kinds _ _ _ _ Hp), E1, nontriv_app, map_app; reflexivity).
  specialize (RR _ E3).
  assert (NR : forall w f, reading w f -> w <> fkinds fs).
  { intros w f R Ew. pose proof (parsed_reading _ _ _ _ f Hp) as X. rewrite written_lexed, <- (pd_kinds _ _ _ _ Hp), <- Ew in X. specialize (X R). destruct R as (TR & _).
    apply strict_noerrs in TR. rewrite X in TR. apply dirty_noerrs in TR. cbn [fl flat_map fl1] in TR. rewrite !app_nil_r in TR. exact (clean_not _ TR D). }
  destruct (nontriv xb) as [|[k kx] xb'] eqn:Exb; cbn [map fst] in RR.
  - intros f R. apply (NR _ _ R). now rewrite RR, app_nil_r.
  - intros w f R. set (n1 := parse_fuel (ts_new_source (map lt_tok ls))). pose proof (pd_run _ _ _ _ Hp) as R1. fold n1 in R1. rewrite <- (pd_kinds _ _ _ _ Hp), RR in R1.
    destruct R as (TR & WG & EW). pose proof (root_tree_complete f _ TR WG (le_n _)) as R2. set (n2 := 2 * length (W f) + 2) in *. change (W f) with (flat_map toks f) in R2. rewrite EW in R2.
    pose proof (up_root_f n1 (n1 + n2) (Nat.le_add_r _ _) _ _ R1) as Q1. pose proof (up_root_f n2 (n1 + n2) (Nat.le_add_l _ _) _ _ R2) as Q2.
    assert (FL : fl [PNode KSourceFile [PNode KBlock fs]] = fl fs) by (cbn [fl flat_map fl1]; now rewrite !app_nil_r).
    assert (D2 : dirty (fl f)).
    { apply (twin_runs _ _ _ _ _ _ _ Q1 Q2); rewrite FL; [exact D|]. rewrite <- lead_length. lia. }
    apply strict_noerrs in TR. apply dirty_noerrs in TR. exact (clean_not _ TR D2).
Qed.
(** The first error is at a place in the text from which no program could go on: no program has the tokens before that
    place followed by the token after it (whatever comes then), and if there is none, the tokens before are no program. *)
Theorem C90_cannot_continue : forall t xs toks lex_errs g e es, lexemes_of t xs -> tokenize t = Ok (toks, lex_errs) -> parse_tokens t toks = Ok (g, e :: es) ->
  exists xa xb, xs = xa ++ xb /\ r_start (e_range e) = blen (concat (map snd xa)) /\
    match code xb with
    | [] => forall f, ~ reading (map fst (code xa)) f
    | (k, _) :: _ => forall w f, ~ reading (map fst (code xa) ++ k :: w) f
    end.
Proof.
  intros t xs toks le g e es Lx Ht HP. destruct (parse_tokens_inv _ _ _ _ Ht HP) as (ls & fs & a & Hp & -> & _ & Er). injection Er as -> Ee. symmetry in Ee.
  rewrite (parsed_lexemes_eq _ _ _ _ _ Hp Lx). destruct (parsed_first _ _ _ _ _ _ Hp Ee) as (D & xa & xb & E1 & E2 & E3). exists xa, xb. split; [exact E1|].
  split; [rewrite E2; unfold texts; now rewrite flat_map_concat_map|].
  change (code xb) with (nontriv xb). change (code xa) with (nontriv xa). rewrite E3. exact (stop_here _ _ _ _ _ _ Hp D E1 E3).
Qed.
Print Assumptions C90_cannot_continue.
(** Cases: where the first error of some texts is. *)
Definition first_error (s : string) : option nat :=
  match tokenize (txt s) with
  | Ok (toks, _) => match parse_tokens (txt s) toks with Ok (_, e :: _) => Some (r_start (e_range e)) | _ => None end
  | _ => None
  end.
Example C90_cases : first_error "x = = 1" = Some 4 /\ first_error "f(1,, 2)" = Some 4 /\ first_error "if a then b() else" = Some 18 /\ first_error "x = 1 end y" = Some 6 /\
  first_error "x = 1 y = 2" = None /\ first_error "return 1 x" = None /\ first_error "local function f(a, ) end" = Some 20 /\ first_error "x = {1 2" = Some 7.
Proof. vm_compute. repeat split. Qed.
