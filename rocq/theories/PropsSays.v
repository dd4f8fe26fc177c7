(** PropsSays.v — C93: what the first syntax error says is true; C94: every syntax error is one of the known ones and names
    the token that is there. *)
From Coq Require Import ZArith.
From Verif Require Import Base SyntaxKind TokenSet Lexer LexSpec LexerDirect LexerProofs BindingPowers Parser Grammar
  Event EventProofs Tree TreeSink ParserTree ParserRefine SinkProofs GrammarSpec ParserTotal ParserTotal2 ParserFuel Ast ParseSpec ParseProofs StrictTree DressProofs
  ValidProofs PropsLexer PropsParser Grouping GroupProofs PropsGroup TreeComplete PropsLang FirstProofs PropsSuffix PropsFirst ContProofs ContGrammar ContOpen PropsContinue PropsReparse SaysProofs SaysNames SaysGrammar SaysFname.

(** ** What a message asks for *)
Definition asked (K G : kind) : string := ("Expected " ++ kind_name K ++ ", got " ++ kind_name G)%string.
(** The token that a message names. *)
Inductive wants : string -> kind -> Prop :=
| wants_token K G : wants (asked K G) K
| wants_name : wants "expected a name" KIdent
| wants_reference : wants "expected a name referencer" KIdent
| wants_identifier : wants "Expected an identifier" KIdent
| wants_arguments : wants "Expected call arguments" KLParen.
(** The token at the beginning of some lexemes, or the end of the text. *)
Definition next_token (xs : list (kind * text)) : kind := match code xs with (k, _) :: _ => k | [] => KEof end.

(** ** Messages and what the parser reports *)
Fixpoint upto (s : string) : string := match s with EmptyString => EmptyString | String c s' => if Ascii.eqb c "," then EmptyString else String c (upto s') end.
Fixpoint from (s : string) : option string := match s with EmptyString => None | String c s' => if Ascii.eqb c "," then Some s' else from s' end.
Definition comma_free (s : string) : Prop := from s = None.
Lemma upto_app s r : comma_free s -> upto (s ++ String "," r) = s.
Proof. unfold comma_free. induction s as [|c s IH]; [reflexivity|]. cbn [from append upto]. destruct (Ascii.eqb c ","); [discriminate|]. intros H. now rewrite IH. Qed.
Lemma from_app s r : comma_free s -> from (s ++ String "," r) = Some r.
Proof. unfold comma_free. induction s as [|c s IH]; [reflexivity|]. cbn [from append]. destruct (Ascii.eqb c ","); [discriminate|]. exact IH. Qed.
Lemma name_free k : comma_free (kind_name k).
Proof. destruct k; reflexivity. Qed.
Definition of_name (s : string) : option kind := find (fun k => String.eqb (kind_name k) s) all_kinds.
Lemma of_name_ok k : of_name (kind_name k) = Some k.
Proof. destruct k; vm_compute; reflexivity. Qed.
Lemma name_inj k k' : kind_name k = kind_name k' -> k = k'.
Proof. intros E. pose proof (of_name_ok k) as H. rewrite E, of_name_ok in H. congruence. Qed.
Lemma asked_eq K G : asked K G = ((("Expected " ++ kind_name K) ++ String "," (" got " ++ kind_name G)))%string.
Proof. unfold asked. destruct K; reflexivity. Qed.
Lemma exp_free k : comma_free ("Expected " ++ kind_name k)%string.
Proof. destruct k; reflexivity. Qed.
Lemma asked_inj K G K' G' : asked K G = asked K' G' -> K = K' /\ G = G'.
Proof.
  rewrite !asked_eq. intros E. pose proof (f_equal upto E) as E1. pose proof (f_equal from E) as E2. rewrite !upto_app in E1 by apply exp_free. rewrite !from_app in E2 by apply exp_free.
  cbn [append] in E1, E2. split; apply name_inj; congruence.
Qed.
Lemma vocab_free m : existsb (String.eqb m) vocabulary = true -> comma_free m.
Proof. intros H. apply existsb_exists in H as (x & I & E). apply String.eqb_eq in E. subst x. unfold vocabulary in I. cbn [In] in I. repeat (destruct I as [<-|I]; [reflexivity|]). destruct I. Qed.
Lemma wants_promise e K : said e = true -> wants (perr_display e) K -> promise e = Some K.
Proof.
  intros S W. remember (perr_display e) as s eqn:Es. destruct e as [m|k c]; cbn [said] in S.
  - cbn [perr_display] in Es. subst s. destruct W as [K G| | | |]; try reflexivity. exfalso. pose proof (vocab_free _ S) as C. unfold comma_free in C. rewrite asked_eq, from_app in C by apply exp_free. discriminate C.
  - change (perr_display (PExpected k c)) with (asked k c) in Es. assert (NE : forall s, from s = None -> s = asked k c -> False) by (intros s0 F E; rewrite E, asked_eq, from_app in F by apply exp_free; discriminate F).
    destruct W as [K G| | | |]; [|exfalso; refine (NE _ _ Es); reflexivity..]. destruct (asked_inj _ _ _ _ Es) as [-> _]. reflexivity.
Qed.
Lemma asked_got e K G : said e = true -> perr_display e = asked K G -> e = PExpected K G.
Proof.
  destruct e as [m|k c]; intros S E.
  - exfalso. cbn [perr_display] in E. cbn [said] in S. pose proof (vocab_free _ S) as C. unfold comma_free in C. rewrite E, asked_eq, from_app in C by apply exp_free. discriminate C.
  - change (asked k c = asked K G) in E. destruct (asked_inj _ _ _ _ E) as [-> ->]. reflexivity.
Qed.
(** The first message of a text. *)
Lemma fe_app a b : fe (a ++ b) = match fe a with Some e => Some e | None => fe b end.
Proof. induction a as [|[k|e] a IH]; cbn [app fe]; auto. Qed.
Lemma first_message f pos rt a : Dress f pos rt a -> plain_errors f -> forall K, map fst (nontriv rt) = fkinds f ++ K -> hd_error (map e_msg (dr_errs a)) = option_map perr_display (fe (fx f)).
Proof.
  induction 1 as [pos rt|k fs pos rt tr p rest b He Hb IH|e fs pos rt b Hb IH|e fs gs pos rt tr rest a b He Ha IHa Hb IHb|k fs gs pos rt tr rest a b He Ha IHa Hb IHb]; intros PL K EK; cbn [dr_errs] in *.
  - reflexivity.
  - apply every_cons in PL as [_ PL]. destruct (eat_all _ _ _ He) as [Ert Ntr]. destruct (eat_triv _ _ _ He) as [_ Tp].
    assert (Np : nontriv [p] = [p]) by (unfold nontriv; cbn [filter]; now rewrite Tp).
    rewrite Ert, nontriv_app, Ntr in EK. cbn [app] in EK. change (p :: rest) with ([p] ++ rest) in EK. rewrite nontriv_app, Np in EK. cbn [app map fkinds flat_map pkinds] in EK.
    injection EK as Ek EK. exact (IH PL K EK).
  - reflexivity.
  - destruct (eat_all _ _ _ He) as [Ert Ntr]. apply every_cons in PL as [PL1 PL]. apply every_errn in PL1 as [PL1 PL2]. destruct (PL1 eq_refl) as (ks & ->).
    rewrite Ert, nontriv_app, Ntr in EK. cbn [app] in EK.
    assert (EK1 : map fst (nontriv rest) = fkinds (map PTok ks) ++ fkinds gs ++ K) by (rewrite EK; unfold fkinds; cbn [flat_map pkinds]; now rewrite app_assoc).
    specialize (IHa PL2 _ EK1). assert (NK : fe (fx (map PTok ks)) = None) by (induction ks as [|k ks IH]; [reflexivity|exact IH] || (apply clean_fe; rewrite fl_toks; apply clean_somes)).
    rewrite NK in IHa. destruct (dr_errs a); [reflexivity|discriminate IHa].
  - destruct (eat_all _ _ _ He) as [Ert Ntr]. apply every_cons in PL as [PL1 PL]. apply every_node in PL1 as [_ PL2].
    rewrite Ert, nontriv_app, Ntr in EK. cbn [app] in EK.
    assert (EK1 : map fst (nontriv rest) = fkinds fs ++ fkinds gs ++ K) by (rewrite EK; unfold fkinds; cbn [flat_map pkinds]; now rewrite app_assoc).
    specialize (IHa PL2 _ EK1). change (fx (PNode k fs :: gs)) with (fx fs ++ fx gs). rewrite fe_app. destruct (dr_errs a) as [|er es] eqn:Ea.
    + destruct (fe (fx fs)); [discriminate IHa|]. cbn [app]. apply (IHb PL K). exact (Dress_kinds _ _ _ _ _ Ha EK1).
    + destruct (fe (fx fs)); [|discriminate IHa]. exact IHa.
Qed.
(** Every message is one of the known ones. *)
Lemma root_fair n r F1 : @root_f TO n (mkDS r []) = Ok (tt, F1) -> Forall fair (fx (ds_for F1)).
Proof.
  intros E. destruct F1 as [r1 F1]. destruct (says_knot n) as [(KS & _) _]. destruct (k_root n (@stmt_f TO n) KS _ _ _ _ _ E) as (G & EG & FG & _). cbn [ds_for]. rewrite EG. exact FG.
Qed.
Lemma fe_fair l e : Forall fair l -> fe l = Some e -> said e = true.
Proof. induction 1 as [|[k|e'] l H _ IH]; cbn [fe]; [discriminate|exact IH|]. intros E. injection E as <-. exact H. Qed.
(** Every error of a text is one of the known ones and is true at its place. *)
Lemma tk_fy f : tk (fy f) = fkinds f.
Proof.
  set (P1 := fun t => tk (fy1 t) = pkinds t). set (PF := fun f => tk (fy f) = fkinds f). change (PF f). apply (forest_ind' P1 PF); unfold P1, PF; try reflexivity.
  - intros e fs IH. exact IH.
  - intros k fs IH. exact IH.
  - intros t fs H1 H2. change (fy (t :: fs)) with (fy1 t ++ fy fs). change (fkinds (t :: fs)) with (pkinds t ++ fkinds fs). now rewrite tk_app, H1, H2.
Qed.
Lemma okT_split a b r : okT (a ++ b) r -> okT a (tk b ++ r) /\ okT b r.
Proof. induction a as [|[k|e] a IH]; cbn [app okT]; auto. rewrite tk_app, <- app_assoc. intros [H1 H2]. destruct (IH H2). auto. Qed.
Definition true_at (pos : nat) (rt : list rtok) (er : syntax_error) : Prop :=
  exists e xa xb, e_msg er = perr_display e /\ rt = xa ++ xb /\ r_start (e_range er) = pos + blen (texts xa) /\ got_is e (map fst (nontriv xb)).
Lemma true_shift pos rt tr rest l : rt = tr ++ rest -> Forall (true_at (pos + blen (texts tr)) rest) l -> Forall (true_at pos rt) l.
Proof.
  intros ->. apply Forall_impl. intros er (e & xa & xb & H1 & -> & H3 & H4). exists e, (tr ++ xa), xb. split; [exact H1|]. split; [now rewrite app_assoc|]. split; [|exact H4].
  rewrite H3, texts_app, blen_app. lia.
Qed.
Lemma all_true f pos rt a : Dress f pos rt a -> forall K, map fst (nontriv rt) = fkinds f ++ K -> okT (fy f) K -> Forall (true_at pos rt) (dr_errs a).
Proof.
  induction 1 as [pos rt|k fs pos rt tr p rest b He Hb IH|e fs pos rt b Hb IH|e fs gs pos rt tr rest a b He Ha IHa Hb IHb|k fs gs pos rt tr rest a b He Ha IHa Hb IHb]; intros K EK OK; cbn [dr_errs] in *.
  - constructor.
  - destruct (eat_all _ _ _ He) as [Ert Ntr]. destruct (eat_triv _ _ _ He) as [_ Tp].
    assert (Np : nontriv [p] = [p]) by (unfold nontriv; cbn [filter]; now rewrite Tp).
    rewrite Ert, nontriv_app, Ntr in EK. cbn [app] in EK. change (p :: rest) with ([p] ++ rest) in EK. rewrite nontriv_app, Np in EK. cbn [app map fkinds flat_map pkinds] in EK.
    injection EK as Ek EK. apply (true_shift _ _ (tr ++ [p]) rest); [rewrite Ert, <- app_assoc; reflexivity|]. exact (IH K EK OK).
  - change (fy (PErr e :: fs)) with (inr e :: fy fs) in OK. destruct OK as [O1 O2]. constructor; [|exact (IH K EK O2)]. exists e, [], rt. split; [reflexivity|]. split; [reflexivity|]. split; [cbn; lia|]. rewrite EK. rewrite tk_fy in O1. exact O1.
  - destruct (eat_all _ _ _ He) as [Ert Ntr]. change (fy (PErrN fs e :: gs)) with (inr e :: (fy fs ++ fy gs)) in OK. destruct OK as [O1 O2]. apply okT_split in O2 as [O2 O3]. rewrite tk_app, !tk_fy in O1. rewrite tk_fy in O2.
    rewrite Ert, nontriv_app, Ntr in EK. cbn [app] in EK.
    assert (EK1 : map fst (nontriv rest) = fkinds fs ++ fkinds gs ++ K) by (rewrite EK; unfold fkinds; cbn [flat_map pkinds]; now rewrite app_assoc).
    apply Forall_app. split; [apply Forall_app; split|].
    + apply (true_shift _ _ tr rest); [exact Ert|]. exact (IHa _ EK1 O2).
    + constructor; [|constructor]. exists e, tr, rest. split; [reflexivity|]. split; [exact Ert|]. split; [reflexivity|]. rewrite EK1, app_assoc. exact O1.
    + apply (true_shift _ _ (tr ++ dr_used a) (dr_left a)); [rewrite Ert, (Dress_used _ _ _ _ Ha), <- app_assoc; reflexivity|]. exact (IHb K (Dress_kinds _ _ _ _ _ Ha EK1) O3).
  - destruct (eat_all _ _ _ He) as [Ert Ntr]. change (fy (PNode k fs :: gs)) with (fy fs ++ fy gs) in OK. apply okT_split in OK as [O2 O3]. rewrite tk_fy in O2.
    rewrite Ert, nontriv_app, Ntr in EK. cbn [app] in EK.
    assert (EK1 : map fst (nontriv rest) = fkinds fs ++ fkinds gs ++ K) by (rewrite EK; unfold fkinds; cbn [flat_map pkinds]; now rewrite app_assoc).
    apply Forall_app. split.
    + apply (true_shift _ _ tr rest); [exact Ert|]. exact (IHa _ EK1 O2).
    + apply (true_shift _ _ (tr ++ dr_used a) (dr_left a)); [rewrite Ert, (Dress_used _ _ _ _ Ha), <- app_assoc; reflexivity|]. exact (IHb K (Dress_kinds _ _ _ _ _ Ha EK1) O3).
Qed.
Lemma root_okT n r F1 : @root_f TO n (mkDS r []) = Ok (tt, mkDS [] F1) -> okT (fy F1) [].
Proof.
  intros E. destruct (says_knot n) as [(KS & _) _]. destruct (k_root n (@stmt_f TO n) KS _ _ _ _ _ E) as (_ & _ & _ & T & ET & _ & OT). rewrite ET. exact OT.
Qed.
(** The messages, as a list, apart from those that name the token found. *)
Definition messages : list string := ["expected a name"; "expected a name referencer"; "Nothing can be after a vararg"; "Failed to find comma or closing bracket"; "Expected an expression"; "Expected call arguments";
  "Expected an identifier"; "Semicolons can only be used after statements"; "A literal cannot be the start of a statement"; "Unmatched end token"; "Expected a statement"]%string.
(** Every syntax error of every text, not only the first: its message is one of eleven sentences, or it is "Expected K, got G"
    where G is the token that is there — the one after the error's place, trivia aside — and K is another one, and not the end. *)
Theorem C94_every_message_is_true : forall t xs toks lex_errs g errs e, lexemes_of t xs -> tokenize t = Ok (toks, lex_errs) -> parse_tokens t toks = Ok (g, errs) -> In e errs ->
  exists xa xb, xs = xa ++ xb /\ r_start (e_range e) = blen (concat (map snd xa)) /\
    (In (e_msg e) messages \/ exists K, e_msg e = asked K (next_token xb) /\ K <> next_token xb /\ K <> KEof).
Proof.
  intros t xs toks le g errs e Lx Ht HP I. destruct (parse_tokens_inv _ _ _ _ Ht HP) as (ls & fs & a & Hp & -> & _ & Er). injection Er as -> Ee. subst errs.
  rewrite (parsed_lexemes_eq _ _ _ _ _ Hp Lx). pose proof (root_okT _ _ _ (pd_run _ _ _ _ Hp)) as OK.
  assert (FY : fy [PNode KSourceFile [PNode KBlock fs]] = fy fs) by (cbn [fy flat_map fy1]; now rewrite !app_nil_r). rewrite FY in OK.
  pose proof (all_true fs 0 (rt_of ls) a (dress_rel _ _ _ _ (pd_dress _ _ _ _ Hp)) []) as H. rewrite app_nil_r in H. specialize (H (eq_sym (pd_kinds _ _ _ _ Hp)) OK).
  rewrite Forall_forall in H. destruct (H _ I) as (e0 & xa & xb & E1 & E2 & E3 & SD & GT). exists xa, xb. split; [exact E2|]. split; [rewrite E3; unfold texts; now rewrite flat_map_concat_map|].
  rewrite E1. destruct e0 as [m|k c]; cbn [said] in SD.
  - left. cbn [perr_display]. apply existsb_exists in SD as (x & Ix & Ex). apply String.eqb_eq in Ex. subst x. exact Ix.
  - right. apply andb_true_iff in SD as [S1 S2]. assert (EN : c = next_token xb) by (rewrite GT; unfold next_token; change (code xb) with (nontriv xb); destruct (nontriv xb) as [|[k' x'] l]; reflexivity).
    exists k. rewrite <- EN. split; [reflexivity|]. split; [intros ->; rewrite kind_eqb_refl in S2; discriminate S2|]. unfold askable in S1. apply negb_true_iff, orb_false_elim in S1 as [_ S1]. intros ->. discriminate S1.
Qed.
Print Assumptions C94_every_message_is_true.
(** A case: all the reports of a text with several errors, of both sorts, and the kind found at each place. *)
Definition reports (s : string) : list (nat * string) :=
  match tokenize (txt s) with
  | Ok (toks, _) => match parse_tokens (txt s) toks with Ok (_, es) => map (fun e => (r_start (e_range e), e_msg e)) es | _ => [] end
  | _ => []
  end.
(** ** After the named token the program can go on *)
Lemma good_next u K : good u -> K <> KColon -> good (u ++ [K]).
Proof. intros G N p E. change [KDot; KColon] with ([KDot] ++ [KColon]) in E. rewrite app_assoc in E. apply app_inj_tail in E as [_ E]. exact (N E). Qed.
Lemma promised e K : said e = true -> promise e = Some K -> K <> KColon /\ K <> KEof.
Proof.
  destruct e as [m|k c]; intros S P.
  - cbn [promise] in P. destruct (_ || _ || _)%bool; [injection P as <-; split; discriminate|]. destruct (String.eqb _ _); [injection P as <-; split; discriminate|discriminate P].
  - cbn [promise] in P. injection P as <-. cbn [said] in S. apply andb_true_iff in S as [S _]. unfold askable in S. apply negb_true_iff, orb_false_elim in S as [S1 S2]. split; intros ->; discriminate.
Qed.
Fixpoint toks_in (l : list (option kind)) : nat := match l with [] => 0 | Some _ :: l' => S (toks_in l') | None :: l' => toks_in l' end.
Lemma toks_in_app a b : toks_in (a ++ b) = toks_in a + toks_in b.
Proof. induction a as [|[k|] a IH]; cbn [app toks_in]; lia. Qed.
Lemma cp_toks l : cp l <= toks_in l.
Proof. induction l as [|[k|] l IH]; cbn [cp toks_in]; lia. Qed.
Lemma toks_fkinds f : toks_in (fl f) <= length (fkinds f).
Proof.
  set (P1 := fun t => toks_in (fl1 t) <= length (pkinds t)). set (PF := fun f => toks_in (fl f) <= length (fkinds f)). change (PF f).
  apply (forest_ind' P1 PF); unfold P1, PF; try (intros; cbn; lia).
  - intros k fs IH. exact IH.
  - intros t fs H1 H2. change (fl (t :: fs)) with (fl1 t ++ fl fs). change (fkinds (t :: fs)) with (pkinds t ++ fkinds fs). rewrite toks_in_app, app_length. lia.
Qed.
(** Runs over a token and an empty rest. *)
Lemma go_on_with n u K y fs : good u -> NEof (u ++ y) -> K <> KColon -> K <> KEof -> @root_f TO n (mkDS (u ++ y) []) = Ok (tt, mkDS [] fs) ->
  (forall m z a' r2 F2, n <= m -> @root_f TO m (mkDS (u ++ K :: z) []) = Ok (a', mkDS r2 F2) -> length u < cp (fl F2)) ->
  exists w f, length w <= 8 * (length u + 1) /\ reading (u ++ K :: w) f.
Proof.
  intros G NE NC NK R H. set (m := n + (2 * length (u ++ [K]) + 2)).
  assert (NE1 : NEof (u ++ [K])) by (unfold NEof in *; rewrite in_app_iff in *; intros [I|[I|[]]]; [tauto|congruence]).
  destruct (root_total m (u ++ [K])) as (f & R1 & KF & TF); [unfold m; lia|exact NE1|].
  pose proof (H m [] _ _ _ (Nat.le_add_r _ _) R1) as L.
  assert (LK : cp (fl f) = length (u ++ [K])).
  { pose proof (cp_toks (fl f)) as L1. pose proof (toks_fkinds f) as L2. rewrite KF, app_length in L2. rewrite app_length. cbn [length] in *. lia. }
  destruct (go_on m (u ++ [K]) [] f) as (w & g & LW & RW); [now apply good_next|now rewrite app_nil_r|now rewrite app_nil_r|exact LK|].
  exists w, g. rewrite app_length in LW. cbn [length] in LW. split; [exact LW|]. rewrite <- app_assoc in RW. exact RW.
Qed.
(** The first error's message: if it says what was expected and what was found, the token found is the one after the error's
    place; and if it names a token that was expected, a program goes on with that token there — unless what is before is not
    the beginning of a program at all, which is so when it ends in a dot and a colon (C91). *)
Theorem C93_messages_are_true : forall t xs toks lex_errs g e es, lexemes_of t xs -> tokenize t = Ok (toks, lex_errs) -> parse_tokens t toks = Ok (g, e :: es) ->
  exists xa xb, xs = xa ++ xb /\ r_start (e_range e) = blen (concat (map snd xa)) /\
    (forall K G, e_msg e = asked K G -> G = next_token xb) /\
    (forall K, wants (e_msg e) K -> (forall p, map fst (code xa) <> p ++ [KDot; KColon]) ->
       exists w f, reading (map fst (code xa) ++ K :: w) f /\ length w <= 8 * (length (code xa) + 1)).
Proof.
  intros t xs toks le g e es Lx Ht HP. destruct (parse_tokens_inv _ _ _ _ Ht HP) as (ls & fs & a & Hp & -> & _ & Er). injection Er as -> Ee. symmetry in Ee.
  rewrite (parsed_lexemes_eq _ _ _ _ _ Hp Lx). destruct (parsed_first _ _ _ _ _ _ Hp Ee) as (D & xa & xb & E1 & E2 & E3). exists xa, xb. split; [exact E1|].
  split; [rewrite E2; unfold texts; now rewrite flat_map_concat_map|].
  pose proof (pd_run _ _ _ _ Hp) as R1. pose proof (parsed_neof _ _ _ _ Hp) as NE. rewrite E1, nontriv_app, map_app in R1, NE.
  assert (FX : fx [PNode KSourceFile [PNode KBlock fs]] = fx fs) by (cbn [fx flat_map fx1]; now rewrite !app_nil_r).
  assert (FL : fl [PNode KSourceFile [PNode KBlock fs]] = fl fs) by (cbn [fl flat_map fl1]; now rewrite !app_nil_r).
  assert (M : exists e0, fe (fx fs) = Some e0 /\ e_msg e = perr_display e0).
  { assert (PL : plain_errors fs) by (apply local_plain; exact (Tree_every _ _ _ (pd_tree _ _ _ _ Hp))).
    pose proof (first_message fs 0 (rt_of ls) a (dress_rel _ _ _ _ (pd_dress _ _ _ _ Hp)) PL []) as H. rewrite app_nil_r, Ee in H. specialize (H (eq_sym (pd_kinds _ _ _ _ Hp))). cbn [map hd_error] in H.
    destruct (fe (fx fs)) as [e0|]; [|discriminate H]. cbn [option_map] in H. injection H as H. now exists e0. }
  destruct M as (e0 & Fe & EM). rewrite EM. assert (SD : said e0 = true) by (apply (fe_fair (fx fs)); [rewrite <- FX; exact (root_fair _ _ _ R1)|exact Fe]).
  set (n := parse_fuel (ts_new_source (map lt_tok ls))) in *.
  assert (SA : forall K, promise e0 = Some K -> (forall k c, e0 = PExpected k c -> c = next_token xb) /\
    (map fst (nontriv xa) <> [] -> good (map fst (nontriv xa)) -> forall m z a' r2 F2, n <= m -> @root_f TO m (mkDS (map fst (nontriv xa) ++ K :: z) []) = Ok (a', mkDS r2 F2) -> length (map fst (nontriv xa)) < cp (fl F2)) /\ (map fst (nontriv xa) = [] -> False)).
  { intros K P. assert (G : forall m, n <= m -> exists u y, map fst (nontriv xa) ++ map fst (nontriv xb) = u ++ y /\ length u = length (map fst (nontriv xa)) /\ (forall k c, e0 = PExpected k c -> c = hd0 y) /\ (u = [] -> none K = true) /\
       (u <> [] -> good u -> forall z a' r2 F2, @root_f TO m (mkDS (u ++ K :: z) []) = Ok (a', mkDS r2 F2) -> length u < cp (fl F2))).
    { intros m Lm. pose proof (up_root_f n m Lm _ _ R1) as Q1. rewrite <- FX in Fe. destruct (says_program m _ _ _ _ _ _ _ clean_nil eq_refl Q1 Fe P) as (u & y & U1 & U2 & U3 & U4 & U5). exists u, y. rewrite FL in U2.
      assert (LL : length (map fst (nontriv xa)) = cp (fl fs)) by (rewrite E3; apply lead_length). split; [exact U1|]. split; [cbn [fl flat_map length] in U2; rewrite LL; lia|]. split; [exact U3|]. split; [exact U4|exact U5]. }
    assert (SP : forall u y, map fst (nontriv xa) ++ map fst (nontriv xb) = u ++ y -> length u = length (map fst (nontriv xa)) -> u = map fst (nontriv xa) /\ y = map fst (nontriv xb)).
    { intros u y U1 U2. symmetry in U1. destruct (PropsReparse.app_len_inj _ _ _ _ U2 U1). auto. }
    split; [|split].
    - destruct (G n (le_n _)) as (u & y & U1 & U2 & U3 & _). destruct (SP _ _ U1 U2) as [_ ->]. intros k c E. rewrite (U3 _ _ E). unfold next_token. change (code xb) with (nontriv xb). destruct (nontriv xb) as [|[k' x'] l]; reflexivity.
    - intros N Gd m z a' r2 F2 Lm. destruct (G m Lm) as (u & y & U1 & U2 & _ & _ & U5). destruct (SP _ _ U1 U2) as [-> _]. exact (U5 N Gd z a' r2 F2).
    - intros Z. destruct (G n (le_n _)) as (u & y & U1 & U2 & _ & U4 & _). destruct (SP _ _ U1 U2) as [-> _]. discriminate (U4 Z). }
  split.
  - intros K G E. pose proof (asked_got _ _ _ SD E) as E0. destruct (SA K) as (S1 & _); [rewrite E0; reflexivity|]. exact (S1 _ _ E0).
  - intros K W Gd. pose proof (wants_promise _ _ SD W) as P. destruct (SA K P) as (_ & S2 & S3). destruct (promised _ _ SD P) as [NC NK].
    change (code xa) with (nontriv xa) in *. destruct (go_on_with n (map fst (nontriv xa)) K (map fst (nontriv xb)) [PNode KSourceFile [PNode KBlock fs]] Gd NE NC NK R1) as (w & f & LW & RW).
    { intros m z a' r2 F2. apply S2; [|exact Gd]. intros Z. exact (S3 Z). }
    exists w, f. split; [exact RW|]. now rewrite map_length in LW.
Qed.
Print Assumptions C93_messages_are_true.
(** Without the exception it is false: at the parenthesis of [function a.:(b) end] a name is said to be expected, and no
    program has a name there. *)
Theorem C93_name_after_dot_colon_refuted : exists t xs toks lex_errs g e es, lexemes_of t xs /\ tokenize t = Ok (toks, lex_errs) /\ parse_tokens t toks = Ok (g, e :: es) /\ wants (e_msg e) KIdent /\
  forall xa xb, xs = xa ++ xb -> r_start (e_range e) = blen (concat (map snd xa)) -> forall w f, ~ reading (map fst (code xa) ++ KIdent :: w) f.
Proof.
  set (t0 := txt late_text). destruct (tokenize t0) as [[toks0 le0]| |] eqn:Ht0; [|vm_compute in Ht0; discriminate Ht0|vm_compute in Ht0; discriminate Ht0].
  destruct (parse_tokens t0 toks0) as [[g0 [|e0 es0]]| |] eqn:HP0; [| | |].
  all: pose proof Ht0 as Ht'; vm_compute in Ht'; injection Ht' as <- <-.
  1,3,4: vm_compute in HP0; discriminate HP0.
  assert (Em : e_msg e0 = "expected a name"%string) by (pose proof HP0 as H0; vm_compute in H0; injection H0 as _ <- _; reflexivity).
  assert (Ee : r_start (e_range e0) = 12) by (pose proof HP0 as H0; vm_compute in H0; injection H0 as _ <- _; reflexivity).
  set (xs0 := [(KFunctionKw, txt "function"); (KWhitespace, txt " "); (KIdent, txt "a"); (KDot, txt "."); (KColon, txt ":"); (KLParen, txt "("); (KIdent, txt "b"); (KRParen, txt ")"); (KWhitespace, txt " "); (KEndKw, txt "end")]).
  eexists t0, xs0, _, _, g0, e0, es0. split; [|split; [exact Ht0|split; [exact HP0|split; [rewrite Em; constructor|]]]].
  - split; [eexists; vm_compute; reflexivity|vm_compute; reflexivity].
  - intros xa xb Ex Eb w f. rewrite Ee in Eb. assert (Eu : map fst (code xa) = [KFunctionKw; KIdent; KDot; KColon]).
    { unfold xs0 in Ex. clear -Ex Eb.
      repeat (destruct xa as [|? xa]; [try (vm_compute in Eb; discriminate Eb); reflexivity|cbn [app] in Ex; injection Ex as <- Ex]).
      symmetry in Ex. apply app_eq_nil in Ex as [-> _]. vm_compute in Eb. discriminate Eb. }
    rewrite Eu. apply (no_dot_colon [KFunctionKw; KIdent] (KIdent :: w) f).
Qed.
Print Assumptions C93_name_after_dot_colon_refuted.
Example C94_cases :
  reports "if a b() x = ) f(" = [(4, asked KThenKw KIdent); (13, "Expected an expression"%string); (17, "Expected an expression"%string); (17, asked KRParen KEof); (17, asked KEndKw KEof)] /\
  reports "a.1 b. if" = [(2, asked KIdent KNumber); (2, "A literal cannot be the start of a statement"%string); (6, asked KIdent KIfKw); (9, "Expected an expression"%string); (9, asked KThenKw KEof); (9, asked KEndKw KEof)].
Proof. split; vm_compute; reflexivity. Qed.
(** Cases: a text, the place and the message of its first error, and that the text with the named token there goes on. *)
Definition first_report (s : string) : option (nat * string) :=
  match tokenize (txt s) with
  | Ok (toks, _) => match parse_tokens (txt s) toks with Ok (_, e :: _) => Some (r_start (e_range e), e_msg e) | _ => None end
  | _ => None
  end.
Example C93_cases :
  first_report "if a b() end" = Some (4, asked KThenKw KIdent) /\ first_report "if a then b() end" = None /\
  first_report "f(1" = Some (3, asked KRParen KEof) /\ first_report "f(1)" = None /\
  first_report "x = {1, 2" = Some (9, asked KRBrace KEof) /\ first_report "while x y() end" = Some (7, asked KDoKw KIdent) /\
  first_report "local = 1" = Some (6, "expected a name"%string) /\ first_report "local a = 1" = None /\
  first_report "goto" = Some (4, asked KIdent KEof) /\ first_report "a:b" = Some (3, "Expected call arguments"%string) /\ first_report "a:b()" = None /\
  first_report "function a. end" = Some (11, "expected a name referencer"%string) /\ first_report "for 1" = Some (4, "Expected an identifier"%string) /\
  wants (asked KThenKw KIdent) KThenKw /\ wants "Expected call arguments"%string KLParen.
Proof. repeat match goal with |- _ /\ _ => split end; lazymatch goal with |- wants _ _ => constructor | _ => vm_compute; reflexivity end. Qed.
