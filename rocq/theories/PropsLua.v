(** PropsLua.v — C18–C21: operators, and acceptance of Lua programs. Vocabulary: LuaSyntax.v (programs,
    their written form and their trees), LuaDialect.v, ParseSpec.v, LexSpec.v. *)
From Verif Require Import Base SyntaxKind TokenSet Lexer LexSpec LexerDirect LexerProofs LexerClass BindingPowers Parser Grammar
  Event EventProofs Tree TreeSink ParserTree ParserRefine SinkProofs GrammarSpec ParserTotal ParserTotal2 Ast ParseSpec ParseProofs StrictTree DressProofs
  Validation ValidProofs ValidSpec ValidExact PropsLexer PropsParser PropsValid LuaSyntax LuaDialect LuaRun LuaComplete LuaTree.

(** * C20 Every program parses *)

(** ** The two readings *)
Lemma open_impl e : open_end impl e = open_end lua e || ends_constructor e.
Proof. induction e; cbn [open_end impl lua d_call_any ends_constructor orb]; auto. Qed.
Lemma open_last_impl es : open_last impl es = open_last lua es || last_constructor es.
Proof. induction es; cbn [open_last last_constructor]; auto using open_impl. Qed.
Lemma open_stat_impl s : open_stat impl s = open_stat lua s || stat_constructor s.
Proof. destruct s; cbn [open_stat stat_constructor]; auto using open_impl, open_last_impl. Qed.

Lemma left_agree o l : left_ok lua o l = true -> (left_ok impl o l = true <-> same_level o l = true).
Proof.
  unfold left_ok. destruct l; cbn [level same_level].
  7: { destruct o, o0; cbn; intros; try discriminate; split; intros; try discriminate; reflexivity. }
  all: destruct o; cbn; intros; try discriminate; split; intros; reflexivity.
Qed.
Lemma right_agree o r : right_ok lua o r = true -> right_ok impl o r = true.
Proof. unfold right_ok. destruct r; cbn [level is_un]; try (destruct o; reflexivity). destruct o, o0; cbn; auto. Qed.
Lemma un_agree e : un_ok lua e = true -> un_ok impl e = true.
Proof. unfold un_ok. destruct e; cbn [level]; auto. destruct o; cbn; auto. Qed.

Lemma readings_agree :
  (forall e, exp_ok lua e = true -> (exp_ok impl e = true <-> exp_same e = true)) /\
  (forall es, exps_ok lua es = true -> (exps_ok impl es = true <-> exps_same es = true)) /\
  (forall a, args_ok lua a = true -> (args_ok impl a = true <-> args_same a = true)) /\
  (forall fs, fields_ok lua fs = true -> (fields_ok impl fs = true <-> fields_same fs = true)) /\
  (forall f, field_ok lua f = true -> (field_ok impl f = true <-> field_same f = true)) /\
  (forall s, stat_ok lua s = true -> (stat_ok impl s = true <-> stat_same s = true)) /\
  (forall t, iftail_ok lua t = true -> (iftail_ok impl t = true <-> iftail_same t = true)) /\
  (forall b, block_ok lua b = true -> (block_ok impl b = true <-> block_same b = true)).
Proof.
  assert (BC : forall D s semi b, block_ok D (BCons s semi b) = stat_ok D s && block_ok D b && (negb (is_return s) || is_nil b) &&
      (semi || negb (open_stat D s && starts_paren b))) by reflexivity.
  apply lua_ind; intros;
    try match goal with |- block_ok impl (BCons _ _ _) = true <-> _ => rewrite BC in * end;
    cbn [exp_ok exps_ok args_ok fields_ok field_ok stat_ok iftail_ok
         exp_same exps_same args_same fields_same field_same stat_same iftail_same block_same] in *;
    rewrite ?andb_true_iff in *; try tauto.
  - pose proof (un_agree e). tauto.
  - destruct H1 as [[[H1 H2] H3] H4]. pose proof (left_agree _ _ H1). pose proof (right_agree _ _ H2). tauto.
  - destruct H1 as [[[H1 H2] H3] H4]. rewrite open_stat_impl. rewrite (H H1), (H0 H2).
    destruct semi, (open_stat lua s), (stat_constructor s), (starts_paren b); cbn [orb andb negb] in *; intuition discriminate.
Qed.

(** ** From written form to tree *)
Lemma parsed_program t ls fs a b : parsed t ls fs a -> block_ok impl b = true -> map fst (nontriv (rt_of ls)) = block_w b -> fs = block_t b.
Proof.
  intros H Ho Hw. pose proof (pd_run _ _ _ _ H) as R. rewrite Hw in R. rewrite root_complete in R.
  - unfold file_t in R. now injection R.
  - exact Ho.
  - rewrite <- Hw. unfold parse_fuel, ts_new_source. cbn [ts_pairs]. rewrite <- (rt_of_toks ls), ts_filter_length, map_length.
    assert (HL : forall n, 2 * n + 2 <= 4 * n + 8) by lia. apply HL.
Qed.

Theorem C20_own_reading : forall t xs b, lexemes_of t xs -> map fst (code xs) = block_w b -> block_ok impl b = true ->
  exists toks lex_errs g, tokenize t = Ok (toks, lex_errs) /\ parse_tokens t toks = Ok (g, []) /\ skel g = [file_t b].
Proof.
  intros t xs b L Hw Ho. assert (F : fits_u32 (blen t) = true) by (destruct L as [[e L] _]; exact (tokenize_ok_fits _ _ L)).
  destruct (parse_exists t F) as (ls & fs & a & H). rewrite (parsed_lexemes_eq _ _ _ _ _ H L) in Hw.
  pose proof (parsed_program _ _ _ _ _ H Ho Hw) as ->.
  assert (N : noerrs (block_t b) = true) by (apply (proj2 (proj2 (proj2 (proj2 (proj2 (proj2 (proj2 (trees_clean impl))))))) b Ho)).
  eexists _, _, (root_of a). split; [exact (pd_lexer _ _ _ _ H)|]. split.
  - rewrite (pd_parse _ _ _ _ H). unfold root_of. do 2 f_equal. pose proof (pd_msgs _ _ _ _ H) as M.
    assert (E : fmsgs (block_t b) = []).
    { clear -N. revert N. set (P1 := fun t => noerr t = true -> pmsgs t = []). set (PF := fun f => noerrs f = true -> fmsgs f = []).
      generalize (block_t b). intros f. change (PF f). apply (forest_ind' P1 PF); unfold P1, PF; try reflexivity; try discriminate.
      - intros k fs IH H. exact (IH H).
      - intros t fs H1 H2 H. apply noerrs_cons in H as [A B]. unfold fmsgs in *. cbn [flat_map]. now rewrite H1, H2. }
    rewrite E in M. now apply map_eq_nil in M.
  - rewrite (root_skel _ _ _ _ H), erase_noerr by exact N. reflexivity.
Qed.
Print Assumptions C20_own_reading.

(** For every Lua program without the three things this implementation reads differently. *)
Theorem C20_programs_parse_partial : forall t xs b, lexemes_of t xs -> map fst (code xs) = block_w b ->
  block_ok lua b = true -> block_same b = true ->
  exists toks lex_errs g, tokenize t = Ok (toks, lex_errs) /\ parse_tokens t toks = Ok (g, []) /\ skel g = [file_t b].
Proof.
  intros t xs b L Hw Ho Hs. apply (C20_own_reading t xs b L Hw).
  now apply (proj2 (proj2 (proj2 (proj2 (proj2 (proj2 (proj2 readings_agree)))))) b Ho).
Qed.
Print Assumptions C20_programs_parse_partial.

(** The reading is unique: two well-written programs with the same written form have the same tree. *)
Theorem C20_unambiguous : forall b1 b2, block_ok impl b1 = true -> block_ok impl b2 = true -> block_w b1 = block_w b2 ->
  file_t b1 = file_t b2.
Proof.
  intros b1 b2 H1 H2 E. pose proof (root_complete b1 _ H1 (le_n _)) as R1. pose proof (root_complete b2 _ H2 (le_n _)) as R2.
  rewrite E, R2 in R1. congruence.
Qed.
Print Assumptions C20_unambiguous.

(** ** No errors at all *)
Lemma skel_children cs : forall off, flat_map (fun c => skel (el_green c)) (filter (fun c => is_gnode (el_green c)) (place off cs)) =
  filter (fun t => match t with PNode _ _ => true | _ => false end) (flat_map skel cs).
Proof.
  induction cs as [|[k cs'|k x] cs IH]; intros off; cbn [place filter flat_map skel el_green is_gnode]; [reflexivity| |].
  - cbn [flat_map el_green skel app filter]. now rewrite IH.
  - rewrite filter_app, IH. destruct (is_trivia k); reflexivity.
Qed.
Lemma green_ind2 (P : green -> Prop) : (forall k cs, Forall P cs -> P (GNode k cs)) -> (forall k t, P (GTok k t)) -> forall g, P g.
Proof.
  intros HN HT. fix IH 1. intros [k cs|k t]; [|apply HT]. apply HN. induction cs as [|c cs IHcs]; constructor; [apply IH|exact IHcs].
Qed.
Lemma skel_desc g : forall off e, In e (descendants_at off g) -> exists k cs, el_green e = GNode k cs /\ In (k, flat_map skel cs) (fsubs (skel g)).
Proof.
  induction g as [k cs IH|k x] using green_ind2; intros off e Hin; [|destruct Hin]. rewrite descendants_node in Hin.
  destruct Hin as [<-|Hin]; [exists k, cs; split; [reflexivity|]; cbn; now left|]. apply place_descs in Hin as (c & Hc & He).
  assert (Hg : In (el_green c) cs). { clear -Hc. revert off Hc. induction cs as [|x cs IHc]; intros off; [intros []|]. cbn [place]. intros [<-|H]; [now left|right; eauto]. }
  rewrite Forall_forall in IH. destruct (IH _ Hg _ _ He) as (k' & cs' & E & Hs). exists k', cs'. split; [exact E|].
  cbn [skel]. unfold fsubs. cbn [flat_map subs]. rewrite app_nil_r. right. unfold fsubs in Hs. apply in_flat_map in Hs as (t & Ht & Hs).
  apply in_flat_map. exists t. split; [|exact Hs]. apply in_flat_map. eauto.
Qed.

Definition sees (c : elem) (t : ptree) : Prop := exists k cs, el_green c = GNode k cs /\ t = PNode k (flat_map skel cs).
Lemma children_see e k cs : el_green e = GNode k cs ->
  Forall2 sees (el_children e) (filter (fun t => match t with PNode _ _ => true | _ => false end) (flat_map skel cs)).
Proof.
  intros E. unfold el_children, el_children_with_tokens. rewrite E, <- (skel_children cs (el_off e)). generalize (place (el_off e) cs). intros l.
  induction l as [|c l IH]; [constructor|]. cbn [filter]. destruct (el_green c) as [k' cs'|k' x] eqn:Ec; cbn [is_gnode]; [|exact IH].
  cbn [flat_map]. rewrite Ec. cbn [skel app]. constructor; [|exact IH]. exists k', cs'. auto.
Qed.
Lemma sees_kind c k f : sees c (PNode k f) -> el_kind c = k /\ exists cs, el_green c = GNode k cs /\ flat_map skel cs = f.
Proof. intros (k' & cs & E & H). injection H as -> ->. split; [unfold el_kind; now rewrite E|eauto]. Qed.

Lemma call_exp_kind c : is_call c = true -> exists k f, exp_t c = PNode k f /\ In k call_kinds.
Proof. destruct c; try discriminate; intros _; cbn [exp_t]; eexists _, _; (split; [reflexivity|cbn; tauto]). Qed.
Lemma var_exp_kind c : is_var c = true -> exists k f, exp_t c = PNode k f /\ In k target_kinds.
Proof. destruct c; try discriminate; intros _; cbn [exp_t]; unfold name_ref_t; eexists _, _; (split; [reflexivity|cbn; tauto]). Qed.

Lemma good_valid g e : every good_node (skel g) -> In e (el_descendants (root_elem g)) -> el_kind e <> KLiteral -> validate_node e = Ok [].
Proof.
  intros HG Hin Hk. destruct (skel_desc _ _ _ Hin) as (k & cs & E & Hs). pose proof (every_in _ _ _ _ HG Hs) as [G1 G2].
  assert (Ek : el_kind e = k) by (unfold el_kind; now rewrite E). unfold validate_node. rewrite Ek in *.
  pose proof (children_see _ _ _ E) as HC.
  destruct k; try reflexivity; try congruence.
  - destruct (G2 eq_refl) as (ts & es & Hv & F). rewrite F in HC. cbn [filter] in HC. inversion HC as [|lhs t1 r1 t1' S1 HC1 X1 X2]; subst.
    inversion HC1 as [|rhs t2 r2 t2' S2 HC2 X3 X4]; subst. inversion HC2; subst.
    apply sees_kind in S1 as (K1 & cs1 & E1 & F1). apply sees_kind in S2 as (K2 & _).
    unfold validate_assign, assign_lhs, assign_rhs, ast_children. rewrite <- X1. cbn [filter]. unfold is_kind. rewrite K1, K2. cbn [filter kind_eqb nth_error].
    change (kind_eqb KMultivalExpr KMultivalExpr) with true. cbn [nth_error]. f_equal.
    pose proof (children_see _ _ _ E1) as HL. rewrite F1 in HL. unfold multival_exprs, ast_children.
    rewrite filter_none; [reflexivity|]. intros x Hx. apply filter_In in Hx as [Hx _].
    assert (HA : Forall (fun t => exists k f, t = PNode k f /\ In k target_kinds) (filter (fun t => match t with PNode _ _ => true | _ => false end) (exps_t ts))).
    { clear -Hv. induction ts as [c|c ts IH]; cbn [exps_t all_vars] in *.
      - destruct (var_exp_kind _ Hv) as (k & f & -> & Hi). constructor; [eauto|constructor].
      - apply andb_true_iff in Hv as [Hv1 Hv2]. destruct (var_exp_kind _ Hv1) as (k & f & -> & Hi). cbn [filter]. constructor; eauto. }
    clear -HL HA Hx. induction HL as [|c t l l' Hc _ IH]; [destruct Hx|]. destruct Hx as [<-|Hx]; [|exact (IH Hx (Forall_inv_tail HA))].
    destruct (Forall_inv HA) as (k & f & -> & Hi). apply sees_kind in Hc as [Hc _]. unfold assignable. rewrite Hc.
    cbn in Hi. repeat destruct Hi as [<-|Hi]; try reflexivity. destruct Hi.
  - destruct (G1 eq_refl) as (c & Hc & F). rewrite F in HC. cbn [filter] in HC. inversion HC as [|mv t1 r1 t1' S1 HC1 X1 X2]; subst. inversion HC1; subst.
    apply sees_kind in S1 as (K1 & cs1 & E1 & F1). destruct (call_exp_kind _ Hc) as (k2 & f2 & Et & Hi).
    pose proof (children_see _ _ _ E1) as HL. rewrite F1, Et in HL. cbn [filter] in HL. inversion HL as [|x t2 r2 t2' S2 HC2 X3 X4]; subst. inversion HC2; subst.
    apply sees_kind in S2 as (K2 & _). unfold validate_expr_stmt, expr_stmt_multival, ast_child, ast_children. rewrite <- X1. cbn [filter]. unfold is_kind. rewrite K1.
    change (kind_eqb KMultivalExpr KMultivalExpr) with true. cbn [hd_error]. unfold multival_exprs, ast_children. rewrite <- X3. cbn [filter]. unfold expr_can_cast, expr_is_call.
    rewrite K2. cbn in Hi. destruct Hi as [<-|[<-|[]]]; cbn [filter]; rewrite ?K2; reflexivity.
Qed.

(** A string token whose escapes the validator supports. *)
Definition string_ok (x : text) : Prop :=
  exists body segs, segmented body segs /\ Forall (fun s => ~ bad s) segs /\
    ((exists q, quote_char q /\ x = [q] ++ body ++ [q]) \/ (exists n, x = long_open n ++ body ++ long_close n)).
Lemma no_bad_ranges pos segs rs : bad_ranges pos segs rs -> Forall (fun s => ~ bad s) segs -> rs = [].
Proof. induction 1; intros HF; auto; inversion HF; subst; auto. contradiction. Qed.
Lemma literal_valid t p e xs : source_file_parse t = Ok p -> lexemes_of t xs -> (forall x, In (KStr, x) xs -> string_ok x) ->
  In e (el_descendants (root_elem (pa_green p))) -> el_kind e = KLiteral -> validate_node e = Ok [].
Proof.
  intros H L HS Hin Hk. destruct (source_file_inv _ _ H) as (ls & fs & a & v & Hp & _ & Hg & _). pose proof Hin as Hin0. rewrite Hg in Hin0.
  destruct (parsed_literal _ _ _ _ _ Hp Hin0 Hk) as (k & x & c & r & Hl & Hge & Hrt & Hoff).
  destruct (kind_eqb k KStr) eqn:Eb.
  - apply kind_eqb_eq in Eb. subst k. rewrite (parsed_lexemes_eq _ _ _ _ _ Hp L), Hrt in HS.
    destruct (HS x) as (body & segs & Sg & NB & [(q & Hq & ->)|(n & ->)]); [apply in_app_iff; right; now left| |].
    + destruct (C24_short_string _ _ _ _ _ _ H Hin Hge Hq Sg) as (rs & -> & R). now rewrite (no_bad_ranges _ _ _ R NB).
    + destruct (C24_long_string _ _ _ _ _ _ H Hin Hge Sg) as (rs & -> & R). now rewrite (no_bad_ranges _ _ _ R NB).
  - apply kind_eqb_neq in Eb. apply (C24_unchecked _ _ _ H Hin Hk). intros y Ey. rewrite Ey in Hge. injection Hge as Hge _. congruence.
Qed.
Lemma validate_list_nil l v : validate_list l = Ok v -> (forall e, In e l -> validate_node e = Ok []) -> v = [].
Proof.
  revert v. induction l as [|e l IH]; intros v H HV; cbn [validate_list] in H; [now injection H|].
  rewrite (HV e (or_introl eq_refl)) in H. cbn [rbind] in H. apply rbind_ok in H as (b & Hb & H). injection H as <-.
  cbn [app]. apply IH; auto. intros; apply HV; now right.
Qed.

(** The parse of such a program by [SourceFile::parse] has no errors at all, if the lexer reports
    none and all escapes in its strings are supported (C24, C25). *)
Theorem C20_no_errors_partial : forall t xs b toks, lexemes_of t xs -> map fst (code xs) = block_w b ->
  block_ok lua b = true -> block_same b = true -> tokenize t = Ok (toks, []) -> (forall x, In (KStr, x) xs -> string_ok x) ->
  fits_u32 (S (blen t)) = true ->
  exists p, source_file_parse t = Ok p /\ pa_errors p = [] /\ skel (pa_green p) = [file_t b].
Proof.
  intros t xs b toks L Hw Ho Hs HT HS F. destruct (C20_programs_parse_partial t xs b L Hw Ho Hs) as (toks' & le & g & T & P & Sk).
  rewrite HT in T. injection T as <- <-. destruct (C11_parse_total t F) as (p & Hp). exists p. split; [exact Hp|].
  pose proof Hp as Hp0. unfold source_file_parse, parse_text in Hp0. rewrite HT in Hp0. cbn [rbind] in Hp0. rewrite P in Hp0. cbn [rbind] in Hp0.
  apply rbind_ok in Hp0 as (v & Hv & E). cbn [rbind] in E.
  apply rbind_ok in E as (u & _ & E). injection E as <-. cbn [pa_green pa_errors app] in *. split; [|exact Sk].
  apply (validate_list_nil _ _ Hv). intros e He. destruct (kind_eqb (el_kind e) KLiteral) eqn:Ek.
  - apply kind_eqb_eq in Ek. exact (literal_valid _ _ _ _ Hp L HS He Ek).
  - apply kind_eqb_neq in Ek. apply (good_valid g); auto. rewrite Sk. unfold file_t.
    assert (Hi : block_ok impl b = true) by now apply (proj2 (proj2 (proj2 (proj2 (proj2 (proj2 (proj2 readings_agree)))))) b Ho).
    apply every_node. split; [apply good_other; discriminate|]. apply every_node. split; [apply good_other; discriminate|].
    apply (proj2 (proj2 (proj2 (proj2 (proj2 (proj2 (proj2 (trees_clean impl))))))) b Hi).
Qed.
Print Assumptions C20_no_errors_partial.

(** ** From the characters *)
Lemma lexeme_nontriv k l : lexeme k l -> is_trivia k = false.
Proof.
  destruct 1; try reflexivity.
  - apply (in_map fst) in H. cbn in H. repeat destruct H as [<-|H]; try reflexivity. destruct H.
  - apply (in_map snd) in H. cbn in H. repeat destruct H as [<-|H]; try reflexivity. destruct H.
Qed.
Lemma lexeme_str l : lexeme KStr l -> string_ok l.
Proof.
  inversion 1; subst; try discriminate.
  - apply (in_map fst) in H0. cbn in H0. intuition discriminate.
  - apply (in_map snd) in H0. cbn in H0. intuition discriminate.
  - exists m, (map Plain m). split; [split|split].
    + clear -H1. induction H1 as [|c m (_ & Hc & _) _ IH]; cbn; auto.
    + rewrite map_map. clear. induction m as [|c m IH]; [reflexivity|]. cbn [map concat seg_text app]. f_equal. exact IH.
    + clear. induction m; cbn; constructor; auto.
    + left. exists q. auto.
Qed.
Lemma spaced_lexemes ps t toks : spaced ps t toks -> exists xs, toks = map (fun p => mkToken (fst p) (blen (snd p))) xs /\ concat (map snd xs) = t /\
  code xs = ps /\ forall x, In (KStr, x) xs -> string_ok x.
Proof.
  induction 1 as [|k l w ps t toks Hl Hw _ (xs & -> & Ht & Hc & Hs)]; [exists []; cbn; repeat split; auto; intros x []|].
  exists ((k, l) :: (KWhitespace, w) :: xs). cbn [map fst snd concat]. split; [reflexivity|]. split; [now rewrite Ht|]. split.
  - unfold code in *. cbn [filter fst]. rewrite (lexeme_nontriv _ _ Hl). cbn [negb]. change (is_trivia KWhitespace) with true. cbn [negb]. now rewrite Hc.
  - intros x [E|[E|Hx]]; [|discriminate|auto]. injection E as -> ->. now apply lexeme_str.
Qed.

(** Any identifiers, numerals and strings without backslashes, any whitespace between the tokens. *)
Theorem C20_text_partial : forall ps t toks b, spaced ps t toks -> map fst ps = block_w b -> block_ok lua b = true -> block_same b = true ->
  fits_u32 (S (blen t)) = true -> exists p, source_file_parse t = Ok p /\ pa_errors p = [] /\ skel (pa_green p) = [file_t b].
Proof.
  intros ps t toks b Sp Hw Ho Hs F. assert (F' : fits_u32 (blen t) = true) by (refine (fits_le _ _ _ F); clear F; lia).
  pose proof (C10_spaced_lexemes _ _ _ Sp F') as T. destruct (spaced_lexemes _ _ _ Sp) as (xs & -> & Ht & Hc & Hx).
  eapply (C20_no_errors_partial t xs b _); auto.
  - split; [eexists; exact T|exact Ht].
  - now rewrite Hc.
  - exact T.
Qed.
Print Assumptions C20_text_partial.

(** Every program can be written so: here is one way. *)
Definition code_kind (k : kind) : bool := match spell k with [] => false | _ => true end.
Lemma spell_lexeme k : code_kind k = true -> lexeme k (spell k).
Proof.
  destruct k; intros H; try discriminate H; clear H; cbn [spell];
    try (apply lx_op; cbn; tauto); try (apply lx_keyword; cbn; tauto).
  - apply lx_number. left. exists (txt "1"), [], []. split; [reflexivity|]. split; [discriminate|]. split; [repeat constructor; unfold digit; cbn; lia|]. split; left; reflexivity.
  - apply (lx_string 39%N []); [now left|constructor].
  - apply lx_ident.
    + exists 120%N, []. split; [reflexivity|]. split; [unfold letter; cbn; lia|constructor].
    + intros k H. cbn in H. intuition discriminate.
Qed.

Lemma code_kinds_all :
  (forall e, forallb code_kind (exp_w e) = true) /\ (forall es, forallb code_kind (exps_w es) = true) /\
  (forall a, forallb code_kind (args_w a) = true) /\ (forall fs, forallb code_kind (fields_w fs) = true) /\
  (forall f, forallb code_kind (field_w f) = true) /\ (forall s, forallb code_kind (stat_w s) = true) /\
  (forall t, forallb code_kind (iftail_w t) = true) /\ (forall b, forallb code_kind (block_w b) = true).
Proof.
  assert (N : forall n, forallb code_kind (names_w n) = true) by (induction n; cbn; auto).
  assert (P : forall n, forallb code_kind (path_w n) = true) by (induction n; cbn; auto).
  assert (R : forall n va, forallb code_kind (params_w n va) = true).
  { intros [|n] [|]; try reflexivity; unfold params_w; cbn [app forallb]; change (code_kind KLParen) with true; cbn [andb];
      rewrite !forallb_app, N; reflexivity. }
  assert (F : forall f, forallb code_kind (fname_w f) = true).
  { intros [|n|n]; [reflexivity| |]; cbn [fname_w]; rewrite forallb_app, P; reflexivity. }
  assert (C : forall k l, forallb code_kind (k :: l) = code_kind k && forallb code_kind l) by reflexivity.
  apply lua_ind; intros; cbn [exp_w exps_w args_w fields_w field_w stat_w iftail_w block_w];
    repeat (rewrite ?C, ?forallb_app, ?N, ?R, ?F);
    repeat match goal with H : forallb _ _ = true |- _ => rewrite H; clear H end;
    try match goal with |- context [lit_kind ?x] => destruct x | |- context [unop_kind ?x] => destruct x | |- context [binop_kind ?x] => destruct x end;
    try destruct semi; reflexivity.
Qed.
Lemma write_spaced ks : forallb code_kind ks = true -> exists toks, spaced (map (fun k => (k, spell k)) ks) (write ks) toks.
Proof.
  induction ks as [|k ks IH]; intros H; [exists []; constructor|]. cbn [forallb] in H. apply andb_true_iff in H as [H1 H2]. destruct (IH H2) as (toks & Sp).
  eexists. cbn [map]. unfold write. cbn [flat_map]. rewrite <- app_assoc. apply sp_cons; [now apply spell_lexeme| |exact Sp].
  split; [discriminate|]. repeat constructor.
Qed.
Theorem C20_written_program_partial : forall b, block_ok lua b = true -> block_same b = true -> fits_u32 (S (blen (write (block_w b)))) = true ->
  exists p, source_file_parse (write (block_w b)) = Ok p /\ pa_errors p = [] /\ skel (pa_green p) = [file_t b].
Proof.
  intros b Ho Hs F. destruct (write_spaced (block_w b)) as (toks & Sp); [apply code_kinds_all|].
  apply (C20_text_partial _ _ _ b Sp); auto. now rewrite map_map, map_id.
Qed.
Print Assumptions C20_written_program_partial.

(** A program with most of the constructs, and its tree. *)
Definition sample : block :=
  BCons (SLocalInit 1 (More (EBin BAdd (ELit LNumber) (EBin BMul EName (EUn UNeg (EBin BPow EName (ELit LNumber))))) (One (ETable (FCons (FName EName) true (FLast (FKey (ELit LString) EName))))))) false
  (BCons (SForIn 1 (One (ECall EName (AList (One EName))))
      (BCons (SIf (EBin BAnd (EUn UNot EName) (EBin BLt EName EName)) (BCons SBreak true BNil) (IElseif EName BNil (IElse (BCons (SCall (EMethod (EDot EName) AString)) false BNil)))) false BNil)) true
  (BCons (SFun (FMethod 1) 2 true (BCons (SReturn (One (EFun 0 false BNil))) false BNil)) false BNil)).
Example C20_case : block_ok lua sample = true /\ block_same sample = true /\ length (block_w sample) = 77 /\
  match source_file_parse (write (block_w sample)) with Ok p => pa_errors p = [] /\ skel (pa_green p) = [file_t sample] | _ => False end.
Proof. vm_compute. auto. Qed.

(** Each of the three differences makes a Lua program fail. *)
Definition parses_as (b : block) : Prop :=
  forall t xs, lexemes_of t xs -> map fst (code xs) = block_w b ->
  exists toks lex_errs g, tokenize t = Ok (toks, lex_errs) /\ parse_tokens t toks = Ok (g, []) /\ skel g = [file_t b].
Lemma not_parses_as b :
  match tokenize (write (block_w b)) with
  | Ok (toks, []) => match parse_tokens (write (block_w b)) toks with Ok (g, errs) => errs <> [] \/ skel g <> [file_t b] | _ => False end
  | _ => False
  end -> ~ parses_as b.
Proof.
  destruct (tokenize (write (block_w b))) as [[toks [|e le]]| |] eqn:T; try contradiction.
  destruct (parse_tokens (write (block_w b)) toks) as [[g errs]| |] eqn:P; try contradiction.
  intros H C. destruct (write_spaced (block_w b)) as (toks' & Sp); [apply code_kinds_all|].
  destruct (spaced_lexemes _ _ _ Sp) as (xs & E & Ht & Hc & _).
  pose proof (C10_spaced_lexemes _ _ _ Sp (tokenize_ok_fits _ _ T)) as T'. rewrite T in T'. injection T' as ->.
  destruct (C (write (block_w b)) xs) as (toks2 & le & g2 & T2 & P2 & S2).
  - split; [eexists; rewrite <- E; exact T|exact Ht].
  - rewrite Hc, map_map, map_id. reflexivity.
  - rewrite T in T2. injection T2 as <- <-. rewrite P in P2. injection P2 as -> ->. destruct H as [H|H]; contradiction.
Qed.
(** [return x + x - x], [for x in x, x do end], [local x = {} (x)()]. *)
Definition dev_levels : block := BCons (SReturn (One (EBin BSub (EBin BAdd EName EName) EName))) false BNil.
Definition dev_for : block := BCons (SForIn 0 (More EName (One EName)) BNil) false BNil.
Definition dev_call : block := BCons (SLocalInit 0 (One (ETable FNil))) false (BCons (SCall (ECall (EParen EName) ANone)) false BNil).
Theorem C20_refuted : exists b1 b2 b3, Forall (fun b => block_ok lua b = true /\ ~ parses_as b) [b1; b2; b3] /\
  write (block_w b1) = txt "return x + x - x " /\ write (block_w b2) = txt "for x in x , x do end " /\ write (block_w b3) = txt "local x = { } ( x ) ( ) ".
Proof.
  exists dev_levels, dev_for, dev_call. split; [|repeat split; reflexivity].
  repeat constructor; try reflexivity; apply not_parses_as; vm_compute; (right; discriminate) || (left; discriminate).
Qed.
Print Assumptions C20_refuted.

(** * C18 Operators group by precedence and associativity *)
(** The program [return e]. *)
Definition return_of (e : exp) : block := BCons (SReturn (One e)) false BNil.
Lemma return_ok D e : block_ok D (return_of e) = exp_ok D e.
Proof. unfold return_of. cbn [block_ok]. change (stat_ok D (SReturn (One e))) with (exp_ok D e). cbn. rewrite andb_false_r. cbn. now rewrite !andb_true_r. Qed.

Lemma minparen_level D e : level D (minparen D e) = level D e.
Proof. destruct e; reflexivity. Qed.
Lemma minparen_ok D : (forall o, d_level D o <= d_atom D) -> d_un D <= d_atom D -> (forall o, right_assoc o = true -> d_level D o < d_atom D) ->
  (forall o, right_assoc o = false -> d_level D o < d_atom D) -> forall e, leaves_ok D e = true -> exp_ok D (minparen D e) = true.
Proof.
  intros L1 L2 L3 L4. induction e; intros H; try exact H; cbn [leaves_ok minparen] in *; auto.
  - specialize (IHe H). change (un_ok D (paren_unless (un_ok D (minparen D e)) (minparen D e)) && exp_ok D (paren_unless (un_ok D (minparen D e)) (minparen D e)) = true).
    destruct (un_ok D (minparen D e)) eqn:E; cbn [paren_unless]; [now rewrite E, IHe|].
    change (exp_ok D (EParen (minparen D e))) with (exp_ok D (minparen D e)). rewrite IHe, andb_true_r. unfold un_ok. cbn [level]. now apply Nat.leb_le.
  - apply andb_true_iff in H as [H1 H2]. specialize (IHe1 H1). specialize (IHe2 H2).
    set (l := minparen D e1) in *. set (r := minparen D e2) in *.
    assert (A : left_ok D o (paren_unless (left_ok D o l) l) = true /\ exp_ok D (paren_unless (left_ok D o l) l) = true).
    { destruct (left_ok D o l) eqn:E; cbn [paren_unless]; [auto|]. split; [|exact IHe1]. unfold left_ok. cbn [level].
      destruct (right_assoc o) eqn:R; [apply Nat.ltb_lt; auto|apply Nat.leb_le; auto]. }
    assert (B : right_ok D o (paren_unless (right_ok D o r) r) = true /\ exp_ok D (paren_unless (right_ok D o r) r) = true).
    { destruct (right_ok D o r) eqn:E; cbn [paren_unless]; [auto|]. split; [|exact IHe2]. unfold right_ok. cbn [level is_un orb].
      destruct (right_assoc o) eqn:R; [apply Nat.leb_le; auto|apply Nat.ltb_lt; auto]. }
    destruct A as [A1 A2], B as [B1 B2].
    change (left_ok D o (paren_unless (left_ok D o l) l) && right_ok D o (paren_unless (right_ok D o r) r) &&
            exp_ok D (paren_unless (left_ok D o l) l) && exp_ok D (paren_unless (right_ok D o r) r) = true).
    now rewrite A1, A2, B1, B2.
Qed.
Lemma minparen_unparen D e : unparen (minparen D e) = unparen e.
Proof.
  assert (P : forall b x, unparen (paren_unless b x) = unparen x) by (intros [|] x; reflexivity).
  induction e; cbn [minparen unparen]; auto; rewrite ?P; congruence.
Qed.

(** Printed with the parentheses that this implementation's table requires, every operator tree
    comes back. *)
Theorem C18_own_table : forall e t xs, leaves_ok impl e = true -> lexemes_of t xs -> map fst (code xs) = KReturnKw :: exp_w (minparen impl e) ->
  unparen (minparen impl e) = unparen e /\
  exists toks lex_errs g, tokenize t = Ok (toks, lex_errs) /\ parse_tokens t toks = Ok (g, []) /\
    skel g = [PNode KSourceFile [PNode KBlock [PNode KReturnStmt [PTok KReturnKw; PNode KMultivalExpr [exp_t (minparen impl e)]]]]].
Proof.
  intros e t xs Hl L Hw. split; [apply minparen_unparen|]. apply (C20_own_reading t xs (return_of (minparen impl e)) L).
  - rewrite Hw. unfold return_of. cbn [block_w stat_w exps_w semi_w app]. now rewrite app_nil_r.
  - rewrite return_ok. apply minparen_ok; auto; try (intros []; cbn; lia). cbn. lia.
Qed.
Print Assumptions C18_own_table.

(** With Lua's table: if no operator is applied to a looser one of the same Lua precedence. *)
Lemma chains_same e : leaves_ok lua e = true -> leaves_ok impl e = true -> chains_ok e = true -> exp_ok impl (minparen lua e) = true.
Proof.
  intros H1 H2 H3.
  assert (HL : exp_ok lua (minparen lua e) = true) by (apply minparen_ok; auto; try (intros []; cbn; lia); cbn; lia).
  apply (proj1 readings_agree _ HL). clear HL. revert H1 H2 H3. induction e; intros H1 H2 H3; cbn [minparen leaves_ok chains_ok] in *;
    try (apply (proj1 readings_agree _ H1); exact H2); auto.
  - specialize (IHe H1 H2 H3). cbn [exp_same]. destruct (un_ok lua (minparen lua e)); exact IHe.
  - apply andb_true_iff in H1 as [A1 A2], H2 as [B1 B2], H3 as [[C1 C2]%andb_true_iff C3].
    specialize (IHe1 A1 B1 C2). specialize (IHe2 A2 B2 C3).
    change (same_level o (paren_unless (left_ok lua o (minparen lua e1)) (minparen lua e1)) &&
            exp_same (paren_unless (left_ok lua o (minparen lua e1)) (minparen lua e1)) &&
            exp_same (paren_unless (right_ok lua o (minparen lua e2)) (minparen lua e2)) = true).
    assert (X : forall b x, exp_same x = true -> exp_same (paren_unless b x) = true) by (intros [|] x; auto).
    rewrite (X _ _ IHe1), (X _ _ IHe2), !andb_true_r. destruct (left_ok lua o (minparen lua e1)); [|reflexivity].
    cbn [paren_unless]. destruct e1; exact C1 || reflexivity.
Qed.
Theorem C18_lua_table_partial : forall e t xs, leaves_ok lua e = true -> leaves_ok impl e = true -> chains_ok e = true ->
  lexemes_of t xs -> map fst (code xs) = KReturnKw :: exp_w (minparen lua e) ->
  exists toks lex_errs g, tokenize t = Ok (toks, lex_errs) /\ parse_tokens t toks = Ok (g, []) /\
    skel g = [PNode KSourceFile [PNode KBlock [PNode KReturnStmt [PTok KReturnKw; PNode KMultivalExpr [exp_t (minparen lua e)]]]]].
Proof.
  intros e t xs Hl Hi Hc L Hw. apply (C20_own_reading t xs (return_of (minparen lua e)) L).
  - rewrite Hw. unfold return_of. cbn [block_w stat_w exps_w semi_w app]. now rewrite app_nil_r.
  - rewrite return_ok. now apply chains_same.
Qed.
Print Assumptions C18_lua_table_partial.

(** [not ((a or b) == c ^ -d ^ e) .. f .. g * (h + i)] *)
Definition sample_exp : exp :=
  EBin BConcat (EUn UNot (EBin BEq (EBin BOr EName EName) (EBin BPow EName (EUn UNeg (EBin BPow EName EName)))))
               (EBin BConcat EName (EBin BMul EName (EBin BAdd EName EName))).
Example C18_case : leaves_ok lua sample_exp = true /\ leaves_ok impl sample_exp = true /\ chains_ok sample_exp = true /\
  write (exp_w (minparen lua sample_exp)) = txt "not ( ( x or x ) == x ^ - x ^ x ) .. x .. x * ( x + x ) ".
Proof. vm_compute. auto. Qed.

Theorem C18_refuted : exists e, leaves_ok lua e = true /\ minparen lua e = e /\ ~ parses_as (return_of e).
Proof.
  exists (EBin BSub (EBin BAdd EName EName) EName). repeat split. apply not_parses_as. vm_compute. right. discriminate.
Qed.
Print Assumptions C18_refuted.

(** * C19 Operators of equal Lua precedence *)
(** Exactly: [a o1 b o2 c] groups to the left if [o2] does not bind more tightly than [o1] here, and
    to the right otherwise. *)
Theorem C19_grouping : forall o1 o2 a b c t xs, lua_level o1 = lua_level o2 -> right_assoc o1 = false ->
  level impl a = d_atom impl -> level impl b = d_atom impl -> level impl c = d_atom impl ->
  exp_ok impl a = true -> exp_ok impl b = true -> exp_ok impl c = true ->
  lexemes_of t xs -> map fst (code xs) = KReturnKw :: exp_w a ++ binop_kind o1 :: exp_w b ++ binop_kind o2 :: exp_w c ->
  exists toks lex_errs g, tokenize t = Ok (toks, lex_errs) /\ parse_tokens t toks = Ok (g, []) /\
    skel g = [file_t (return_of (if impl_level o2 <=? impl_level o1 then EBin o2 (EBin o1 a b) c else EBin o1 a (EBin o2 b c)))].
Proof.
  intros o1 o2 a b c t xs HL HR La Lb Lc Oa Ob Oc L Hw.
  assert (HR2 : right_assoc o2 = false) by (destruct o1, o2; try discriminate; reflexivity).
  assert (BE : forall o l r, exp_ok impl (EBin o l r) = left_ok impl o l && right_ok impl o r && exp_ok impl l && exp_ok impl r) by reflexivity.
  assert (LA : forall o x, level impl x = d_atom impl -> left_ok impl o x = true).
  { intros o x Hx. unfold left_ok. rewrite Hx. destruct o; reflexivity. }
  assert (RA : forall o x, level impl x = d_atom impl -> right_ok impl o x = true).
  { intros o x Hx. unfold right_ok. rewrite Hx. apply orb_true_iff. right. destruct o; reflexivity. }
  apply (C20_own_reading t xs _ L).
  - rewrite Hw. unfold return_of. cbn [block_w stat_w exps_w semi_w app]. rewrite app_nil_r.
    destruct (impl_level o2 <=? impl_level o1); cbn [exp_w]; rewrite <- ?app_assoc; reflexivity.
  - rewrite return_ok. destruct (impl_level o2 <=? impl_level o1) eqn:E; rewrite !BE, Oa, Ob, Oc, ?(LA _ _ La), ?(LA _ _ Lb), ?(RA _ _ Lb), ?(RA _ _ Lc), ?andb_true_r; cbn [andb].
    + unfold left_ok. rewrite HR2. exact E.
    + unfold right_ok. rewrite HR. cbn [is_un orb level impl d_level]. apply Nat.leb_gt in E. now apply Nat.ltb_lt.
Qed.
Print Assumptions C19_grouping.
(** So to the left for a repeated operator, and, of the pairs of different ones, for one order of the two. *)
Theorem C19_left_partial : forall o1 o2, lua_level o1 = lua_level o2 -> right_assoc o1 = false ->
  (impl_level o2 <=? impl_level o1 = true <-> o1 = o2 \/ In (o1, o2)
     [(BSub, BAdd); (BDiv, BMul); (BMod, BMul); (BMod, BDiv);
      (BGt, BLt); (BLe, BLt); (BGe, BLt); (BNe, BLt); (BEq, BLt); (BLe, BGt); (BGe, BGt); (BNe, BGt); (BEq, BGt);
      (BGe, BLe); (BNe, BLe); (BEq, BLe); (BNe, BGe); (BEq, BGe); (BEq, BNe)]).
Proof.
  intros o1 o2 HL HR. destruct o1; try discriminate HR; destruct o2; try discriminate HL; cbn; split; intros H; try reflexivity; try discriminate H; auto 25;
    destruct H as [H|H]; try discriminate H; repeat (destruct H as [H|H]; try discriminate H); destruct H.
Qed.
Print Assumptions C19_left_partial.
Theorem C19_refuted : ~ parses_as (return_of (EBin BSub (EBin BAdd EName EName) EName)) /\ ~ parses_as (return_of (EBin BMod (EBin BMul EName EName) EName)) /\
  ~ parses_as (return_of (EBin BEq (EBin BLt EName EName) EName)).
Proof. repeat split; apply not_parses_as; vm_compute; right; discriminate. Qed.
Print Assumptions C19_refuted.
Example C19_case : map fst (code [(KReturnKw, txt "return"); (KWhitespace, txt " "); (KIdent, txt "a"); (KMinus, txt "-"); (KIdent, txt "b"); (KPlus, txt "+"); (KIdent, txt "c")])
   = KReturnKw :: exp_w EName ++ binop_kind BSub :: exp_w EName ++ binop_kind BAdd :: exp_w EName.
Proof. reflexivity. Qed.

(** * C21 Generic for *)
Theorem C21_one_expression_partial : forall n e body t xs, exp_ok impl e = true -> block_ok impl body = true ->
  lexemes_of t xs -> map fst (code xs) = KForKw :: names_w n ++ KInKw :: exp_w e ++ KDoKw :: block_w body ++ [KEndKw] ->
  exists toks lex_errs g, tokenize t = Ok (toks, lex_errs) /\ parse_tokens t toks = Ok (g, []) /\
    skel g = [PNode KSourceFile [PNode KBlock [PNode KForStmt
      [PTok KForKw; PNode KForContent [PNode KGenericFor [PNode KMultiName (names_t n); PTok KInKw; exp_t e]];
       PTok KDoKw; PNode KBlock (block_t body); PTok KEndKw]]]].
Proof.
  intros n e body t xs He Hb L Hw. apply (C20_own_reading t xs (BCons (SForIn n (One e) body) false BNil) L).
  - rewrite Hw. cbn [block_w stat_w exps_w semi_w app]. rewrite app_nil_r. reflexivity.
  - assert (E : block_ok impl (BCons (SForIn n (One e) body) false BNil) = true && exp_ok impl e && block_ok impl body && true && true && true) by reflexivity.
    rewrite E, He, Hb. reflexivity.
Qed.
Print Assumptions C21_one_expression_partial.
Theorem C21_refuted : ~ parses_as (BCons (SForIn 0 (More EName (One EName)) BNil) false BNil).
Proof. apply not_parses_as. vm_compute. left. discriminate. Qed.
Print Assumptions C21_refuted.
