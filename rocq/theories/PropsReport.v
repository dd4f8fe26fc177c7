(** PropsReport.v — C24, C26, C27 in terms of the list of diagnostics: what SourceFile::parse reports, node by node.
    Vocabulary: ValidSpec.v; [visible], [of_kind] from PropsExact.v. *)
From Verif Require Import Base SyntaxKind TokenSet Lexer LexSpec LexerDirect LexerProofs BindingPowers Parser Grammar
  Event Tree TreeSink ParserTree SinkProofs GrammarSpec ParserTotal ParserTotal2 Ast ParseSpec ParseProofs StrictTree DressProofs
  Validation ValidProofs ValidSpec ValidExact PropsLexer PropsParser PropsValid PropsExact.

(** The errors a node gives rise to. *)
Inductive node_errors (e : elem) : list syntax_error -> Prop :=
| ne_expr_stmt mv : el_kind e = KExprStmt -> el_children e = [mv] ->
    node_errors e (map (fun c => mkErr "Expression statements can only be call expressions" (el_range c))
                     (filter (fun c => negb (of_kind call_kinds c)) (visible (el_children mv))) ++
                   match length (filter (of_kind call_kinds) (visible (el_children mv))) with
                   | 0 => [mkErr "Expected a call expression" (el_range e)]
                   | 1 => []
                   | n => [mkErr ("Expected only one call expression, got " ++ show_nat n) (el_range e)]
                   end)
| ne_assign lhs rhs : el_kind e = KAssignStmt -> el_children e = [lhs; rhs] ->
    node_errors e (map (fun c => mkErr "Can only assign name reference or index expression" (el_range c))
                     (filter (fun c => negb (of_kind target_kinds c)) (visible (el_children lhs))))
| ne_string x o body segs rs : el_green e = GNode KLiteral [GTok KStr x] -> string_body x o body -> segmented body segs ->
    bad_ranges (el_off e + o) segs rs -> node_errors e (map (mkErr "Invalid escape sequence") rs)
| ne_open_string x : el_green e = GNode KLiteral [GTok KStr x] -> (forall o body, ~ string_body x o body) -> node_errors e []
| ne_other : el_kind e <> KExprStmt -> el_kind e <> KAssignStmt -> (forall x, el_green e <> GNode KLiteral [GTok KStr x]) -> node_errors e [].

Lemma string_forms t p e x : source_file_parse t = Ok p -> In e (el_descendants (root_elem (pa_green p))) -> el_green e = GNode KLiteral [GTok KStr x] ->
  (exists o body, string_body x o body) \/ exists q m, x = q :: m /\ quote_char q /\ (last x 0%N <> q \/ m = []).
Proof.
  intros H Hin Hg. destruct (source_file_inv _ _ H) as (ls & fs & a & v & Hp & _ & E & _).
  assert (Hk : el_kind e = KLiteral) by (unfold el_kind; now rewrite Hg). rewrite E in Hin.
  destruct (parsed_literal _ _ _ _ _ Hp Hin Hk) as (k & x' & c & r & _ & Hg' & Hrt & _). assert (Ek : k = KStr) by congruence. assert (Ex : x' = x) by congruence. subst k x'.
  destruct (rtok_in _ _ _ _ _ _ (pd_lex _ _ _ _ Hp) Hrt) as (_ & Hs & _). destruct (Hs eq_refl) as (d & y & Hx & Hd). cbn [snd] in Hx.
  assert (HQ : quote_char d -> (exists o body, string_body x o body) \/ exists q m, x = q :: m /\ quote_char q /\ (last x 0%N <> q \/ m = [])).
  { intros Hq. destruct y as [|z y _] using rev_ind; [right; exists d, []; auto|].
    destruct (N.eq_dec z d) as [->|Hz]; [left; exists 1, y; rewrite Hx; exact (sb_short d y Hq)|right].
    exists d, (y ++ [z]). split; [exact Hx|]. split; [exact Hq|]. left. rewrite Hx. change (d :: y ++ [z]) with ((d :: y) ++ [z]). now rewrite last_last. }
  destruct Hd as [Hd|[Hd|Hd]]; [apply HQ; now left|apply HQ; now right|]. left. exact (body_exists x d y Hx Hd).
Qed.
Lemma open_string_body q m : quote_char q -> (last (q :: m) 0%N <> q \/ m = []) -> forall o body, ~ string_body (q :: m) o body.
Proof.
  intros Hq Hl o body Hb. assert (Hx : forall x, string_body x o body -> x = q :: m -> False); [|exact (Hx _ Hb eq_refl)]. clear Hb. intros x Hb E. destruct Hb as [q' body Hq'|n body c Hc|n body c Hc Hs].
  - cbn [app] in E. injection E as Eq Em. subst q'. destruct Hl as [Hl|Hl].
    + apply Hl. rewrite <- Em. change (q :: body ++ [q]) with ((q :: body) ++ [q]). now rewrite last_last.
    + rewrite Hl in Em. destruct body; discriminate.
  - cbn [app txt] in E. injection E as Eq Em. subst q. destruct Hq as [Hq|Hq]; discriminate Hq.
  - cbn [app txt] in E. injection E as Eq Em. subst q. destruct Hq as [Hq|Hq]; discriminate Hq.
Qed.
Lemma node_errors_sound t p e : source_file_parse t = Ok p -> In e (el_descendants (root_elem (pa_green p))) ->
  exists es, validate_node e = Ok es /\ node_errors e es.
Proof.
  intros H Hin. destruct (kind_eqb (el_kind e) KExprStmt) eqn:K1.
  { apply kind_eqb_eq in K1. destruct (C26_exactly _ _ _ H Hin K1) as (mv & Hc & _ & E). cbv zeta in E. eexists. split; [exact E|]. pose proof (ne_expr_stmt e mv K1 Hc) as G. destruct (length (filter (of_kind call_kinds) (visible (el_children mv)))) as [|[|n]]; exact G. }
  destruct (kind_eqb (el_kind e) KAssignStmt) eqn:K2.
  { apply kind_eqb_eq in K2. destruct (C27_exactly _ _ _ H Hin K2) as (l & r & Hc & _ & _ & E). eexists. split; [exact E|]. exact (ne_assign e l r K2 Hc). }
  apply kind_eqb_neq in K1. apply kind_eqb_neq in K2.
  destruct (kind_eqb (el_kind e) KLiteral) eqn:K3.
  - apply kind_eqb_eq in K3. destruct (source_file_inv _ _ H) as (ls & fs & a & v & Hp & _ & E & _). pose proof Hin as Hin'. rewrite E in Hin'.
    destruct (parsed_literal _ _ _ _ _ Hp Hin' K3) as (k & x & c & r & _ & Hg & _ & _). destruct (kind_eqb k KStr) eqn:Ek.
    + apply kind_eqb_eq in Ek. subst k. destruct (string_forms _ _ _ _ H Hin Hg) as [(o & body & Hb)|(q & m & Hx & Hq & Hl)].
      * destruct (segmented_total body) as [segs Hs]. destruct (C24_every_string _ _ _ _ _ _ _ H Hin Hg Hb Hs) as (rs & E1 & R). eexists. split; [exact E1|]. exact (ne_string e x o body segs rs Hg Hb Hs R).
      * exists []. split.
        -- eapply C24_unchecked; eauto. intros x0 E0. assert (x0 = x) by congruence. subst x0. eauto.
        -- apply (ne_open_string e x Hg). rewrite Hx in *. exact (open_string_body q m Hq Hl).
    + assert (HN : forall x0, el_green e <> GNode KLiteral [GTok KStr x0]). { intros x0 E0. rewrite Hg in E0. injection E0 as -> _. discriminate. }
      exists []. split; [eapply C24_unchecked; eauto; intros x0 E0; destruct (HN x0 E0)|now apply ne_other].
  - apply kind_eqb_neq in K3. exists []. split; [unfold validate_node; destruct (el_kind e); try reflexivity; congruence|]. apply ne_other; auto. intros x Hx. apply K3. unfold el_kind. now rewrite Hx.
Qed.

(** The diagnostics of a file are those of the parser, then those of the lexer, then, in document order, those of the nodes. *)
Theorem C24_diagnostics_exactly : forall t p toks lex_errs g perrs, source_file_parse t = Ok p -> tokenize t = Ok (toks, lex_errs) ->
  parse_tokens t toks = Ok (g, perrs) ->
  pa_green p = g /\ exists bs, Forall2 node_errors (el_descendants (root_elem g)) bs /\ pa_errors p = perrs ++ lex_errs ++ concat bs.
Proof.
  intros t p toks le g perrs H Ht Hg. destruct (source_file_inv _ _ H) as (ls & fs & a & v & Hp & Hv & Eg & Ee).
  pose proof (pd_lexer _ _ _ _ Hp) as E. rewrite Ht in E. injection E as -> ->. rewrite (pd_parse _ _ _ _ Hp) in Hg.
  change (GNode KSourceFile [GNode KBlock (dr_green a ++ map gtok (dr_left a))]) with (root_of a) in Hg. injection Hg as <- <-. split; [exact Eg|].
  destruct (validate_list_map _ _ Hv) as (bs & Hb & ->). exists bs. split; [|now rewrite Ee, <- app_assoc].
  assert (HI : forall l bs, map validate_node l = map Ok bs -> incl l (el_descendants (root_elem (pa_green p))) -> Forall2 node_errors l bs).
  { induction l as [|e l IH]; intros [|b bs'] E I0; try discriminate; [constructor|]. cbn [map] in E. assert (E1 : validate_node e = Ok b) by congruence. assert (E2 : map validate_node l = map Ok bs') by congruence.
    constructor; [|apply IH; [exact E2|intros y Hy; apply I0; now right]]. destruct (node_errors_sound _ _ e H) as (es & Ev & Hn); [apply I0; now left|]. rewrite E1 in Ev. apply ok_inj in Ev. now subst es. }
  apply HI; [exact Hb|]. rewrite Eg. apply incl_refl.
Qed.
Print Assumptions C24_diagnostics_exactly.
(** A node gives rise to one list of errors only. *)
Lemma segs_unique l1 : forall l2, segs_ok l1 -> segs_ok l2 -> concat (map seg_text l1) = concat (map seg_text l2) -> l1 = l2.
Proof.
  induction l1 as [|[c|c|] l1 IH]; intros [|[d|d|] l2]; cbn [segs_ok map concat seg_text app]; intros H1 H2 E; try reflexivity; try discriminate E.
  - injection E as -> E. f_equal. apply IH; tauto.
  - injection E as -> _. tauto.
  - injection E as -> _. tauto.
  - injection E as <- _. tauto.
  - injection E as -> E. f_equal. apply IH; tauto.
  - subst l2. discriminate E.
  - injection E as <- _. tauto.
  - subst l1. discriminate E.
  - now subst.
Qed.
Lemma bad_ranges_unique pos l rs1 : bad_ranges pos l rs1 -> forall rs2, bad_ranges pos l rs2 -> rs1 = rs2.
Proof. induction 1 as [pos|pos s l rs Hb R IH|pos s l rs Hb R IH]; intros rs2 R2; inversion R2; subst; try contradiction; [reflexivity|auto|f_equal; auto]. Qed.
Theorem C24_errors_unique : forall e es1 es2, node_errors e es1 -> node_errors e es2 -> es1 = es2.
Proof.
  assert (HK : forall e x, el_green e = GNode KLiteral [GTok KStr x] -> el_kind e = KLiteral) by (intros e x H; unfold el_kind; now rewrite H).
  intros e es1 es2 H1 H2. destruct H1 as [mv K C|l r K C|x o body segs rs G B S0 R|x G B|K1 K2 G]; inversion H2 as [mv' K' C' E|l' r' K' C' E|x' o' body' segs' rs' G' B' S' R' E|x' G' B' E|K1' K2' G' E];
    try (rewrite (HK _ _ G) in *; discriminate); try (rewrite (HK _ _ G') in *; discriminate); try congruence.
  - assert (mv' = mv) by congruence. now subst.
  - assert (x' = x) by congruence. subst x'. apply unquote_body in B. apply unquote_body in B'. rewrite B in B'. assert (o' = o) by congruence. assert (body' = body) by congruence. subst o' body'.
    destruct S0 as [S1 S2], S' as [S3 S4]. rewrite <- S4 in S2. apply (segs_unique _ _ S1 S3) in S2. subst segs'. f_equal. exact (bad_ranges_unique _ _ _ R _ R').
  - assert (x' = x) by congruence. subst x'. destruct (B' _ _ B).
  - assert (x' = x) by congruence. subst x'. destruct (B _ _ B').
Qed.
Print Assumptions C24_errors_unique.

Example C24_report_case : match source_file_parse (txt "f(), 'a\q' g() (x), 1 = '\!', ~") with
  | Ok p => map (fun e => (e_msg e, r_start (e_range e), r_end (e_range e))) (pa_errors p) =
    [("Expected an expression"%string, 30, 31); ("Expression statements can only be call expressions"%string, 5, 10);
     ("Invalid escape sequence"%string, 7, 9); ("Can only assign name reference or index expression"%string, 11, 18);
     ("Can only assign name reference or index expression"%string, 20, 21); ("Invalid escape sequence"%string, 25, 27)] | _ => False end.
Proof. vm_compute. reflexivity. Qed.
