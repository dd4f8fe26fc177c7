(** PropsValid.v — validation and accessor properties C24–C27, C29. Vocabulary: ValidSpec.v. *)
From Verif Require Import Base SyntaxKind TokenSet Lexer LexSpec LexerDirect LexerProofs BindingPowers Parser Grammar
  Event EventProofs Tree TreeSink ParserTree SinkProofs GrammarSpec Ast ParseSpec ParseProofs DressProofs
  Validation ValidProofs ValidSpec ValidExact.

(** The errors of a parse: those of parser and lexer, then those of validation, node by node in
    document order. *)
Lemma validate_list_map l es : validate_list l = Ok es -> exists bs, map validate_node l = map Ok bs /\ es = concat bs.
Proof.
  revert es. induction l as [|x l IH]; intros es H; [injection H as <-; exists []; auto|]. cbn [validate_list] in H.
  apply rbind_ok in H as (xs & Hx & H). apply rbind_ok in H as (ys & Hy & H). injection H as <-.
  destruct (IH _ Hy) as (bs & Hb & ->). exists (xs :: bs). cbn [map concat]. now rewrite Hx, Hb.
Qed.
Theorem C24_errors_in_document_order : forall t p, source_file_parse t = Ok p ->
  exists errs bs, parse_text t = Ok (pa_green p, errs) /\ pa_errors p = errs ++ concat bs /\
    map validate_node (el_descendants (root_elem (pa_green p))) = map Ok bs.
Proof.
  intros t p H. destruct (source_file_inv _ _ H) as (ls & fs & a & v & Hp & Hv & Hg & He). rewrite Hg, He.
  destruct (validate_list_map _ _ Hv) as (bs & Hb & ->). eexists _, bs. split; [exact (parsed_text _ _ _ _ Hp)|]. auto.
Qed.
Print Assumptions C24_errors_in_document_order.

Lemma parsed_fits t p e : source_file_parse t = Ok p -> In e (el_descendants (root_elem (pa_green p))) ->
  fits_u32 (el_off e + green_len (el_green e)) = true.
Proof.
  intros H Hin. destruct (source_file_inv _ _ H) as (ls & fs & a & v & Hp & _ & Hg & _). rewrite Hg in Hin.
  exact (fits_le _ _ (parsed_in_text _ _ _ _ _ Hp Hin) (pd_fits _ _ _ _ Hp)).
Qed.

(** * C24 Escape validation is exact *)
Theorem C24_short_string : forall t p e q body segs, source_file_parse t = Ok p -> In e (el_descendants (root_elem (pa_green p))) ->
  el_green e = GNode KLiteral [GTok KStr ([q] ++ body ++ [q])] -> quote_char q -> segmented body segs ->
  exists rs, validate_node e = Ok (map (mkErr "Invalid escape sequence") rs) /\ bad_ranges (el_off e + 1) segs rs.
Proof.
  intros t p e q body segs H Hin Hg Hq Hs. pose proof (parsed_fits _ _ _ H Hin) as Hf. rewrite Hg in Hf.
  destruct e as [off g]. cbn [el_green el_off] in *. subst g. unfold green_len in Hf. cbn [green_text flat_map] in Hf. rewrite app_nil_r in Hf.
  apply (validate_str off ([q] ++ body ++ [q]) 1 body segs (unquote_short q body Hq) Hs Hf).
  rewrite !blen_app, blen_cons. pose proof (utf8_len_pos q). cbn [blen]. lia.
Qed.
Print Assumptions C24_short_string.

Theorem C24_long_string : forall t p e n body segs, source_file_parse t = Ok p -> In e (el_descendants (root_elem (pa_green p))) ->
  el_green e = GNode KLiteral [GTok KStr (long_open n ++ body ++ long_close n)] -> segmented body segs ->
  exists rs, validate_node e = Ok (map (mkErr "Invalid escape sequence") rs) /\ bad_ranges (el_off e + (2 + n)) segs rs.
Proof.
  intros t p e n body segs H Hin Hg Hs. pose proof (parsed_fits _ _ _ H Hin) as Hf. rewrite Hg in Hf.
  destruct e as [off g]. cbn [el_green el_off] in *. subst g. unfold green_len in Hf. cbn [green_text flat_map] in Hf. rewrite app_nil_r in Hf.
  apply (validate_str off _ (2 + n) body segs (unquote_long n body) Hs Hf).
  assert (E : blen (long_open n) = 2 + n).
  { unfold long_open. rewrite !blen_app. assert (Hr : forall k, blen (repeat 61%N k) = k) by (induction k as [|k IHk]; [reflexivity|]; cbn [repeat]; rewrite blen_cons, IHk; reflexivity).
    rewrite Hr. change (blen (txt "[")) with 1. lia. }
  rewrite !blen_app, E. lia.
Qed.
Print Assumptions C24_long_string.

(** Unclosed short strings are not checked; nor are other literals. *)
Theorem C24_unchecked : forall t p e, source_file_parse t = Ok p -> In e (el_descendants (root_elem (pa_green p))) -> el_kind e = KLiteral ->
  (forall x, el_green e = GNode KLiteral [GTok KStr x] -> exists q m, x = q :: m /\ quote_char q /\ (last x 0%N <> q \/ m = [])) ->
  validate_node e = Ok [].
Proof.
  intros t p e H Hin Hk Hx. destruct (source_file_inv _ _ H) as (ls & fs & a & v & Hp & _ & Hg & _). rewrite Hg in Hin.
  destruct (parsed_literal _ _ _ _ _ Hp Hin Hk) as (k & x & c & r & Hl & Hge & Hrt & Hoff).
  unfold validate_node. rewrite Hk. unfold validate_literal, literal_kind_of. destruct e as [off g]. cbn [el_green el_off] in *. subst g.
  rewrite (literal_token_one _ _ _ (literal_nontriv _ Hl)). cbn [rbind]. unfold el_kind. cbn [el_green green_kind]. cbn in Hl.
  repeat destruct Hl as [<-|Hl]; cbn [rbind]; try reflexivity; [|destruct Hl].
  destruct (Hx x eq_refl) as (q & m & -> & Hq & Hm). cbn [green_text]. rewrite (unquote_short_open q m Hq Hm). reflexivity.
Qed.
Print Assumptions C24_unchecked.

(** Every body has a segmentation, so the two theorems cover every string literal of their form. *)
Theorem C24_segmentation_exists : forall body, exists segs, segmented body segs.
Proof. exact segmented_total. Qed.
Print Assumptions C24_segmentation_exists.

Example C24_case : match source_file_parse (txt "x = 'a\qb\n\!'") with
  | Ok p => pa_errors p = [mkErr "Invalid escape sequence" (mkRange 6 8); mkErr "Invalid escape sequence" (mkRange 11 13)]
  | _ => False end.
Proof. vm_compute. reflexivity. Qed.

(** * C25 Lua escapes: false for decimal escapes *)
Theorem C25_supported_escapes_partial : forall t p e q body segs, source_file_parse t = Ok p -> In e (el_descendants (root_elem (pa_green p))) ->
  el_green e = GNode KLiteral [GTok KStr ([q] ++ body ++ [q])] -> quote_char q -> segmented body segs ->
  Forall (fun s => match s with Plain _ => True | Esc c => lua_escape c /\ c <> 10%N /\ ~ digit c | Dangling => False end) segs -> validate_node e = Ok [].
Proof.
  intros t p e q body segs H Hin Hg Hq Hs HF. destruct (C24_short_string _ _ _ _ _ _ H Hin Hg Hq Hs) as (rs & -> & R).
  enough (rs = []) by (subst; reflexivity). clear -R HF. revert HF. induction R as [|pos s l rs Hb R IH|pos s l rs Hb R IH]; intros HF; [reflexivity| |].
  - inversion HF; subst. auto.
  - exfalso. inversion HF as [|s' l' HS HL]; subst. destruct s as [c|c|]; auto. apply Hb.
    destruct HS as ([Hc|[Hc|Hc]] & C2 & C3); [|contradiction|contradiction]. cbn in Hc |- *. tauto.
Qed.
Print Assumptions C25_supported_escapes_partial.

Theorem C25_refuted : ~ (forall t p e q body segs, source_file_parse t = Ok p -> In e (el_descendants (root_elem (pa_green p))) ->
  el_green e = GNode KLiteral [GTok KStr ([q] ++ body ++ [q])] -> quote_char q -> segmented body segs ->
  Forall (fun s => match s with Plain _ => True | Esc c => lua_escape c | Dangling => False end) segs -> validate_node e = Ok []).
Proof.
  intros H. destruct (source_file_parse (txt "x='\065'")) as [p| |] eqn:E; [|vm_compute in E; discriminate|vm_compute in E; discriminate].
  set (e := mkElem 2 (GNode KLiteral [GTok KStr (txt "'\065'")])).
  assert (Hin : In e (el_descendants (root_elem (pa_green p)))). { vm_compute in E. injection E as <-. vm_compute. auto 12. }
  specialize (H _ _ e 39%N (txt "\065") [Esc 48%N; Plain 54%N; Plain 53%N] E Hin eq_refl (or_introl eq_refl)).
  assert (G : validate_node e = Ok []).
  { apply H; [split; [repeat split; discriminate|reflexivity]|]. apply Forall_cons; [right; right; unfold digit; lia|].
    apply Forall_cons; [exact I|]. apply Forall_cons; [exact I|]. apply Forall_nil. }
  vm_compute in G. discriminate.
Qed.
Print Assumptions C25_refuted.

(** * C26 Expression statements: false when a parenthesised expression follows a call *)
Lemma children_sub t p e : source_file_parse t = Ok p -> In e (el_descendants (root_elem (pa_green p))) ->
  el_kind e <> KSourceFile -> el_kind e <> KBlock ->
  exists ls fs a, parsed t ls fs a /\ pa_green p = root_of a /\ In e (descs 0 (dr_green a)).
Proof.
  intros H Hin H1 H2. destruct (source_file_inv _ _ H) as (ls & fs & a & v & Hp & _ & Hg & _). rewrite Hg, root_descs in Hin.
  destruct Hin as [<-|[<-|Hin]]; [now elim H1|now elim H2|]. exists ls, fs, a. auto.
Qed.

Lemma expr_cast_kinds k : (In k expr_kinds \/ k = KError) -> k <> KParenExpr -> k <> KError -> expr_can_cast k = true.
Proof. intros [H|H] H1 H2; [|contradiction]. cbn in H. repeat destruct H as [<-|H]; try reflexivity; try congruence. destruct H. Qed.
Lemma filter_all {A} (f : A -> bool) l : (forall x, In x l -> f x = true) -> filter f l = l.
Proof. induction l as [|x l IH]; intros H; [reflexivity|]. cbn [filter]. rewrite (H x (or_introl eq_refl)), IH; [reflexivity|]. intros; apply H; now right. Qed.
Lemma filter_none {A} (f : A -> bool) l : (forall x, In x l -> f x = false) -> filter f l = [].
Proof. induction l as [|x l IH]; intros H; [reflexivity|]. cbn [filter]. rewrite (H x (or_introl eq_refl)). apply IH. intros; apply H; now right. Qed.
Lemma multival_all t ls fs a mv : parsed t ls fs a -> In mv (descs 0 (dr_green a)) -> el_kind mv = KMultivalExpr ->
  (forall c, In c (el_children mv) -> el_kind c <> KParenExpr /\ el_kind c <> KError) -> multival_exprs mv = el_children mv.
Proof.
  intros H Hin Hk Hc. destruct (parsed_children _ _ _ _ _ H Hin) as (f & _ & Hn & HL & _). rewrite Hk in HL.
  unfold multival_exprs, ast_children. apply filter_all. intros c Hcin. destruct (Hc c Hcin) as [C1 C2]. apply expr_cast_kinds; auto.
  specialize (HL eq_refl). rewrite <- Hn in HL. unfold exprs_ok in HL. rewrite Forall_forall in HL. apply HL. now apply in_map.
Qed.
Lemma call_kind c : expr_is_call c = true <-> In (el_kind c) call_kinds.
Proof. unfold expr_is_call. cbn. split; [destruct (el_kind c); try discriminate; auto|intros [<-|[<-|[]]]; reflexivity]. Qed.

Theorem C26_expression_statements_partial : forall t p e, source_file_parse t = Ok p -> In e (el_descendants (root_elem (pa_green p))) ->
  el_kind e = KExprStmt -> exists mv, el_children e = [mv] /\ el_kind mv = KMultivalExpr /\
  ((forall c, In c (el_children mv) -> el_kind c <> KParenExpr /\ el_kind c <> KError) ->
   (validate_node e = Ok [] <-> exists c, el_children mv = [c] /\ In (el_kind c) call_kinds) /\
   exists tail, validate_node e = Ok (map (fun c => mkErr "Expression statements can only be call expressions" (el_range c))
       (filter (fun c => negb (existsb (kind_eqb (el_kind c)) call_kinds)) (el_children mv)) ++ tail) /\ length tail <= 1).
Proof.
  intros t p e H Hin Hk. destruct (children_sub _ _ _ H Hin) as (ls & fs & a & Hp & Hg & Hd); [congruence|congruence|].
  destruct (parsed_children _ _ _ _ _ Hp Hd) as (f & _ & Hn & _ & _ & HX & _). rewrite (HX Hk) in Hn.
  destruct (el_children e) as [|mv [|]] eqn:Ec; try discriminate Hn. injection Hn as Hmv. exists mv. split; [reflexivity|]. split; [exact Hmv|].
  intros Hc. assert (Hmd : In mv (descs 0 (dr_green a))) by (apply (parsed_child _ _ _ _ e mv Hp Hd); rewrite Ec; now left).
  pose proof (multival_all _ _ _ _ _ Hp Hmd Hmv Hc) as Hall.
  assert (Em : expr_stmt_multival e = Some mv).
  { unfold expr_stmt_multival, ast_child, ast_children. rewrite Ec. cbn [filter]. unfold is_kind. rewrite Hmv. reflexivity. }
  unfold validate_node. rewrite Hk. unfold validate_expr_stmt. rewrite Em, Hall.
  assert (Hcb : forall c, negb (existsb (kind_eqb (el_kind c)) call_kinds) = negb (expr_is_call c)).
  { intros c. unfold expr_is_call. destruct (el_kind c); reflexivity. }
  split.
  - set (l := el_children mv). split.
    + intros E. injection E as E. apply app_eq_nil in E as [E1 E2]. apply app_eq_nil in E2 as [E2 E3].
      destruct (length (filter expr_is_call l) =? 0) eqn:L0; [discriminate|]. destruct (1 <? length (filter expr_is_call l)) eqn:L1; [discriminate|].
      apply Nat.eqb_neq in L0. apply Nat.ltb_ge in L1. apply map_eq_nil in E1.
      assert (HF : filter expr_is_call l = l).
      { apply filter_all. intros x Hx. destruct (expr_is_call x) eqn:Ex; [reflexivity|]. assert (HI : In x (filter (fun x => negb (expr_is_call x)) l)) by (apply filter_In; rewrite Ex; auto).
        rewrite E1 in HI. destruct HI. }
      rewrite HF in *. destruct l as [|c [|]]; cbn in L0, L1; try lia. exists c. split; [reflexivity|]. apply call_kind.
      cbn [filter] in HF. destruct (expr_is_call c); [reflexivity|discriminate].
    + intros (c & -> & Hcc). apply call_kind in Hcc. cbn [filter]. rewrite Hcc. reflexivity.
  - eexists. split; [do 2 f_equal; f_equal; apply filter_ext; intros c; symmetry; apply Hcb|].
    destruct (_ =? 0) eqn:L0; [|destruct (1 <? _); cbn; lia]. apply Nat.eqb_eq in L0. rewrite L0. cbn. lia.
Qed.
Print Assumptions C26_expression_statements_partial.

Theorem C26_refuted : exists p, source_file_parse (txt "f(), (x)") = Ok p /\ pa_errors p = [] /\
  exists e mv, In e (el_descendants (root_elem (pa_green p))) /\ el_kind e = KExprStmt /\ el_children e = [mv] /\
    map el_kind (el_children mv) = [KCallExpr; KParenExpr].
Proof.
  destruct (source_file_parse (txt "f(), (x)")) as [p| |] eqn:E; [|vm_compute in E; discriminate|vm_compute in E; discriminate].
  exists p. split; [reflexivity|]. vm_compute in E. injection E as <-. split; [reflexivity|].
  match goal with |- exists e mv, In e (el_descendants (root_elem (pa_green {| pa_green := GNode _ [GNode _ [?s]]; pa_errors := _ |}))) /\ _ =>
    exists (mkElem 0 s); match s with GNode _ [?m] => exists (mkElem 0 m) end end.
  repeat split; vm_compute; auto.
Qed.
Print Assumptions C26_refuted.

Example C26_case : match source_file_parse (txt "f(1) a.b:c'x' x, f()") with
  | Ok p => map e_msg (pa_errors p) = ["Expression statements can only be call expressions"%string] | _ => False end.
Proof. vm_compute. reflexivity. Qed.

(** * C27 Assignment targets: false for parenthesised targets *)
Theorem C27_assignment_targets_partial : forall t p e, source_file_parse t = Ok p -> In e (el_descendants (root_elem (pa_green p))) ->
  el_kind e = KAssignStmt -> exists lhs rhs, el_children e = [lhs; rhs] /\ el_kind lhs = KMultivalExpr /\ el_kind rhs = KMultivalExpr /\
  ((forall c, In c (el_children lhs) -> el_kind c <> KParenExpr /\ el_kind c <> KError) ->
   (validate_node e = Ok [] <-> forall c, In c (el_children lhs) -> In (el_kind c) target_kinds) /\
   validate_node e = Ok (map (fun c => mkErr "Can only assign name reference or index expression" (el_range c))
       (filter (fun c => negb (existsb (kind_eqb (el_kind c)) target_kinds)) (el_children lhs)))).
Proof.
  intros t p e H Hin Hk. destruct (children_sub _ _ _ H Hin) as (ls & fs & a & Hp & Hg & Hd); [congruence|congruence|].
  destruct (parsed_children _ _ _ _ _ Hp Hd) as (f & _ & Hn & _ & _ & _ & HX & _). rewrite (HX Hk) in Hn.
  destruct (el_children e) as [|l [|r [|]]] eqn:Ec; try discriminate Hn. injection Hn as Hl Hr. exists l, r. split; [reflexivity|]. split; [exact Hl|]. split; [exact Hr|].
  intros Hc. assert (Hmd : In l (descs 0 (dr_green a))) by (apply (parsed_child _ _ _ _ e l Hp Hd); rewrite Ec; now left).
  pose proof (multival_all _ _ _ _ _ Hp Hmd Hl Hc) as Hall.
  assert (EA : ast_children (is_kind KMultivalExpr) e = [l; r]).
  { unfold ast_children. rewrite Ec. cbn [filter]. unfold is_kind. rewrite Hl, Hr. reflexivity. }
  unfold validate_node. rewrite Hk. unfold validate_assign, assign_lhs, assign_rhs. rewrite EA. cbn [nth_error]. rewrite Hall.
  assert (Hcb : forall c, negb (assignable c) = negb (existsb (kind_eqb (el_kind c)) target_kinds)).
  { intros c. unfold assignable. destruct (el_kind c); reflexivity. }
  assert (HF : filter (fun x => negb (assignable x)) (el_children l) = filter (fun c => negb (existsb (kind_eqb (el_kind c)) target_kinds)) (el_children l)).
  { apply filter_ext. exact Hcb. }
  rewrite HF. split; [|reflexivity]. split.
  - intros E c Hcin. injection E as E. apply map_eq_nil in E.
    destruct (existsb (kind_eqb (el_kind c)) target_kinds) eqn:Ex.
    + apply existsb_exists in Ex as (k & Hk1 & Hk2). apply kind_eqb_eq in Hk2. now rewrite Hk2.
    + assert (HI : In c (filter (fun c => negb (existsb (kind_eqb (el_kind c)) target_kinds)) (el_children l))) by (apply filter_In; rewrite Ex; auto).
      destruct (eq_ind _ (In c) HI _ E).
  - intros Hall2. rewrite (filter_none _ (el_children l)); [reflexivity|]. intros c Hcin. apply negb_false_iff, existsb_exists. exists (el_kind c). split; [exact (Hall2 c Hcin)|apply kind_eqb_refl].
Qed.
Print Assumptions C27_assignment_targets_partial.

Theorem C27_refuted : exists p, source_file_parse (txt "(a) = 1") = Ok p /\ pa_errors p = [] /\
  exists e lhs rhs, In e (el_descendants (root_elem (pa_green p))) /\ el_kind e = KAssignStmt /\ el_children e = [lhs; rhs] /\
    map el_kind (el_children lhs) = [KParenExpr].
Proof.
  destruct (source_file_parse (txt "(a) = 1")) as [p| |] eqn:E; [|vm_compute in E; discriminate|vm_compute in E; discriminate].
  exists p. split; [reflexivity|]. vm_compute in E. injection E as <-. split; [reflexivity|].
  match goal with |- exists e l r, In e (el_descendants (root_elem (pa_green {| pa_green := GNode _ [GNode _ [?s]]; pa_errors := _ |}))) /\ _ =>
    exists (mkElem 0 s); match s with GNode _ [?m; _; _; _; ?r] => exists (mkElem 0 m), (mkElem 6 r) end end.
  repeat split; vm_compute; auto.
Qed.
Print Assumptions C27_refuted.

Example C27_case : match source_file_parse (txt "a, b.c, d[1], f() = 1") with
  | Ok p => pa_errors p = [mkErr "Can only assign name reference or index expression" (mkRange 14 17)] | _ => False end.
Proof. vm_compute. reflexivity. Qed.

(** * C29 Accessors: false for [do] blocks and parenthesised operands *)
Theorem C29_block_stmts_partial : forall t p e, source_file_parse t = Ok p -> In e (el_descendants (root_elem (pa_green p))) ->
  el_kind e = KBlock ->
  (forall c, In c (el_children e) -> In (el_kind c) stmt_kinds \/ el_kind c = KError) /\
  block_stmts e = filter (fun c => negb (kind_eqb (el_kind c) KDoStmt) && negb (kind_eqb (el_kind c) KError)) (el_children e).
Proof.
  intros t p e H Hin Hk. destruct (source_file_inv _ _ H) as (ls & fs & a & v & Hp & _ & Hg & _). rewrite Hg, root_descs in Hin.
  assert (HS : forall c, In c (el_children e) -> In (el_kind c) stmt_kinds \/ el_kind c = KError).
  { assert (HF : stmts_ok (map el_kind (el_children e))).
    { destruct Hin as [<-|[<-|Hin]]; [discriminate Hk| |].
      - unfold el_children, el_children_with_tokens. cbn [el_green el_off]. rewrite place_kinds, filter_app, gtok_nodes, app_nil_r.
        rewrite (Dress_nkinds _ _ _ _ (parsed_Dress _ _ _ _ Hp)). exact (Tree_shape _ _ _ (pd_tree _ _ _ _ Hp)).
      - destruct (parsed_children _ _ _ _ _ Hp Hin) as (f & _ & Hn & _ & HX & _). rewrite Hn. exact (HX Hk). }
    intros c Hc. unfold stmts_ok in HF. rewrite Forall_forall in HF. apply HF. now apply in_map. }
  split; [exact HS|]. unfold block_stmts, ast_children. apply filter_ext_in. intros c Hc. destruct (HS c Hc) as [Hs|Hs].
  - cbn in Hs. repeat destruct Hs as [<-|Hs]; try reflexivity. destruct Hs.
  - rewrite Hs. reflexivity.
Qed.
Print Assumptions C29_block_stmts_partial.

Theorem C29_infix_operands_partial : forall t p e, source_file_parse t = Ok p -> In e (el_descendants (root_elem (pa_green p))) ->
  el_kind e = KInfixExpr -> (forall c, In c (el_children e) -> el_kind c <> KParenExpr /\ el_kind c <> KError) ->
  forall l r, el_children e = [l; r] -> infix_lhs e = Some l /\ infix_rhs e = Some r.
Proof.
  intros t p e H Hin Hk Hc l r E. destruct (children_sub _ _ _ H Hin) as (ls & fs & a & Hp & Hg & Hd); [congruence|congruence|].
  destruct (parsed_children _ _ _ _ _ Hp Hd) as (f & _ & Hn & _ & _ & _ & _ & HX). destruct (HX Hk) as (x & b & o & -> & _ & Hx & Hb).
  assert (HA : ast_children expr_can_cast e = [l; r]).
  { unfold ast_children. rewrite filter_all; [exact E|]. intros c Hcin. destruct (Hc c Hcin) as [C1 C2]. apply expr_cast_kinds; auto.
    apply (in_map el_kind) in Hcin. rewrite Hn in Hcin. change (nkinds (x :: PTok o :: b)) with (tkinds x ++ nkinds b) in Hcin.
    change (nkinds [x]) with (tkinds x ++ []) in Hx. rewrite app_nil_r in Hx. unfold exprs_ok in *. rewrite Forall_forall in Hx, Hb.
    apply in_app_iff in Hcin as [Hcin|Hcin]; auto. }
  unfold infix_lhs, infix_rhs. rewrite HA. auto.
Qed.
Print Assumptions C29_infix_operands_partial.

(** For every infix node of every file: the accessors are the first and second child node that is neither
    parenthesised nor an error; so both are right iff neither operand is of those kinds. *)
Theorem C29_infix_exact : forall t p e, source_file_parse t = Ok p -> In e (el_descendants (root_elem (pa_green p))) ->
  el_kind e = KInfixExpr ->
  let seen := filter (fun c => negb (kind_eqb (el_kind c) KParenExpr) && negb (kind_eqb (el_kind c) KError)) (el_children e) in
  infix_lhs e = nth_error seen 0 /\ infix_rhs e = nth_error seen 1 /\
  (forall l r, el_children e = [l; r] ->
    (infix_lhs e = Some l /\ infix_rhs e = Some r <->
     (el_kind l <> KParenExpr /\ el_kind l <> KError) /\ (el_kind r <> KParenExpr /\ el_kind r <> KError))).
Proof.
  intros t p e H Hin Hk seen. destruct (children_sub _ _ _ H Hin) as (ls & fs & a & Hp & Hg & Hd); [congruence|congruence|].
  destruct (parsed_children _ _ _ _ _ Hp Hd) as (f & _ & Hn & _ & _ & _ & _ & HX). destruct (HX Hk) as (x & b & o & -> & _ & Hx & Hb).
  assert (HK : forall c, In c (el_children e) -> In (el_kind c) expr_kinds \/ el_kind c = KError).
  { intros c Hcin. apply (in_map el_kind) in Hcin. rewrite Hn in Hcin. change (nkinds (x :: PTok o :: b)) with (tkinds x ++ nkinds b) in Hcin.
    change (nkinds [x]) with (tkinds x ++ []) in Hx. rewrite app_nil_r in Hx. unfold exprs_ok in *. rewrite Forall_forall in Hx, Hb.
    apply in_app_iff in Hcin as [Hcin|Hcin]; auto. }
  assert (HS : ast_children expr_can_cast e = seen).
  { unfold ast_children, seen. apply filter_ext_in. intros c Hc. destruct (HK c Hc) as [Q|Q].
    - cbn in Q. repeat destruct Q as [<-|Q]; try reflexivity. destruct Q.
    - rewrite Q. reflexivity. }
  unfold infix_lhs, infix_rhs. rewrite HS. split; [reflexivity|split; [reflexivity|]]. intros l r E. unfold seen. rewrite E. cbn [filter].
  assert (B : forall k, negb (kind_eqb k KParenExpr) && negb (kind_eqb k KError) = true <-> k <> KParenExpr /\ k <> KError).
  { intros k. rewrite andb_true_iff, !negb_true_iff, !kind_eqb_neq. reflexivity. }
  rewrite <- !B. destruct (_ && _) eqn:B1; destruct (negb (kind_eqb (el_kind r) KParenExpr) && _) eqn:B2; cbn [nth_error];
    (split; [intros [X1 X2]|intros [X1 X2]]); try discriminate; auto.
Qed.
Print Assumptions C29_infix_exact.

Theorem C29_refuted_do : exists p, source_file_parse (txt "do end x()") = Ok p /\ pa_errors p = [] /\
  exists b, In b (el_descendants (root_elem (pa_green p))) /\ map el_kind (el_children b) = [KDoStmt; KExprStmt] /\ map el_kind (block_stmts b) = [KExprStmt].
Proof.
  destruct (source_file_parse (txt "do end x()")) as [p| |] eqn:E; [|vm_compute in E; discriminate|vm_compute in E; discriminate].
  exists p. split; [reflexivity|]. vm_compute in E. injection E as <-. split; [reflexivity|].
  match goal with |- exists b, In b (el_descendants (root_elem (pa_green {| pa_green := GNode _ [?b]; pa_errors := _ |}))) /\ _ => exists (mkElem 0 b) end.
  repeat split; vm_compute; auto.
Qed.
Print Assumptions C29_refuted_do.

Theorem C29_refuted_infix : exists p, source_file_parse (txt "x = (a) + b") = Ok p /\ pa_errors p = [] /\
  exists e l r, In e (el_descendants (root_elem (pa_green p))) /\ el_kind e = KInfixExpr /\ el_children e = [l; r] /\
    infix_lhs e = Some r /\ infix_rhs e = None.
Proof.
  destruct (source_file_parse (txt "x = (a) + b")) as [p| |] eqn:E; [|vm_compute in E; discriminate|vm_compute in E; discriminate].
  exists p. split; [reflexivity|]. vm_compute in E. injection E as <-. split; [reflexivity|].
  match goal with |- context [GNode KInfixExpr [?l; ?s1; ?o; ?s2; ?r]] =>
    exists (mkElem 4 (GNode KInfixExpr [l; s1; o; s2; r])), (mkElem 4 l), (mkElem 10 r) end.
  repeat split; vm_compute; auto 10.
Qed.
Print Assumptions C29_refuted_infix.

Example C29_case : match source_file_parse (txt "x = a * 2 return x") with
  | Ok p => map (fun b => map el_kind (block_stmts b)) (filter (fun e => kind_eqb (el_kind e) KBlock) (el_descendants (root_elem (pa_green p))))
            = [[KAssignStmt; KReturnStmt]]
  | _ => False end.
Proof. vm_compute. reflexivity. Qed.
