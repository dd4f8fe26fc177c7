(** PropsExact.v — exact forms of the validation properties C24–C28 and C30. Vocabulary: ValidSpec.v. *)
From Verif Require Import Base SyntaxKind TokenSet Lexer LexSpec LexerDirect LexerProofs LexerClass BindingPowers Parser Grammar
  Event EventProofs Tree TreeSink ParserTree SinkProofs GrammarSpec ParserTotal ParserTotal2 Ast ParseSpec ParseProofs StrictTree DressProofs
  Validation ValidProofs ValidSpec ValidExact PropsLexer PropsParser PropsValid.

(** * C24 for every string token *)
Lemma last_is_last c x : c <> 0%N -> last_is c x = true <-> last x 0%N = c.
Proof.
  intros Hc. destruct x as [|d x _] using rev_ind; [cbn; split; [discriminate|congruence]|]. rewrite last_last. rewrite last_is_app. rewrite N.eqb_eq. split; congruence.
Qed.
Lemma last_is_false c x : c <> 0%N -> last x 0%N <> c -> last_is c x = false.
Proof. intros Hc H. destruct (last_is c x) eqn:E; [|reflexivity]. exfalso. apply H. exact (proj1 (last_is_last c x Hc) E). Qed.
(** What the validator removes at the end. *)
Definition cut_end (Y : text) : text :=
  if last_is rbr Y then
    let a := removelast Y in
    let back := length (take_while (N.eqb eqs) (rev a)) in
    let b := firstn (length a - back) a in
    if last_is rbr b then removelast b else b
  else Y.
Lemma cut_eqs b k : last b 0%N <> eqs -> let a := b ++ repeat eqs k in
  firstn (length a - length (take_while (N.eqb eqs) (rev a))) a = b.
Proof.
  intros Hb a. assert (E : take_while (N.eqb eqs) (rev a) = repeat eqs k).
  { unfold a. rewrite rev_app_distr, rev_repeat. apply take_while_repeat. destruct b as [|c b _] using rev_ind; [reflexivity|]. rewrite rev_app_distr. cbn [rev app hd_is].
    rewrite last_last in Hb. now apply N.eqb_neq. }
  rewrite E, repeat_length. unfold a. rewrite app_length, repeat_length. replace (length b + k - k) with (length b + 0) by lia. rewrite firstn_app_2. apply app_nil_r.
Qed.
Lemma cut_gen (b : text) k : last b 0%N <> eqs -> forall Y : text, Y = b ++ repeat eqs k ++ [rbr] -> cut_end Y = if last_is rbr b then removelast b else b.
Proof.
  intros Hb Y E. unfold cut_end. assert (E' : Y = (b ++ repeat eqs k) ++ [rbr]) by now rewrite <- app_assoc. rewrite E', last_is_app, N.eqb_refl, removelast_last. cbv zeta.
  pose proof (cut_eqs b k Hb) as HC. cbv zeta in HC. match goal with |- context [firstn ?n ?l] => change (firstn n l = b) in HC; rewrite HC end. reflexivity.
Qed.
Lemma cut_end_ok body c : long_end body c -> cut_end (body ++ c) = body.
Proof.
  intros H. destruct H as [body k|body k H1 H2|body H].
  - assert (E : last_is rbr (body ++ [rbr]) = true) by now rewrite last_is_app, N.eqb_refl.
    rewrite (cut_gen (body ++ [rbr]) k); [rewrite E; apply removelast_last|rewrite last_last; discriminate|]. rewrite <- app_assoc. reflexivity.
  - rewrite (cut_gen body k); [now rewrite last_is_false|exact H1|reflexivity].
  - rewrite app_nil_r. unfold cut_end. now rewrite last_is_false.
Qed.
Lemma unquote_body x o body : string_body x o body -> unquote x = Ok (Some (o, body)).
Proof.
  destruct 1 as [q body Hq|n body c H|n body c H Hs]; [now apply unquote_short| |].
  - change (txt "[") with [lbr]. change 61%N with eqs. cbn [app]. unfold unquote. change ((lbr =? squote)%N || (lbr =? dquote)%N) with false. change (lbr =? lbr)%N with true. cbn iota.
    rewrite take_while_repeat by reflexivity. rewrite repeat_length.
    rewrite skipn_app, repeat_length, Nat.sub_diag, skipn_all2 by (rewrite repeat_length; lia). cbn [app skipn]. change (lbr =? lbr)%N with true. cbn iota.
    do 3 f_equal. exact (cut_end_ok _ _ H).
  - change (txt "[") with [lbr]. change 61%N with eqs. cbn [app]. unfold unquote. change ((lbr =? squote)%N || (lbr =? dquote)%N) with false. change (lbr =? lbr)%N with true. cbn iota.
    rewrite take_while_repeat by (destruct (body ++ c) as [|d r]; [reflexivity|]; cbn [hd_is]; apply N.eqb_neq; intros Hd; apply Hs; cbn; right; first [exact Hd|symmetry; exact Hd]). rewrite repeat_length.
    rewrite skipn_app, repeat_length, Nat.sub_diag, skipn_all2 by (rewrite repeat_length; lia). cbn [app skipn].
    destruct (body ++ c) as [|d r] eqn:E.
    + apply app_eq_nil in E as [-> ->]. reflexivity.
    + assert (Hd : (d =? lbr)%N = false) by (apply N.eqb_neq; intros Hd; apply Hs; cbn; left; exact Hd). rewrite Hd. rewrite <- E. do 3 f_equal. exact (cut_end_ok _ _ H).
Qed.
Lemma long_end_exists m : exists body c, m = body ++ c /\ long_end body c.
Proof.
  destruct (N.eq_dec (last m 0%N) 93) as [E|E]; [|exists m, []; split; [now rewrite app_nil_r|now apply le_none]].
  destruct m as [|d m _] using rev_ind; [discriminate|]. rewrite last_last in E. subst d.
  assert (HT : exists b k, m = b ++ repeat 61%N k /\ last b 0%N <> 61%N).
  { induction m as [|d m (b & k & IH1 & IH2)] using rev_ind; [exists [], 0; split; [reflexivity|discriminate]|].
    destruct (N.eq_dec d 61) as [->|Hd]; [|exists (m ++ [d]), 0; split; [now rewrite app_nil_r|now rewrite last_last]].
    exists b, (S k). split; [|exact IH2]. rewrite IH1, <- app_assoc. f_equal. now rewrite <- repeat_cons. }
  destruct HT as (b & k & -> & Hb). destruct (N.eq_dec (last b 0%N) 93) as [E|E].
  - destruct b as [|d b _] using rev_ind; [discriminate|]. rewrite last_last in E. subst d. exists b, (txt "]" ++ repeat 61%N k ++ txt "]"). split; [now rewrite <- !app_assoc|apply le_full].
  - exists b, (repeat 61%N k ++ txt "]"). split; [now rewrite <- app_assoc|now apply le_half].
Qed.
Lemma body_exists x c r : x = c :: r -> c = 91%N -> exists o body, string_body x o body.
Proof.
  intros -> ->. assert (HT : exists n m, r = repeat 61%N n ++ m /\ ~ starts (fun d => d = 61%N) m).
  { induction r as [|d r (n & m & IH1 & IH2)]; [exists 0, []; split; [reflexivity|intros []]|]. destruct (N.eq_dec d 61) as [->|Hd].
    - exists (S n), m. split; [cbn; now rewrite IH1|exact IH2].
    - exists 0, (d :: r). split; [reflexivity|exact Hd]. }
  destruct HT as (n & m & -> & Hm). destruct m as [|d m].
  - exists (2 + n), []. change (91%N :: repeat 61%N n ++ []) with (txt "[" ++ repeat 61%N n ++ [] ++ []). apply sb_half; [apply le_none; discriminate|intros []].
  - destruct (N.eq_dec d 91) as [->|Hd].
    + destruct (long_end_exists m) as (body & c & -> & H). exists (2 + n), body. exact (sb_long n body c H).
    + destruct (long_end_exists (d :: m)) as (body & c & E & H). exists (2 + n), body. rewrite E in *. apply (sb_half n body c H). rewrite <- E. cbn. intros [?|H0]; [contradiction|]. apply Hm. rewrite <- E. exact H0.
Qed.

(** Every string token has its errors exactly where its body has bad segments. *)
Theorem C24_every_string : forall t p e x o body segs, source_file_parse t = Ok p -> In e (el_descendants (root_elem (pa_green p))) ->
  el_green e = GNode KLiteral [GTok KStr x] -> string_body x o body -> segmented body segs ->
  exists rs, validate_node e = Ok (map (mkErr "Invalid escape sequence") rs) /\ bad_ranges (el_off e + o) segs rs.
Proof.
  intros t p e x o body segs H Hin Hg Hb Hs. apply unquote_body in Hb.
  destruct (source_file_inv _ _ H) as (ls & fs & a & v & Hp & Hv & E & _). rewrite E in Hin.
  destruct (validate_list_map _ _ Hv) as (bs & Hbs & _). assert (Hok : exists es, validate_node e = Ok es).
  { apply (in_map validate_node) in Hin. unfold validate in Hbs. rewrite Hbs in Hin. apply in_map_iff in Hin as (es & <- & _). eauto. }
  destruct Hok as [es Hes]. rewrite Hes. destruct e as [off g]. cbn [el_green el_off] in *. subst g.
  unfold validate_node in Hes. change (el_kind _) with KLiteral in Hes. cbn iota in Hes. unfold validate_literal, literal_kind_of in Hes.
  rewrite literal_token_one in Hes by reflexivity. cbn [rbind] in Hes. change (el_kind _) with KStr in Hes. cbn iota in Hes. cbn [rbind el_green green_text el_off] in Hes.
  rewrite Hb in Hes. cbn [rbind] in Hes. apply rbind_ok in Hes as (u & _ & Hes). apply rbind_ok in Hes as (u' & _ & Hes).
  assert (Ee : unescape (S (length body)) 0 (off + o) body = es) by congruence. rewrite <- Ee.
  destruct (unescape_exact segs (S (length body)) 0 (off + o) body Hs (Nat.lt_succ_diag_r _)) as (rs & Er & R). exists rs. rewrite Er. split; [reflexivity|exact R].
Qed.
Print Assumptions C24_every_string.

(** These are all: a string token has a body, or is a short string that is not closed and has no errors here. *)
Theorem C24_string_forms : forall t p e x, source_file_parse t = Ok p -> In e (el_descendants (root_elem (pa_green p))) ->
  el_green e = GNode KLiteral [GTok KStr x] -> (exists o body, string_body x o body) \/ validate_node e = Ok [].
Proof.
  intros t p e x H Hin Hg. destruct (source_file_inv _ _ H) as (ls & fs & a & v & Hp & _ & E & _).
  assert (Hk : el_kind e = KLiteral) by (unfold el_kind; now rewrite Hg). pose proof Hin as Hin'. rewrite E in Hin'.
  destruct (parsed_literal _ _ _ _ _ Hp Hin' Hk) as (k & x' & c & r & _ & Hg' & Hrt & _). assert (Ek : k = KStr) by congruence. assert (Ex : x' = x) by congruence. subst k x'.
  destruct (rtok_in _ _ _ _ _ _ (pd_lex _ _ _ _ Hp) Hrt) as (_ & Hs & _). destruct (Hs eq_refl) as (d & y & Hx & Hd). cbn [snd] in Hx.
  assert (HQ : forall q, d = q -> quote_char q -> (exists o body, string_body x o body) \/ validate_node e = Ok []).
  { intros q -> Hq. destruct y as [|z y _] using rev_ind.
    - right. eapply C24_unchecked; eauto. intros x0 E0. assert (x0 = x) by congruence. subst x0. exists q, []. auto.
    - destruct (N.eq_dec z q) as [->|Hz]; [left; exists 1, y; rewrite Hx; exact (sb_short q y Hq)|right]. eapply C24_unchecked; eauto. intros x0 E0. assert (x0 = x) by congruence. subst x0.
      exists q, (y ++ [z]). split; [exact Hx|]. split; [exact Hq|]. left. rewrite Hx. change (q :: y ++ [z]) with ((q :: y) ++ [z]). now rewrite last_last. }
  destruct Hd as [Hd|[Hd|Hd]]; [apply (HQ _ Hd); now left|apply (HQ _ Hd); now right|]. left. exact (body_exists x d y Hx Hd).
Qed.
Print Assumptions C24_string_forms.

Example C24_half_case : match source_file_parse (txt "x = [=\q]=] y = [==[\!]=") with
  | Ok p => pa_errors p <> [] | _ => False end.
Proof. vm_compute. discriminate. Qed.
Example C24_half_body : string_body (txt "[=\q]=") 3 (txt "\q]=").
Proof. apply (sb_half 1 (txt "\q]=") []); [apply le_none; discriminate|cbn; intros [H|H]; discriminate]. Qed.

(** * C25, exactly *)
(** Of the strings Lua allows, those are reported that have a decimal escape or an escaped newline. *)
Theorem C25_exactly : forall t p e q body segs, source_file_parse t = Ok p -> In e (el_descendants (root_elem (pa_green p))) ->
  el_green e = GNode KLiteral [GTok KStr ([q] ++ body ++ [q])] -> quote_char q -> segmented body segs ->
  Forall (fun s => match s with Plain _ => True | Esc c => lua_escape c | Dangling => False end) segs ->
  (validate_node e <> Ok [] <-> exists c, In (Esc c) segs /\ (c = 10%N \/ digit c)).
Proof.
  intros t p e q body segs H Hin Hg Hq Hs HF. destruct (C24_short_string _ _ _ _ _ _ H Hin Hg Hq Hs) as (rs & -> & R).
  assert (HB : rs <> [] <-> exists c, In (Esc c) segs /\ (c = 10%N \/ digit c)).
  { clear -R HF. induction R as [pos|pos s l rs Hb R IH|pos s l rs Hb R IH].
    - split; [congruence|intros (c & [] & _)].
    - inversion HF as [|s' l' HS HL]; subst. rewrite (IH HL). split; intros (c & Hc & Hd); exists c; (split; [|exact Hd]); [now right|].
      destruct Hc as [->|Hc]; [|exact Hc]. exfalso. apply Hb. cbn [bad]. intros Hi. destruct Hd as [->|Hd]; [cbn in Hi; intuition discriminate|].
      unfold digit in Hd. cbn in Hi. repeat (destruct Hi as [<-|Hi]; [lia|]). destruct Hi.
    - inversion HF as [|s' l' HS HL]; subst. split; [|discriminate]. intros _. destruct s as [c|c|]; [destruct Hb| |destruct HS]. exists c. split; [now left|].
      destruct HS as [Hc|HS]; [|exact HS]. exfalso. apply Hb. cbn in Hc |- *. tauto. }
  rewrite <- HB. destruct rs; cbn [map]; split; congruence.
Qed.
Print Assumptions C25_exactly.
Example C25_exactly_case : match source_file_parse (txt "x = 'a\065\n'") with Ok p => map e_range (pa_errors p) = [mkRange 6 8] | _ => False end.
Proof. vm_compute. reflexivity. Qed.

(** * C26 and C27, exactly *)
(** The expressions validation looks at: all but those in parentheses and pieces of broken text. *)
Definition visible (l : list elem) : list elem := filter (fun c => negb (existsb (kind_eqb (el_kind c)) [KParenExpr; KError])) l.
Definition of_kind (ks : list kind) (c : elem) : bool := existsb (kind_eqb (el_kind c)) ks.
Lemma multival_visible t ls fs a mv : parsed t ls fs a -> In mv (descs 0 (dr_green a)) -> el_kind mv = KMultivalExpr -> multival_exprs mv = visible (el_children mv).
Proof.
  intros H Hin Hk. destruct (parsed_children _ _ _ _ _ H Hin) as (f & _ & Hn & HL & _). rewrite Hk in HL. specialize (HL eq_refl). rewrite <- Hn in HL.
  unfold exprs_ok in HL. unfold multival_exprs, ast_children, visible. clear Hn. revert HL. induction (el_children mv) as [|c l IH]; intros HL; [reflexivity|].
  cbn [map] in HL. inversion HL as [|k ks Hc HL']; subst. cbn [filter]. rewrite (IH HL').
  replace (expr_can_cast (el_kind c)) with (negb (existsb (kind_eqb (el_kind c)) [KParenExpr; KError])); [reflexivity|].
  destruct Hc as [Hc | ->]; [|reflexivity]. cbn in Hc. repeat (destruct Hc as [<-|Hc]; [reflexivity|]). destruct Hc.
Qed.
Lemma call_of_kind c : expr_is_call c = of_kind call_kinds c.
Proof. unfold expr_is_call, of_kind. destruct (el_kind c); reflexivity. Qed.
Lemma target_of_kind c : assignable c = of_kind target_kinds c.
Proof. unfold assignable, of_kind. destruct (el_kind c); reflexivity. Qed.

(** The errors of an expression statement: one for each visible expression that is no call, and one more unless exactly
    one is a call. *)
Theorem C26_exactly : forall t p e, source_file_parse t = Ok p -> In e (el_descendants (root_elem (pa_green p))) ->
  el_kind e = KExprStmt -> exists mv, el_children e = [mv] /\ el_kind mv = KMultivalExpr /\
  let calls := length (filter (of_kind call_kinds) (visible (el_children mv))) in
  validate_node e = Ok (map (fun c => mkErr "Expression statements can only be call expressions" (el_range c))
       (filter (fun c => negb (of_kind call_kinds c)) (visible (el_children mv))) ++
     match calls with
     | 0 => [mkErr "Expected a call expression" (el_range e)]
     | 1 => []
     | n => [mkErr ("Expected only one call expression, got " ++ show_nat n) (el_range e)]
     end).
Proof.
  intros t p e H Hin Hk. destruct (children_sub _ _ _ H Hin) as (ls & fs & a & Hp & Hg & Hd); [congruence|congruence|].
  destruct (parsed_children _ _ _ _ _ Hp Hd) as (f & _ & Hn & _ & _ & HX & _). rewrite (HX Hk) in Hn.
  destruct (el_children e) as [|mv [|]] eqn:Ec; try discriminate Hn. injection Hn as Hmv. exists mv. split; [reflexivity|]. split; [exact Hmv|].
  assert (Hmd : In mv (descs 0 (dr_green a))) by (apply (parsed_child _ _ _ _ e mv Hp Hd); rewrite Ec; now left).
  pose proof (multival_visible _ _ _ _ _ Hp Hmd Hmv) as Hall.
  assert (Em : expr_stmt_multival e = Some mv).
  { unfold expr_stmt_multival, ast_child, ast_children. rewrite Ec. cbn [filter]. unfold is_kind. rewrite Hmv. reflexivity. }
  unfold validate_node. rewrite Hk. unfold validate_expr_stmt. rewrite Em, Hall. cbv zeta.
  rewrite (filter_ext _ _ call_of_kind). rewrite (filter_ext (fun x => negb (expr_is_call x)) (fun c => negb (of_kind call_kinds c))) by (intros c; now rewrite call_of_kind).
  do 2 f_equal. destruct (length (filter (of_kind call_kinds) (visible (el_children mv)))) as [|[|n]]; reflexivity.
Qed.
Print Assumptions C26_exactly.
Lemma ok_inj {A} (a b : A) : Ok a = Ok b -> a = b. Proof. congruence. Qed.
(** So it is accepted when exactly one visible expression stands in it, and that is a call. *)
Theorem C26_accepted_exactly : forall t p e, source_file_parse t = Ok p -> In e (el_descendants (root_elem (pa_green p))) ->
  el_kind e = KExprStmt -> exists mv, el_children e = [mv] /\
  (validate_node e = Ok [] <-> exists c, visible (el_children mv) = [c] /\ In (el_kind c) call_kinds).
Proof.
  intros t p e H Hin Hk. destruct (C26_exactly _ _ _ H Hin Hk) as (mv & Hc & _ & Hv). cbv zeta in Hv. exists mv. split; [exact Hc|]. rewrite Hv. set (l := visible (el_children mv)). clearbody l.
  assert (HK : forall c, of_kind call_kinds c = true <-> In (el_kind c) call_kinds) by (intros c; rewrite <- call_of_kind; apply call_kind).
  split.
  - intros E. apply ok_inj in E. apply app_eq_nil in E as [E1 E2]. apply map_eq_nil in E1.
    assert (HF : filter (of_kind call_kinds) l = l).
    { apply filter_all. intros x Hx. destruct (of_kind call_kinds x) eqn:Ex; [reflexivity|]. assert (HI : In x (filter (fun c => negb (of_kind call_kinds c)) l)) by (apply filter_In; rewrite Ex; auto).
      rewrite E1 in HI. destruct HI. }
    rewrite HF in E2. destruct l as [|c [|]]; try discriminate E2. exists c. split; [reflexivity|]. apply HK. cbn [filter] in HF. destruct (of_kind call_kinds c); [reflexivity|discriminate].
  - intros (c & -> & Hcc). apply HK in Hcc. cbn [filter]. rewrite Hcc. reflexivity.
Qed.
Print Assumptions C26_accepted_exactly.
Example C26_exactly_case : match source_file_parse (txt "f(), (x), g(), 1") with
  | Ok p => map e_msg (pa_errors p) = ["Expression statements can only be call expressions"; "Expected only one call expression, got 2"]%string | _ => False end.
Proof. vm_compute. reflexivity. Qed.

(** The errors of an assignment: one for each visible target that is no name, index or field. *)
Theorem C27_exactly : forall t p e, source_file_parse t = Ok p -> In e (el_descendants (root_elem (pa_green p))) ->
  el_kind e = KAssignStmt -> exists lhs rhs, el_children e = [lhs; rhs] /\ el_kind lhs = KMultivalExpr /\ el_kind rhs = KMultivalExpr /\
  validate_node e = Ok (map (fun c => mkErr "Can only assign name reference or index expression" (el_range c))
     (filter (fun c => negb (of_kind target_kinds c)) (visible (el_children lhs)))).
Proof.
  intros t p e H Hin Hk. destruct (children_sub _ _ _ H Hin) as (ls & fs & a & Hp & Hg & Hd); [congruence|congruence|].
  destruct (parsed_children _ _ _ _ _ Hp Hd) as (f & _ & Hn & _ & _ & _ & HX & _). rewrite (HX Hk) in Hn.
  destruct (el_children e) as [|l [|r [|]]] eqn:Ec; try discriminate Hn. injection Hn as Hl Hr. exists l, r. split; [reflexivity|]. split; [exact Hl|]. split; [exact Hr|].
  assert (Hmd : In l (descs 0 (dr_green a))) by (apply (parsed_child _ _ _ _ e l Hp Hd); rewrite Ec; now left).
  pose proof (multival_visible _ _ _ _ _ Hp Hmd Hl) as Hall.
  assert (EA : ast_children (is_kind KMultivalExpr) e = [l; r]).
  { unfold ast_children. rewrite Ec. cbn [filter]. unfold is_kind. rewrite Hl, Hr. reflexivity. }
  unfold validate_node. rewrite Hk. unfold validate_assign, assign_lhs, assign_rhs. rewrite EA. cbn [nth_error]. rewrite Hall.
  do 2 f_equal. apply filter_ext. intros c. now rewrite target_of_kind.
Qed.
Print Assumptions C27_exactly.
Example C27_exactly_case : match source_file_parse (txt "(a), f(), b = 1, 2") with
  | Ok p => map e_range (pa_errors p) = [mkRange 5 8] | _ => False end.
Proof. vm_compute. reflexivity. Qed.

(** * C28, exactly *)
Lemma bad_ranges_last pos l rs : bad_ranges pos l rs -> (exists r, In r rs /\ r_end r = pos + blen (concat (map seg_text l))) <-> exists l' s, l = l' ++ [s] /\ bad s.
Proof.
  assert (HP : forall s, 0 < blen (seg_text s)) by (intros [c|c|]; cbn [seg_text]; rewrite ?blen_cons; [pose proof (utf8_len_pos c)|..]; cbn; lia).
  assert (HS : forall (s : seg) (l : list seg), l <> [] -> (exists l' s', s :: l = l' ++ [s'] /\ bad s') <-> exists l' s', l = l' ++ [s'] /\ bad s').
  { intros s l0 Hl. split.
    - intros ([|x l'] & s' & E & B); [destruct l0; [congruence|discriminate]|]. injection E as -> E. exists l', s'. auto.
    - intros (l' & s' & -> & B). exists (s :: l'), s'. auto. }
  induction 1 as [pos|pos s l rs Hb R IH|pos s l rs Hb R IH].
  - split; [intros (r & [] & _)|intros ([|? ?] & sx & E & _); discriminate].
  - cbn [map concat]. rewrite blen_app, Nat.add_assoc, IH. destruct l as [|s2 l]; [|symmetry; apply HS; discriminate].
    split; [intros ([|? ?] & s' & E & _); discriminate|]. intros ([|x l'] & s' & E & B); [injection E as <-; contradiction|]. injection E as _ E. destruct l'; discriminate.
  - cbn [map concat]. rewrite blen_app, Nat.add_assoc. destruct l as [|s2 l].
    + cbn [map concat]. change (blen []) with 0. split.
      * intros _. exists [], s. auto.
      * intros _. eexists. split; [left; reflexivity|]. cbn [r_end]. lia.
    + rewrite (HS s (s2 :: l)) by discriminate. rewrite <- IH. split; intros (r & Hr & E); exists r; (split; [|exact E]); [|now right].
      destruct Hr as [<-|Hr]; [|exact Hr]. exfalso. cbn [r_end map concat] in E. rewrite blen_app in E. pose proof (HP s2). lia.
Qed.
Lemma bad_ranges_le pos l rs : bad_ranges pos l rs -> Forall (fun r => r_end r <= pos + blen (concat (map seg_text l))) rs.
Proof.
  induction 1 as [pos|pos s l rs Hb R IH|pos s l rs Hb R IH]; [constructor| |]; cbn [map concat]; rewrite blen_app, Nat.add_assoc; [exact IH|].
  constructor; [cbn [r_end]; lia|exact IH].
Qed.
Lemma bad_last l s m : segmented m (l ++ [s]) -> bad s -> last m 0%N <> 93%N.
Proof.
  intros [_ <-] B. rewrite map_app, concat_app. cbn [map concat]. rewrite app_nil_r. destruct s as [c|c|]; [destruct B| |]; cbn [seg_text].
  - change [92%N; c] with ([92%N] ++ [c]). rewrite app_assoc, last_last. intros ->. apply B. cbn. tauto.
  - rewrite last_last. discriminate.
Qed.
Lemma blen_eqs n : blen (repeat 61%N n) = n.
Proof. induction n as [|n IH]; [reflexivity|]. cbn [repeat]. rewrite blen_cons, IH. reflexivity. Qed.

(** A validation error lies past the end of the text exactly when the text ends in a half-open bracket string whose last
    segment is a bad escape. *)
Theorem C28_exactly : forall t p errs verrs, source_file_parse t = Ok p -> parse_text t = Ok (pa_green p, errs) -> validate (root_elem (pa_green p)) = Ok verrs ->
  ((exists e, In e verrs /\ blen t < r_end (e_range e)) <->
   exists e n m segs s, In e (el_descendants (root_elem (pa_green p))) /\ el_green e = GNode KLiteral [GTok KStr (txt "[" ++ repeat 61%N n ++ m)] /\
     ~ starts (fun d => d = 91%N \/ d = 61%N) m /\ el_off e + green_len (el_green e) = blen t /\ segmented m (segs ++ [s]) /\ bad s).
Proof.
  intros t p errs verrs H Ht Hv. destruct (source_file_inv _ _ H) as (ls & fs & a & v & Hp & _ & Eg & _). split.
  - intros (er & He & Hlt). destruct (validate_list_in _ _ Hv _ He) as (e & xs & Hn & Hx & Hin). pose proof Hn as Hn'. rewrite Eg in Hn'. pose proof (parsed_in_text _ _ _ _ _ Hp Hn') as Hr.
    destruct (kind_eqb (el_kind e) KLiteral) eqn:Hk.
    + apply kind_eqb_eq in Hk. destruct (parsed_literal _ _ _ _ _ Hp Hn' Hk) as (k & x & c & r & Hl & Hg & Hrt & Hoff).
      destruct (kind_eqb k KStr) eqn:Ek.
      * apply kind_eqb_eq in Ek. subst k. destruct (C24_string_forms _ _ _ _ H Hn Hg) as [(o & body & Hb)|E0]; [|rewrite E0 in Hx; injection Hx as <-; destruct Hin].
        destruct (segmented_total body) as [segs Hs]. destruct (C24_every_string _ _ _ _ _ _ _ H Hn Hg Hb Hs) as (rs & E0 & R). rewrite Hx in E0. injection E0 as ->.
        apply in_map_iff in Hin as (rg & <- & Hin). cbn [e_range] in Hlt. pose proof (bad_ranges_le _ _ _ R) as HL. rewrite Forall_forall in HL. pose proof (HL _ Hin) as HL0. cbn beta in HL0.
        destruct Hs as [Hs0 Hs]. rewrite Hs in HL0. unfold green_len in Hr. rewrite Hg in Hr. cbn [green_text flat_map] in Hr. rewrite app_nil_r in Hr.
        destruct Hb as [q body Hq|n body c0 Hc|n body c0 Hc Hst].
        -- exfalso. rewrite !blen_app, blen_cons in Hr. pose proof (utf8_len_pos q). cbn [blen] in Hr. lia.
        -- exfalso. rewrite !blen_app, blen_eqs in Hr. change (blen (txt "[")) with 1 in Hr. lia.
        -- assert (Hb0 : blen c0 = 0 /\ el_off e + (1 + n + blen body) = blen t /\ r_end rg = el_off e + (2 + n) + blen body).
           { rewrite !blen_app, blen_eqs in Hr. change (blen (txt "[")) with 1 in Hr. lia. }
           destruct Hb0 as (Hc0 & Hend & Hre). assert (c0 = []) by (destruct c0 as [|z c0]; [reflexivity|rewrite blen_cons in Hc0; pose proof (utf8_len_pos z); lia]). subst c0. rewrite app_nil_r in *.
           assert (HB : exists l' s, segs = l' ++ [s] /\ bad s).
           { apply (bad_ranges_last _ _ _ R). exists rg. split; [exact Hin|]. rewrite Hs. exact Hre. }
           destruct HB as (l' & s & -> & B). exists e, n, body, l', s. split; [exact Hn|]. split; [exact Hg|]. split; [exact Hst|]. split; [|split; [split; assumption|exact B]].
           unfold green_len. rewrite Hg. cbn [green_text flat_map]. rewrite app_nil_r, !blen_app, blen_eqs. change (blen (txt "[")) with 1. lia.
      * exfalso. assert (E0 : validate_node e = Ok []).
        { eapply C24_unchecked; eauto. intros x0 E0. rewrite Hg in E0. injection E0 as -> _. discriminate. }
        rewrite E0 in Hx. injection Hx as <-. destruct Hin.
    + exfalso. unfold validate_node in Hx. destruct (el_kind e) eqn:Hk0; try discriminate Hk; try (injection Hx as <-; destruct Hin; fail).
      * injection Hx as <-. apply validate_assign_range in Hin. lia.
      * injection Hx as <-. apply validate_expr_stmt_range in Hin. lia.
  - intros (e & n & m & segs & s & Hn & Hg & Hst & Hend & Hs & B).
    assert (Hb : string_body (txt "[" ++ repeat 61%N n ++ m) (2 + n) m).
    { rewrite <- (app_nil_r m) at 1. apply sb_half; [apply le_none; exact (bad_last _ _ _ Hs B)|now rewrite app_nil_r]. }
    destruct (C24_every_string _ _ _ _ _ _ _ H Hn Hg Hb Hs) as (rs & E0 & R).
    assert (HX : exists r, In r rs /\ r_end r = el_off e + (2 + n) + blen m).
    { destruct Hs as [_ Hs]. rewrite <- Hs. apply (bad_ranges_last _ _ _ R). eauto. }
    destruct HX as (r & Hr & Er). exists (mkErr "Invalid escape sequence" r). split.
    + destruct (validate_list_map _ _ Hv) as (bs & Hbs & ->). apply in_concat. exists (map (mkErr "Invalid escape sequence") rs). split; [|now apply in_map].
      apply (in_map validate_node) in Hn. unfold validate in Hbs. rewrite Hbs, E0 in Hn. apply in_map_iff in Hn as (b & Eb & Hin). congruence.
    + cbn [e_range]. rewrite Er, <- Hend. unfold green_len. rewrite Hg. cbn [green_text flat_map]. rewrite app_nil_r, !blen_app, blen_eqs. change (blen (txt "[")) with 1. lia.
Qed.
Print Assumptions C28_exactly.

(** * C30, exactly *)
(** The text of a name reference is its identifier, and asking for it panics exactly when the reference is empty. *)
Theorem C30_exactly : forall t p e, source_file_parse t = Ok p -> In e (el_descendants (root_elem (pa_green p))) -> el_kind e = KNameRef ->
  name_text e = match green_text (el_green e) with [] => Panic | x => Ok x end.
Proof.
  intros t p e H Hin Hk. destruct (green_text (el_green e)) as [|c x] eqn:E.
  - destruct (source_file_inv _ _ H) as (ls & fs & a & v & Hp & _ & Hg & _). rewrite Hg in *. rewrite root_descs in Hin. destruct Hin as [<-|[<-|Hin]]; try discriminate Hk.
    pose proof (parsed_origin _ _ _ _ _ Hp Hin) as (k & f & cc & rt & b & K & Hs & Hall & Hoff & HD & Hge & He & HK).
    assert (Ek : k = KNameRef) by (unfold el_kind in Hk; rewrite Hge in Hk; exact Hk). subst k.
    destruct (every_in _ _ _ _ (parsed_local _ _ _ _ Hp) Hs) as (_ & _ & _ & _ & Hn). destruct (Hn eq_refl) as [->|[er ->]].
    + exfalso. assert (Ho : origin (rt_of ls) [PNode KNameRef [PTok KIdent]] e).
      { exists KNameRef, [PTok KIdent], cc, rt, b, K. split; [left; reflexivity|]. auto 6. }
      destruct (origin_tok _ _ _ KIdent Ho) as (x & c' & r & G1 & G2 & G3); [|reflexivity|].
      { intros f' Hf'. rewrite Hk in Hf'. cbn in Hf'. destruct Hf' as [E0|[]]. now injection E0. }
      rewrite G1 in E. cbn in E. rewrite app_nil_r in E. subst x.
      assert (Hx : In (KIdent, []) (rt_of ls)) by (rewrite G2; apply in_app_iff; right; now left).
      unfold rt_of in Hx. apply in_map_iff in Hx as ([[k' e'] x'] & E0 & Hin'). cbn [fst snd] in E0. injection E0 as -> ->.
      destruct (Lexed_in _ _ _ _ _ (pd_lex _ _ _ _ Hp) Hin') as [b' Hst]. exact (step_nonempty _ _ _ _ Hst eq_refl).
    + unfold name_text. rewrite Hge, (Dress_err1 _ _ _ _ HD). reflexivity.
  - destruct (C30_name_ref_text_partial _ _ _ H Hin Hk) as (x' & -> & Ex & _); [rewrite E; discriminate|]. rewrite <- Ex, E. reflexivity.
Qed.
Print Assumptions C30_exactly.
