(** PropsSize.v — C75: the tree, its depth and the diagnostics of a file are linear in its tokens. *)
From Verif Require Import Base SyntaxKind TokenSet Lexer LexSpec LexerDirect LexerProofs BindingPowers Parser Grammar
  Event Tree TreeSink ParserTree SinkProofs GrammarSpec ParserTotal ParserTotal2 Ast ParseSpec ParseProofs StrictTree DressProofs
  Validation ValidProofs ValidSpec ValidExact PropsLexer PropsParser PropsValid LuaSyntax LuaDialect LuaRun LuaComplete LuaTree PropsLua PropsLang PropsExact TreeSize.

(** * C75 Linear size *)
(** Nodes of a tree, and the nodes on its longest way down. *)
Fixpoint nodes (g : green) : nat := match g with GTok _ _ => 0 | GNode _ cs => 1 + list_sum (map nodes cs) end.
Fixpoint depth (g : green) : nat := match g with GTok _ _ => 0 | GNode _ cs => 1 + list_max (map depth cs) end.

Lemma skel_size g : fw (skel g) = nodes g /\ fd (skel g) = depth g.
Proof.
  revert g. refine (green_ind2 _ _ _).
  - intros k cs IH. cbn [skel nodes depth]. rewrite fw_node, fd_node, fw_nil, fd_nil. split.
    + rewrite Nat.add_0_r. cbn [Nat.add]. f_equal. induction IH as [|g cs [H _] _ IH]; [reflexivity|]. cbn [flat_map map]. rewrite fw_app, H, IH. reflexivity.
    + rewrite Nat.max_0_r. cbn [Nat.add]. f_equal. induction IH as [|g cs [_ H] _ IH]; [reflexivity|]. cbn [flat_map map]. rewrite fd_app, H, IH. reflexivity.
  - intros k t. cbn [skel nodes depth]. destruct (is_trivia k); split; reflexivity.
Qed.
Lemma erase_size f : fw (flat_map erase f) <= fw f /\ fd (flat_map erase f) <= fd f.
Proof.
  set (P1 := fun t => fw (erase t) <= wt t /\ fd (erase t) <= dp t). set (PF := fun f => fw (flat_map erase f) <= fw f /\ fd (flat_map erase f) <= fd f).
  change (PF f). apply (forest_ind' P1 PF); unfold P1, PF.
  - intros k. cbn. lia.
  - intros e. cbn. lia.
  - intros fs e [A B]. cbn [erase]. rewrite fw_node, fd_node, fw_nil, fd_nil. change (wt (PErrN fs e)) with (S (fw fs)). change (dp (PErrN fs e)) with (S (fd fs)). lia.
  - intros k fs [A B]. cbn [erase]. rewrite fw_node, fd_node, fw_nil, fd_nil. change (wt (PNode k fs)) with (S (fw fs)). change (dp (PNode k fs)) with (S (fd fs)). lia.
  - cbn. lia.
  - intros t fs [A B] [C D]. cbn [flat_map]. rewrite fw_app, fd_app. change (fw (t :: fs)) with (wt t + fw fs). change (fd (t :: fs)) with (Nat.max (dp t) (fd fs)). lia.
Qed.
Lemma msgs_size f : length (fmsgs f) <= fw f.
Proof.
  set (P1 := fun t => length (pmsgs t) <= wt t). set (PF := fun f => length (fmsgs f) <= fw f).
  change (PF f). apply (forest_ind' P1 PF); unfold P1, PF.
  - intros k. cbn. lia.
  - intros e. cbn. lia.
  - intros fs e A. cbn [pmsgs]. rewrite app_length. change (wt (PErrN fs e)) with (S (fw fs)). unfold fmsgs in A. cbn [length]. lia.
  - intros k fs A. cbn [pmsgs]. change (wt (PNode k fs)) with (S (fw fs)). unfold fmsgs in A. lia.
  - cbn. lia.
  - intros t fs A B. unfold fmsgs in *. cbn [flat_map]. rewrite app_length. change (fw (t :: fs)) with (wt t + fw fs). lia.
Qed.
Lemma parsed_size t ls fs a : parsed t ls fs a -> let n := length (written (map lt_tok ls)) in
  nodes (root_of a) <= 16 * n + 2 /\ depth (root_of a) <= 4 * n + 5 /\ length (dr_errs a) <= 16 * n.
Proof.
  intros H. cbv zeta. rewrite written_lexed, <- (pd_kinds _ _ _ _ H). change (length (fkinds fs)) with (nk fs).
  destruct (tree_bounded _ _ _ (pd_tree _ _ _ _ H)) as ((A & B) & _ & D). cbn [zs fst snd dz] in *. unfold TreeSize.A in B.
  destruct (skel_size (root_of a)) as [<- <-]. rewrite (root_skel _ _ _ _ H), fw_node, fd_node, fw_node, fd_node, !fw_nil, !fd_nil.
  destruct (erase_size fs) as [E1 E2]. pose proof (msgs_size fs) as M. rewrite <- (pd_msgs _ _ _ _ H), map_length in M. lia.
Qed.
(** The tree has at most 16 nodes, and at most 4 levels, for each token that is no white space or comment, and the parser reports
    at most 16 errors for each. *)
Theorem C75_tree : forall t toks lex_errs g errs, tokenize t = Ok (toks, lex_errs) -> parse_tokens t toks = Ok (g, errs) ->
  let n := length (written toks) in nodes g <= 16 * n + 2 /\ depth g <= 4 * n + 5 /\ length errs <= 16 * n.
Proof.
  intros t toks le g errs Ht H. destruct (parse_tokens_inv _ _ _ _ Ht H) as (ls & fs & a & Hp & -> & _ & E). injection E as -> ->. exact (parsed_size _ _ _ _ Hp).
Qed.
Print Assumptions C75_tree.

(** ** Validation *)
(** Bound on the errors of one node, by its green tree. *)
Definition nch (g : green) : nat := match g with GTok _ _ => 0 | GNode _ cs => length (filter is_gnode cs) end.
Definition gch (g : green) : nat := match g with GTok _ _ => 0 | GNode _ cs => list_sum (map nch cs) end.
Definition lit (g : green) : nat := match g with GNode KLiteral [GTok KStr x] => length x | _ => 0 end.
Fixpoint tsum (f : green -> nat) (g : green) : nat := match g with GTok _ _ => 0 | GNode _ cs => f g + list_sum (map (tsum f) cs) end.
Lemma tsum_descs f g : forall off, list_sum (map (fun e => f (el_green e)) (descendants_at off g)) = tsum f g.
Proof.
  revert g. refine (green_ind2 _ _ _); [|reflexivity]. intros k cs IH off. rewrite descendants_node. cbn [map list_sum fold_right tsum el_green]. f_equal.
  revert off. induction IH as [|c cs H _ IH]; intros off; [reflexivity|]. cbn [descs map]. rewrite map_app, list_sum_app, H, IH. reflexivity.
Qed.
Lemma tsum_add f1 f2 g : tsum (fun g => f1 g + f2 g) g = tsum f1 g + tsum f2 g.
Proof.
  revert g. refine (green_ind2 _ _ _); [|reflexivity]. intros k cs IH. cbn [tsum].
  assert (E : list_sum (map (tsum (fun g => f1 g + f2 g)) cs) = list_sum (map (tsum f1) cs) + list_sum (map (tsum f2) cs)).
  { induction IH as [|c cs H _ IH]; [reflexivity|]. cbn [map list_sum fold_right]. fold (list_sum (map (tsum (fun g => f1 g + f2 g)) cs)). rewrite H, IH. unfold list_sum. lia. }
  rewrite E. lia.
Qed.
Lemma gch_nodes g : tsum (fun g => 1 + gch g) g + nch g <= 2 * nodes g /\ (is_gnode g = true -> tsum (fun g => 1 + gch g) g + nch g + 1 <= 2 * nodes g).
Proof.
  revert g. refine (green_ind2 _ _ _); [|intros k t; cbn; split; [lia|discriminate]]. intros k cs IH.
  assert (E : tsum (fun g => 1 + gch g) (GNode k cs) + nch (GNode k cs) + 1 <= 2 * nodes (GNode k cs)).
  { cbn [tsum gch nch nodes]. induction IH as [|c cs [H1 H2] _ IH]; [cbn; lia|]. cbn [map filter].
    change (list_sum (nch c :: map nch cs)) with (nch c + list_sum (map nch cs)).
    change (list_sum (tsum (fun g => 1 + gch g) c :: map (tsum (fun g => 1 + gch g)) cs)) with (tsum (fun g => 1 + gch g) c + list_sum (map (tsum (fun g => 1 + gch g)) cs)).
    change (list_sum (nodes c :: map nodes cs)) with (nodes c + list_sum (map nodes cs)).
    destruct (is_gnode c); [specialize (H2 eq_refl); cbn [length]|]; lia. }
  split; [lia|intros _; exact E].
Qed.
Lemma lit_text g : tsum lit g <= length (green_text g).
Proof.
  revert g. refine (green_ind2 _ _ _); [|intros k t; cbn; lia]. intros k cs IH. cbn [tsum green_text].
  assert (E : list_sum (map (tsum lit) cs) <= length (flat_map green_text cs)).
  { induction IH as [|c cs H _ IH]; [cbn; lia|]. cbn [map flat_map]. rewrite app_length. change (list_sum (tsum lit c :: map (tsum lit) cs)) with (tsum lit c + list_sum (map (tsum lit) cs)). lia. }
  assert (HL : lit (GNode k cs) = 0 \/ exists x, cs = [GTok KStr x] /\ lit (GNode k cs) = length x).
  { destruct k; try (left; reflexivity). destruct cs as [|[k cs|k x] cs']; try (left; reflexivity). destruct k; try (left; reflexivity). destruct cs'; [|left; reflexivity]. right. exists x. split; reflexivity. }
  destruct HL as [->|(x & -> & ->)]; [lia|]. cbn. rewrite app_nil_r. lia.
Qed.
Lemma place_filter off cs : length (filter (fun c => is_gnode (el_green c)) (place off cs)) = length (filter is_gnode cs).
Proof. revert off. induction cs as [|c cs IH]; intros off; [reflexivity|]. cbn [place filter el_green]. destruct (is_gnode c); cbn [length]; now rewrite IH. Qed.
Lemma nch_children e : length (el_children e) = nch (el_green e).
Proof. destruct e as [off [k cs|k x]]; [|reflexivity]. unfold el_children, el_children_with_tokens. cbn [el_green el_off nch]. apply place_filter. Qed.
Lemma gch_children e : list_sum (map (fun c => nch (el_green c)) (el_children e)) = gch (el_green e).
Proof.
  destruct e as [off [k cs|k x]]; [|reflexivity]. unfold el_children, el_children_with_tokens. cbn [el_green el_off gch]. revert off. induction cs as [|c cs IH]; intros off; [reflexivity|].
  cbn [place filter el_green map]. destruct c as [k' cs'|k' x']; cbn [is_gnode map]; [|exact (IH _)].
  cbn [el_green]. change (list_sum (?a :: ?l)) with (a + list_sum l). now rewrite IH.
Qed.
Lemma filter_len {A} (f : A -> bool) l : length (filter f l) <= length l.
Proof. induction l as [|a l IH]; [cbn; lia|]. cbn [filter]. destruct (f a); cbn [length]; lia. Qed.
Lemma bad_ranges_len pos l rs : bad_ranges pos l rs -> length rs <= length l.
Proof. induction 1; cbn [length]; lia. Qed.
Lemma segmented_len body segs : segmented body segs -> length segs <= length body.
Proof. intros [_ <-]. induction segs as [|s l IH]; [cbn; lia|]. cbn [map concat length]. rewrite app_length. destruct s; cbn [seg_text length]; lia. Qed.
Lemma string_body_len x o body : string_body x o body -> length body <= length x.
Proof. destruct 1; rewrite ?app_length; cbn [length app]; rewrite ?app_length; try lia. Qed.

Lemma validate_node_len t p e es : source_file_parse t = Ok p -> In e (el_descendants (root_elem (pa_green p))) -> validate_node e = Ok es ->
  length es <= (1 + gch (el_green e)) + lit (el_green e).
Proof.
  intros H Hin Hv. destruct (kind_eqb (el_kind e) KExprStmt) eqn:K1.
  { apply kind_eqb_eq in K1. destruct (C26_exactly _ _ _ H Hin K1) as (mv & Hc & _ & E). cbv zeta in E. rewrite Hv in E. apply ok_inj in E. subst es.
    rewrite app_length, map_length. rewrite <- gch_children, Hc. cbn [map list_sum fold_right]. rewrite <- nch_children. pose proof (filter_len (fun c => negb (of_kind call_kinds c)) (visible (el_children mv))).
    pose proof (filter_len (fun c => negb (existsb (kind_eqb (el_kind c)) [KParenExpr; KError])) (el_children mv)). fold (visible (el_children mv)) in H1.
    match goal with |- context [match ?n with 0 => _ | _ => _ end] => destruct n as [|[|m]] end; cbn [length]; lia. }
  destruct (kind_eqb (el_kind e) KAssignStmt) eqn:K2.
  { apply kind_eqb_eq in K2. destruct (C27_exactly _ _ _ H Hin K2) as (l & r & Hc & _ & _ & E). rewrite Hv in E. apply ok_inj in E. subst es.
    rewrite map_length. rewrite <- gch_children, Hc. cbn [map list_sum fold_right]. rewrite <- !nch_children. pose proof (filter_len (fun c => negb (of_kind target_kinds c)) (visible (el_children l))).
    pose proof (filter_len (fun c => negb (existsb (kind_eqb (el_kind c)) [KParenExpr; KError])) (el_children l)). fold (visible (el_children l)) in H1. lia. }
  destruct (kind_eqb (el_kind e) KLiteral) eqn:K3.
  { apply kind_eqb_eq in K3. destruct (source_file_inv _ _ H) as (ls & fs & a & v & Hp & _ & E & _). pose proof Hin as Hin'. rewrite E in Hin'.
    destruct (parsed_literal _ _ _ _ _ Hp Hin' K3) as (k & x & c & r & _ & Hg & _ & _). destruct (kind_eqb k KStr) eqn:Ek.
    - apply kind_eqb_eq in Ek. subst k. destruct (C24_string_forms _ _ _ _ H Hin Hg) as [(o & body & Hb)|E0]; [|rewrite E0 in Hv; apply ok_inj in Hv; subst es; cbn; lia].
      destruct (segmented_total body) as [segs Hs]. destruct (C24_every_string _ _ _ _ _ _ _ H Hin Hg Hb Hs) as (rs & E1 & R). rewrite E1 in Hv. apply ok_inj in Hv. subst es. rewrite map_length.
      apply bad_ranges_len in R. apply segmented_len in Hs. apply string_body_len in Hb. rewrite Hg. change (lit (GNode KLiteral [GTok KStr x])) with (length x). lia.
    - assert (E1 : validate_node e = Ok []). { eapply C24_unchecked; eauto. intros x0 E0. rewrite Hg in E0. injection E0 as -> _. discriminate. }
      rewrite E1 in Hv. apply ok_inj in Hv. subst es. cbn. lia. }
  assert (E : validate_node e = Ok []) by (unfold validate_node; destruct (el_kind e); try reflexivity; discriminate).
  rewrite E in Hv. apply ok_inj in Hv. subst es. cbn. lia.
Qed.
Lemma errors_of_len toks : forall es pos, length (errors_of pos toks es) <= length toks.
Proof. induction toks as [|k toks IH]; intros [|e es] pos; cbn [errors_of length]; try lia. specialize (IH es (pos + t_len k)). destruct e; cbn [length]; lia. Qed.
Lemma Lexed_len t ls : Lexed t ls -> length ls <= length t.
Proof. induction 1 as [|k e l b ls Hn _ _ IH]; [cbn; lia|]. rewrite app_length. destruct l; [congruence|]. cbn [length]. lia. Qed.
Lemma written_len toks : length (written toks) <= length toks.
Proof. unfold written. etransitivity; [apply filter_len|]. now rewrite map_length. Qed.
Lemma concat_len_sum {B} (l : list elem) (f : elem -> nat) : forall bs : list (list B), map validate_node l = map validate_node l ->
  Forall2 (fun e b => length b <= f e) l bs -> length (concat bs) <= list_sum (map f l).
Proof.
  intros bs _ H. induction H as [|e b l bs H _ IH]; [cbn; lia|]. cbn [concat map]. rewrite app_length. change (list_sum (f e :: map f l)) with (f e + list_sum (map f l)). lia.
Qed.

(** All diagnostics together: linear in the tokens and the characters. *)
Theorem C75_diagnostics : forall t toks lex_errs p, tokenize t = Ok (toks, lex_errs) -> source_file_parse t = Ok p ->
  length (pa_errors p) <= 48 * length (written toks) + 2 * length t + 4 /\ length (written toks) <= length t.
Proof.
  intros t toks le p Ht H. destruct (source_file_inv _ _ H) as (ls & fs & a & v & Hp & Hv & Hg & He).
  pose proof (pd_lexer _ _ _ _ Hp) as E. rewrite Ht in E. injection E as -> ->.
  destruct (parsed_size _ _ _ _ Hp) as (S1 & _ & S2). pose proof (Lexed_len _ _ (pd_lex _ _ _ _ Hp)) as L1.
  pose proof (errors_of_len (map lt_tok ls) (map lt_err ls) 0) as L2. rewrite map_length in L2.
  assert (V : length v <= 2 * nodes (root_of a) + length t).
  { destruct (validate_list_map _ _ Hv) as (bs & Hb & ->). rewrite <- Hg in *.
    assert (HF : Forall2 (fun e b => length b <= (1 + gch (el_green e)) + lit (el_green e)) (el_descendants (root_elem (pa_green p))) bs).
    { assert (HI : forall l bs, map validate_node l = map Ok bs -> incl l (el_descendants (root_elem (pa_green p))) -> Forall2 (fun e b => length b <= (1 + gch (el_green e)) + lit (el_green e)) l bs).
      { induction l as [|e l IH]; intros [|b bs'] E I0; try discriminate; [constructor|]. cbn [map] in E. assert (E1 : validate_node e = Ok b) by congruence. assert (E2 : map validate_node l = map Ok bs') by congruence.
        constructor; [eapply validate_node_len; eauto; apply I0; now left|]. apply IH; [exact E2|]. intros x Hx. apply I0. now right. }
      apply HI; [exact Hb|apply incl_refl]. }
    apply (concat_len_sum _ (fun e => (1 + gch (el_green e)) + lit (el_green e))) in HF; [|reflexivity].
    unfold el_descendants, root_elem in HF. cbn [el_off el_green] in HF. rewrite (tsum_descs (fun g => (1 + gch g) + lit g)), (tsum_add (fun g => 1 + gch g) lit) in HF.
    pose proof (gch_nodes (pa_green p)) as [G _]. pose proof (lit_text (pa_green p)) as L. rewrite (C12_lossless _ _ H) in L. lia. }
  split; [rewrite He, !app_length; lia|]. pose proof (written_len (map lt_tok ls)) as L3. rewrite map_length in L3. lia.
Qed.
Print Assumptions C75_diagnostics.

(** ** There is no fixed depth *)
(** [n] blocks in one another. *)
Fixpoint nested (n : nat) : block := match n with 0 => BNil | S m => BCons (SDo (nested m)) false BNil end.
Definition nested_text (n : nat) : text := flat_map (fun _ => txt "do ") (repeat tt n) ++ flat_map (fun _ => txt "end ") (repeat tt n).
Lemma nested_w n : block_w (nested n) = repeat KDoKw n ++ repeat KEndKw n.
Proof.
  induction n as [|n IH]; [reflexivity|]. cbn [nested block_w stat_w]. rewrite IH, app_nil_r. cbn [repeat app]. f_equal. rewrite <- app_assoc. f_equal.
  now rewrite <- repeat_cons.
Qed.
Lemma nested_write n : write (block_w (nested n)) = nested_text n.
Proof.
  rewrite nested_w. unfold nested_text, write. rewrite flat_map_app. f_equal; (induction n as [|n IH]; [reflexivity|]; cbn [repeat flat_map]; now rewrite IH).
Qed.
Lemma nested_ok n : block_ok lua (nested n) = true /\ block_same (nested n) = true.
Proof.
  induction n as [|n [A B]]; [split; reflexivity|]. split.
  - transitivity (block_ok lua (nested n) && true && true && true); [reflexivity|now rewrite A].
  - transitivity (block_same (nested n) && true && true); [reflexivity|now rewrite B].
Qed.
Lemma nested_blen n : blen (nested_text n) = 7 * n.
Proof.
  unfold nested_text. rewrite blen_app. assert (A : forall n, blen (flat_map (fun _ : unit => txt "do ") (repeat tt n)) = 3 * n) by (induction n0 as [|m IH]; [reflexivity|]; cbn [repeat flat_map]; rewrite blen_app, IH; change (blen (txt "do ")) with 3; lia).
  assert (B : forall n, blen (flat_map (fun _ : unit => txt "end ") (repeat tt n)) = 4 * n) by (induction n0 as [|m IH]; [reflexivity|]; cbn [repeat flat_map]; rewrite blen_app, IH; change (blen (txt "end ")) with 4; lia).
  rewrite A, B. lia.
Qed.
Lemma nested_depth n : fd (block_t (nested n)) = 2 * n.
Proof.
  induction n as [|n IH]; [reflexivity|]. cbn [nested block_t stat_t semi_t app]. rewrite fd_node, fd_tok, fd_node, fd_tok, IH. cbn. lia.
Qed.
(** Files of [2 n] tokens can be [2 n + 2] levels deep, without any error. *)
Theorem C75_depth_grows : forall n, fits_u32 (7 * n + 1) = true ->
  exists p, source_file_parse (nested_text n) = Ok p /\ pa_errors p = [] /\ depth (pa_green p) = 2 * n + 2.
Proof.
  intros n F. destruct (nested_ok n) as [A B]. destruct (C20_written_program_partial (nested n) A B) as (p & H & E & K).
  - rewrite nested_write, nested_blen. replace (S (7 * n)) with (7 * n + 1) by lia. exact F.
  - rewrite nested_write in H. exists p. split; [exact H|]. split; [exact E|]. destruct (skel_size (pa_green p)) as [_ <-]. rewrite K. unfold file_t.
    rewrite fd_node, fd_node, nested_depth, !fd_nil. lia.
Qed.
Print Assumptions C75_depth_grows.

(** Five tokens, with more errors and more nodes than tokens. *)
Example C75_case : match source_file_parse (txt "for for f = '\q") with
  | Ok p => nodes (pa_green p) = 12 /\ depth (pa_green p) = 9 /\ length (pa_errors p) = 6 | _ => False end.
Proof. vm_compute.
repeat split. Qed.
