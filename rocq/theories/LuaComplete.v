(** LuaComplete.v — the tree-building parser, run on the written form of an abstract program
    (LuaSyntax.v), builds exactly the tree of that program. *)
From Verif Require Import Base SyntaxKind TokenSet Lexer BindingPowers Parser Grammar ParserTree ParserTotal LuaSyntax LuaRun.

(** ** Binding powers *)
Definition lbp (k : kind) : nat := fst (infix_binding_power k).
Definition olbp (o : binop) : nat := fst (infix_binding_power (binop_kind o)).
Definition orbp (o : binop) : nat := snd (infix_binding_power (binop_kind o)).
Definition upbp (o : unop) : nat := prefix_binding_power (unop_kind o).

(** The operators on the left spine bind at least as tightly as [min]. *)
Fixpoint lspine (min : nat) (e : exp) : bool :=
  match e with EBin o l _ => (min <=? olbp o) && lspine min l | _ => true end.

Definition prim_end (k : kind) : bool := negb (existsb (kind_eqb k) [KLBrace; KLParen; KStr; KColon; KLBracket; KDot]).
(** The token [k] does not continue the expression. *)
Fixpoint stops (e : exp) (k : kind) : bool :=
  match e with
  | ELit _ => negb (kind_eqb k KLBracket) && negb (kind_eqb k KDot)
  | EUn o e => (lbp k <? upbp o) && stops e k
  | EBin o _ r => (lbp k <? orbp o) && stops r k
  | _ => prim_end k
  end.

Lemma lspine_mono e : forall m1 m2, m2 <= m1 -> lspine m1 e = true -> lspine m2 e = true.
Proof.
  induction e; intros m1 m2 Hab H; cbn [lspine] in *; try reflexivity.
  apply andb_true_iff in H as [H1 H2]. rewrite (IHe1 _ _ Hab H2), andb_true_r. apply Nat.leb_le in H1. apply Nat.leb_le. lia.
Qed.

Ltac bsplit := repeat match goal with
  | H : _ && _ = true |- _ => apply andb_true_iff in H; destruct H
  end.

Lemma ok_bin o l r : exp_ok impl (EBin o l r) = true ->
  left_ok impl o l = true /\ right_ok impl o r = true /\ exp_ok impl l = true /\ exp_ok impl r = true.
Proof. intros H. change (left_ok impl o l && right_ok impl o r && exp_ok impl l && exp_ok impl r = true) in H. bsplit. auto. Qed.
Lemma ok_un o e : exp_ok impl (EUn o e) = true -> un_ok impl e = true /\ exp_ok impl e = true.
Proof. intros H. change (un_ok impl e && exp_ok impl e = true) in H. bsplit. auto. Qed.

Lemma lspine_top o l r : exp_ok impl (EBin o l r) = true -> lspine (olbp o) (EBin o l r) = true.
Proof.
  revert o r; induction l; intros oo rr H; apply ok_bin in H as (H1 & H3 & H4 & H5);
    (assert (E : olbp oo <=? olbp oo = true) by apply Nat.leb_refl);
    try (cbn [lspine]; rewrite E; reflexivity).
  pose proof (IHl1 _ _ H4) as IH.
  change (lspine (olbp oo) (EBin oo (EBin o l1 l2) rr)) with ((olbp oo <=? olbp oo) && lspine (olbp oo) (EBin o l1 l2)). rewrite E.
  cbn [andb]. apply (fun h => lspine_mono _ _ _ h IH). clear -H1.
  destruct oo, o; vm_compute in *; try discriminate; lia.
Qed.
Lemma lspine_left o l r min : exp_ok impl (EBin o l r) = true -> min <= olbp o -> lspine min l = true.
Proof.
  intros H Hm. pose proof (lspine_top _ _ _ H) as L. cbn [lspine] in L. apply andb_true_iff in L as [_ L].
  exact (lspine_mono _ _ _ Hm L).
Qed.
Lemma lspine_right o r : right_ok impl o r = true -> exp_ok impl r = true -> lspine (orbp o) r = true.
Proof.
  destruct r; intros H1 H2; try reflexivity. pose proof (lspine_top _ _ _ H2) as L. refine (lspine_mono _ _ _ _ L).
  clear L H2. destruct o, o0; vm_compute in *; try discriminate; lia.
Qed.
Lemma lspine_un o e : un_ok impl e = true -> exp_ok impl e = true -> lspine (upbp o) e = true.
Proof.
  destruct e; intros H1 H2; try reflexivity. pose proof (lspine_top _ _ _ H2) as L. refine (lspine_mono _ _ _ _ L).
  clear L H2. destruct o, o0; vm_compute in *; try discriminate; lia.
Qed.
Lemma lspine_low e : exp_ok impl e = true -> lspine LOWEST e = true.
Proof.
  destruct e; intros H; try reflexivity. pose proof (lspine_top _ _ _ H) as L. refine (lspine_mono _ _ _ _ L).
  destruct o; vm_compute; lia.
Qed.

Lemma prim_end_op o : prim_end (binop_kind o) = true.
Proof. destruct o; reflexivity. Qed.
Lemma lit_end_op o : negb (kind_eqb (binop_kind o) KLBracket) && negb (kind_eqb (binop_kind o) KDot) = true.
Proof. destruct o; reflexivity. Qed.

Lemma stops_strict o e : exp_ok impl e = true -> impl_level o < level impl e -> stops e (binop_kind o) = true.
Proof.
  induction e; intros H Hl; cbn [stops]; try apply prim_end_op; try apply lit_end_op.
  - apply ok_un in H as [H1 H2]. unfold un_ok in H1. apply Nat.leb_le in H1. cbn [level impl d_un] in Hl. rewrite IHe; auto; [|cbn [impl d_un] in H1; lia].
    rewrite andb_true_r. apply Nat.ltb_lt. clear -Hl. destruct o, o0; vm_compute in *; lia.
  - apply ok_bin in H as (H1 & H3 & H4 & H5). cbn [level impl d_level] in Hl. rewrite IHe2; auto.
    + rewrite andb_true_r. apply Nat.ltb_lt. clear -Hl. destruct o, o0; vm_compute in *; lia.
    + unfold right_ok in H3. apply orb_true_iff in H3 as [H|H].
      * destruct e2; try discriminate. cbn [level impl d_un]. clear -Hl. destruct o, o0; cbn in *; lia.
      * cbn [impl d_level] in H. fold impl in H. destruct (right_assoc o0); [apply Nat.leb_le in H|apply Nat.ltb_lt in H]; lia.
Qed.
Lemma stops_left o l r : exp_ok impl (EBin o l r) = true -> stops l (binop_kind o) = true.
Proof.
  intros H. apply ok_bin in H as (H1 & H3 & H4 & H5). unfold left_ok in H1. cbn [d_level impl] in H1. fold impl in H1.
  destruct (Nat.eq_dec (impl_level o) (level impl l)) as [E|E].
  - destruct l; cbn [stops]; try apply prim_end_op; try apply lit_end_op.
    + exfalso. cbn [level impl d_un] in E. destruct o; discriminate.
    + apply ok_bin in H4 as (G1 & G3 & G4 & G5). cbn [level impl d_level] in *. rewrite (stops_strict o l2); auto.
      * rewrite andb_true_r. apply Nat.ltb_lt.
        clear -E H1. destruct o, o0; vm_compute in *; intros; try discriminate; lia.
      * unfold right_ok in G3. apply orb_true_iff in G3 as [G3|G3].
        -- destruct l2; try discriminate. cbn [level impl d_un].
           clear -E H1. destruct o, o0; vm_compute in *; intros; try discriminate; lia.
        -- clear -E H1 G3. cbn [d_level impl] in G3. fold impl in G3.
           destruct o, o0; cbn [impl_level right_assoc] in *; try discriminate; rewrite ?Nat.leb_le, ?Nat.ltb_lt in *; intros; try discriminate; lia.
  - apply stops_strict; [assumption|]. destruct (right_assoc o); [apply Nat.ltb_lt; assumption|].
    apply Nat.leb_le in H1. lia.
Qed.
Lemma stops_soft e k : lbp k = 0 -> prim_end k = true -> stops e k = true.
Proof.
  intros H1 H2. induction e; cbn [stops]; try exact H2; rewrite ?H1.
  - unfold prim_end in H2. cbn [existsb] in H2. apply negb_true_iff in H2. repeat (apply orb_false_iff in H2 as [? H2]).
    repeat match goal with H : kind_eqb _ _ = false |- _ => rewrite H; clear H end. reflexivity.
  - rewrite IHe. destruct o; reflexivity.
  - rewrite IHe2. destruct o; reflexivity.
Qed.
Lemma stops_paren e : open_end impl e = false -> stops e KLParen = true.
Proof.
  induction e; cbn [open_end impl stops]; intros H; try discriminate; try reflexivity.
  - rewrite (IHe H). destruct o; reflexivity.
  - rewrite (IHe2 H). destruct o; reflexivity.
Qed.

(** ** First tokens *)
Fixpoint first_w (e : exp) : kind :=
  match e with
  | ELit l => lit_kind l
  | EName => KIdent
  | EParen _ => KLParen
  | EFun _ _ _ => KFunctionKw
  | ETable _ => KLBrace
  | EUn o _ => unop_kind o
  | EBin _ l _ => first_w l
  | ECall f _ | EMethod f _ | EIndex f _ | EDot f => first_w f
  end.
Lemma first_exp e : forall r, hd0 (exp_w e ++ r) = first_w e.
Proof. induction e; intros r; cbn [exp_w first_w]; rewrite <- ?app_assoc; try reflexivity; auto. Qed.
Lemma first_kinds e : In (first_w e) [KNilKw; KTrueKw; KFalseKw; KNumber; KStr; KTripleDot; KIdent; KLParen; KFunctionKw; KLBrace; KNotKw; KHash; KMinus].
Proof.
  induction e; cbn [first_w]; auto; try (destruct l; cbn; tauto); try (destruct o; cbn; tauto); cbn; tauto.
Qed.
Lemma first_prefix e : is_prefixexp e = true -> exp_ok impl e = true -> first_w e = KIdent \/ first_w e = KLParen.
Proof.
  induction e; cbn [is_prefixexp first_w exp_ok]; intros H1 H2; try discriminate; auto; bsplit; auto.
Qed.
Lemma exp_w_pos e : 1 <= length (exp_w e).
Proof.
  destruct (exp_w e) eqn:E; [|cbn; lia]. pose proof (first_exp e []) as Hf. pose proof (first_kinds e) as Hk.
  rewrite E in Hf. cbn in Hf. rewrite <- Hf in Hk. cbn in Hk. intuition discriminate.
Qed.
Ltac len := repeat (progress (rewrite ?app_length in *; cbn [length] in * )); lia.
Lemma second_exp e : forall r, hd0 r <> KEq -> first_w e = KIdent -> nth 1 (exp_w e ++ r) KEof <> KEq.
Proof.
  induction e; intros r Hr Hf; cbn [exp_w first_w] in *; try discriminate; rewrite <- ?app_assoc; cbn [app].
  - destruct l; discriminate.
  - exact Hr.
  - destruct o; discriminate.
  - apply IHe1; [|exact Hf]. destruct o; discriminate.
  - apply IHe; [|exact Hf]. destruct a; discriminate.
  - apply IHe; [|exact Hf]. discriminate.
  - apply IHe1; [|exact Hf]. discriminate.
  - apply IHe; [|exact Hf]. discriminate.
Qed.
Lemma first_in_expr e : ts_contains EXPR_FIRST (first_w e) = true.
Proof. pose proof (first_kinds e) as H. cbn in H. intuition; match goal with H : _ = first_w e |- _ => rewrite <- H; reflexivity end. Qed.

(** ** Loops *)
Lemma exp_t_node e : exists k f, exp_t e = PNode k f.
Proof. destruct e; cbn [exp_t]; unfold name_ref_t; eauto. Qed.

Lemma ibp_pair k : infix_binding_power k = (lbp k, snd (infix_binding_power k)).
Proof. unfold lbp. now destruct (infix_binding_power k). Qed.

Lemma infix_stop ex m min l r F : lbp (hd0 r) < min ->
  @infix_loop TO ex (S m) min l (mkDS r F) = Ok (l, mkDS r F).
Proof.
  intros H. cbn [infix_loop]. unfold p_current. cbn [bind p_nth TO tree_ops]. unfold tr_bind at 1, tr_nth. cbn [rbind fst snd ds_rem].
  rewrite ibp_pair. apply Nat.ltb_lt in H. rewrite H. reflexivity.
Qed.
Lemma infix_step ex m min k r1 r2 k0 f0 t F : min <= lbp k -> k <> KEof -> DoesO (ex (snd (infix_binding_power k))) r1 r2 t ->
  @infix_loop TO ex (S m) min (length F) (mkDS (k :: r1) (F ++ [PNode k0 f0])) =
  @infix_loop TO ex m min (length F) (mkDS r2 (F ++ [PNode KInfixExpr [PNode k0 f0; PTok k; t]])).
Proof.
  intros H Hk Ht. cbn [infix_loop]. rewrite (bind_run _ _ _ k (mkDS (k :: r1) (F ++ [PNode k0 f0]))) by reflexivity.
  rewrite ibp_pair. replace (lbp k <? min) with false by (symmetry; apply Nat.ltb_ge; exact H).
  rewrite (bind_run _ _ _ _ _ (D_bumpany k r1 Hk _)). rewrite <- app_assoc. cbn [app].
  rewrite (bind_run _ _ _ (length F) (mkDS r2 (F ++ [PNode KInfixExpr [PNode k0 f0; PTok k; t]]))); [reflexivity|].
  unfold pre_node. apply (pre_run F (PNode k0 f0) [PTok k] r1 _ KInfixExpr [t] r2 Logic.I).
  rewrite (bind_run _ _ _ _ _ (Ht [])). reflexivity.
Qed.

Lemma call_first_test k : ts_contains CALL_FIRST k = existsb (kind_eqb k) [KLBrace; KLParen; KStr].
Proof. destruct k; reflexivity. Qed.

Lemma postfix_stop fuel ex m l r F : prim_end (hd0 r) = true ->
  @postfix_expr TO fuel ex (S m) l true (mkDS r F) = Ok (l, mkDS r F).
Proof.
  intros H. cbn [postfix_expr]. rewrite (bind_run _ _ _ (hd0 r) (mkDS r F)) by reflexivity.
  rewrite (bind_run _ _ _ (ts_contains CALL_FIRST (hd0 r)) (mkDS r F)) by reflexivity. rewrite call_first_test.
  unfold prim_end in H. cbn [existsb] in *. apply negb_true_iff in H. repeat (apply orb_false_iff in H as [? H]).
  repeat match goal with H : kind_eqb _ _ = false |- _ => rewrite H; clear H end. reflexivity.
Qed.
Lemma postfix_stop_lit fuel ex m l r F : negb (kind_eqb (hd0 r) KLBracket) && negb (kind_eqb (hd0 r) KDot) = true ->
  @postfix_expr TO fuel ex (S m) l false (mkDS r F) = Ok (l, mkDS r F).
Proof.
  intros H. cbn [postfix_expr]. rewrite (bind_run _ _ _ (hd0 r) (mkDS r F)) by reflexivity.
  rewrite (bind_run _ _ _ (ts_contains CALL_FIRST (hd0 r)) (mkDS r F)) by reflexivity. cbn [andb].
  rewrite andb_false_r. apply andb_true_iff in H as [H1 H2]. apply negb_true_iff in H1, H2. rewrite H1, H2. reflexivity.
Qed.

(** One step of the postfix loop. *)
Lemma pre_node_run {A} (body : D A) K r r2 a f k0 f0 F : Does body r r2 a f ->
  @pre_node TO A (length F) K body (mkDS r (F ++ [PNode k0 f0])) = Ok (length F, mkDS r2 (F ++ [PNode K (PNode k0 f0 :: f)])).
Proof.
  intros H. unfold pre_node. apply (pre_run F (PNode k0 f0) [] r _ K f r2 Logic.I).
  rewrite (bind_run _ _ _ _ _ (H [])). reflexivity.
Qed.
Lemma postfix_call fuel ex m r r2 t k0 f0 F : existsb (kind_eqb (hd0 r)) [KLBrace; KLParen; KStr] = true ->
  Does (@call_args TO fuel ex) r r2 tt [t] ->
  @postfix_expr TO fuel ex (S m) (length F) true (mkDS r (F ++ [PNode k0 f0])) =
  @postfix_expr TO fuel ex m (length F) true (mkDS r2 (F ++ [PNode KCallExpr [PNode k0 f0; t]])).
Proof.
  intros Hk H. cbn [postfix_expr]. rewrite (bind_run _ _ _ (hd0 r) (mkDS r (F ++ [PNode k0 f0]))) by reflexivity.
  rewrite (bind_run _ _ _ (ts_contains CALL_FIRST (hd0 r)) (mkDS r (F ++ [PNode k0 f0]))) by reflexivity.
  rewrite call_first_test, Hk. cbn [andb]. unfold call_expr.
  rewrite (bind_run _ _ _ _ _ (pre_node_run _ KCallExpr _ _ _ _ k0 f0 F H)). reflexivity.
Qed.
Lemma postfix_method fuel ex m r r2 t k0 f0 F : existsb (kind_eqb (hd0 r)) [KLBrace; KLParen; KStr] = true ->
  Does (@call_args TO fuel ex) r r2 tt [t] ->
  @postfix_expr TO fuel ex (S m) (length F) true (mkDS (KColon :: KIdent :: r) (F ++ [PNode k0 f0])) =
  @postfix_expr TO fuel ex m (length F) true (mkDS r2 (F ++ [PNode KMethodCallExpr [PNode k0 f0; PTok KColon; name_ref_t; t]])).
Proof.
  intros Hk H. cbn [postfix_expr].
  set (st := mkDS (KColon :: KIdent :: r) (F ++ [PNode k0 f0])).
  rewrite (bind_run _ _ _ KColon st) by reflexivity.
  rewrite (bind_run _ _ _ false st) by reflexivity. cbn [andb]. change (kind_eqb KColon KColon) with true. cbn [andb].
  unfold method_call_expr, st.
  rewrite (bind_run _ _ _ (length F) (mkDS r2 (F ++ [PNode KMethodCallExpr [PNode k0 f0; PTok KColon; name_ref_t; t]]))); [reflexivity|].
  eapply pre_node_run. change [PTok KColon; name_ref_t; t] with ([PTok KColon] ++ name_ref_t :: [t]).
  eapply D_bind; [dleaf|]. eapply D_bindM; [apply D_name_ref|]. apply D_at. cbn [pacc_test]. rewrite call_first_test, Hk. exact H.
Qed.
Lemma postfix_index fuel ex m r r2 t k0 f0 F : 
  Does (@index TO ex) (KLBracket :: r) r2 tt [t] ->
  @postfix_expr TO fuel ex (S m) (length F) true (mkDS (KLBracket :: r) (F ++ [PNode k0 f0])) =
  @postfix_expr TO fuel ex m (length F) true (mkDS r2 (F ++ [PNode KIndexExpr [PNode k0 f0; t]])).
Proof.
  intros H. cbn [postfix_expr].
  set (st := mkDS (KLBracket :: r) (F ++ [PNode k0 f0])).
  rewrite (bind_run _ _ _ KLBracket st) by reflexivity.
  rewrite (bind_run _ _ _ false st) by reflexivity. cbn [andb]. change (kind_eqb KLBracket KColon) with false. change (kind_eqb KLBracket KLBracket) with true. cbn [andb].
  unfold index_expr, st. rewrite (bind_run _ _ _ _ _ (pre_node_run _ KIndexExpr _ _ _ _ k0 f0 F H)). reflexivity.
Qed.
Lemma postfix_dot fuel ex m r k0 f0 F : 
  @postfix_expr TO fuel ex (S m) (length F) true (mkDS (KDot :: KIdent :: r) (F ++ [PNode k0 f0])) =
  @postfix_expr TO fuel ex m (length F) true (mkDS r (F ++ [PNode KDotExpr [PNode k0 f0; PTok KDot; PTok KIdent]])).
Proof.
  cbn [postfix_expr].
  set (st := mkDS (KDot :: KIdent :: r) (F ++ [PNode k0 f0])).
  rewrite (bind_run _ _ _ KDot st) by reflexivity.
  rewrite (bind_run _ _ _ false st) by reflexivity. cbn [andb]. change (kind_eqb KDot KColon) with false. change (kind_eqb KDot KLBracket) with false. change (kind_eqb KDot KDot) with true. cbn [andb].
  unfold dot_expr, st.
  rewrite (bind_run _ _ _ (length F) (mkDS r (F ++ [PNode KDotExpr [PNode k0 f0; PTok KDot; PTok KIdent]]))); [reflexivity|].
  eapply pre_node_run. change [PTok KDot; PTok KIdent] with ([PTok KDot] ++ [PTok KIdent]).
  eapply D_bind; [dleaf|dleaf].
Qed.

(** ** The statements proved by induction *)
Definition RunE (e : exp) : Prop := forall n min rest,
  2 * length (exp_w e ++ rest) + 1 <= n -> lspine min e = true -> stops e (hd0 rest) = true -> lbp (hd0 rest) < min ->
  DoesO (@expr_f TO n min) (exp_w e ++ rest) rest (exp_t e).
Definition LoopE (e : exp) : Prop := forall n min rest,
  2 * length (exp_w e ++ rest) <= n -> lspine min e = true -> stops e (hd0 rest) = true ->
  exists m, 2 * length rest + 1 <= m /\ forall F,
    @expr_f TO (S n) min (mkDS (exp_w e ++ rest) F) =
    @bind TO _ _ (@infix_loop TO (expr_f n) m min (length F)) (fun c => @ret TO _ (Some c)) (mkDS rest (F ++ [exp_t e])).
Definition LoopP (e : exp) : Prop := is_prefixexp e = true -> forall n rest,
  2 * length (exp_w e ++ rest) <= n ->
  exists m, 2 * length rest + 1 <= m /\ forall F,
    @lhs TO n (stmt_f n) (expr_f n) (mkDS (exp_w e ++ rest) F) =
    @bind TO _ _ (@postfix_expr TO n (expr_f n) m (length F) true) (fun c => @ret TO _ (Some c)) (mkDS rest (F ++ [exp_t e])).

Lemma Loop_Run e : LoopE e -> RunE e.
Proof.
  intros H n min rest Hn Hl Hs Hb F. destruct n as [|n]; [lia|].
  destruct (H n min rest ltac:(lia) Hl Hs) as (m & Hm & HF). rewrite HF. destruct m as [|m]; [lia|].
  rewrite (bind_run _ _ _ _ _ (infix_stop _ _ _ _ _ _ Hb)). reflexivity.
Qed.
(** An expression that [lhs] parses entirely. *)
Lemma lhs_Loop e : (forall n rest F, 2 * length (exp_w e ++ rest) <= n -> stops e (hd0 rest) = true ->
    @lhs TO n (stmt_f n) (expr_f n) (mkDS (exp_w e ++ rest) F) = Ok (Some (length F), mkDS rest (F ++ [exp_t e]))) ->
  exp_w e <> [] -> LoopE e.
Proof.
  intros H He n min rest Hn _ Hs. exists n. split.
  - rewrite app_length in Hn. destruct (exp_w e); [congruence|]. cbn [length] in Hn. lia.
  - intros F. cbn [expr_f]. unfold expr_bp_body. rewrite (bind_run _ _ _ _ _ (H n rest F Hn Hs)). reflexivity.
Qed.
Lemma prefix_Loop e : is_prefixexp e = true -> LoopP e -> exp_w e <> [] -> LoopE e.
Proof.
  intros Hp H He. apply lhs_Loop; [|exact He]. intros n rest F Hn Hs. destruct (H Hp n rest Hn) as (m & Hm & HF).
  rewrite HF. destruct m as [|m]; [lia|].
  rewrite (bind_run _ _ _ _ _ (postfix_stop n (expr_f n) m (length F) rest (F ++ [exp_t e]) ltac:(destruct e; try discriminate; exact Hs))). reflexivity.
Qed.

(** ** Expression lists *)
Definition soft (k : kind) : bool := (lbp k =? 0) && prim_end k.
Lemma soft_stops e k : soft k = true -> stops e k = true.
Proof. intros H. apply andb_true_iff in H as [H1 H2]. apply Nat.eqb_eq in H1. now apply stops_soft. Qed.
Lemma soft_lbp k min : soft k = true -> 0 < min -> lbp k < min.
Proof. intros H Hm. apply andb_true_iff in H as [H1 _]. apply Nat.eqb_eq in H1. lia. Qed.

(** [e] as a whole expression followed by a token that ends it. *)
Lemma RunE_single e n rest : exp_ok impl e = true -> RunE e -> 2 * length (exp_w e ++ rest) + 1 <= n ->
  stops e (hd0 rest) = true -> lbp (hd0 rest) = 0 -> DoesO (@expr_f TO n LOWEST) (exp_w e ++ rest) rest (exp_t e).
Proof.
  intros Ho H Hn Hs Hl. apply H; auto; [now apply lspine_low|]. rewrite Hl. unfold LOWEST. lia.
Qed.
Lemma RunE_soft e n rest : exp_ok impl e = true -> RunE e -> 2 * length (exp_w e ++ rest) + 1 <= n ->
  soft (hd0 rest) = true -> DoesO (@expr_f TO n LOWEST) (exp_w e ++ rest) rest (exp_t e).
Proof.
  intros Ho H Hn Hs. apply RunE_single; auto; [now apply soft_stops|]. apply andb_true_iff in Hs as [Hs _]. now apply Nat.eqb_eq in Hs.
Qed.

Fixpoint last_exp (es : exps) : exp := match es with One e => e | More _ es => last_exp es end.

Definition exps_body (n : nat) (m : nat) : D unit :=
  @bind TO _ _ (@expr_single TO (expr_f n)) (fun _ =>
    @p_while TO m (@p_at TO (PKind KComma))
      (@bind TO _ _ (@p_bump TO (PKind KComma)) (fun _ => @bind TO _ _ (@expr_single TO (expr_f n)) (fun _ => @ret TO _ tt)))).
Definition RunEs (es : exps) : Prop := forall n m rest,
  2 * length (exps_w es ++ rest) + 1 <= n -> length (exps_w es) < m + 1 -> 1 <= m ->
  stops (last_exp es) (hd0 rest) = true -> lbp (hd0 rest) = 0 -> hd0 rest <> KComma ->
  Does (exps_body n m) (exps_w es ++ rest) rest tt (exps_t es).

Lemma RunEs_one e : exp_ok impl e = true -> RunE e -> RunEs (One e).
Proof.
  intros Ho H n m rest Hn Hm Hm1 Hs Hl Hc. cbn [exps_w exps_t last_exp] in *. unfold exps_body.
  eapply D_bindO; [unfold expr_single; apply RunE_single; auto|]. destruct m as [|m]; [lia|].
  unfold p_while. apply D_loop_stop. apply D_at. cbn [pacc_test]. rewrite kind_eqb_false by exact Hc. apply D_ret.
Qed.
Lemma exps_body_comma n m r F :
  @p_while TO (S m) (@p_at TO (PKind KComma))
      (@bind TO _ _ (@p_bump TO (PKind KComma)) (fun _ => @bind TO _ _ (@expr_single TO (expr_f n)) (fun _ => @ret TO _ tt)))
      (mkDS (KComma :: r) F) = exps_body n m (mkDS r (F ++ [PTok KComma])).
Proof.
  unfold p_while at 1, exps_body. cbn [p_loop]. cbn [bind TO tree_ops]. unfold tr_bind. 
  change (@p_at TO (PKind KComma) (mkDS (KComma :: r) F)) with (@Ok (bool * tstate) (true, mkDS (KComma :: r) F)).
  cbn [rbind fst snd]. rewrite (D_bumpk KComma r ltac:(discriminate) F). cbn [rbind fst snd].
  destruct (@expr_single TO (expr_f n) (mkDS r (F ++ [PTok KComma]))) as [[x st]| |]; reflexivity.
Qed.
Lemma RunEs_more e es : exp_ok impl e = true -> RunE e -> RunEs es -> RunEs (More e es).
Proof.
  intros Ho H IH n m rest Hn Hm Hm1 Hs Hl Hc F. cbn [exps_w exps_t last_exp] in *. rewrite <- app_assoc in *. cbn [app] in *.
  unfold exps_body. rewrite !app_length in *. cbn [length] in *.
  pose proof (exp_w_pos e) as Hp.
  rewrite (bind_run _ _ _ _ _ (RunE_soft e n (KComma :: exps_w es ++ rest) Ho H ltac:(len) eq_refl F)).
  destruct m as [|m]; [lia|]. rewrite exps_body_comma.
  rewrite (IH n m rest); auto; try len. rewrite <- !app_assoc. reflexivity.
Qed.

Lemma exps_w_pos es : 1 <= length (exps_w es).
Proof. destruct es; cbn [exps_w]; pose proof (exp_w_pos e); rewrite ?app_length; lia. Qed.
Lemma first_exps es r : hd0 (exps_w es ++ r) = first_w (match es with One e => e | More e _ => e end).
Proof. destruct es; cbn [exps_w]; rewrite <- ?app_assoc; apply first_exp. Qed.

Lemma Run_multi es n rest : RunEs es -> 2 * length (exps_w es ++ rest) + 1 <= n ->
  stops (last_exp es) (hd0 rest) = true -> lbp (hd0 rest) = 0 -> hd0 rest <> KComma ->
  Does (@expr_multi TO n (expr_f n)) (exps_w es ++ rest) rest tt [PNode KMultivalExpr (exps_t es)].
Proof.
  intros H Hn Hs Hl Hc. unfold expr_multi. eapply (D_node_ _ _ _ _ tt). change (Does (exps_body n n) (exps_w es ++ rest) rest tt (exps_t es)).
  pose proof (exps_w_pos es). apply H; auto; len.
Qed.
Lemma Run_multi_soft es n rest : RunEs es -> 2 * length (exps_w es ++ rest) + 1 <= n ->
  soft (hd0 rest) = true -> hd0 rest <> KComma ->
  Does (@expr_multi TO n (expr_f n)) (exps_w es ++ rest) rest tt [PNode KMultivalExpr (exps_t es)].
Proof.
  intros H Hn Hs Hc. apply Run_multi; auto; [now apply soft_stops|]. apply andb_true_iff in Hs as [Hs _]. now apply Nat.eqb_eq in Hs.
Qed.

(** ** Tables *)
Definition RunFd (f : field) : Prop := forall n rest, 2 * length (field_w f ++ rest) + 1 <= n ->
  soft (hd0 rest) = true -> hd0 rest <> KEq ->
  Does (@table_content TO (expr_f n)) (field_w f ++ rest) rest tt [field_t f].
Definition fields_body (n m : nat) : D unit :=
  @p_while TO m (@bind TO _ _ (@p_at TO (PSet TABLE_END)) (fun b => @ret TO _ (negb b)))
    (@bind TO _ _ (@table_content TO (expr_f n)) (fun _ => @table_inner TO n)).
Definition RunFs (fs : fields) : Prop := forall n m rest, 2 * length (fields_w fs ++ KRBrace :: rest) + 1 <= n ->
  length (fields_w fs) < m ->
  Does (fields_body n m) (fields_w fs ++ KRBrace :: rest) (KRBrace :: rest) tt (fields_t fs).

Lemma D_index e n rest : exp_ok impl e = true -> RunE e -> 2 * length (exp_w e ++ KRBracket :: rest) + 1 <= n ->
  Does (@index TO (expr_f n)) (KLBracket :: exp_w e ++ KRBracket :: rest) rest tt [PNode KIndex [PTok KLBracket; exp_t e; PTok KRBracket]].
Proof.
  intros Ho H Hn. unfold index. eapply D_node_. change [PTok KLBracket; exp_t e; PTok KRBracket] with ([PTok KLBracket] ++ exp_t e :: [PTok KRBracket]).
  eapply D_bind; [dleaf|]. eapply D_bindO; [unfold expr_single; apply RunE_soft; auto|]. dleaf.
Qed.

Lemma RunFd_pos e : exp_ok impl e = true -> RunE e -> RunFd (FPos e).
Proof.
  intros Ho H n rest Hn Hs Hq. cbn [field_w field_t] in *. unfold table_content. eapply D_node_. apply D_cur. rewrite first_exp.
  assert (HR : Does (@node_ TO _ KPositionalValue (@expr_single TO (expr_f n))) (exp_w e ++ rest) rest tt [PNode KPositionalValue [exp_t e]]).
  { apply D_nodeO_. unfold expr_single. now apply RunE_soft. }
  destruct (kind_eqb (first_w e) KIdent) eqn:Ei.
  - apply kind_eqb_true in Ei. apply D_nth. rewrite kind_eqb_false by (now apply second_exp). exact HR.
  - rewrite kind_eqb_false. 2:{ intros E. pose proof (first_kinds e) as Hk. rewrite E in Hk. cbn in Hk. intuition discriminate. }
    apply D_at. rewrite first_exp. cbn [pacc_test]. rewrite first_in_expr. exact HR.
Qed.
Lemma RunFd_name e : exp_ok impl e = true -> RunE e -> RunFd (FName e).
Proof.
  intros Ho H n rest Hn Hs Hq. cbn [field_w field_t app] in *. unfold table_content. eapply D_node_. apply D_cur. cbn [nth].
  dif. apply D_nth. cbn [nth]. dif. eapply X_node_.
  change [PNode KTableKey [name_t]; PTok KEq; exp_t e] with ([PNode KTableKey [name_t]] ++ [PTok KEq] ++ [exp_t e]).
  eapply X_bind; [eapply D_node_, D_name_unchecked|]. eapply X_bind; [dleaf|].
  apply X_O. unfold expr_single. apply RunE_soft; auto. len.
Qed.
Lemma RunFd_key k v : exp_ok impl k = true -> exp_ok impl v = true -> RunE k -> RunE v -> RunFd (FKey k v).
Proof.
  intros Ho1 Ho2 H1 H2 n rest Hn Hs Hq. cbn [field_w field_t app] in *. rewrite <- app_assoc in *. cbn [app] in *.
  unfold table_content. eapply D_node_. apply D_cur. cbn [nth]. dif. dif. eapply X_node_.
  match goal with |- DoesX _ _ _ [?a; ?b; ?c] => change [a; b; c] with ([a] ++ [b] ++ [c]) end.
  eapply X_bind; [eapply D_node_, D_index; auto; len|]. eapply X_bind; [dleaf|].
  apply X_O. unfold expr_single. apply RunE_soft; auto. len.
Qed.

Lemma field_first f r : In (hd0 (field_w f ++ r)) [KNilKw; KTrueKw; KFalseKw; KNumber; KStr; KTripleDot; KIdent; KLParen; KFunctionKw; KLBrace; KNotKw; KHash; KMinus; KLBracket].
Proof.
  destruct f; cbn [field_w app].
  - rewrite first_exp. pose proof (first_kinds e) as H. cbn in *. tauto.
  - cbn; tauto.
  - cbn; tauto.
Qed.
Lemma field_not_end f r : ts_contains TABLE_END (hd0 (field_w f ++ r)) = false.
Proof. pose proof (field_first f r) as H. cbn in H. intuition; match goal with H : _ = _ |- _ => rewrite <- H; reflexivity end. Qed.
Lemma field_w_pos f : 1 <= length (field_w f).
Proof. destruct f; cbn [field_w length]; [apply exp_w_pos|lia|lia]. Qed.

Lemma RunFs_nil : RunFs FNil.
Proof.
  intros n m rest _ Hm. cbn [fields_w fields_t app]. destruct m as [|m]; [lia|]. unfold fields_body, p_while. apply D_loop_stop.
  eapply (D_bind _ _ _ _ _ false _ [] []); [|dleaf]. apply D_at. dleaf.
Qed.
Lemma fields_step f n m r r1 r2 f1 f2 F : RunFd f -> 2 * length (field_w f ++ r) + 1 <= n ->
  soft (hd0 r) = true -> hd0 r <> KEq ->
  Does (@table_inner TO n) r r1 tt f1 -> Does (fields_body n m) r1 r2 tt f2 -> F = field_t f :: f1 ++ f2 ->
  Does (fields_body n (S m)) (field_w f ++ r) r2 tt F.
Proof.
  intros H Hn Hs Hq H1 H2 ->. unfold fields_body, p_while in *.
  change (field_t f :: f1 ++ f2) with ((field_t f :: f1) ++ f2). eapply D_loop_step; [|exact H2].
  eapply (D_bind _ _ _ _ _ _ _ []); [apply D_at; dleaf|]. cbn [pacc_test]. rewrite field_not_end. cbn [negb].
  rewrite <- (app_nil_r (field_t f :: f1)). eapply D_bind; [|dleaf]. eapply (D_bind _ _ _ _ _ _ _ [field_t f]); [|exact H1]. now apply H.
Qed.
Lemma RunFs_last f : RunFd f -> RunFs (FLast f).
Proof.
  intros H n m rest Hn Hm. cbn [fields_w fields_t] in *. pose proof (field_w_pos f). destruct m as [|[|m]]; [lia|lia|].
  eapply fields_step; [exact H|exact Hn|reflexivity|discriminate| | |].
  - unfold table_inner. destruct n as [|n]; [lia|]. apply D_loop_stop. dat. dleaf.
  - apply (RunFs_nil n (S m) rest); cbn [fields_w length app]; len.
  - reflexivity.
Qed.
Lemma RunFs_cons f semi fs : RunFd f -> RunFs fs -> RunFs (FCons f semi fs).
Proof.
  intros H IH n m rest Hn Hm. cbn [fields_w fields_t] in *. pose proof (field_w_pos f). destruct m as [|m]; [lia|].
  rewrite <- app_assoc in *. cbn [app] in *.
  eapply fields_step; [exact H|exact Hn|destruct semi; reflexivity|destruct semi; discriminate| | |].
  - unfold table_inner. destruct n as [|n]; [lia|]. apply (D_loop_last _ _ _ (fields_w fs ++ KRBrace :: rest) [PNode KTableSep [PTok (if semi then KSemicolon else KComma)]]).
    destruct semi; dat; dat; rewrite <- (app_nil_r [PNode _ _]); (eapply D_bind; [|dleaf]); unfold table_sep; eapply D_node_; unfold p_bump_ts; dat; dleaf.
  - apply IH; len.
  - reflexivity.
Qed.

Lemma D_table fs n rest : RunFs fs -> 2 * length (fields_w fs ++ KRBrace :: rest) + 1 <= n ->
  DoesM (@table_expr TO n (expr_f n)) (KLBrace :: fields_w fs ++ KRBrace :: rest) rest (PNode KTableExpr (PTok KLBrace :: fields_t fs ++ [PTok KRBrace])).
Proof.
  intros H Hn. unfold table_expr. eapply D_node.
  match goal with |- Does _ _ _ _ (?a :: ?l) => change (a :: l) with ([a] ++ l) end.
  eapply D_bind; [dleaf|]. eapply D_bind; [|dleaf]. apply (H n n rest); len.
Qed.

(** ** Call arguments *)
Definition RunA (a : args) : Prop := forall n rest, 2 * length (args_w a ++ rest) + 1 <= n ->
  Does (@call_args TO n (expr_f n)) (args_w a ++ rest) rest tt [args_t a].

Lemma D_call_args n r r' t : existsb (kind_eqb (hd0 r)) [KLBrace; KLParen; KStr] = true ->
  Does (@bind TO _ _ (@p_current TO) (fun c =>
     if kind_eqb c KLParen then @arg_list TO n (expr_f n)
     else if kind_eqb c KLBrace then @bind TO _ _ (@table_expr TO n (expr_f n)) (fun _ => @ret TO _ tt)
     else if kind_eqb c KStr then @p_bump TO PAny
     else @panic TO _)) r r' tt [t] ->
  Does (@call_args TO n (expr_f n)) r r' tt [PNode KCallArgs [t]].
Proof.
  intros Hk H. unfold call_args.
  change [PNode KCallArgs [t]] with ([] ++ [PNode KCallArgs [t]]).
  eapply D_bind; [apply D_at; cbn [pacc_test]; rewrite call_first_test, Hk; cbn [passert]; dleaf|].
  eapply D_node_. exact H.
Qed.
Lemma RunA_none : RunA ANone.
Proof.
  intros n rest Hn. cbn [args_w args_t app]. apply D_call_args; [reflexivity|]. apply D_cur. cbn [nth]. dif.
  unfold arg_list. eapply D_node_. change [PTok KLParen; PTok KRParen] with ([PTok KLParen] ++ [] ++ [PTok KRParen]).
  eapply D_bind; [dleaf|]. eapply D_bind; [dat; dleaf|dleaf].
Qed.
Lemma RunA_list es : RunEs es -> RunA (AList es).
Proof.
  intros H n rest Hn. cbn [args_w args_t app] in *. rewrite <- app_assoc in *. cbn [app] in *. apply D_call_args; [reflexivity|]. apply D_cur. cbn [nth]. dif.
  unfold arg_list. eapply D_node_.
  match goal with |- Does _ _ _ _ [?a; ?b; ?c] => change [a; b; c] with ([a] ++ [b] ++ [c]) end.
  eapply D_bind; [dleaf|]. eapply D_bind; [|dleaf]. apply D_at. rewrite first_exps. cbn [pacc_test].
  rewrite kind_eqb_false.
  - unfold expr. apply Run_multi_soft; [exact H|len|reflexivity|discriminate].
  - intros E. match goal with H : first_w ?e = _ |- _ => pose proof (first_kinds e) as Hk; rewrite H in Hk end. cbn in Hk. intuition discriminate.
Qed.
Lemma RunA_table fs : RunFs fs -> RunA (ATable fs).
Proof.
  intros H n rest Hn. cbn [args_w args_t app] in *. rewrite <- app_assoc in *. cbn [app] in *. apply D_call_args; [reflexivity|]. apply D_cur. cbn [nth]. dif. dif.
  eapply D_bindM; [apply D_table; auto; len|dleaf].
Qed.
Lemma RunA_str : RunA AString.
Proof.
  intros n rest Hn. cbn [args_w args_t app]. apply D_call_args; [reflexivity|]. apply D_cur. cbn [nth]. dif. dif. dif. dleaf.
Qed.
Lemma args_first a r : existsb (kind_eqb (hd0 (args_w a ++ r))) [KLBrace; KLParen; KStr] = true.
Proof. destruct a; reflexivity. Qed.
Lemma args_w_pos a : 1 <= length (args_w a).
Proof. destruct a; cbn [args_w length]; lia. Qed.

(** ** Statements and blocks *)
Definition end_kinds : list kind := [KSemicolon; KEof; KEndKw; KElseKw; KElseifKw; KUntilKw].
Definition after_kinds : list kind :=
  end_kinds ++ [KIfKw; KDoubleColon; KGotoKw; KLocalKw; KRepeatKw; KFunctionKw; KReturnKw; KDoKw; KWhileKw; KForKw; KBreakKw; KIdent; KLParen].
(** What may follow a statement. *)
Definition fol (s : stat) (k : kind) : Prop :=
  In k after_kinds /\ (k = KLParen -> open_stat impl s = false) /\ (is_return s = true -> In k end_kinds).

Lemma after_lbp k : In k after_kinds -> lbp k = 0.
Proof. intros H. repeat (destruct H as [<-|H]; [reflexivity|]). destruct H. Qed.
Lemma after_soft k : In k after_kinds -> k <> KLParen -> soft k = true.
Proof. intros H Hk. repeat (destruct H as [<-|H]; [first [reflexivity|congruence]|]). destruct H. Qed.
Lemma after_stops e k : In k after_kinds -> (k = KLParen -> open_end impl e = false) -> stops e k = true.
Proof.
  intros H Ho. destruct (kind_eqb k KLParen) eqn:E.
  - apply kind_eqb_true in E as ->. apply stops_paren. auto.
  - apply soft_stops, after_soft; auto. apply kind_eqb_neq in E. exact E.
Qed.
Lemma after_not k j : In k after_kinds -> existsb (kind_eqb j) after_kinds = false -> k <> j.
Proof.
  intros H E ->. assert (existsb (kind_eqb j) after_kinds = true); [|congruence]. apply existsb_exists. exists j. split; [exact H|apply kind_eqb_refl].
Qed.

(** The part of [stmt] before the optional semicolon. *)
Definition dispatch (n : nat) : D unit :=
  @bind TO _ _ (@p_current TO) (fun c =>
   if kind_eqb c KIfKw then @if_stmt TO n (stmt_f n) (expr_f n)
   else if kind_eqb c KDoubleColon then @label_stmt TO
   else if kind_eqb c KGotoKw then @goto_stmt TO
   else if kind_eqb c KLocalKw then @local_stmt TO n (stmt_f n) (expr_f n)
   else if kind_eqb c KRepeatKw then @repeat_until_stmt TO n (stmt_f n) (expr_f n)
   else if kind_eqb c KFunctionKw then @function_def_stmt TO n (stmt_f n)
   else if kind_eqb c KReturnKw then @return_stmt TO n (expr_f n)
   else if kind_eqb c KDoKw then @do_stmt TO n (stmt_f n)
   else if kind_eqb c KWhileKw then @while_stmt TO n (stmt_f n) (expr_f n)
   else if kind_eqb c KForKw then @for_stmt TO n (stmt_f n) (expr_f n)
   else if kind_eqb c KBreakKw then @break_stmt TO
   else if kind_eqb c KIdent then @expr_stmt TO n (expr_f n)
   else if kind_eqb c KLParen then @expr_stmt TO n (expr_f n)
   else if kind_eqb c KSemicolon then
     @p_err_and_bump TO "Semicolons can only be used after statements"
   else
     @bind TO _ _ (@p_at TO (PSet LITERAL_FIRST)) (fun b : bool =>
     if b then @p_err_and_bump TO "A literal cannot be the start of a statement"
     else if kind_eqb c KEndKw then
       @err_node TO (@bind TO _ _ (@p_bump TO (PKind KEndKw)) (fun _ => @ret TO _ (PMsg "Unmatched end token")))
     else @p_err_and_bump TO "Expected a statement")).
Lemma stmt_f_dispatch n : @stmt_f TO (S n) =
  @bind TO _ _ (dispatch n) (fun _ => @bind TO _ _ (@p_accept TO (PKind KSemicolon)) (fun _ => @ret TO _ tt)).
Proof. reflexivity. Qed.

Definition RunS (s : stat) : Prop := forall n r, 2 * length (stat_w s ++ r) + 1 <= n -> fol s (hd0 r) ->
  Does (dispatch n) (stat_w s ++ r) r tt [stat_t s].
Definition block_body (n m : nat) (E : token_set) : D unit :=
  @p_while TO m (@bind TO _ _ (@p_at TO (PSet E)) (fun b => @ret TO _ (negb b))) (@stmt_f TO n).
Definition RunB (b : block) : Prop := forall n m r E, E = ROOT_END \/ E = BLOCK_END ->
  ts_contains E (hd0 r) = true -> ts_contains BLOCK_END (hd0 r) = true ->
  2 * length (block_w b ++ r) + 2 <= n -> length (block_w b) < m ->
  Does (block_body n m E) (block_w b ++ r) r tt (block_t b).
Definition tail_body (n m : nat) : D unit :=
  @bind TO _ _ (@p_current TO) (fun c =>
   if kind_eqb c KElseifKw then @elseif_branch TO n (stmt_f n) (expr_f n) m
   else if kind_eqb c KElseKw then @else_branch TO n (stmt_f n)
   else @ret TO _ tt).
Definition RunT (t : iftail) : Prop := forall n m r, hd0 r = KEndKw ->
  2 * length (iftail_w t ++ r) + 2 <= n -> length (iftail_w t) < m ->
  Does (tail_body n m) (iftail_w t ++ r) r tt (iftail_t t).

Lemma D_block b n r : RunB b -> ts_contains BLOCK_END (hd0 r) = true -> 2 * length (block_w b ++ r) + 2 <= n ->
  Does (@Grammar.block TO n (stmt_f n)) (block_w b ++ r) r tt [PNode KBlock (block_t b)].
Proof.
  intros H He Hn. unfold Grammar.block, block_raw. eapply (D_node_ _ _ _ _ tt). apply (H n n r BLOCK_END); auto. len.
Qed.

(** The first token of a statement. *)
Definition stat_first : list kind :=
  [KIfKw; KDoubleColon; KGotoKw; KLocalKw; KRepeatKw; KFunctionKw; KReturnKw; KDoKw; KWhileKw; KForKw; KBreakKw; KIdent; KLParen].
Lemma is_call_prefix e : is_call e = true -> is_prefixexp e = true.
Proof. destruct e; cbn; congruence. Qed.
Lemma is_var_prefix e : is_var e = true -> is_prefixexp e = true.
Proof. destruct e; cbn; congruence. Qed.
Lemma stat_first_in s r : stat_ok impl s = true -> In (hd0 (stat_w s ++ r)) stat_first.
Proof.
  destruct s; cbn [stat_w stat_ok]; intros H; rewrite <- ?app_assoc; try (cbn; tauto).
  - bsplit. rewrite first_exp. destruct (first_prefix e (is_call_prefix _ H) H0) as [-> | ->]; cbn; tauto.
  - bsplit. rewrite first_exps. assert (He : first_w (match ts with One e => e | More e _ => e end) = KIdent \/ first_w (match ts with One e => e | More e _ => e end) = KLParen).
    { destruct ts; cbn [all_vars exps_ok] in *; bsplit; apply first_prefix; auto using is_var_prefix. }
    destruct He as [-> | ->]; cbn; tauto.
Qed.
Lemma stat_first_not_end s r E : E = ROOT_END \/ E = BLOCK_END -> stat_ok impl s = true -> ts_contains E (hd0 (stat_w s ++ r)) = false.
Proof.
  intros HE H. pose proof (stat_first_in s r H) as Hi. destruct HE as [-> | ->]; repeat (destruct Hi as [<-|Hi]; [reflexivity|]); destruct Hi.
Qed.
Lemma stat_w_pos s : stat_ok impl s = true -> 1 <= length (stat_w s).
Proof.
  intros H. pose proof (stat_first_in s [] H) as Hi. destruct (stat_w s); [|cbn; lia]. exfalso. cbn in Hi. intuition discriminate.
Qed.

Lemma block_first b r : block_ok impl b = true -> ts_contains BLOCK_END (hd0 r) = true ->
  In (hd0 (block_w b ++ r)) after_kinds /\ hd0 (block_w b ++ r) <> KSemicolon /\
  (starts_paren b = false -> hd0 (block_w b ++ r) <> KLParen) /\ (b = BNil -> In (hd0 (block_w b ++ r)) end_kinds).
Proof.
  intros H He. destruct b as [|s semi b]; cbn [block_w app].
  - assert (Hk : In (hd0 r) [KEof; KEndKw; KElseKw; KElseifKw; KUntilKw]) by (destruct (hd0 r); try discriminate He; cbn; tauto).
    repeat split.
    + cbn in *. tauto.
    + cbn in *. intuition congruence.
    + cbn in *. intuition congruence.
    + intros _. cbn in *. tauto.
  - cbn [block_ok] in H. bsplit. rewrite <- app_assoc. pose proof (stat_first_in s ((semi_w semi ++ block_w b) ++ r) H) as Hi. repeat split.
    + cbn in *. tauto.
    + cbn in *. intuition congruence.
    + intros Hs E. unfold starts_paren in Hs. cbn [block_w] in Hs. pose proof (stat_w_pos s H). destruct (stat_w s) as [|k l]; [cbn in *; lia|].
      cbn in E, Hs. subst k. discriminate.
    + discriminate.
Qed.
Lemma RunB_nil : RunB BNil.
Proof.
  intros n m r E HE H1 H2 Hn Hm. cbn [block_w block_t app]. destruct m as [|m]; [lia|]. unfold block_body, p_while. apply D_loop_stop.
  eapply (D_bind _ _ _ _ _ _ _ []); [apply D_at; dleaf|]. cbn [pacc_test]. rewrite H1. cbn [negb]. dleaf.
Qed.
Lemma RunB_cons s semi b : block_ok impl (BCons s semi b) = true -> RunS s -> RunB b -> RunB (BCons s semi b).
Proof.
  intros Hok Hs Hb n m r E HE H1 H2 Hn Hm. cbn [block_ok] in Hok. bsplit. cbn [block_w block_t] in *. rewrite <- !app_assoc in *.
  pose proof (stat_w_pos s H). destruct m as [|m]; [lia|]. destruct n as [|n]; [lia|]. unfold block_body, p_while in *.
  rewrite app_comm_cons. destruct (block_first b r H4 H2) as (B1 & B2 & B3 & B4).
  eapply D_loop_step; [|apply (Hb (S n) m r E); auto; len].
  eapply (D_bind _ _ _ _ _ _ _ []); [apply D_at; dleaf|]. cbn [pacc_test]. rewrite (stat_first_not_end s _ E HE H). cbn [negb].
  rewrite <- (app_nil_r (stat_t s :: semi_t semi)). eapply D_bind; [|dleaf]. rewrite stmt_f_dispatch.
  change (stat_t s :: semi_t semi) with ([stat_t s] ++ semi_t semi). eapply D_bind.
  - apply Hs; [len|]. destruct semi; cbn [semi_w app].
    + repeat split; [cbn; tauto|discriminate|]. intros _. cbn. tauto.
    + cbn [orb] in *. repeat split; [exact B1| |].
      * intros E1. destruct (open_stat impl s); [|reflexivity]. exfalso. cbn [andb] in *. apply B3; [|exact E1]. match goal with H : negb (starts_paren b) = true |- _ => now apply negb_true_iff in H end.
      * intros Hr. apply B4. rewrite Hr in *. cbn [negb orb] in *. destruct b; [reflexivity|discriminate].
  - destruct semi; cbn [semi_w semi_t app].
    + change [PTok KSemicolon] with ([PTok KSemicolon] ++ []). eapply D_bind; [apply D_accept; [reflexivity|discriminate]|dleaf].
    + eapply (D_bind _ _ _ _ _ _ _ []); [apply D_accept_no; cbn [pacc_test]; now apply kind_eqb_false|dleaf].
Qed.

(** *** Conditionals *)
Ltac cut3 := match goal with |- Does _ _ _ _ (?a :: ?l) => change (a :: l) with ([a] ++ l) end.
Ltac dtok := cut3; eapply D_bind; [dleaf|].
Ltac dexp H := eapply D_bindO; [unfold expr_single; apply RunE_soft; [assumption|exact H|len|reflexivity]|].
Ltac dblk H := cut3; eapply D_bind; [apply D_block; [exact H|try reflexivity|len]|].

Lemma RunT_none : RunT INone.
Proof. intros n m r Hr Hn Hm. cbn [iftail_w iftail_t app]. unfold tail_body. apply D_cur. rewrite Hr. dif. dif. dleaf. Qed.
Lemma RunT_else b : RunB b -> RunT (IElse b).
Proof.
  intros H n m r Hr Hn Hm. cbn [iftail_w iftail_t app] in *. unfold tail_body. apply D_cur. cbn [nth]. dif. dif.
  unfold else_branch. eapply (D_node_ _ _ _ _ tt). dtok. apply D_block; [exact H|now rewrite Hr|len].
Qed.
Lemma tail_end t r : hd0 r = KEndKw -> ts_contains BLOCK_END (hd0 (iftail_w t ++ r)) = true.
Proof. intros H. destruct t; cbn [iftail_w app]; [now rewrite H|reflexivity|reflexivity]. Qed.
Lemma RunT_elseif e b t : exp_ok impl e = true -> RunE e -> RunB b -> RunT t -> RunT (IElseif e b t).
Proof.
  intros Ho He Hb Ht n m r Hr Hn Hm. cbn [iftail_w iftail_t app] in *. rewrite <- !app_assoc in *. cbn [app] in *. rewrite <- !app_assoc in *.
  unfold tail_body. apply D_cur. cbn [nth]. dif. destruct m as [|m]; [lia|]. cbn [elseif_branch]. eapply (D_node_ _ _ _ _ tt).
  dtok. dexp He. dtok. cut3. eapply D_bind; [apply D_block; [exact Hb|now apply tail_end|len]|].
  apply (Ht n m r Hr); len.
Qed.
Lemma RunS_if e b t : exp_ok impl e = true -> RunE e -> RunB b -> RunT t -> RunS (SIf e b t).
Proof.
  intros Ho He Hb Ht n r Hn _. cbn [stat_w stat_t app] in *. rewrite <- !app_assoc in *. cbn [app] in *. rewrite <- !app_assoc in *. cbn [app] in *.
  unfold dispatch. apply D_cur. cbn [nth]. dif. unfold if_stmt. eapply (D_node_ _ _ _ _ true).
  dtok. dexp He. dtok. cut3. eapply D_bind; [apply D_block; [exact Hb|now apply tail_end|len]|].
  eapply D_bind; [apply (Ht n n (KEndKw :: r) eq_refl); len|]. dleaf.
Qed.

(** *** The other statements *)
Ltac dstart := cbn [stat_w stat_t app] in *; rewrite <- ?app_assoc in *; cbn [app] in *; rewrite <- ?app_assoc in *; cbn [app] in *; rewrite <- ?app_assoc in *; cbn [app] in *;
  unfold dispatch; apply D_cur; cbn [nth]; repeat dif.

Lemma RunS_while e b : exp_ok impl e = true -> RunE e -> RunB b -> RunS (SWhile e b).
Proof.
  intros Ho He Hb n r Hn _. dstart. unfold while_stmt. eapply (D_node_ _ _ _ _ true). dtok. dexp He. dtok. dblk Hb. dleaf.
Qed.
Lemma RunS_do b : RunB b -> RunS (SDo b).
Proof. intros Hb n r Hn _. dstart. unfold do_stmt. eapply (D_node_ _ _ _ _ true). dtok. dblk Hb. dleaf. Qed.
Lemma RunS_repeat b e : exp_ok impl e = true -> RunE e -> RunB b -> RunS (SRepeat b e).
Proof.
  intros Ho He Hb n r Hn (F1 & F2 & _). dstart. unfold repeat_until_stmt. eapply X_node_.
  match goal with |- DoesX _ _ _ [?a; ?b; ?c; ?d] => change [a; b; c; d] with ([a] ++ [b] ++ [c] ++ [d]) end.
  eapply X_bind; [dleaf|]. eapply X_bind; [apply D_block; [exact Hb|reflexivity|len]|]. eapply X_bind; [dleaf|].
  apply X_O. unfold expr_single. apply RunE_single; auto; [len|now apply after_stops|now apply after_lbp].
Qed.
Lemma D_params n va fuel r : 2 * length (params_w n va ++ r) <= fuel -> Does (@param_list TO fuel) (params_w n va ++ r) r tt [params_t n va].
Proof. intros H. apply D_param_list. len. Qed.
Lemma RunS_local_fun n va b : RunB b -> RunS (SLocalFun n va b).
Proof.
  intros Hb m r Hn _. dstart. unfold local_stmt. apply D_nth. cbn [nth]. dif. unfold local_function_def_stmt. eapply (D_node_ _ _ _ _ true).
  dtok. dtok. cut3. eapply D_bind; [apply D_name_r|]. cut3. eapply D_bind; [apply D_params; len|]. dblk Hb. dleaf.
Qed.
Lemma fname_w_hd f r : hd0 (fname_w f ++ r) = KIdent.
Proof. destruct f as [|[|n]|[|n]]; reflexivity. Qed.
Lemma RunS_fun f n va b : RunB b -> RunS (SFun f n va b).
Proof.
  intros Hb m r Hn _. dstart. unfold function_def_stmt. eapply (D_node_ _ _ _ _ true).
  dtok. pose proof (params_w_len n va). cut3. eapply D_bind; [apply D_fname; len|]. cut3. eapply D_bind; [apply D_params; len|]. dblk Hb. dleaf.
Qed.
Lemma RunS_local n : RunS (SLocal n).
Proof.
  intros m r Hn (F1 & _ & _). dstart. unfold local_stmt. apply D_nth. replace (nth 1 (KLocalKw :: names_w n ++ r) KEof) with KIdent by (destruct n; reflexivity). dif.
  unfold local_assign_stmt. eapply (D_node_ _ _ _ _ tt). dtok. rewrite app_length, names_w_len in Hn || cbn [length] in Hn.
  cut3. eapply D_bind; [apply D_multi_name; [now apply (after_not _ KComma F1)|]|].
  - rewrite ?app_length, ?names_w_len in Hn. lia.
  - eapply (D_bind _ _ _ _ _ _ _ []); [apply D_accept_no; cbn [pacc_test]; apply kind_eqb_false, (after_not _ KEq F1); reflexivity|]. cbn iota. dleaf.
Qed.
Lemma RunS_local_init n es : RunEs es -> RunS (SLocalInit n es).
Proof.
  intros H m r Hn (F1 & F2 & _). dstart. unfold local_stmt. apply D_nth.
  replace (nth 1 (KLocalKw :: names_w n ++ KEq :: exps_w es ++ r) KEof) with KIdent by (destruct n; reflexivity). dif.
  unfold local_assign_stmt. eapply (D_node_ _ _ _ _ tt). dtok. pose proof (names_w_len n).
  cut3. eapply D_bind; [apply D_multi_name; [discriminate|len]|].
  cut3. eapply D_bind; [apply D_accept; [reflexivity|discriminate]|]. cbn iota. unfold expr.
  apply Run_multi; auto; [len| |now apply after_lbp|now apply (after_not _ KComma F1)].
  apply after_stops; [exact F1|]. intros E. specialize (F2 E). cbn [open_stat] in F2. clear -F2.
  induction es; cbn [open_last impl last_exp] in *; auto.
Qed.
Lemma open_last_exp es : open_end impl (last_exp es) = open_last impl es.
Proof. induction es; cbn [open_last impl last_exp]; auto. Qed.
Lemma RunS_return0 : RunS SReturn0.
Proof.
  intros m r Hn (_ & _ & F3). specialize (F3 eq_refl). dstart. unfold return_stmt. eapply (D_node_ _ _ _ _ tt). dtok. apply D_at. cbn [pacc_test].
  replace (ts_contains EXPR_FIRST (hd0 r)) with false by (repeat (destruct F3 as [<-|F3]; [reflexivity|]); destruct F3). dleaf.
Qed.
Lemma RunS_return es : RunEs es -> RunS (SReturn es).
Proof.
  intros H m r Hn (F1 & F2 & F3). dstart. unfold return_stmt. eapply (D_node_ _ _ _ _ tt). dtok. apply D_at. cbn [pacc_test].
  rewrite first_exps, first_in_expr. unfold expr.
  apply Run_multi; auto; [len| |now apply after_lbp|now apply (after_not _ KComma F1)].
  apply after_stops; [exact F1|]. rewrite open_last_exp. exact F2.
Qed.
Lemma RunS_break : RunS SBreak.
Proof. intros m r Hn _. dstart. unfold break_stmt. eapply (D_node_ _ _ _ _ tt). dleaf. Qed.
Lemma RunS_goto : RunS SGoto.
Proof.
  intros m r Hn _. dstart. unfold goto_stmt. eapply X_node_. change [PTok KGotoKw; name_ref_t] with ([PTok KGotoKw] ++ [name_ref_t]).
  eapply X_bind; [dleaf|]. apply X_M, D_name_ref.
Qed.
Lemma RunS_label : RunS SLabel.
Proof.
  intros m r Hn _. dstart. unfold label_stmt. eapply (D_bind _ _ _ _ _ _ _ []); [apply D_at; cbn [pacc_test nth]; apply D_ret|].
  eapply (D_node_ _ _ _ _ tt). assert (Hd : forall l, Does (@label_delim TO) (KDoubleColon :: l) l tt [label_delim_t]).
  { intros l. unfold label_delim. eapply D_node_. dleaf. }
  cut3. eapply D_bind; [apply Hd|]. cut3. eapply D_bind; [apply D_name_r|apply Hd].
Qed.
Lemma RunS_for_num es b : RunEs es -> RunB b -> RunS (SForNum es b).
Proof.
  intros H Hb m r Hn _. dstart. unfold for_stmt. eapply (D_node_ _ _ _ _ true). dtok. cut3. eapply D_bind.
  - unfold for_content. eapply (D_node_ _ _ _ _ tt). dat. apply D_nth. cbn [nth]. dif. unfold numeric_for.
    eapply (D_bind _ _ _ _ _ _ _ []); [apply D_at; cbn [pacc_test nth]; apply D_ret|]. eapply (D_node_ _ _ _ _ tt).
    cut3. eapply D_bind; [apply D_name|]. dtok. unfold expr. apply Run_multi_soft; [exact H|len|reflexivity|discriminate].
  - dtok. dblk Hb. dleaf.
Qed.
Lemma RunS_for_in n e b : exp_ok impl e = true -> RunE e -> RunB b -> RunS (SForIn n (One e) b).
Proof.
  intros Ho He Hb m r Hn _. cbn [stat_w stat_t exps_w exps_t] in *. dstart. unfold for_stmt. eapply (D_node_ _ _ _ _ true). dtok. cut3. pose proof (names_w_len n). eapply D_bind.
  - unfold for_content. eapply (D_node_ _ _ _ _ tt). apply D_at. rewrite names_w_hd. cbn [pacc_test]. dif. apply D_nth. rewrite names_w_nth1.
    replace (kind_eqb _ KEq) with false by (destruct n; reflexivity). unfold generic_for.
    eapply (D_bind _ _ _ _ _ _ _ []); [apply D_at; rewrite names_w_hd; apply D_ret|]. eapply X_node_.
    match goal with |- DoesX _ _ _ [?a; ?b; ?c] => change [a; b; c] with ([a] ++ [b] ++ [c]) end.
    eapply X_bind; [apply D_multi_name; [discriminate|len]|]. eapply X_bind; [dleaf|]. apply X_O. unfold expr_single. apply RunE_soft; auto. len.
  - dtok. dblk Hb. dleaf.
Qed.

(** Expression statements. *)
Lemma dispatch_expr n k r r' f : hd0 r = k -> k = KIdent \/ k = KLParen -> Does (@expr_stmt TO n (expr_f n)) r r' tt f -> Does (dispatch n) r r' tt f.
Proof. intros Hk [-> | ->] H; unfold dispatch; apply D_cur; rewrite Hk; repeat dif; exact H. Qed.
Lemma RunS_call e : is_call e = true -> exp_ok impl e = true -> RunE e -> RunS (SCall e).
Proof.
  intros Hc Ho He n r Hn (F1 & F2 & _). cbn [stat_w stat_t] in *. eapply dispatch_expr; [apply first_exp|apply first_prefix; auto using is_call_prefix|].
  unfold expr_stmt. eapply D_bindM; [|dleaf]. apply D_node_by. cut3. eapply D_bind.
  - apply (Run_multi (One e)); [now apply RunEs_one|exact Hn| |now apply after_lbp|now apply (after_not _ KComma F1)].
    apply after_stops; [exact F1|]. intros E. specialize (F2 E). discriminate F2.
  - eapply (D_bind _ _ _ _ _ _ _ []); [apply D_accept_no; cbn [pacc_test]; apply kind_eqb_false, (after_not _ KEq F1); reflexivity|]. cbn iota. dleaf.
Qed.
Lemma RunS_assign ts es : all_vars ts = true -> exps_ok impl ts = true -> RunEs ts -> RunEs es -> RunS (SAssign ts es).
Proof.
  intros Hv Ho Ht He n r Hn (F1 & F2 & _). cbn [stat_w stat_t] in *. rewrite <- app_assoc in *. cbn [app] in *.
  eapply dispatch_expr; [apply first_exps| |].
  { destruct ts; cbn [all_vars exps_ok] in *; bsplit; apply first_prefix; auto using is_var_prefix. }
  unfold expr_stmt. eapply D_bindM; [|dleaf]. apply D_node_by. cut3. eapply D_bind.
  - apply Run_multi_soft; [exact Ht|len|reflexivity|discriminate].
  - cut3. eapply D_bind; [apply D_accept; [reflexivity|discriminate]|]. cbn iota.
    rewrite <- (app_nil_r [PNode KMultivalExpr (exps_t es)]). eapply D_bind; [|dleaf].
    unfold expr. apply Run_multi; auto; [len| |now apply after_lbp|now apply (after_not _ KComma F1)].
    apply after_stops; [exact F1|]. rewrite open_last_exp. exact F2.
Qed.

(** *** Expressions *)
(** [lhs] on an atom with a known first token. *)
Lemma lhs_atom n r r1 k m (b : bool) :
  prefix_binding_power (hd0 r) = 0 ->
  (forall F, @atom_expr TO n (stmt_f n) (expr_f n) (mkDS r F) = Ok (Some (length F, b), mkDS r1 (F ++ [PNode k m]))) ->
  forall F, @lhs TO n (stmt_f n) (expr_f n) (mkDS r F) =
    @bind TO _ _ (@postfix_expr TO n (expr_f n) n (length F) b) (fun c => @ret TO _ (Some c)) (mkDS r1 (F ++ [PNode k m])).
Proof.
  intros Hp H F. unfold lhs. rewrite (bind_run _ _ _ (hd0 r) (mkDS r F)) by reflexivity. cbv zeta. rewrite Hp. change (NOT_AN_OP <? 0) with false. cbn iota.
  rewrite (bind_run _ _ _ _ _ (H F)). reflexivity.
Qed.
Lemma atom_start n r : prefix_binding_power (hd0 r) = 0 -> forall F,
  @atom_expr TO n (stmt_f n) (expr_f n) (mkDS r F) =
  (if ts_contains LITERAL_FIRST (hd0 r) then @bind TO _ _ (@literal TO) (fun c => @ret TO _ (Some (c, false)))
   else if kind_eqb (hd0 r) KFunctionKw then @bind TO _ _ (@function_expr TO n (stmt_f n)) (fun m => @ret TO _ (Some (m, true)))
   else if kind_eqb (hd0 r) KLBrace then @bind TO _ _ (@table_expr TO n (expr_f n)) (fun m => @ret TO _ (Some (m, true)))
   else if kind_eqb (hd0 r) KIdent then @bind TO _ _ (@name_ref TO) (fun m => @ret TO _ (Some (m, true)))
   else if kind_eqb (hd0 r) KLParen then @bind TO _ _ (@paren_expr TO (expr_f n)) (fun m => @ret TO _ (Some (m, true)))
   else @bind TO _ _ (@p_err_recover TO "Expected an expression" EXPR_RECOVERY_SET) (fun _ => @ret TO _ None)) (mkDS r F).
Proof.
  intros Hp F. unfold atom_expr. rewrite (bind_run _ _ _ (hd0 r) (mkDS r F)) by reflexivity. cbv zeta. rewrite Hp. change (0 <? 0) with false. cbn iota.
  rewrite (bind_run _ _ _ (ts_contains LITERAL_FIRST (hd0 r)) (mkDS r F)) by reflexivity.
  destruct (ts_contains LITERAL_FIRST (hd0 r)); [reflexivity|].
  rewrite (bind_run _ _ _ (hd0 r) (mkDS r F)) by reflexivity. reflexivity.
Qed.
Lemma atom_mark (m : D nat) r r1 t (b : bool) F : DoesM m r r1 t ->
  @bind TO _ _ m (fun c => @ret TO _ (Some (c, b))) (mkDS r F) = Ok (Some (length F, b), mkDS r1 (F ++ [t])).
Proof. intros H. rewrite (bind_run _ _ _ _ _ (H F)). reflexivity. Qed.

Lemma E_lit l : LoopE (ELit l).
Proof.
  apply lhs_Loop; [|discriminate]. intros n rest F Hn Hs. cbn [exp_w app stops exp_t] in *. destruct n as [|n]; [len|].
  rewrite (lhs_atom (S n) (lit_kind l :: rest) rest KLiteral [PTok (lit_kind l)] false).
  - rewrite (bind_run _ _ _ _ _ (postfix_stop_lit (S n) (expr_f (S n)) n (length F) rest (F ++ [PNode KLiteral [PTok (lit_kind l)]]) Hs)). reflexivity.
  - destruct l; reflexivity.
  - intros F'. rewrite atom_start by (destruct l; reflexivity). cbn [nth]. replace (ts_contains LITERAL_FIRST (lit_kind l)) with true by (destruct l; reflexivity).
    apply (atom_mark (@literal TO)). unfold literal. intros F''. rewrite (bind_run _ _ _ tt (mkDS (lit_kind l :: rest) F'')).
    2:{ destruct l; reflexivity. }
    apply (D_node KLiteral _ _ _ tt). apply D_bumpany. destruct l; discriminate.
Qed.
Lemma P_name : LoopP EName.
Proof.
  intros _ n rest Hn. cbn [exp_w app exp_t] in *. exists n. split; [len|]. apply (lhs_atom n (KIdent :: rest) rest KNameRef [PTok KIdent] true); [reflexivity|].
  intros F. rewrite atom_start by reflexivity. cbn [nth]. apply (atom_mark (@name_ref TO)). apply D_name_ref.
Qed.
Lemma P_paren e : exp_ok impl e = true -> RunE e -> LoopP (EParen e).
Proof.
  intros Ho H _ n rest Hn. cbn [exp_w app exp_t] in *. rewrite <- app_assoc in *. cbn [app] in *. exists n. split; [len|].
  apply (lhs_atom n _ rest KParenExpr [PTok KLParen; exp_t e; PTok KRParen] true); [reflexivity|].
  intros F. rewrite atom_start by reflexivity. cbn [nth]. apply (atom_mark (@paren_expr TO (expr_f n))). unfold paren_expr. eapply (D_node _ _ _ _ true).
  dtok. dexp H. dleaf.
Qed.
Lemma E_fun n va b : RunB b -> LoopE (EFun n va b).
Proof.
  intros H. apply lhs_Loop; [|discriminate]. intros m rest F Hn Hs. cbn [exp_w app stops exp_t] in *. rewrite <- !app_assoc in *. cbn [app] in *.
  destruct m as [|m]; [len|]. pose proof (params_w_len n va) as Hp.
  rewrite (lhs_atom (S m) (KFunctionKw :: params_w n va ++ block_w b ++ KEndKw :: rest) rest KFunctionExpr [PTok KFunctionKw; params_t n va; PNode KBlock (block_t b); PTok KEndKw] true).
  - rewrite (bind_run _ _ _ _ _ (postfix_stop (S m) (expr_f (S m)) m (length F) rest _ Hs)). reflexivity.
  - reflexivity.
  - intros F'. rewrite atom_start by reflexivity. cbn [nth]. apply (atom_mark (@function_expr TO (S m) (stmt_f (S m)))). unfold function_expr. eapply (D_node _ _ _ _ true).
    dtok. cut3. eapply D_bind; [apply D_params; len|]. dblk H. dleaf.
Qed.
Lemma E_table fs : RunFs fs -> LoopE (ETable fs).
Proof.
  intros H. apply lhs_Loop; [|discriminate]. intros m rest F Hn Hs. cbn [exp_w app stops exp_t] in *. rewrite <- !app_assoc in *. cbn [app] in *.
  destruct m as [|m]; [len|].
  rewrite (lhs_atom (S m) (KLBrace :: fields_w fs ++ KRBrace :: rest) rest KTableExpr (PTok KLBrace :: fields_t fs ++ [PTok KRBrace]) true).
  - rewrite (bind_run _ _ _ _ _ (postfix_stop (S m) (expr_f (S m)) m (length F) rest _ Hs)). reflexivity.
  - reflexivity.
  - intros F'. rewrite atom_start by reflexivity. cbn [nth]. apply (atom_mark (@table_expr TO (S m) (expr_f (S m)))). apply D_table; auto. len.
Qed.
Lemma E_un o e : exp_ok impl (EUn o e) = true -> RunE e -> LoopE (EUn o e).
Proof.
  intros Ho H. apply ok_un in Ho as [Hu Ho]. apply lhs_Loop; [|discriminate]. intros n rest F Hn Hs. cbn [exp_w app stops exp_t] in *.
  apply andb_true_iff in Hs as [Hb Hs]. apply Nat.ltb_lt in Hb.
  unfold lhs. rewrite (bind_run _ _ _ (unop_kind o) (mkDS (unop_kind o :: exp_w e ++ rest) F)) by reflexivity. cbv zeta.
  replace (NOT_AN_OP <? prefix_binding_power (unop_kind o)) with true by (destruct o; reflexivity).
  assert (HM : DoesM (@node TO _ KPrefixExpr (@bind TO _ _ (@p_bump TO PAny) (fun _ => expr_f n (prefix_binding_power (unop_kind o)))))
                 (unop_kind o :: exp_w e ++ rest) rest (PNode KPrefixExpr [PTok (unop_kind o); exp_t e])).
  { eapply X_node. change [PTok (unop_kind o); exp_t e] with ([PTok (unop_kind o)] ++ [exp_t e]). eapply X_bind; [apply D_bumpany; destruct o; discriminate|].
    apply X_O. apply H; [len|now apply lspine_un|exact Hs|exact Hb]. }
  rewrite (bind_run _ _ _ _ _ (HM F)). reflexivity.
Qed.
Lemma bind_cong {A B} (m m' : D A) (k : A -> D B) st st' : m st = m' st' -> @bind TO A B m k st = @bind TO A B m' k st'.
Proof. intros H. cbn [bind TO tree_ops]. unfold tr_bind. now rewrite H. Qed.
Lemma E_bin o l r : exp_ok impl (EBin o l r) = true -> LoopE l -> RunE r -> LoopE (EBin o l r).
Proof.
  intros Hok Hl Hr n min rest Hn Hm Hs. pose proof (ok_bin _ _ _ Hok) as (O1 & O3 & O4 & O5).
  cbn [exp_w lspine stops] in *. rewrite <- app_assoc in *. cbn [app] in *.
  apply andb_true_iff in Hm as [M1 M2]. apply andb_true_iff in Hs as [S1 S2]. apply Nat.leb_le in M1. apply Nat.ltb_lt in S1.
  destruct (Hl n min (binop_kind o :: exp_w r ++ rest) Hn M2 (stops_left _ _ _ Hok)) as (m & Hm & HF).
  pose proof (exp_w_pos r). pose proof (exp_w_pos l). destruct m as [|m]; [len|]. exists m. split; [len|]. intros F. rewrite HF.
  destruct (exp_t_node l) as (k0 & f0 & El). cbn [exp_t]. rewrite El.
  apply bind_cong. apply infix_step; [exact M1|destruct o; discriminate|].
  apply Hr; [len|now apply lspine_right|exact S2|exact S1].
Qed.

(** Postfix expressions. *)
Lemma P_step f (e : exp) (w : list kind) : is_prefixexp f = true -> LoopP f -> exp_w e = exp_w f ++ w -> 1 <= length w ->
  (forall n rest m F k0 f0, 2 * length (exp_w e ++ rest) <= n -> exp_t f = PNode k0 f0 ->
     @postfix_expr TO n (expr_f n) (S m) (length F) true (mkDS (w ++ rest) (F ++ [PNode k0 f0])) =
     @postfix_expr TO n (expr_f n) m (length F) true (mkDS rest (F ++ [exp_t e]))) ->
  LoopP e.
Proof.
  intros Hp Hf Hw Hl H _ n rest Hn. rewrite Hw in *. rewrite <- app_assoc in *. destruct (Hf Hp n (w ++ rest) Hn) as (m & Hm & HF).
  destruct m as [|m]; [lia|]. exists m. split; [len|]. intros F. rewrite HF. destruct (exp_t_node f) as (k0 & f0 & El). rewrite El.
  apply bind_cong. apply H; [rewrite <- app_assoc; exact Hn|exact El].
Qed.
Lemma P_call f a : is_prefixexp f = true -> LoopP f -> RunA a -> LoopP (ECall f a).
Proof.
  intros Hp Hf Ha. apply (P_step f _ (args_w a)); auto; [apply args_w_pos|]. intros n rest m F k0 f0 Hn El. cbn [exp_t exp_w] in *. rewrite El.
  pose proof (exp_w_pos f). apply postfix_call; [apply args_first|]. apply Ha. len.
Qed.
Lemma P_method f a : is_prefixexp f = true -> LoopP f -> RunA a -> LoopP (EMethod f a).
Proof.
  intros Hp Hf Ha. apply (P_step f _ (KColon :: KIdent :: args_w a)); auto; [cbn [length]; lia|]. intros n rest m F k0 f0 Hn El. cbn [exp_t exp_w app] in *. rewrite El.
  pose proof (exp_w_pos f). apply postfix_method; [apply args_first|]. apply Ha. len.
Qed.
Lemma P_index f i : is_prefixexp f = true -> LoopP f -> exp_ok impl i = true -> RunE i -> LoopP (EIndex f i).
Proof.
  intros Hp Hf Ho Hi. apply (P_step f _ (KLBracket :: exp_w i ++ [KRBracket])); auto; [cbn [length]; lia|]. intros n rest m F k0 f0 Hn El. cbn [exp_t exp_w app] in *. rewrite El.
  rewrite <- app_assoc. cbn [app]. apply postfix_index. apply D_index; auto. len.
Qed.
Lemma P_dot f : is_prefixexp f = true -> LoopP f -> LoopP (EDot f).
Proof.
  intros Hp Hf. apply (P_step f _ [KDot; KIdent]); auto; [cbn [length]; lia|]. intros n rest m F k0 f0 Hn El. cbn [exp_t exp_w app] in *. rewrite El. apply postfix_dot.
Qed.

(** ** The induction *)
Lemma not_nil e : exp_w e <> [].
Proof. pose proof (exp_w_pos e) as H. destruct (exp_w e); [cbn in H; lia|discriminate]. Qed.

Theorem lua_complete :
  (forall e, exp_ok impl e = true -> LoopE e /\ LoopP e) /\
  (forall es, exps_ok impl es = true -> RunEs es /\ forall e, es = One e -> RunE e) /\
  (forall a, args_ok impl a = true -> RunA a) /\
  (forall fs, fields_ok impl fs = true -> RunFs fs) /\
  (forall f, field_ok impl f = true -> RunFd f) /\
  (forall s, stat_ok impl s = true -> RunS s) /\
  (forall t, iftail_ok impl t = true -> RunT t) /\
  (forall b, block_ok impl b = true -> RunB b).
Proof.
  assert (NP : forall e, is_prefixexp e = false -> LoopP e) by (intros e H H'; congruence).
  assert (LR : forall e, LoopE e /\ LoopP e -> RunE e) by (intros e [H _]; now apply Loop_Run).
  assert (PP : forall e, is_prefixexp e = true -> LoopP e -> LoopE e /\ LoopP e).
  { intros e Hp H. split; [|exact H]. apply prefix_Loop; auto. apply not_nil. }
  apply lua_ind.
  - intros l _. split; [apply E_lit|now apply NP].
  - intros _. apply PP; [reflexivity|apply P_name].
  - intros e IH Ho. apply PP; [reflexivity|]. apply P_paren; auto.
  - intros n va b IH Ho. split; [apply E_fun; auto|now apply NP].
  - intros fs IH Ho. split; [apply E_table; auto|now apply NP].
  - intros o e IH Ho. split; [|now apply NP]. apply E_un; auto. apply ok_un in Ho as [_ Ho]. auto.
  - intros o l IHl r IHr Ho. split; [|now apply NP]. pose proof (ok_bin _ _ _ Ho) as (_ & _ & O4 & O5). apply E_bin; auto. now apply IHl.
  - intros f IHf a IHa Ho. cbn [exp_ok] in Ho. bsplit. apply PP; [reflexivity|]. apply P_call; auto. now apply IHf.
  - intros f IHf a IHa Ho. cbn [exp_ok] in Ho. bsplit. apply PP; [reflexivity|]. apply P_method; auto. now apply IHf.
  - intros f IHf i IHi Ho. cbn [exp_ok] in Ho. bsplit. apply PP; [reflexivity|]. apply P_index; auto. now apply IHf.
  - intros f IHf Ho. cbn [exp_ok] in Ho. bsplit. apply PP; [reflexivity|]. apply P_dot; auto. now apply IHf.
  - intros e IH Ho. cbn [exps_ok] in Ho. split; [apply RunEs_one; auto|]. intros e' E. injection E as <-. auto.
  - intros e IH es IHs Ho. cbn [exps_ok] in Ho. bsplit. split; [|discriminate]. apply RunEs_more; auto. now apply IHs.
  - intros _. apply RunA_none.
  - intros es IH Ho. apply RunA_list. now apply IH.
  - intros fs IH Ho. apply RunA_table; auto.
  - intros _. apply RunA_str.
  - intros _. apply RunFs_nil.
  - intros f IH Ho. apply RunFs_last; auto.
  - intros f IH semi fs IHs Ho. cbn [fields_ok] in Ho. bsplit. apply RunFs_cons; auto.
  - intros e IH Ho. apply RunFd_pos; auto.
  - intros e IH Ho. apply RunFd_name; auto.
  - intros k IHk v IHv Ho. cbn [field_ok] in Ho. bsplit. apply RunFd_key; auto.
  - intros e IH Ho. cbn [stat_ok] in Ho. bsplit. apply RunS_call; auto.
  - intros ts IHt es IHe Ho. cbn [stat_ok] in Ho. bsplit. apply RunS_assign; auto; [now apply IHt|now apply IHe].
  - intros n _. apply RunS_local.
  - intros n es IH Ho. apply RunS_local_init. now apply IH.
  - intros n va b IH Ho. apply RunS_local_fun; auto.
  - intros f n va b IH Ho. apply RunS_fun; auto.
  - intros e IHe b IHb t IHt Ho. cbn [stat_ok] in Ho. bsplit. apply RunS_if; auto.
  - intros e IHe b IHb Ho. cbn [stat_ok] in Ho. bsplit. apply RunS_while; auto.
  - intros b IHb e IHe Ho. cbn [stat_ok] in Ho. bsplit. apply RunS_repeat; auto.
  - intros b IHb Ho. apply RunS_do; auto.
  - intros es IHe b IHb Ho. cbn [stat_ok] in Ho. bsplit. apply RunS_for_num; auto. now apply IHe.
  - intros n es IHe b IHb Ho. cbn [stat_ok impl d_for_list orb] in Ho. fold impl in Ho. bsplit. destruct es as [e|e es]; [|discriminate].
    cbn [exps_ok] in *. apply RunS_for_in; auto. now apply IHe.
  - intros _. apply RunS_return0.
  - intros es IH Ho. apply RunS_return. now apply IH.
  - intros _. apply RunS_break.
  - intros _. apply RunS_goto.
  - intros _. apply RunS_label.
  - intros _. apply RunT_none.
  - intros b IH Ho. apply RunT_else; auto.
  - intros e IHe b IHb t IHt Ho. cbn [iftail_ok] in Ho. bsplit. apply RunT_elseif; auto.
  - intros _. apply RunB_nil.
  - intros s IHs semi b IHb Ho. pose proof Ho as Ho'. cbn [block_ok] in Ho'. bsplit. apply RunB_cons; auto.
Qed.

(** The whole file. *)
Theorem root_complete b n : block_ok impl b = true -> 2 * length (block_w b) + 2 <= n ->
  @root_f TO n (mkDS (block_w b) []) = Ok (tt, mkDS [] [file_t b]).
Proof.
  intros Ho Hn. destruct lua_complete as (_ & _ & _ & _ & _ & _ & _ & HB). specialize (HB b Ho).
  assert (H : Does (@root_f TO n) (block_w b ++ []) [] tt [file_t b]).
  { unfold root_f, root, file_t. eapply (D_node_ _ _ _ _ tt). unfold root_block, block_raw. eapply (D_node_ _ _ _ _ tt).
    apply (HB n n [] ROOT_END); auto; rewrite ?app_nil_r; lia. }
  specialize (H []). rewrite app_nil_r in H. exact H.
Qed.
