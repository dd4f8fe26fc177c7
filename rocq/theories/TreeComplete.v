(** TreeComplete.v — the parser builds every tree of the grammar (GrammarSpec.v, without errors) that is grouped by the
    operator table (Grouping.v), from the tokens of that tree. Proof tools for PropsLang.v. *)
From Verif Require Import Base SyntaxKind TokenSet Lexer BindingPowers Parser Grammar ParserTree ParserTotal ValidSpec GrammarSpec LuaSyntax LuaRun LuaComplete Grouping GroupProofs.

Notation W f := (flat_map toks f).
Lemma next_hd f r : next f (hd0 r) = hd0 (W f ++ r).
Proof. unfold next. destruct (W f); [destruct r|]; reflexivity. Qed.
Lemma W_app a b : W (a ++ b) = W a ++ W b.
Proof. apply flat_map_app. Qed.
Lemma W_node K fs : W [PNode K fs] = W fs.
Proof. cbn [flat_map toks]. now rewrite app_nil_r. Qed.
Lemma req_true k f : req true k f -> f = [PTok k].
Proof. intros [H|[H _]]; [exact H|discriminate]. Qed.
Lemma is_err_true f : ~ is_err true f.
Proof. intros [H _]. discriminate. Qed.

(** ** Names, parameters, function names: what the grammar derives without errors *)
Definition pathnd_t n : ptree := PNode KFunctionDefContent [PNode KFunctionStatic [PNode KIndexPath (path_t n); name_t]].
Definition params_nc_t n : ptree := PNode KParamList [PTok KLParen; PNode KMultiName (names_t n); PTok KTripleDot; PTok KRParen].
Definition Names (n : nt) (f : forest) : Prop :=
  match n with
  | NName => f = [name_t]
  | NNameRef => f = [name_ref_t]
  | NNames => exists n, f = names_t n
  | NNameTail => exists n, f = tl (names_t n)
  | NPath => exists n, f = path_t n
  | NPathTail => exists n, f = tl (path_t n)
  | NParams => (exists n va, PNode KParamList (PTok KLParen :: f ++ [PTok KRParen]) = params_t n va) \/ exists n, f = [PNode KMultiName (names_t n); PTok KTripleDot]
  | NParamList => (exists n va, f = [params_t n va]) \/ exists n, f = [params_nc_t n]
  | NFunName => (exists x, f = [fname_t x]) \/ exists n, f = [pathnd_t n]
  | _ => True
  end.
Lemma names_t_cons n : names_t n = name_t :: tl (names_t n).
Proof. destruct n; reflexivity. Qed.
Lemma Tree_names : forall n f, Tree true n f -> Names n f.
Proof.
  induction 1; cbn [Names] in *; try exact Logic.I; try reflexivity;
  repeat match goal with H : is_err true _ |- _ => exfalso; exact (is_err_true _ H) | H : req true _ _ |- _ => apply req_true in H; subst end.
  - destruct IHTree2 as [m ->]. subst n. exists m. now rewrite (names_t_cons m).
  - exists 0. reflexivity.
  - destruct IHTree2 as [m ->]. subst n. exists (S m). cbn [names_t tl app]. now rewrite (names_t_cons m).
  - destruct IHTree as [(n & va & E)|(n & ->)]; [left; exists n, va|right; exists n; reflexivity]. cbn [app]. now rewrite E.
  - left. exists 0, false. reflexivity.
  - destruct IHTree as [m ->]. left. exists (S m), false. reflexivity.
  - destruct H as [-> |H]; [|exfalso; exact (is_err_true _ H)]. left. exists 0, true. reflexivity.
  - destruct H0 as [-> |H0]; [|exfalso; exact (is_err_true _ H0)]. destruct IHTree as [m ->]. left. exists (S m), true. reflexivity.
  - destruct H0 as [-> |H0]; [|exfalso; exact (is_err_true _ H0)]. destruct IHTree as [m ->]. right. exists m. reflexivity.
  - left. exists FPlain. now subst n.
  - destruct IHTree1 as [m ->]. subst n. left. exists (FStatic m). reflexivity.
  - destruct IHTree1 as [m ->]. subst n. right. exists m. reflexivity.
  - destruct IHTree1 as [m ->]. subst n. left. exists (FMethod m). reflexivity.
  - destruct IHTree2 as [m ->]. subst n. exists m. now rewrite (path_t_cons m).
  - exists 0. reflexivity.
  - destruct IHTree2 as [m ->]. subst n. exists (S m). cbn [path_t tl app]. now rewrite (path_t_cons m).
Qed.
Lemma names_W n : W (names_t n) = names_w n.
Proof. induction n as [|n IH]; [reflexivity|]. cbn [names_t names_w flat_map toks name_t app]. now rewrite IH. Qed.
Lemma path_W n : W (path_t n) = path_w n.
Proof. induction n as [|n IH]; [reflexivity|]. cbn [path_t path_w flat_map toks name_ref_t app]. now rewrite IH. Qed.
Lemma params_W n va : W [params_t n va] = params_w n va.
Proof.
  unfold params_t, params_w. rewrite W_node. destruct n, va; try reflexivity; cbn [flat_map toks app].
  - rewrite flat_map_app, names_W. cbn [flat_map toks app]. rewrite <- !app_assoc. reflexivity.
  - now rewrite names_W.
Qed.
Lemma params_nc_W n : W [params_nc_t n] = KLParen :: names_w n ++ [KTripleDot; KRParen].
Proof. unfold params_nc_t. rewrite W_node. cbn [flat_map toks app]. now rewrite names_W. Qed.
Lemma fname_W x : W [fname_t x] = fname_w x.
Proof.
  unfold fname_t, fname_w. rewrite W_node. destruct x as [|n|n]; [reflexivity| |]; rewrite W_node; cbn [flat_map toks]; rewrite ?flat_map_app, path_W; cbn [flat_map toks app]; rewrite <- ?app_assoc; reflexivity.
Qed.
Lemma pathnd_W n : W [pathnd_t n] = path_w n ++ [KIdent].
Proof. unfold pathnd_t. rewrite !W_node. cbn [flat_map toks]. now rewrite path_W. Qed.

Lemma D_params_nc n fuel r : 2 * n + 4 <= fuel -> Does (@param_list TO fuel) (KLParen :: names_w n ++ KTripleDot :: KRParen :: r) r tt [params_nc_t n].
Proof.
  intros Hf. unfold param_list, params_nc_t. eapply (D_node_ _ _ _ _ true). cut3. eapply D_bind; [dleaf|].
  cut3. eapply D_bind.
  - apply D_at. rewrite names_w_hd. cbn [pacc_test]. change (ts_contains PARAM_END KIdent) with false. cbn iota. apply D_multi_name; [discriminate|lia].
  - cut3. eapply D_bind; [|dleaf]. apply D_at. cbn [pacc_test nth]. change (kind_eqb KTripleDot KTripleDot) with true. cbn iota.
    change [PTok KTripleDot] with ([PTok KTripleDot] ++ []). eapply D_bind; [dleaf|]. dat. apply D_ret.
Qed.
(** Parameters, whichever form. *)
Lemma D_params_any f fuel r : Tree true NParamList f -> 2 * length (W f ++ r) <= fuel -> Does (@param_list TO fuel) (W f ++ r) r tt f /\ exists l, W f = KLParen :: l.
Proof.
  intros H Hf. apply Tree_names in H as [(n & va & ->)|(n & ->)].
  - rewrite params_W in *. split; [apply D_params, Hf|]. unfold params_w. eauto.
  - rewrite params_nc_W in *. split; [|eauto]. cbn [app] in *. rewrite <- app_assoc in *. cbn [app] in *. apply D_params_nc. revert Hf. cbn [length]. rewrite app_length, names_w_len. cbn [length]. lia.
Qed.
Lemma D_path_plain s n : forall m r, n + 2 <= m ->
  Does (@p_loop TO m (path_body s)) (tl (path_w n) ++ KIdent :: r) (KIdent :: r) tt (tl (path_t n)).
Proof.
  induction n as [|n IH]; intros m r Hm; (destruct m as [|m]; [lia|]); cbn [path_w path_t tl app].
  - apply D_loop_last. unfold path_body. dat. dat. apply D_ret.
  - rewrite (path_w_cons n), (path_t_cons n). cbn [app].
    change (PTok KDot :: name_ref_t :: tl (path_t n)) with ([PTok KDot; name_ref_t] ++ tl (path_t n)).
    eapply D_loop_step; [|apply IH; lia].
    unfold path_body. apply D_at. cbn [pacc_test nth]. change (kind_eqb KDot KColon) with false. cbn iota.
    apply D_at. cbn [pacc_test nth]. change (kind_eqb KDot KDot) with true. cbn iota.
    change [PTok KDot; name_ref_t] with ([PTok KDot] ++ [name_ref_t] ++ []). eapply D_bind; [dleaf|]. apply D_nth.
    replace (kind_eqb _ KLParen) with false by (destruct n; reflexivity).
    eapply D_bind; [apply D_name_ref_r|apply D_ret].
Qed.
Lemma D_fname_nd fuel n l r : length (path_w n) + 3 <= fuel ->
  Does (@function_def_content TO fuel) (path_w n ++ KIdent :: KLParen :: l ++ r) (KLParen :: l ++ r) tt [pathnd_t n].
Proof.
  intros Hf. rewrite path_w_len in Hf. unfold function_def_content, pathnd_t. eapply D_node_. apply D_at. cbn [pacc_test]. apply D_nth.
  replace (_ && _) with false by (destruct n; reflexivity). eapply D_pre_drop.
  - unfold index_path. eapply D_node. rewrite path_w_cons, path_t_cons. cbn [app].
    match goal with |- Does _ _ _ _ (?t :: ?l) => change (t :: l) with ([t] ++ l) end.
    eapply D_bind; [apply D_name_ref_r|]. apply (D_path_plain _ n fuel). lia.
  - apply D_at. cbn [pacc_test nth]. change (kind_eqb KIdent KColon) with false. cbn iota.
    change [name_t] with ([name_t] ++ []). eapply D_bind; [apply D_name_r|apply D_ret].
Qed.
Lemma D_fname_static fuel n l r : length (path_w n) + 3 <= fuel ->
  Does (@function_def_content TO fuel) (fname_w (FStatic n) ++ KLParen :: l ++ r) (KLParen :: l ++ r) tt [fname_t (FStatic n)].
Proof.
  intros Hf. rewrite path_w_len in Hf. unfold function_def_content, fname_t. eapply D_node_. apply D_at. cbn [pacc_test]. apply D_nth. cbn [fname_w]. rewrite <- app_assoc. cbn [app].
  replace (_ && _) with false by (destruct n; reflexivity).
  eapply D_pre_drop.
  - apply D_index_path_static. lia.
  - apply D_at. cbn [pacc_test nth]. change (kind_eqb KIdent KColon) with false. cbn iota.
    change [name_t] with ([name_t] ++ []). eapply D_bind; [apply D_name_r|apply D_ret].
Qed.
Lemma D_fname_any f fuel l r : Tree true NFunName f -> 2 * length (W f ++ KLParen :: l ++ r) <= fuel ->
  Does (@function_def_content TO fuel) (W f ++ KLParen :: l ++ r) (KLParen :: l ++ r) tt f.
Proof.
  intros H Hf. apply Tree_names in H as [([|n|n] & ->)|(n & ->)].
  - unfold function_def_content. cbn [flat_map toks fname_t app name_t]. eapply D_node_. apply D_at. cbn [pacc_test]. apply D_nth. cbn [nth].
    change (kind_eqb KIdent KIdent && kind_eqb KLParen KLParen) with true. cbn iota. apply D_name_r.
  - rewrite fname_W in *. apply D_fname_static. revert Hf. cbn [fname_w]. len.
  - rewrite fname_W in *. cbn [fname_w] in *. revert Hf. rewrite <- app_assoc. cbn [app]. intros Hf. unfold function_def_content, fname_t. eapply D_node_. apply D_at. cbn [pacc_test]. apply D_nth.
    replace (_ && _) with false by (destruct n; reflexivity).
    eapply D_pre_drop.
    + apply D_index_path_method. rewrite app_length, path_w_len in Hf. cbn [length] in Hf. lia.
    + apply D_at. cbn [pacc_test nth]. change (kind_eqb KColon KColon) with true. cbn iota.
      change [PTok KColon; name_t] with ([PTok KColon] ++ [name_t] ++ []). eapply D_bind; [dleaf|]. eapply D_bind; [apply D_name_r|apply D_ret].
  - rewrite pathnd_W in *. revert Hf. rewrite <- app_assoc. cbn [app]. intros Hf. apply D_fname_nd. revert Hf. len.
Qed.

(** ** First tokens *)
Definition exp_first (f : forest) : Prop :=
  (exists K fs, f = [PNode K fs] /\ In K expr_kinds /\ spine 1 (PNode K fs) = true) /\ (exists k l, W f = k :: l /\ In k starts_expr) /\
  forall rest, hd0 rest <> KEq -> hd0 (W f ++ rest) = KIdent -> nth 1 (W f ++ rest) KEof <> KEq.
Definition after_exp : list kind := [KComma; KRParen; KRBracket; KThenKw; KDoKw].
Definition First (n : nt) (f : forest) : Prop :=
  match n with
  | NExprO | NExpr | NLhs => exp_first f
  | NPost c => exp_first f /\ exists K fs, f = [PNode K fs] /\ if c then In K callable else K = KLiteral
  | NMulti => exists fs k l, f = [PNode KMultivalExpr fs] /\ W f = k :: l /\ In k starts_expr
  | NMultiTail => f = [] \/ exists g, f = PTok KComma :: g
  | NIndex => exists l, W f = KLBracket :: l
  | NCallArgs => exists t k l, f = [t] /\ is_exp t = false /\ W f = k :: l /\ In k [KLBrace; KLParen; KStr]
  | NField => exists k l, W f = k :: l /\ In k (KLBracket :: starts_expr)
  | NFields => f = [] \/ exists k l, W f = k :: l /\ In k (KLBracket :: starts_expr)
  | NElse => f = [] \/ exists K fs k l, f = [PNode K fs] /\ W f = k :: l /\ In k [KElseKw; KElseifKw]
  | _ => True
  end.
Lemma second_grow w k l rest : w <> [] -> hd0 (k :: l) <> KEq -> (forall rest, hd0 rest <> KEq -> hd0 (w ++ rest) = KIdent -> nth 1 (w ++ rest) KEof <> KEq) ->
  hd0 (w ++ k :: l ++ rest) = KIdent -> nth 1 (w ++ k :: l ++ rest) KEof <> KEq.
Proof. intros _ Hk H. apply H. exact Hk. Qed.
Lemma exp_first_atom K f k l : In K expr_kinds -> K <> KInfixExpr -> W f = k :: l -> In k starts_expr -> (k = KIdent -> l = []) -> exp_first [PNode K f].
Proof.
  intros HK Hn HW Hk Hl. split; [|split].
  - exists K, f. repeat split; auto. cbn [spine]. destruct f as [|? [|[] ?]]; auto. now rewrite kind_eqb_false.
  - rewrite W_node. eauto.
  - intros rest Hr. rewrite W_node, HW. cbn [app nth]. intros E. rewrite (Hl E). exact Hr.
Qed.
Lemma exp_first_grow K t g : In K expr_kinds -> (K = KInfixExpr -> exists o g', g = PTok o :: g' /\ 1 <= left_power o) -> exp_first [t] -> (exists k l, W g = k :: l /\ k <> KEq) -> exp_first [PNode K (t :: g)].
Proof.
  intros HK Hs ((K0 & f0 & E0 & HK0 & S0) & (k & l & HW & Hk) & H2) (k' & l' & Hg & Hk'). injection E0 as ->. split; [|split].
  - exists K, (PNode K0 f0 :: g). repeat split; auto. destruct (kind_eqb K KInfixExpr) eqn:E.
    + apply kind_eqb_true in E. destruct (Hs E) as (o & g' & -> & Ho). rewrite E, spine_infix, S0, andb_true_r. now apply Nat.leb_le.
    + cbn [spine]. destruct g as [|[] ?]; auto. now rewrite E.
  - rewrite W_node. change (PNode K0 f0 :: g) with ([PNode K0 f0] ++ g). rewrite W_app, HW. cbn [app]. eauto.
  - intros rest Hr. rewrite W_node. change (PNode K0 f0 :: g) with ([PNode K0 f0] ++ g). rewrite W_app, <- app_assoc. apply H2. rewrite Hg. exact Hk'.
Qed.
Ltac noerr0 := repeat match goal with H : is_err true _ |- _ => exfalso; exact (is_err_true _ H) | H : req true _ _ |- _ => apply req_true in H; subst | H : true = false |- _ => discriminate H end.
Lemma binary_left o : In o binary_ops -> 1 <= left_power o.
Proof. intros H. repeat (destruct H as [<-|H]; [cbn; lia|]). destruct H. Qed.
Lemma Tree_first : forall n f, Tree true n f -> First n f.
Proof.
  induction 1; cbn [First] in *; noerr0; try exact Logic.I; auto.
  - right. do 4 eexists. split; [reflexivity|]. rewrite W_node. cbn [flat_map toks app]. split; [reflexivity|]. cbn; tauto.
  - right. do 4 eexists. split; [reflexivity|]. rewrite W_node. cbn [flat_map toks app]. split; [reflexivity|]. cbn; tauto.
  - destruct IHTree1 as (_ & (k & l & HW & Hk) & _). do 3 eexists. split; [reflexivity|]. rewrite W_node, W_app, HW. cbn [app]. split; [reflexivity|exact Hk].
  - right. eauto.
  - apply exp_first_grow; [cbn; tauto| |exact IHTree1|].
    + intros _. exists o, r. split; [reflexivity|now apply binary_left].
    + exists o, (W r). split; [reflexivity|]. intros ->. cbn in H0. intuition discriminate.
  - destruct IHTree as (_ & (k & l & HW & Hk) & _). eapply exp_first_atom; [cbn; tauto|discriminate|cbn [flat_map toks app]; reflexivity| |].
    + cbn in H. cbn. intuition.
    + intros ->. cbn in H. intuition discriminate.
  - apply IHTree.
  - split; [|do 2 eexists; split; reflexivity]. eapply exp_first_atom; [cbn; tauto|discriminate|cbn [flat_map toks app]; reflexivity| |auto].
    cbn in H. cbn. intuition.
  - split; [|do 2 eexists; split; [reflexivity|cbn; tauto]]. eapply exp_first_atom; [cbn; tauto|discriminate|cbn [flat_map toks app]; reflexivity|cbn; tauto|discriminate].
  - split; [|do 2 eexists; split; [reflexivity|cbn; tauto]]. eapply exp_first_atom; [cbn; tauto|discriminate|cbn [flat_map toks app]; reflexivity|cbn; tauto|auto].
  - split; [|do 2 eexists; split; [reflexivity|cbn; tauto]]. eapply exp_first_atom; [cbn; tauto|discriminate|cbn [flat_map toks app]; reflexivity|cbn; tauto|discriminate].
  - split; [|do 2 eexists; split; [reflexivity|cbn; tauto]]. eapply exp_first_atom; [cbn; tauto|discriminate|cbn [flat_map toks app]; reflexivity|cbn; tauto|discriminate].
  - split; [|do 2 eexists; split; [reflexivity|cbn; tauto]]. destruct IHTree2 as (t' & k & l & -> & _ & HW & Hk). apply exp_first_grow; [cbn; tauto|discriminate|apply IHTree1|].
    exists k, l. split; [exact HW|]. intros ->. cbn in Hk. intuition discriminate.
  - split; [|do 2 eexists; split; [reflexivity|cbn; tauto]]. apply exp_first_grow; [cbn; tauto|discriminate|apply IHTree1|]. do 2 eexists. split; [cbn [flat_map toks app]; reflexivity|discriminate].
  - split; [|do 2 eexists; split; [reflexivity|cbn; tauto]]. destruct IHTree2 as [l HW]. apply exp_first_grow; [cbn; tauto|discriminate|apply IHTree1|]. exists KLBracket, l. split; [exact HW|discriminate].
  - split; [|do 2 eexists; split; [reflexivity|cbn; tauto]]. apply exp_first_grow; [cbn; tauto|discriminate|apply IHTree|]. do 2 eexists. split; [cbn [flat_map toks app]; reflexivity|discriminate].
  - eexists. rewrite W_node. cbn [flat_map toks app]. reflexivity.
  - do 3 eexists. split; [reflexivity|]. split; [reflexivity|]. split; [cbn [flat_map toks app]; reflexivity|cbn; tauto].
  - do 3 eexists. split; [reflexivity|]. split; [reflexivity|]. split; [cbn [flat_map toks app]; reflexivity|cbn; tauto].
  - do 3 eexists. split; [reflexivity|]. split; [reflexivity|]. split; [cbn [flat_map toks app]; reflexivity|cbn; tauto].
  - do 3 eexists. split; [reflexivity|]. split; [reflexivity|]. split; [cbn [flat_map toks app]; reflexivity|cbn; tauto].
  - right. destruct IHTree1 as (k & l & HW & Hk). rewrite W_app, HW. cbn [app]. eauto.
  - do 2 eexists. split; [cbn [flat_map toks app]; reflexivity|cbn; tauto].
  - destruct IHTree1 as [l HW]. exists KLBracket. rewrite !W_node. cbn [app]. change (PNode KTableKey i :: PTok KEq :: e) with ([PNode KTableKey i] ++ PTok KEq :: e). rewrite W_app, W_node, HW. eexists. split; [reflexivity|now left].
  - destruct IHTree as (_ & (k & l & HW & Hk) & _). rewrite !W_node, HW. do 2 eexists. split; [reflexivity|]. now right.
Qed.

(** ** The statements proved by induction *)
Lemma lbp_left k : lbp k = left_power k.
Proof. unfold lbp. now rewrite infix_power. Qed.
Definition RunE (t : ptree) : Prop := forall n min rest,
  2 * length (W [t] ++ rest) + 1 <= n -> well_grouped [t] (hd0 rest) -> spine min t = true -> extends t (hd0 rest) = false -> left_power (hd0 rest) < min ->
  DoesO (@expr_f TO n min) (W [t] ++ rest) rest t.
Definition LoopE (t : ptree) : Prop := forall n min rest,
  2 * length (W [t] ++ rest) <= n -> well_grouped [t] (hd0 rest) -> spine min t = true -> extends t (hd0 rest) = false ->
  exists m, 2 * length rest + 1 <= m /\ forall F,
    @expr_f TO (S n) min (mkDS (W [t] ++ rest) F) =
    @bind TO _ _ (@infix_loop TO (expr_f n) m min (length F)) (fun c => @ret TO _ (Some c)) (mkDS rest (F ++ [t])).
Definition LhsE (t : ptree) : Prop := forall n rest F,
  2 * length (W [t] ++ rest) <= n -> well_grouped [t] (hd0 rest) -> extends t (hd0 rest) = false ->
  @lhs TO n (stmt_f n) (expr_f n) (mkDS (W [t] ++ rest) F) = Ok (Some (length F), mkDS rest (F ++ [t])).
Definition LoopP (c : bool) (t : ptree) : Prop := forall n rest,
  2 * length (W [t] ++ rest) <= n -> well_grouped [t] (hd0 rest) ->
  exists m, 2 * length rest + 1 <= m /\ forall F,
    @lhs TO n (stmt_f n) (expr_f n) (mkDS (W [t] ++ rest) F) =
    @bind TO _ _ (@postfix_expr TO n (expr_f n) m (length F) c) (fun c => @ret TO _ (Some c)) (mkDS rest (F ++ [t])).

Definition multi_step (n : nat) : D unit := @bind TO _ _ (@p_bump TO (PKind KComma)) (fun _ => @bind TO _ _ (@expr_single TO (expr_f n)) (fun _ => @ret TO _ tt)).
Definition RunTail (f : forest) : Prop := forall n m rest, 2 * length (W f ++ rest) + 1 <= n -> length (W f) < m ->
  well_grouped f (hd0 rest) -> closed f (hd0 rest) -> left_power (hd0 rest) = 0 -> hd0 rest <> KComma ->
  Does (@p_while TO m (@p_at TO (PKind KComma)) (multi_step n)) (W f ++ rest) rest tt f.
Definition RunM (f : forest) : Prop := forall n rest, 2 * length (W f ++ rest) + 1 <= n ->
  well_grouped f (hd0 rest) -> left_power (hd0 rest) = 0 -> hd0 rest <> KComma ->
  Does (@Grammar.expr TO n (expr_f n)) (W f ++ rest) rest tt f.
Definition RunIx (f : forest) : Prop := forall n rest, 2 * length (W f ++ rest) <= n -> well_grouped f (hd0 rest) ->
  Does (@index TO (expr_f n)) (W f ++ rest) rest tt f.
Definition RunA (f : forest) : Prop := forall n rest, 2 * length (W f ++ rest) <= n -> well_grouped f (hd0 rest) ->
  Does (@call_args TO n (expr_f n)) (W f ++ rest) rest tt f.
Definition RunFd (f : forest) : Prop := forall n rest, 2 * length (W f ++ rest) + 1 <= n -> well_grouped f (hd0 rest) ->
  left_power (hd0 rest) = 0 -> hd0 rest <> KEq ->
  Does (@table_content TO (expr_f n)) (W f ++ rest) rest tt f.
Definition RunFs (f : forest) : Prop := forall n m rest, 2 * length (W f ++ KRBrace :: rest) + 1 <= n -> length (W f) < m -> well_grouped f KRBrace ->
  Does (fields_body n m) (W f ++ KRBrace :: rest) (KRBrace :: rest) tt f.
Definition RunS (f : forest) : Prop := forall n r, 2 * length (W f ++ r) + 1 <= n -> well_grouped f (hd0 r) -> In (hd0 r) after_kinds ->
  Does (dispatch n) (W f ++ r) r tt f /\ In (hd0 (W f ++ r)) stat_first /\ W f <> [].
Definition RunB (f : forest) : Prop := forall n m r E, E = ROOT_END \/ E = BLOCK_END ->
  ts_contains E (hd0 r) = true -> ts_contains BLOCK_END (hd0 r) = true ->
  2 * length (W f ++ r) + 2 <= n -> length (W f) < m -> well_grouped f (hd0 r) ->
  Does (block_body n m E) (W f ++ r) r tt f /\ In (hd0 (W f ++ r)) after_kinds /\ hd0 (W f ++ r) <> KSemicolon.
Definition RunT (f : forest) : Prop := forall n m r, hd0 r = KEndKw ->
  2 * length (W f ++ r) + 2 <= n -> length (W f) < m -> well_grouped f KEndKw ->
  Does (tail_body n m) (W f ++ r) r tt f.
Definition RunFor (f : forest) : Prop := forall n r, 2 * length (W f ++ KDoKw :: r) + 1 <= n -> well_grouped f KDoKw ->
  Does (@for_content TO n (expr_f n)) (W f ++ KDoKw :: r) (KDoKw :: r) tt [PNode KForContent f].
Definition P (n : nt) (f : forest) : Prop :=
  match n with
  | NExprO | NExpr => exists t, f = [t] /\ LoopE t
  | NLhs => exists t, f = [t] /\ LhsE t
  | NPost c => exists t, f = [t] /\ LoopP c t
  | NMulti => RunM f | NMultiTail => RunTail f
  | NIndex => RunIx f | NCallArgs => RunA f | NField => RunFd f | NFields => RunFs f
  | NStmt => RunS f | NStmts => RunB f | NElse => RunT f | NFor => RunFor f
  | NBlock => exists g, f = [PNode KBlock g] /\ RunB g
  | NSource => exists g, f = [PNode KSourceFile [PNode KBlock g]] /\ RunB g
  | _ => True
  end.

Lemma Loop_Run t : LoopE t -> RunE t.
Proof.
  intros H n min rest Hn Hw Hl Hs Hb F. destruct n as [|n]; [lia|].
  destruct (H n min rest ltac:(lia) Hw Hl Hs) as (m & Hm & HF). rewrite HF. destruct m as [|m]; [lia|].
  rewrite <- lbp_left in Hb. rewrite (bind_run _ _ _ _ _ (infix_stop _ _ _ _ _ _ Hb)). reflexivity.
Qed.
Lemma Lhs_Loop t : LhsE t -> W [t] <> [] -> LoopE t.
Proof.
  intros H He n min rest Hn Hw _ Hs. exists n. split.
  - rewrite app_length in Hn. destruct (W [t]); [congruence|]. cbn [length] in Hn. lia.
  - intros F. cbn [expr_f]. unfold expr_bp_body. rewrite (bind_run _ _ _ _ _ (H n rest F Hn Hw Hs)). reflexivity.
Qed.
(** Where the loop for calls and indices stops. *)
Lemma postfix_end fuel ex m l (c : bool) r F t : (exists K fs, t = PNode K fs /\ if c then In K callable else K = KLiteral) -> extends t (hd0 r) = false ->
  @postfix_expr TO fuel ex (S m) l c (mkDS r F) = Ok (l, mkDS r F).
Proof.
  intros (K & fs & -> & HK) H. destruct c.
  - apply postfix_stop. rewrite extends_callable in H by exact HK. unfold stop_call in H. unfold prim_end. revert H. destruct (hd0 r); try reflexivity; discriminate.
  - subst K. apply postfix_stop_lit. cbn [extends] in H. revert H. cbn. destruct (hd0 r); try reflexivity; discriminate.
Qed.
Lemma P_Lhs (c : bool) t : (exists K fs, t = PNode K fs /\ if c then In K callable else K = KLiteral) -> LoopP c t -> LhsE t.
Proof.
  intros HK H n rest F Hn Hw Hs. destruct (H n rest Hn Hw) as (m & Hm & HF). rewrite HF. destruct m as [|m]; [lia|].
  rewrite (bind_run _ _ _ _ _ (postfix_end n (expr_f n) m (length F) c rest (F ++ [t]) t HK Hs)). reflexivity.
Qed.

Lemma W_cons t f : W (t :: f) = W [t] ++ W f.
Proof. cbn [flat_map]. now rewrite app_nil_r. Qed.
Lemma W_tok k : W [PTok k] = [k]. Proof. reflexivity. Qed.
(** [wg]: take a grouped forest apart. *)
Ltac wg1 := match goal with
  | H : well_grouped [PNode _ _] _ |- _ => apply wg_node in H as [? H]
  | H : well_grouped (_ ++ _) _ |- _ => apply wg_app in H as [? H]
  | H : well_grouped (?t :: ?f) _ |- _ => lazymatch f with nil => fail | _ => apply wg_cons in H as [? H] end
  | H : well_grouped [PTok _] _ |- _ => clear H
  | H : well_grouped [] _ |- _ => clear H
  end.
Ltac wg := repeat wg1.
Lemma grouped_closed K fs nx : grouped K fs nx -> In K operand_parents -> closed fs nx.
Proof. intros H. apply H. Qed.

(** ** Expressions *)
Lemma node_shape t : exp_first [t] -> exists K fs, t = PNode K fs.
Proof. intros ((K & fs & E & _) & _). injection E as ->. eauto. Qed.
Lemma exp_pos f : exp_first f -> 1 <= length (W f).
Proof. intros (_ & (k & l & -> & _) & _). cbn [length]. lia. Qed.
Lemma C_infix t o r : exp_first [t] -> In o binary_ops -> exp_first [r] -> LoopE t -> RunE r -> LoopE (PNode KInfixExpr [t; PTok o; r]).
Proof.
  intros Ft Ho Fr Ht Hr n min rest Hn Hw Hm Hs. rewrite W_node in *. rewrite (W_cons t), (W_cons (PTok o)) in *. cbn [flat_map toks app] in Hn. rewrite W_tok in *.
  rewrite spine_infix in Hm. apply andb_true_iff in Hm as [M1 M2]. apply Nat.leb_le in M1.
  destruct (node_shape _ Ft) as (Kt & ft & ->). destruct (node_shape _ Fr) as (Kr & fr & ->).
  pose proof Hw as Hw'. apply wg_node in Hw' as [G Hw']. apply wg_cons in Hw' as [W1 W2]. apply wg_cons in W2 as [_ W2].
  pose proof (grouped_closed _ _ _ G ltac:(cbn; tauto)) as Cl. destruct G as (_ & G & _). specialize (G eq_refl _ _ _ eq_refl).
  cbn [extends] in Hs. change (kind_eqb KInfixExpr KInfixExpr) with true in Hs. cbn iota in Hs.
  assert (Er : is_exp (PNode Kr fr) = true). { destruct Fr as ((K' & f' & E' & HK' & _) & _). injection E' as -> ->. cbn [is_exp]. now apply among_in. }
  rewrite Er in Hs. cbn [andb] in Hs. apply orb_false_iff in Hs as [S1 S2]. apply Nat.leb_gt in S1.
  cbn [closed] in Cl. destruct Cl as (C1 & _ & _).
  rewrite <- ?app_assoc. cbn [app]. 
  assert (Hn' : 2 * length (W [PNode Kt ft] ++ o :: W [PNode Kr fr] ++ rest) <= n) by (revert Hn; cbn [flat_map]; rewrite ?app_nil_r; len).
  destruct (Ht n min (o :: W [PNode Kr fr] ++ rest) Hn') as (m & Hm & HF); [exact W1|exact M2|exact C1|].
  pose proof (exp_pos _ Fr). pose proof (exp_pos _ Ft). destruct m as [|m]; [len|]. exists m. split; [len|]. intros F. rewrite HF.
  apply bind_cong. apply infix_step; [rewrite lbp_left; exact M1|intros ->; cbn in Ho; intuition discriminate|].
  rewrite infix_power. cbn [snd]. apply Hr; [len|exact W2|exact G|exact S2|exact S1].
Qed.
Lemma C_prefix o r : In o unary_ops -> exp_first [r] -> RunE r -> LhsE (PNode KPrefixExpr [PTok o; r]).
Proof.
  intros Ho Fr H n rest F Hn Hw Hs. rewrite W_node in *. rewrite (W_cons (PTok o)), W_tok in *. cbn [app] in *.
  destruct (node_shape _ Fr) as (Kr & fr & ->).
  apply wg_node in Hw as [G Hw]. apply wg_cons in Hw as [_ W2]. destruct G as (_ & _ & G & _). specialize (G eq_refl _ _ eq_refl).
  cbn [extends] in Hs. change (kind_eqb KPrefixExpr KInfixExpr) with false in Hs. change (kind_eqb KPrefixExpr KPrefixExpr) with true in Hs. cbn iota in Hs.
  assert (Er : is_exp (PNode Kr fr) = true). { destruct Fr as ((K' & f' & E' & HK' & _) & _). injection E' as -> ->. cbn [is_exp]. now apply among_in. }
  rewrite Er in Hs. cbn [andb] in Hs. apply orb_false_iff in Hs as [S1 S2]. apply Nat.leb_gt in S1.
  unfold lhs. rewrite (bind_run _ _ _ o (mkDS (o :: W [PNode Kr fr] ++ rest) F)) by reflexivity. cbv zeta. rewrite prefix_power.
  replace (NOT_AN_OP <? unary_power o) with true by (repeat (destruct Ho as [<-|Ho]; [reflexivity|]); destruct Ho).
  assert (HM : DoesM (@node TO _ KPrefixExpr (@bind TO _ _ (@p_bump TO PAny) (fun _ => expr_f n (unary_power o))))
                 (o :: W [PNode Kr fr] ++ rest) rest (PNode KPrefixExpr [PTok o; PNode Kr fr])).
  { eapply X_node. change [PTok o; PNode Kr fr] with ([PTok o] ++ [PNode Kr fr]). eapply X_bind; [apply D_bumpany; intros ->; cbn in Ho; intuition discriminate|].
    apply X_O. apply H; [len|exact W2|exact G|exact S2|exact S1]. }
  rewrite (bind_run _ _ _ _ _ (HM F)). reflexivity.
Qed.
(** Atoms. *)
Lemma C_literal k : In k literals -> LoopP false (PNode KLiteral [PTok k]).
Proof.
  intros Hk n rest Hn Hw. rewrite W_node, W_tok in *. cbn [app] in *. exists n. split; [len|].
  apply (lhs_atom n (k :: rest) rest KLiteral [PTok k] false); [repeat (destruct Hk as [<-|Hk]; [reflexivity|]); destruct Hk|].
  intros F. rewrite atom_start by (repeat (destruct Hk as [<-|Hk]; [reflexivity|]); destruct Hk). cbn [nth].
  replace (ts_contains LITERAL_FIRST k) with true by (repeat (destruct Hk as [<-|Hk]; [reflexivity|]); destruct Hk).
  apply (atom_mark (@literal TO)). unfold literal. intros F''. rewrite (bind_run _ _ _ tt (mkDS (k :: rest) F'')).
  2:{ repeat (destruct Hk as [<-|Hk]; [reflexivity|]); destruct Hk. }
  apply (D_node KLiteral _ _ _ tt). apply D_bumpany. intros ->; cbn in Hk; intuition discriminate.
Qed.
Lemma C_name : LoopP true name_ref_t.
Proof.
  intros n rest Hn Hw. cbn [flat_map toks name_ref_t app] in *. exists n. split; [len|]. apply (lhs_atom n (KIdent :: rest) rest KNameRef [PTok KIdent] true); [reflexivity|].
  intros F. rewrite atom_start by reflexivity. cbn [nth]. apply (atom_mark (@name_ref TO)). apply D_name_ref.
Qed.
Lemma RunE_low t n rest : exp_first [t] -> RunE t -> 2 * length (W [t] ++ rest) + 1 <= n -> well_grouped [t] (hd0 rest) -> extends t (hd0 rest) = false -> left_power (hd0 rest) = 0 ->
  DoesO (@expr_single TO (expr_f n)) (W [t] ++ rest) rest t.
Proof.
  intros ((K & fs & E & _ & S1) & _) H Hn Hw Hs Hl. injection E as ->. unfold expr_single. apply H; auto. rewrite Hl. unfold LOWEST. lia.
Qed.
Lemma C_paren t : exp_first [t] -> RunE t -> LoopP true (PNode KParenExpr [PTok KLParen; t; PTok KRParen]).
Proof.
  intros Ft H n rest Hn Hw. rewrite W_node in *. rewrite (W_cons (PTok KLParen)), (W_cons t), !W_tok in *. cbn [app] in *. rewrite <- app_assoc in *. cbn [app] in *. exists n. split; [len|].
  apply wg_node in Hw as [G Hw]. apply wg_cons in Hw as [_ Hw]. apply wg_cons in Hw as [W1 _]. apply grouped_closed in G as (_ & G & _); [|cbn; tauto].
  apply (lhs_atom n _ rest KParenExpr [PTok KLParen; t; PTok KRParen] true); [reflexivity|].
  intros F. rewrite atom_start by reflexivity. cbn [nth]. apply (atom_mark (@paren_expr TO (expr_f n))). unfold paren_expr. eapply (D_node _ _ _ _ true).
  dtok. eapply D_bindO; [apply RunE_low; [exact Ft|exact H|len|exact W1|exact G|reflexivity]|]. dleaf.
Qed.
(** Loop steps. *)
Lemma postfix_index_c fuel ex m (c : bool) r r2 t k0 f0 F :
  Does (@index TO ex) (KLBracket :: r) r2 tt [t] ->
  @postfix_expr TO fuel ex (S m) (length F) c (mkDS (KLBracket :: r) (F ++ [PNode k0 f0])) =
  @postfix_expr TO fuel ex m (length F) true (mkDS r2 (F ++ [PNode KIndexExpr [PNode k0 f0; t]])).
Proof.
  intros H. cbn [postfix_expr].
  set (st := mkDS (KLBracket :: r) (F ++ [PNode k0 f0])).
  rewrite (bind_run _ _ _ KLBracket st) by reflexivity.
  rewrite (bind_run _ _ _ false st) by reflexivity. rewrite andb_false_r. change (kind_eqb KLBracket KColon) with false. change (kind_eqb KLBracket KLBracket) with true. cbn [andb].
  unfold index_expr, st. rewrite (bind_run _ _ _ _ _ (pre_node_run _ KIndexExpr _ _ _ _ k0 f0 F H)). reflexivity.
Qed.
Lemma postfix_dot_c fuel ex m (c : bool) r k0 f0 F :
  @postfix_expr TO fuel ex (S m) (length F) c (mkDS (KDot :: KIdent :: r) (F ++ [PNode k0 f0])) =
  @postfix_expr TO fuel ex m (length F) true (mkDS r (F ++ [PNode KDotExpr [PNode k0 f0; PTok KDot; PTok KIdent]])).
Proof.
  cbn [postfix_expr].
  set (st := mkDS (KDot :: KIdent :: r) (F ++ [PNode k0 f0])).
  rewrite (bind_run _ _ _ KDot st) by reflexivity.
  rewrite (bind_run _ _ _ false st) by reflexivity. rewrite andb_false_r. change (kind_eqb KDot KColon) with false. change (kind_eqb KDot KLBracket) with false. change (kind_eqb KDot KDot) with true. cbn [andb].
  unfold dot_expr, st.
  rewrite (bind_run _ _ _ (length F) (mkDS r (F ++ [PNode KDotExpr [PNode k0 f0; PTok KDot; PTok KIdent]]))); [reflexivity|].
  eapply pre_node_run. change [PTok KDot; PTok KIdent] with ([PTok KDot] ++ [PTok KIdent]).
  eapply D_bind; [dleaf|dleaf].
Qed.
Lemma C_step c t K g : exp_first [t] -> LoopP c t -> 1 <= length (W g) ->
  (forall n rest m F k0 f0, 2 * length (W g ++ rest) + 1 <= n -> well_grouped g (hd0 rest) -> t = PNode k0 f0 ->
     @postfix_expr TO n (expr_f n) (S m) (length F) c (mkDS (W g ++ rest) (F ++ [PNode k0 f0])) =
     @postfix_expr TO n (expr_f n) m (length F) true (mkDS rest (F ++ [PNode K (PNode k0 f0 :: g)]))) ->
  LoopP true (PNode K (t :: g)).
Proof.
  intros Ft Hf Hl H n rest Hn Hw. rewrite W_node, W_cons in *. rewrite <- app_assoc in *. apply wg_node in Hw as [_ Hw]. apply wg_cons in Hw as [W1 W2]. rewrite next_hd in W1.
  destruct (Hf n (W g ++ rest) Hn W1) as (m & Hm & HF).
  destruct m as [|m]; [lia|]. exists m. split; [len|]. intros F. rewrite HF. destruct (node_shape _ Ft) as (k0 & f0 & ->).
  apply bind_cong. pose proof (exp_pos _ Ft). apply H; [len|exact W2|reflexivity].
Qed.
Lemma args_hd k l : In k [KLBrace; KLParen; KStr] -> existsb (kind_eqb (hd0 (k :: l))) [KLBrace; KLParen; KStr] = true.
Proof. intros H. repeat (destruct H as [<-|H]; [reflexivity|]). destruct H. Qed.
Lemma C_call t a : exp_first [t] -> LoopP true t -> First NCallArgs a -> RunA a -> LoopP true (PNode KCallExpr (t :: a)).
Proof.
  intros Ft Ht (x & k & l & -> & _ & HW & Hk) Ha. apply (C_step true); auto; [rewrite HW; cbn [length]; lia|].
  intros n rest m F k0 f0 Hn Hw Et. apply postfix_call.
  - rewrite HW. cbn [app]. now apply args_hd.
  - apply Ha; [lia|exact Hw].
Qed.
Lemma C_method t a : exp_first [t] -> LoopP true t -> First NCallArgs a -> RunA a -> LoopP true (PNode KMethodCallExpr (t :: PTok KColon :: name_ref_t :: a)).
Proof.
  intros Ft Ht (x & k & l & -> & _ & HW & Hk) Ha. apply (C_step true); auto; [cbn [flat_map toks app length]; lia|].
  intros n rest m F k0 f0 Hn Hw Et. apply wg_cons in Hw as [_ Hw]. apply wg_cons in Hw as [_ Hw]. rewrite (W_cons (PTok KColon)), (W_cons name_ref_t), W_tok in *. change (W [name_ref_t]) with [KIdent] in *. cbn [app] in *. apply postfix_method.
  - rewrite HW. cbn [app]. now apply args_hd.
  - apply Ha; [len|exact Hw].
Qed.
Lemma C_index c t i : exp_first [t] -> LoopP c t -> First NIndex [i] -> RunIx [i] -> LoopP true (PNode KIndexExpr [t; i]).
Proof.
  intros Ft Ht (l & HW) Hi. apply (C_step c); auto; [rewrite HW; cbn [length]; lia|].
  intros n rest m F k0 f0 Hn Hw Et. specialize (Hi n rest ltac:(lia) Hw). rewrite HW in *. apply postfix_index_c. exact Hi.
Qed.
Lemma C_dot c t : exp_first [t] -> LoopP c t -> LoopP true (PNode KDotExpr [t; PTok KDot; PTok KIdent]).
Proof.
  intros Ft Ht. apply (C_step c); auto; [cbn [flat_map toks app length]; lia|].
  intros n rest m F k0 f0 Hn Hw Et. cbn [flat_map toks app]. apply postfix_dot_c.
Qed.

(** ** Lists of expressions, indices, arguments, tables *)
Lemma starts_eq k : ts_contains EXPR_FIRST k = among k starts_expr.
Proof. destruct k; reflexivity. Qed.
Lemma C_tail_nil : RunTail [].
Proof.
  intros n m rest Hn Hm Hw Hc Hl Hk. cbn [flat_map app]. destruct m as [|m]; [lia|]. unfold p_while. apply D_loop_stop. apply D_at. cbn [pacc_test]. rewrite kind_eqb_false by exact Hk. apply D_ret.
Qed.
Lemma C_tail_cons t g : exp_first [t] -> RunE t -> (g = [] \/ exists g', g = PTok KComma :: g') -> RunTail g -> RunTail (PTok KComma :: t :: g).
Proof.
  intros Ft Ht Hg IH n m rest Hn Hm Hw Hc Hl Hk. rewrite (W_cons (PTok KComma)), (W_cons t), W_tok in *. cbn [app] in *. rewrite <- app_assoc in *. cbn [length] in Hm.
  apply wg_cons in Hw as [_ Hw]. apply wg_cons in Hw as [W1 W2]. cbn [closed] in Hc. destruct Hc as (_ & C1 & C2). rewrite next_hd in W1, C1.
  destruct m as [|m]; [lia|]. unfold p_while. change (PTok KComma :: t :: g) with ([PTok KComma; t] ++ g). eapply D_loop_step; [|apply IH; auto; [len|rewrite app_length in Hm; lia]].
  eapply (D_bind _ _ _ _ _ true _ []); [apply D_at1; reflexivity|]. cbn iota. rewrite <- (app_nil_r [PTok KComma; t]). eapply D_bind; [|dleaf].
  unfold multi_step. change [PTok KComma; t] with ([PTok KComma] ++ [t]). eapply D_bind; [dleaf|]. eapply D_bindO; [apply RunE_low; auto; [len|]|dleaf].
  destruct Hg as [-> |[g' ->]]; [exact Hl|reflexivity].
Qed.
Lemma C_multi t g : exp_first [t] -> RunE t -> (g = [] \/ exists g', g = PTok KComma :: g') -> RunTail g -> RunM [PNode KMultivalExpr (t :: g)].
Proof.
  intros Ft Ht Hg IH n rest Hn Hw Hl Hk. rewrite W_node, (W_cons t) in *. rewrite <- app_assoc in *. apply wg_node in Hw as [G Hw]. apply wg_cons in Hw as [W1 W2].
  apply grouped_closed in G; [|cbn; tauto]. cbn [closed] in G. destruct G as [C1 C2]. rewrite next_hd in W1, C1.
  unfold Grammar.expr, expr_multi. eapply (D_node_ _ _ _ _ tt). eapply D_bindO; [apply RunE_low; auto|].
  - destruct Hg as [-> |[g' ->]]; [exact Hl|reflexivity].
  - apply IH; auto; pose proof (exp_pos _ Ft); len.
Qed.
Lemma C_ix t : exp_first [t] -> RunE t -> RunIx [PNode KIndex [PTok KLBracket; t; PTok KRBracket]].
Proof.
  intros Ft Ht n rest Hn Hw. rewrite W_node in *. rewrite (W_cons (PTok KLBracket)), (W_cons t), !W_tok in *. cbn [app] in *. rewrite <- app_assoc in *. cbn [app] in *.
  apply wg_node in Hw as [G Hw]. apply wg_cons in Hw as [_ Hw]. apply wg_cons in Hw as [W1 _]. apply grouped_closed in G as (_ & G & _); [|cbn; tauto].
  unfold index. eapply (D_node_ _ _ _ _ true). dtok. eapply D_bindO; [apply RunE_low; [exact Ft|exact Ht|len|exact W1|exact G|reflexivity]|]. dleaf.
Qed.
Lemma C_args_none : RunA [PNode KCallArgs [PNode KArgList [PTok KLParen; PTok KRParen]]].
Proof. intros n rest Hn Hw. cbn [flat_map toks app].
  apply D_call_args; [reflexivity|]. apply D_cur. cbn [nth]. dif.
  unfold arg_list. eapply D_node_. change [PTok KLParen; PTok KRParen] with ([PTok KLParen] ++ [] ++ [PTok KRParen]).
  eapply D_bind; [dleaf|]. eapply D_bind; [dat; dleaf|dleaf].
Qed.
Lemma C_args_list e : First NMulti e -> RunM e -> RunA [PNode KCallArgs [PNode KArgList (PTok KLParen :: e ++ [PTok KRParen])]].
Proof.
  intros (fs & k & l & -> & HW & Hk) H n rest Hn Hw. rewrite !W_node in *. rewrite (W_cons (PTok KLParen)), W_app, !W_tok in *. cbn [app] in *. rewrite <- app_assoc in *. cbn [app] in *.
  apply wg_node in Hw as [_ Hw]. apply wg_node in Hw as [_ Hw]. apply wg_cons in Hw as [_ Hw]. apply (wg_app [_]) in Hw as [Hw _].
  apply D_call_args; [reflexivity|]. apply D_cur. cbn [nth]. dif. unfold arg_list. eapply D_node_. cut3. eapply D_bind; [dleaf|]. cut3. eapply D_bind; [|dleaf].
  apply D_at. specialize (H n (KRParen :: rest)). rewrite ?W_node in *. rewrite HW in *. cbn [app] in *. cbn [pacc_test nth]. rewrite kind_eqb_false by (intros ->; cbn in Hk; intuition discriminate).
  apply H; [len|exact Hw|reflexivity|discriminate].
Qed.
Lemma C_args_str : RunA [PNode KCallArgs [PTok KStr]].
Proof. intros n rest Hn Hw. cbn [flat_map toks app]. apply D_call_args; [reflexivity|]. apply D_cur. cbn [nth]. dif. dif. dif. dleaf. Qed.
Lemma C_table n fs rest : RunFs fs -> 2 * length (W fs ++ KRBrace :: rest) + 1 <= n -> well_grouped fs KRBrace ->
  DoesM (@table_expr TO n (expr_f n)) (KLBrace :: W fs ++ KRBrace :: rest) rest (PNode KTableExpr (PTok KLBrace :: fs ++ [PTok KRBrace])).
Proof. intros H Hn Hw. unfold table_expr. eapply D_node. cut3. eapply D_bind; [dleaf|]. eapply D_bind; [|dleaf]. apply (H n n rest); auto; len. Qed.
Lemma W_table fs : W [PNode KTableExpr (PTok KLBrace :: fs ++ [PTok KRBrace])] = KLBrace :: W fs ++ [KRBrace].
Proof. rewrite W_node, (W_cons (PTok KLBrace)), W_app, !W_tok. reflexivity. Qed.
Lemma wg_table fs nx : well_grouped [PNode KTableExpr (PTok KLBrace :: fs ++ [PTok KRBrace])] nx -> well_grouped fs KRBrace.
Proof. intros Hw. apply wg_node in Hw as [_ Hw]. apply wg_cons in Hw as [_ Hw]. apply wg_app in Hw as [Hw _]. exact Hw. Qed.
Lemma C_args_table fs : RunFs fs -> RunA [PNode KCallArgs [PNode KTableExpr (PTok KLBrace :: fs ++ [PTok KRBrace])]].
Proof.
  intros H n rest Hn Hw. rewrite W_node, W_table in *. cbn [app] in *. rewrite <- app_assoc in *. cbn [app] in *. apply wg_node in Hw as [_ Hw]. apply wg_table in Hw.
  apply D_call_args; [reflexivity|]. apply D_cur. cbn [nth]. dif. dif. eapply D_bindM; [apply C_table; auto; len|dleaf].
Qed.
Lemma C_table_exp fs : RunFs fs -> LoopP true (PNode KTableExpr (PTok KLBrace :: fs ++ [PTok KRBrace])).
Proof.
  intros H n rest Hn Hw. rewrite W_table in *. cbn [app] in *. rewrite <- app_assoc in *. cbn [app] in *. apply wg_table in Hw. exists n. split; [len|].
  apply (lhs_atom n _ rest KTableExpr (PTok KLBrace :: fs ++ [PTok KRBrace]) true); [reflexivity|].
  intros F. rewrite atom_start by reflexivity. cbn [nth]. apply (atom_mark (@table_expr TO n (expr_f n))). apply C_table; auto. len.
Qed.
(** Fields. *)
Lemma C_fd_pos t : exp_first [t] -> RunE t -> RunFd [PNode KTableContent [PNode KPositionalValue [t]]].
Proof.
  intros Ft H n rest Hn Hw Hl Hq. rewrite !W_node in *. apply wg_node in Hw as [_ Hw]. apply wg_node in Hw as [G Hw]. apply grouped_closed in G as (G & _); [|cbn; tauto].
  unfold table_content. eapply D_node_. apply D_cur.
  assert (HR : Does (@node_ TO _ KPositionalValue (@expr_single TO (expr_f n))) (W [t] ++ rest) rest tt [PNode KPositionalValue [t]]).
  { apply D_nodeO_. apply RunE_low; auto. }
  destruct Ft as (_ & (k & l & HW & Hk) & F2). specialize (F2 rest Hq). rewrite HW in *. cbn [app] in *. change (hd0 (k :: l ++ rest)) with k in *.
  destruct (kind_eqb k KIdent) eqn:Ei.
  - apply kind_eqb_true in Ei. apply D_nth. rewrite kind_eqb_false by (now apply F2). exact HR.
  - rewrite kind_eqb_false. 2:{ intros ->. cbn in Hk. intuition discriminate. }
    apply D_at. cbn [pacc_test nth]. rewrite starts_eq. apply among_in in Hk. rewrite Hk. exact HR.
Qed.
Lemma C_fd_name t : exp_first [t] -> RunE t -> RunFd [PNode KTableContent [PNode KKeyValue [PNode KTableKey [name_t]; PTok KEq; t]]].
Proof.
  intros Ft H n rest Hn Hw Hl Hq. rewrite !W_node in *. rewrite (W_cons (PNode _ _)), (W_cons (PTok KEq)), W_node, W_tok in *. change (W [name_t]) with [KIdent] in *. cbn [app] in *.
  apply wg_node in Hw as [_ Hw]. apply wg_node in Hw as [G Hw]. apply grouped_closed in G as (_ & _ & G & _); [|cbn; tauto]. apply wg_cons in Hw as [_ Hw]. apply wg_cons in Hw as [_ Hw].
  unfold table_content. eapply D_node_. apply D_cur. cbn [nth].
  dif. apply D_nth. cbn [nth]. dif. eapply X_node_.
  match goal with |- DoesX _ _ _ [?a; ?b; ?c] => change [a; b; c] with ([a] ++ [b] ++ [c]) end.
  eapply X_bind; [eapply D_node_, D_name_unchecked|]. eapply X_bind; [dleaf|].
  apply X_O. apply RunE_low; auto. len.
Qed.
Lemma C_fd_key i t : First NIndex [i] -> RunIx [i] -> exp_first [t] -> RunE t -> RunFd [PNode KTableContent [PNode KKeyValue [PNode KTableKey [i]; PTok KEq; t]]].
Proof.
  intros (l & HW) Hi Ft H n rest Hn Hw Hl Hq. rewrite !W_node in *. rewrite (W_cons (PNode _ _)), (W_cons (PTok KEq)), W_node, W_tok in *. rewrite <- !app_assoc in *. cbn [app] in *.
  apply wg_node in Hw as [_ Hw]. apply wg_node in Hw as [G Hw]. apply grouped_closed in G as (_ & _ & G & _); [|cbn; tauto]. apply wg_cons in Hw as [W1 Hw]. apply wg_cons in Hw as [_ Hw]. apply wg_node in W1 as [_ W1].
  unfold table_content. eapply D_node_. apply D_cur.
  specialize (Hi n (KEq :: W [t] ++ rest) ltac:(len) W1). rewrite HW in *. cbn [app nth] in *. dif. dif. eapply X_node_.
  match goal with |- DoesX _ _ _ [?a; ?b; ?c] => change [a; b; c] with ([a] ++ [b] ++ [c]) end.
  eapply X_bind; [eapply D_node_; exact Hi|]. eapply X_bind; [dleaf|].
  apply X_O. apply RunE_low; auto. len.
Qed.
Lemma C_fields_nil : RunFs [].
Proof.
  intros n m rest _ Hm _. cbn [flat_map app]. destruct m as [|m]; [lia|]. unfold fields_body, p_while. apply D_loop_stop.
  eapply (D_bind _ _ _ _ _ false _ [] []); [|dleaf]. apply D_at. dleaf.
Qed.
Lemma C_fields_step f n m r r1 r2 f1 f2 F : First NField f -> RunFd f -> 2 * length (W f ++ r) + 1 <= n -> well_grouped f (hd0 r) ->
  left_power (hd0 r) = 0 -> hd0 r <> KEq ->
  Does (@table_inner TO n) r r1 tt f1 -> Does (fields_body n m) r1 r2 tt f2 -> F = f ++ f1 ++ f2 ->
  Does (fields_body n (S m)) (W f ++ r) r2 tt F.
Proof.
  intros (k & l & HW & Hk) H Hn Hw Hs Hq H1 H2 ->. unfold fields_body, p_while in *.
  rewrite app_assoc. eapply D_loop_step; [|exact H2].
  eapply (D_bind _ _ _ _ _ _ _ []); [apply D_at; dleaf|]. cbn [pacc_test].
  replace (ts_contains TABLE_END (hd0 (W f ++ r))) with false. 2:{ rewrite HW. cbn [app nth]. symmetry. repeat (destruct Hk as [<-|Hk]; [reflexivity|]). destruct Hk. }
  cbn [negb]. eapply Does_eq; [eapply D_bind; [eapply D_bind; [now apply H|exact H1]|dleaf]|]. now rewrite app_nil_r.
Qed.
Lemma C_fields_last f : First NField f -> RunFd f -> RunFs f.
Proof.
  intros Ff H n m rest Hn Hm Hw. destruct m as [|[|m]]; [lia| |].
  { destruct Ff as (k & l & HW & _). rewrite HW in Hm. cbn [length] in Hm. lia. }
  eapply C_fields_step; [exact Ff|exact H|exact Hn|exact Hw|reflexivity|discriminate| | |].
  - unfold table_inner. destruct n as [|n]; [lia|]. apply D_loop_stop. dat. dleaf.
  - apply (C_fields_nil n (S m) rest); cbn [flat_map length app]; [len|lia|constructor].
  - now rewrite !app_nil_r.
Qed.
Lemma C_fields_cons f s g : First NField f -> RunFd f -> s = KComma \/ s = KSemicolon -> RunFs g -> RunFs (f ++ PNode KTableSep [PTok s] :: g).
Proof.
  intros Ff H Hs IH n m rest Hn Hm Hw. rewrite W_app, (W_cons (PNode _ _)), W_node, W_tok in *. rewrite <- !app_assoc in *. cbn [app] in *.
  apply wg_app in Hw as [W1 W2]. apply wg_cons in W2 as [_ W2]. destruct m as [|m]; [lia|].
  eapply C_fields_step; [exact Ff|exact H|exact Hn|exact W1|destruct Hs as [-> | ->]; reflexivity|destruct Hs as [-> | ->]; discriminate| | |].
  - unfold table_inner. destruct n as [|n]; [lia|]. apply (D_loop_last _ _ _ (W g ++ KRBrace :: rest) [PNode KTableSep [PTok s]]).
    destruct Hs as [-> | ->]; dat; dat; rewrite <- (app_nil_r [PNode _ _]); (eapply D_bind; [|dleaf]); unfold table_sep; eapply D_node_; unfold p_bump_ts; dat; dleaf.
  - apply IH; [len|rewrite app_length in Hm; cbn [length] in Hm; lia|exact W2].
  - reflexivity.
Qed.

(** ** Blocks and statements *)
Lemma W_tcons k f : W (PTok k :: f) = k :: W f. Proof. reflexivity. Qed.
Lemma W_ncons K g f : W (PNode K g :: f) = W g ++ W f. Proof. reflexivity. Qed.
Lemma W_nil : W (@nil ptree) = []. Proof. reflexivity. Qed.
Lemma C_stmts_nil : RunB [].
Proof.
  intros n m r E HE H1 H2 Hn Hm _. cbn [flat_map app]. destruct m as [|m]; [lia|]. repeat split.
  - unfold block_body, p_while. apply D_loop_stop. eapply (D_bind _ _ _ _ _ _ _ []); [apply D_at; dleaf|]. cbn [pacc_test]. rewrite H1. cbn [negb]. dleaf.
  - destruct (hd0 r); try discriminate H2; cbn; tauto.
  - destruct (hd0 r); try discriminate H2; discriminate.
Qed.
Lemma C_stmts_cons f sc g : RunS f -> sc = [] \/ sc = [PTok KSemicolon] -> RunB g -> RunB (f ++ sc ++ g).
Proof.
  intros Hs Hsc Hg n m r E HE H1 H2 Hn Hm Hw. rewrite !W_app in *. rewrite <- !app_assoc in *. apply wg_app in Hw as [W1 W2]. apply wg_app in W2 as [_ W2].
  rewrite next_hd, W_app, <- app_assoc in W1. destruct n as [|n]; [lia|].
  assert (HG : forall m, length (W g) < m -> Does (block_body (S n) m E) (W g ++ r) r tt g /\ In (hd0 (W g ++ r)) after_kinds /\ hd0 (W g ++ r) <> KSemicolon).
  { intros m' Hm'. apply (Hg (S n) m' r E); auto. len. }
  destruct (HG (S (length (W g)))) as (_ & G2 & G3); [lia|].
  destruct (Hs n (W sc ++ W g ++ r)) as (S1 & S2 & S3); [len|exact W1| |].
  { destruct Hsc as [-> | ->]; [exact G2|cbn; tauto]. }
  split; [|split].
  - destruct m as [|m]; [lia|]. unfold block_body, p_while in *.
    replace (f ++ sc ++ g) with ((f ++ sc) ++ g) by (now rewrite app_assoc). eapply D_loop_step; [|apply HG].
    2:{ destruct (W f); [congruence|]. rewrite !app_length in Hm. cbn [length] in Hm. lia. }
    eapply (D_bind _ _ _ _ _ _ _ []); [apply D_at; dleaf|]. cbn [pacc_test].
    replace (ts_contains E (hd0 (W f ++ W sc ++ W g ++ r))) with false.
    2:{ symmetry. destruct HE as [-> | ->]; repeat (destruct S2 as [<-|S2]; [reflexivity|]); destruct S2. }
    cbn [negb]. eapply Does_eq; [eapply D_bind; [|dleaf]|apply app_nil_r]. rewrite stmt_f_dispatch. eapply D_bind; [exact S1|].
    destruct Hsc as [-> | ->]; cbn [flat_map toks app].
    + eapply (D_bind _ _ _ _ _ _ _ []); [apply D_accept_no; cbn [pacc_test]; now apply kind_eqb_false|dleaf].
    + change [PTok KSemicolon] with ([PTok KSemicolon] ++ []). eapply D_bind; [apply D_accept; [reflexivity|discriminate]|dleaf].
  - unfold after_kinds. apply in_or_app. right. exact S2.
  - intros Es. rewrite Es in S2. cbn in S2. intuition discriminate.
Qed.
Lemma C_block g n r : RunB g -> ts_contains BLOCK_END (hd0 r) = true -> 2 * length (W g ++ r) + 2 <= n -> well_grouped [PNode KBlock g] (hd0 r) ->
  Does (@Grammar.block TO n (stmt_f n)) (W g ++ r) r tt [PNode KBlock g].
Proof.
  intros H He Hn Hw. apply wg_node in Hw as [_ Hw]. unfold Grammar.block, block_raw. eapply (D_node_ _ _ _ _ tt). apply (H n n r BLOCK_END); auto. len.
Qed.
Ltac wn := repeat (rewrite ?W_node, ?W_app, ?W_tcons, ?W_ncons, ?W_nil in *; cbn [app] in *; rewrite <- ?app_assoc in *; rewrite ?app_nil_r in * ).
Ltac wgx := repeat match goal with
  | H : well_grouped [PNode ?K _] _ |- _ => lazymatch K with KBlock => fail | KMultivalExpr => fail | _ => apply wg_node in H as [? H] end
  | H : well_grouped (?t :: ?f) _ |- _ => lazymatch f with nil => fail | _ => let H1 := fresh "Hw" in apply wg_cons in H as [H1 H] end
  | H : well_grouped (_ ++ _) _ |- _ => let H1 := fresh "Hw" in apply wg_app in H as [H1 H]
  | H : well_grouped [PTok _] _ |- _ => clear H
  | H : well_grouped [] _ |- _ => clear H
  end.
Ltac hwg := match goal with H : well_grouped ?x _ |- well_grouped ?x _ => first [exact H|rewrite next_hd in H; wn; exact H] end.
Ltac gcl := match goal with G0 : grouped _ _ _ |- _ => let G := fresh "G" in rename G0 into G; apply grouped_closed in G; [|cbn; tauto]; cbn [closed app] in G end.
Lemma else_hd e r : First NElse e -> ts_contains BLOCK_END (hd0 (W e ++ KEndKw :: r)) = true.
Proof.
  intros [-> |(K & fs & k & l & -> & HW & Hk)]; [reflexivity|]. rewrite HW. repeat (destruct Hk as [<-|Hk]; [reflexivity|]). destruct Hk.
Qed.
Lemma C_else_none : RunT [].
Proof. intros n m r Hr Hn Hm _. cbn [flat_map app]. unfold tail_body. apply D_cur. rewrite Hr. dif. dif. dleaf. Qed.
Lemma C_else g : RunB g -> RunT [PNode KElseBranch [PTok KElseKw; PNode KBlock g]].
Proof.
  intros H n m r Hr Hn Hm Hw. rewrite <- Hr in Hw. wn. wgx. unfold tail_body. apply D_cur. cbn [nth]. dif. dif.
  unfold else_branch. eapply (D_node_ _ _ _ _ tt). dtok. apply C_block; [exact H|now rewrite Hr|len|exact Hw].
Qed.
Lemma next_else e r : hd0 r = KEndKw -> next e KEndKw = hd0 (W e ++ r).
Proof. intros <-. apply next_hd. Qed.
Lemma C_elseif t g e : exp_first [t] -> RunE t -> RunB g -> First NElse e -> RunT e -> RunT [PNode KElseIfBranch (PTok KElseifKw :: t :: PTok KThenKw :: PNode KBlock g :: e)].
Proof.
  intros Ft Ht Hg Fe He n m r Hr Hn Hm Hw. rewrite W_node, W_tcons, (W_cons t) in *. wn. wgx. gcl.
  unfold tail_body. apply D_cur. cbn [nth]. dif. destruct m as [|m]; [lia|]. cbn [elseif_branch]. eapply (D_node_ _ _ _ _ tt).
  dtok. eapply D_bindO; [apply RunE_low; [exact Ft|exact Ht|len|hwg|apply G|reflexivity]|]. dtok. cut3. eapply D_bind.
  - apply C_block; [exact Hg| |len|match goal with H : well_grouped [PNode KBlock _] _ |- _ => rewrite (next_else e r Hr) in H; exact H end]. destruct (hd0_cons _ _ Hr ltac:(discriminate)) as [r' ->]. now apply else_hd.
  - apply (He n m r Hr); [len|revert Hm; len|exact Hw].
Qed.
Lemma in_after k : In k after_kinds -> left_power k = 0 /\ k <> KComma /\ k <> KEq.
Proof. intros H. repeat (destruct H as [<-|H]; [repeat split; discriminate|]). destruct H. Qed.
Ltac stmt0 := intros n r Hn Hw Hr; destruct (in_after _ Hr) as (R1 & R2 & R3).
Ltac stmt1 := split; [|split; [cbn; tauto|discriminate]]; unfold dispatch; apply D_cur; cbn [nth]; repeat dif.
Lemma C_if t g e : exp_first [t] -> RunE t -> RunB g -> First NElse e -> RunT e -> RunS [PNode KIfStmt (PTok KIfKw :: t :: PTok KThenKw :: PNode KBlock g :: e ++ [PTok KEndKw])].
Proof.
  intros Ft Ht Hg Fe He. stmt0. rewrite W_node, W_tcons, (W_cons t) in *. wn. wgx. gcl. stmt1. unfold if_stmt. eapply (D_node_ _ _ _ _ true).
  dtok. eapply D_bindO; [apply RunE_low; [exact Ft|exact Ht|len|hwg|apply G|reflexivity]|]. dtok. cut3. eapply D_bind.
  - apply C_block; [exact Hg|now apply else_hd|len|hwg].
  - eapply D_bind; [apply (He n n (KEndKw :: r) eq_refl); [len|len|assumption]|]. dleaf.
Qed.
Ltac cblk H := cut3; eapply D_bind; [apply C_block; [exact H|reflexivity|len|hwg]|].
Lemma C_while t g : exp_first [t] -> RunE t -> RunB g -> RunS [PNode KWhileStmt [PTok KWhileKw; t; PTok KDoKw; PNode KBlock g; PTok KEndKw]].
Proof.
  intros Ft Ht Hg. stmt0. rewrite W_node, W_tcons, (W_cons t) in *. wn. wgx. gcl. stmt1. unfold while_stmt. eapply (D_node_ _ _ _ _ true).
  dtok. eapply D_bindO; [apply RunE_low; [exact Ft|exact Ht|len|hwg|apply G|reflexivity]|]. dtok. cblk Hg. dleaf.
Qed.
Lemma C_do g : RunB g -> RunS [PNode KDoStmt [PTok KDoKw; PNode KBlock g; PTok KEndKw]].
Proof. intros Hg. stmt0. wn. wgx. stmt1. unfold do_stmt. eapply (D_node_ _ _ _ _ true). dtok. cblk Hg. dleaf. Qed.
Lemma C_repeat g t : exp_first [t] -> RunE t -> RunB g -> RunS [PNode KRepeatUntilStmt [PTok KRepeatKw; PNode KBlock g; PTok KUntilKw; t]].
Proof.
  intros Ft Ht Hg. stmt0. rewrite W_node, W_tcons, W_ncons, W_tcons in *. wn. wgx. gcl. stmt1. unfold repeat_until_stmt. eapply X_node_.
  match goal with |- DoesX _ _ _ [?a; ?b; ?c; ?d] => change [a; b; c; d] with ([a] ++ [b] ++ [c] ++ [d]) end.
  eapply X_bind; [dleaf|]. eapply X_bind; [apply C_block; [exact Hg|reflexivity|len|hwg]|]. eapply X_bind; [dleaf|].
  apply X_O. apply RunE_low; [exact Ft|exact Ht|len|hwg|apply G|exact R1].
Qed.
Lemma C_label : RunS [PNode KLabelStmt [PNode KLabelDelim [PTok KDoubleColon]; name_t; PNode KLabelDelim [PTok KDoubleColon]]].
Proof.
  stmt0. cbn [flat_map toks app name_t]. stmt1. unfold label_stmt. eapply (D_bind _ _ _ _ _ _ _ []); [apply D_at; cbn [pacc_test nth]; apply D_ret|].
  eapply (D_node_ _ _ _ _ tt). assert (Hd : forall l, Does (@label_delim TO) (KDoubleColon :: l) l tt [label_delim_t]).
  { intros l. unfold label_delim. eapply D_node_. dleaf. }
  cut3. eapply D_bind; [apply Hd|]. cut3. eapply D_bind; [apply D_name_r|apply Hd].
Qed.
Lemma C_goto : RunS [PNode KGotoStmt [PTok KGotoKw; name_ref_t]].
Proof.
  stmt0. cbn [flat_map toks app name_ref_t]. stmt1. unfold goto_stmt. eapply X_node_. change [PTok KGotoKw; name_ref_t] with ([PTok KGotoKw] ++ [name_ref_t]).
  eapply X_bind; [dleaf|]. apply X_M, D_name_ref.
Qed.
Lemma C_break : RunS [PNode KBreakStmt [PTok KBreakKw]].
Proof. stmt0. cbn [flat_map toks app]. stmt1. unfold break_stmt. eapply (D_node_ _ _ _ _ tt). dleaf. Qed.
Lemma W_name f : W (name_t :: f) = KIdent :: W f. Proof. reflexivity. Qed.
Lemma C_local_fun p g : Tree true NParamList p -> RunB g -> RunS [PNode KLocalFunctionDefStmt (PTok KLocalKw :: PTok KFunctionKw :: name_t :: p ++ [PNode KBlock g; PTok KEndKw])].
Proof.
  intros Hp Hg. stmt0. wn. rewrite W_name in *. wn. wgx. stmt1. unfold local_stmt. apply D_nth. cbn [nth]. dif. unfold local_function_def_stmt. eapply (D_node_ _ _ _ _ true).
  dtok. dtok. cut3. eapply D_bind; [apply D_name_r|]. eapply D_bind; [apply (proj1 (D_params_any p n (W g ++ KEndKw :: r) Hp ltac:(len)))|]. cblk Hg. dleaf.
Qed.
Lemma C_fun nm p g : Tree true NFunName nm -> Tree true NParamList p -> RunB g -> RunS [PNode KFunctionDefStmt (PTok KFunctionKw :: nm ++ p ++ [PNode KBlock g; PTok KEndKw])].
Proof.
  intros Hf Hp Hg. stmt0. wn. wgx. stmt1. unfold function_def_stmt. eapply (D_node_ _ _ _ _ true).
  dtok. destruct (D_params_any p n (W g ++ KEndKw :: r) Hp ltac:(len)) as (DP & l & HW). eapply D_bind; [rewrite HW in *; cbn [app] in *; apply D_fname_any; [exact Hf|len]|].
  rewrite HW in *. cbn [app] in *. eapply D_bind; [exact DP|]. cblk Hg. dleaf.
Qed.
Lemma C_function p g : Tree true NParamList p -> RunB g -> LoopP true (PNode KFunctionExpr (PTok KFunctionKw :: p ++ [PNode KBlock g; PTok KEndKw])).
Proof.
  intros Hp Hg n r Hn Hw. wn. wgx. exists n. split; [len|].
  apply (lhs_atom n _ r KFunctionExpr (PTok KFunctionKw :: p ++ [PNode KBlock g; PTok KEndKw]) true); [reflexivity|].
  intros F. rewrite atom_start by reflexivity. cbn [nth]. apply (atom_mark (@function_expr TO n (stmt_f n))). unfold function_expr. eapply (D_node _ _ _ _ true).
  dtok. eapply D_bind; [apply (proj1 (D_params_any p n (W g ++ KEndKw :: r) Hp ltac:(len)))|]. cblk Hg. dleaf.
Qed.
Lemma C_local k : RunS [PNode KLocalAssignStmt [PTok KLocalKw; PNode KMultiName (names_t k)]].
Proof.
  stmt0. wn. rewrite names_W in *. pose proof (names_w_len k). stmt1. unfold local_stmt. apply D_nth. replace (nth 1 (KLocalKw :: names_w k ++ r) KEof) with KIdent by (destruct k; reflexivity). dif.
  unfold local_assign_stmt. eapply (D_node_ _ _ _ _ tt). dtok.
  cut3. eapply D_bind; [apply D_multi_name; [exact R2|len]|].
  eapply (D_bind _ _ _ _ _ _ _ []); [apply D_accept_no; cbn [pacc_test]; now apply kind_eqb_false|]. cbn iota. dleaf.
Qed.
Lemma C_local_init k e : RunM [e] -> RunS [PNode KLocalAssignStmt [PTok KLocalKw; PNode KMultiName (names_t k); PTok KEq; e]].
Proof.
  intros He. stmt0. rewrite W_node, W_tcons, W_ncons, W_tcons in *. cbn [app] in *. rewrite <- app_assoc in *. cbn [app] in *. rewrite names_W in *. pose proof (names_w_len k). apply wg_node in Hw as [_ Hw]. do 3 apply wg_cons in Hw as [_ Hw].
  stmt1. unfold local_stmt. apply D_nth. replace (nth 1 (KLocalKw :: names_w k ++ KEq :: W [e] ++ r) KEof) with KIdent by (destruct k; reflexivity). dif.
  unfold local_assign_stmt. eapply (D_node_ _ _ _ _ tt). dtok.
  cut3. eapply D_bind; [apply D_multi_name; [discriminate|len]|]. cut3. eapply D_bind; [apply D_accept; [reflexivity|discriminate]|]. cbn iota.
  apply He; auto. len.
Qed.
Lemma C_return : RunS [PNode KReturnStmt [PTok KReturnKw]].
Proof.
  stmt0. wn. wgx. destruct H as (_ & _ & _ & H & _). specialize (H eq_refl eq_refl). stmt1. unfold return_stmt. eapply (D_node_ _ _ _ _ tt). dtok. apply D_at. cbn [pacc_test].
  rewrite starts_eq, H. dleaf.
Qed.
Lemma C_return_val e : First NMulti e -> RunM e -> RunS [PNode KReturnStmt (PTok KReturnKw :: e)].
Proof.
  intros Fe He. stmt0. rewrite W_node, W_tcons in *. cbn [app] in *. apply wg_node in Hw as [_ Hw]. destruct Fe as (fs & k & l & -> & HW & Hk). apply wg_cons in Hw as [_ Hw]. stmt1. unfold return_stmt. eapply (D_node_ _ _ _ _ tt). dtok. apply D_at. cbn [pacc_test].
  rewrite starts_eq. rewrite HW at 1. cbn [app nth]. apply among_in in Hk. rewrite Hk. apply He; auto. len.
Qed.
Lemma C_for_num e : RunM [e] -> RunFor [PNode KNumericFor [name_t; PTok KEq; e]].
Proof.
  intros He n r Hn Hw. rewrite W_node, (W_cons name_t), W_tcons in *. change (W [name_t]) with [KIdent] in *. cbn [app] in *. apply wg_node in Hw as [_ Hw]. do 2 apply wg_cons in Hw as [_ Hw].
  unfold for_content. eapply (D_node_ _ _ _ _ tt). dat. apply D_nth. cbn [nth]. dif. unfold numeric_for.
  eapply (D_bind _ _ _ _ _ _ _ []); [apply D_at; cbn [pacc_test nth]; apply D_ret|]. eapply (D_node_ _ _ _ _ tt).
  cut3. eapply D_bind; [apply D_name|]. dtok. apply He; [len|exact Hw|reflexivity|discriminate].
Qed.
Lemma C_for_gen k t : exp_first [t] -> RunE t -> RunFor [PNode KGenericFor [PNode KMultiName (names_t k); PTok KInKw; t]].
Proof.
  intros Ft Ht n r Hn Hw. rewrite W_node, W_ncons, W_tcons in *. rewrite names_W in *. rewrite <- app_assoc in *. cbn [app] in *. pose proof (names_w_len k). wgx. gcl.
  unfold for_content. eapply (D_node_ _ _ _ _ tt). apply D_at. rewrite names_w_hd. cbn [pacc_test]. dif. apply D_nth. rewrite names_w_nth1.
  replace (kind_eqb _ KEq) with false by (destruct k; reflexivity). unfold generic_for.
  eapply (D_bind _ _ _ _ _ _ _ []); [apply D_at; rewrite names_w_hd; apply D_ret|]. eapply X_node_.
  match goal with |- DoesX _ _ _ [?a; ?b; ?c] => change [a; b; c] with ([a] ++ [b] ++ [c]) end.
  eapply X_bind; [apply D_multi_name; [discriminate|len]|]. eapply X_bind; [dleaf|]. apply X_O. apply RunE_low; [exact Ft|exact Ht|len|hwg|apply G|reflexivity].
Qed.
Lemma C_for c g : RunFor c -> RunB g -> RunS [PNode KForStmt [PTok KForKw; PNode KForContent c; PTok KDoKw; PNode KBlock g; PTok KEndKw]].
Proof.
  intros Hc Hg. stmt0. wn. wgx. stmt1. unfold for_stmt. eapply (D_node_ _ _ _ _ true). dtok. cut3. eapply D_bind; [apply Hc; [len|]|].
  - match goal with H : well_grouped c _ |- _ => exact H end.
  - dtok. cblk Hg. dleaf.
Qed.
Lemma C_expr_stmt e : First NMulti e -> RunM e -> RunS [PNode KExprStmt e].
Proof.
  intros (fs & k & l & -> & HW & Hk) He. stmt0. rewrite W_node in *. apply wg_node in Hw as [(_ & _ & _ & _ & G) Hw]. specialize (G ltac:(cbn; tauto)). rewrite next_hd in G.
  assert (Hh : hd0 (W [PNode KMultivalExpr fs] ++ r) = KIdent \/ hd0 (W [PNode KMultivalExpr fs] ++ r) = KLParen) by (cbn in G; cbn; intuition).
  split; [|split].
  - eapply dispatch_expr; [reflexivity|exact Hh|]. unfold expr_stmt. eapply D_bindM; [|dleaf]. apply D_node_by. eapply Does_eq; [eapply D_bind|].
    + apply He; auto.
    + eapply (D_bind _ _ _ _ _ _ _ []); [apply D_accept_no; cbn [pacc_test]; now apply kind_eqb_false|]. cbn iota. dleaf.
    + reflexivity.
  - destruct Hh as [-> | ->]; cbn; tauto.
  - rewrite W_node, HW. discriminate.
Qed.
Lemma C_assign e v : First NMulti e -> RunM e -> RunM v -> RunS [PNode KAssignStmt (e ++ PTok KEq :: v)].
Proof.
  intros (fs & k & l & -> & HW & Hk) He Hv. stmt0. rewrite W_node, W_app, W_tcons in *. rewrite <- app_assoc in *. cbn [app] in *. apply wg_node in Hw as [(_ & _ & _ & _ & G) Hw]. specialize (G ltac:(cbn; tauto)). rewrite next_hd in G.
  change (PNode KMultivalExpr fs :: PTok KEq :: v) with ([PNode KMultivalExpr fs] ++ PTok KEq :: v) in *. rewrite W_app, <- app_assoc in G. cbn [flat_map toks app] in G. apply wg_app in Hw as [W1 W2]. change (PTok KEq :: v) with ([PTok KEq] ++ v) in W2. apply wg_app in W2 as [_ W2].
  assert (Hh : hd0 (W [PNode KMultivalExpr fs] ++ KEq :: W v ++ r) = KIdent \/ hd0 (W [PNode KMultivalExpr fs] ++ KEq :: W v ++ r) = KLParen) by (rewrite W_node, HW in *; cbn [app nth] in *; cbn in G; intuition).
  split; [|split].
  - eapply dispatch_expr; [reflexivity|exact Hh|]. unfold expr_stmt. eapply D_bindM; [|dleaf]. apply D_node_by. eapply D_bind.
    + apply He; [len|exact W1|reflexivity|discriminate].
    + cut3. eapply D_bind; [apply D_accept; [reflexivity|discriminate]|]. cbn iota. eapply Does_eq; [eapply D_bind; [apply Hv; auto; len|dleaf]|apply app_nil_r].
  - destruct Hh as [-> | ->]; cbn; tauto.
  - rewrite W_node, HW. discriminate.
Qed.

(** ** All derivations *)
Lemma exp_W f : exp_first f -> W f <> [].
Proof. intros (_ & (k & l & -> & _) & _). discriminate. Qed.
Lemma name_strict f : Tree true NName f -> f = [name_t].
Proof. inversion 1; noerr0. reflexivity. Qed.
Lemma index_single f : Tree true NIndex f -> exists t, f = [t].
Proof. inversion 1. eauto. Qed.
Lemma multi_single f : First NMulti f -> exists t, f = [t].
Proof. intros (fs & k & l & -> & _). eauto. Qed.
Lemma inj1 {A} (a b : A) : [a] = [b] -> a = b. Proof. congruence. Qed.
Lemma P_Lhs' (c : bool) t : (exists K fs, [t] = [PNode K fs] /\ if c then In K callable else K = KLiteral) -> LoopP c t -> LhsE t.
Proof. intros (K & fs & E & HK) H. eapply (P_Lhs c); [|exact H]. injection E as ->. eauto. Qed.
Theorem Tree_complete : forall n f, Tree true n f -> P n f.
Proof.
  induction 1; cbn [P] in *; try exact Logic.I;
  repeat match goal with H : Tree true NName ?n |- _ => apply name_strict in H; subst n | H : Tree true NIndex ?f |- _ => is_var f; let E := fresh in pose proof (index_single f H) as [? E]; subst f end;
  repeat match goal with H : Tree true ?n _ |- _ => lazymatch n with NNames => fail | NParamList => fail | NFunName => fail | _ => apply Tree_first in H end end; noerr0;
  repeat match goal with H : First ?n _ |- _ => progress lazymatch n with NMulti => idtac | NCallArgs => idtac | NField => idtac | NElse => idtac | NIndex => idtac | _ => cbn [First] in H end end;
  repeat match goal with H : _ /\ (exists K fs, _ = [PNode K fs] /\ _) |- _ => destruct H as [H ?] | H : (exists t, _ = [t] /\ _) |- _ => destruct H as (? & ? & ?) | H : [_] = [_] |- _ => apply inj1 in H; subst | H : _ = [_] |- _ => subst | H : (exists g, _ = [PNode KBlock g] /\ _) |- _ => destruct H as (? & ? & ?); subst
    | H : Tree true NNames _ |- _ => apply Tree_names in H as [? ?]; subst end;
  repeat match goal with H : LoopE _ |- LoopE _ => fail 1 | H : LoopE ?t |- _ => let H1 := fresh in pose proof (Loop_Run t H) as H1; revert H end; intros;
  cbn [app] in *; rewrite ?app_nil_r in *.
  all: try (first [apply C_stmts_nil|apply C_stmts_cons|apply C_if|apply C_else_none|apply C_else|apply C_elseif|apply C_label|apply C_goto|apply C_local_fun|apply C_local|apply C_repeat|apply C_fun|apply C_return|apply C_return_val
    |apply C_do|apply C_while|apply C_for|apply C_for_gen|apply C_break|apply C_assign|apply C_expr_stmt|apply C_multi|apply C_tail_nil|apply C_tail_cons|apply C_ix|apply C_args_none|apply C_args_list|apply C_args_str|apply C_args_table
    |apply C_fields_nil|apply C_fields_last|apply C_fields_cons|apply C_fd_name|apply C_fd_pos|apply C_fd_key]; solve [eauto]).
  all: try (eexists; split; [reflexivity|]; solve [eauto using C_literal, C_name, C_function, C_paren, C_table_exp, C_call, C_method, C_index, C_dot, C_prefix, C_infix, Lhs_Loop, exp_W]).
  - destruct (multi_single _ H0) as [t ->]. now apply C_local_init.
  - destruct (multi_single _ H) as [t ->]. now apply C_for_num.
  - eexists. split; [reflexivity|]. eapply P_Lhs'; eauto.
  - apply C_fields_cons; auto.
Qed.

(** The whole file. *)
Theorem root_tree_complete f n : Tree true NSource f -> well_grouped f KEof -> 2 * length (W f) + 2 <= n ->
  @root_f TO n (mkDS (W f) []) = Ok (tt, mkDS [] f).
Proof.
  intros Ht Hw Hn. apply Tree_complete in Ht. cbn [P] in Ht. destruct Ht as (g & -> & Hg). rewrite !W_node in *.
  assert (H : Does (@root_f TO n) (W g ++ []) [] tt [PNode KSourceFile [PNode KBlock g]]).
  { unfold root_f, root. eapply (D_node_ _ _ _ _ tt). unfold root_block, block_raw. eapply (D_node_ _ _ _ _ tt).
    apply wg_node in Hw as [_ Hw]. apply wg_node in Hw as [_ Hw]. apply (Hg n n [] ROOT_END); auto; rewrite ?app_nil_r; try reflexivity; try lia. }
  specialize (H []). rewrite app_nil_r in H. exact H.
Qed.
