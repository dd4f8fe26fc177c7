(** ContGrammar.v — every function of the grammar can be completed (ContProofs.v). *)
From Coq Require Import ZArith.
From Verif Require Import Base SyntaxKind TokenSet Lexer BindingPowers Parser Grammar ParserTree FirstProofs ContProofs.

Notation "a >>> b" := (@bind TO _ _ a (fun _ => b)) (at level 61, right associativity, only parsing).
(** Tokens that end every expression and every statement. *)
Definition S0 (k : kind) : bool :=
  match k with KEof | KEndKw | KElseifKw | KElseKw | KUntilKw | KThenKw | KDoKw | KRParen | KRBracket | KRBrace | KInKw => true | _ => false end.
(** Those that end a block. *)
Definition SB (k : kind) : bool := match k with KEof | KEndKw | KElseifKw | KElseKw | KUntilKw => true | _ => false end.
Definition one (k : kind) : kind -> bool := kind_eqb k.
Ltac dk := let k := fresh "k" in let H := fresh "H" in intros k H; destruct k; try discriminate H; reflexivity.
Lemma sub_any S : sub S any.
Proof. intros k _. reflexivity. Qed.
Lemma sub_B0 : sub SB S0.
Proof. dk. Qed.
Lemma sub_one k (S : kind -> bool) : S k = true -> sub (one k) S.
Proof. intros H k' E. apply kind_eqb_eq in E. now subst k'. Qed.

Lemma cpl_first q S w2 {A B} (m : D A) (f : A -> D B) : tw q m -> cpl q (-8) any m -> takes q 1 m -> (forall a, ext (f a)) -> (forall a, cpl any 8 S (f a)) -> (forall a, dfl S (f a) w2) -> length w2 <= 8 -> ne w2 = true -> cpl q 0 S (@bind TO A B m f).
Proof. intros T K TK X K2 DF L NE2. apply (cpl_bind_e q 0 (-8) 8 1 S any w2); auto; lia. Qed.
Lemma cpl_bumped q a S w2 {B} (f : unit -> D B) : ext (f tt) -> cpl any 8 S (f tt) -> dfl S (f tt) w2 -> length w2 <= 8 -> ne w2 = true -> cpl q 0 S (@bind TO _ B (@p_bump TO a) f).
Proof.
  intros X K DF L NE2. apply (cpl_first q S w2); [apply tw_any, tw_bump|apply cpl_bump|apply takes_bump|now intros []|now intros []|now intros []|exact L|exact NE2].
Qed.
Lemma cpl_expected q K S w2 {B} (f : bool -> D B) : (forall b, ext (f b)) -> (forall b, cpl any 8 S (f b)) -> (forall b, dfl S (f b) w2) -> length w2 <= 8 -> ne w2 = true -> cpl q 0 S (@bind TO _ B (@p_expect TO K) f).
Proof.
  intros X KK DF L NE2. apply (cpl_first q S w2); [apply tw_any, tw_expect|apply cpl_expect|apply takes_expect|exact X|exact KK|exact DF|exact L|exact NE2].
Qed.
Lemma cpl_step S S1 w2 {A B} (m : D A) (f : A -> D B) : T1 m -> cpl any 0 S1 m -> (forall a, ext (f a)) -> (forall a, cpl any 8 S (f a)) -> (forall a, dfl S (f a) w2) -> (forall z, S (hd0 z) = true -> S1 (hd0 (w2 ++ z)) = true) -> length w2 <= 8 -> ne w2 = true -> cpl any 8 S (@bind TO A B m f).
Proof. intros T K X K2 DF HS L NE2. apply (cpl_bind any 8 0 8 S S1 w2); auto; lia. Qed.
Lemma cpl_zero q S S1 {A B} (m : D A) (f : A -> D B) : tw q m -> cpl q 0 S1 m -> (forall a, ext (f a)) -> (forall a, cpl any 0 S (f a)) -> (forall a, dfl S (f a) []) -> sub S S1 -> cpl q 0 S (@bind TO A B m f).
Proof. intros T K X K2 DF HS. apply (cpl_bind q 0 0 0 S S1 []); [exact T|exact K|exact X|exact K2|exact DF|intros z Sz; apply HS, Sz|reflexivity|cbn; lia|lia]. Qed.
Lemma w08 q S {A} (m : D A) : cpl q 0 S m -> cpl q 8 S m.
Proof. apply cpl_weak. lia. Qed.
Lemma wm0 q S {A} (m : D A) : cpl q (-8) any m -> cpl q 0 S m.
Proof. intros H. apply (cpl_sub _ _ _ any); [apply sub_any|]. apply (cpl_weak _ (-8)); [lia|exact H]. Qed.
Lemma wm8 q S {A} (m : D A) : cpl q (-8) any m -> cpl q 8 S m.
Proof. intros H. apply w08, wm0, H. Qed.
(** A word before a fixed token. *)
Ltac hds := intros ? ?; cbn [app hd0 nth]; first [reflexivity | assumption | auto].

(** ** Names and parameters *)
Lemma cpl_name_unchecked q : cpl q (-8) any (@name_unchecked TO).
Proof. unfold name_unchecked. apply cpl_node_, cpl_bump. Qed.
Lemma cpl_name_r q s : cpl q (-8) any (@name_r TO s).
Proof. unfold name_r. apply (cpl_det q _ _ _ _ _ (hdet_at _)). intros k _. destruct (pacc_test (PKind KIdent) k); [apply cpl_name_unchecked|apply cpl_stuck, stuck_recover]. Qed.
Lemma dfl_name_r S s : dfl S (@name_r TO s) [KIdent].
Proof. unfold name_r. apply (dfl_det_cons S _ _ _ _ _ (hdet_at _)). cbn [pacc_test]. apply dfl_node_, dfl_bump. Qed.
Lemma takes_name_r q s : takes q 1 (@name_r TO s).
Proof.
  unfold name_r. apply (takes_det q _ _ _ _ (hdet_at _)). intros k _. destruct (pacc_test (PKind KIdent) k); [apply takes_node_, takes_bump|]. apply takes_stuck, fails_recover.
Qed.
Lemma cpl_name_ref_r q s : cpl q (-8) any (@name_ref_r TO s).
Proof. unfold name_ref_r. apply (cpl_det q _ _ _ _ _ (hdet_at _)). intros k _. destruct (pacc_test (PKind KIdent) k); [apply cpl_node_, cpl_bump|apply cpl_stuck, stuck_recover]. Qed.
Lemma dfl_name_ref_r S s : dfl S (@name_ref_r TO s) [KIdent].
Proof. unfold name_ref_r. apply (dfl_det_cons S _ _ _ _ _ (hdet_at _)). cbn [pacc_test]. apply dfl_node_, dfl_bump. Qed.
Lemma takes_name_ref_r q s : takes q 1 (@name_ref_r TO s).
Proof.
  unfold name_ref_r. apply (takes_det q _ _ _ _ (hdet_at _)). intros k _. destruct (pacc_test (PKind KIdent) k); [apply takes_node_, takes_bump|]. apply takes_stuck, fails_recover.
Qed.
Lemma cpl_name_ref q : cpl q (-8) any (@name_ref TO).
Proof. unfold name_ref. apply cpl_node, cpl_expect. Qed.
Lemma dfl_name_ref S : dfl S (@name_ref TO) [KIdent].
Proof. unfold name_ref. apply dfl_node, dfl_expect. Qed.
Lemma stuck_msg q m : stuck q (@p_error TO m).
Proof. apply stuck_error. Qed.
Lemma cpl_name q : cpl q (-8) any (@name TO).
Proof. unfold name. apply (cpl_det q _ _ _ _ _ (hdet_at _)). intros k _. destruct (pacc_test (PKind KIdent) k); [apply cpl_node_, cpl_bump|apply cpl_stuck, stuck_msg]. Qed.
Lemma dfl_name S : dfl S (@name TO) [KIdent].
Proof. unfold name. apply (dfl_det_cons S _ _ _ _ _ (hdet_at _)). cbn [pacc_test]. apply dfl_node_, dfl_bump. Qed.
Lemma fails_msg q m : fails q (@p_error TO m).
Proof. intros r F a r1 F1 _ E. unfold p_error in E. cbn [p_push_error tree_ops] in E. unfold tr_error in E. cbn [ds_rem ds_for] in E. injection E as _ <- <-. rewrite fl_app. apply dirty_app_r. cbv. lia. Qed.
Lemma takes_name q : takes q 1 (@name TO).
Proof.
  unfold name. apply (takes_det q _ _ _ _ (hdet_at _)). intros k _. destruct (pacc_test (PKind KIdent) k); [apply takes_node_, takes_bump|]. apply takes_stuck, fails_msg.
Qed.
Definition no_comma : kind -> bool := fun k => negb (kind_eqb k KComma).
Definition name_more (va : bool) (s : token_set) : D bool :=
  c <- @p_at TO (PKind KComma) ;; if c then @p_bump TO (PKind KComma) ;; b <- @p_at TO (PKind KTripleDot) ;; if va && b then @ret TO _ false else @name_r TO s ;; @ret TO _ true else @ret TO _ false.
Lemma nos_more va s : nos no_comma (name_more va s).
Proof. unfold name_more. apply (nos_det _ _ _ _ (hdet_at _)). intros k Hk. cbn [pacc_test]. unfold no_comma in Hk. apply negb_true_iff in Hk. rewrite Hk. apply nos_ret. Qed.
Lemma cpl_more va s : cpl any 0 no_comma (name_more va s).
Proof.
  unfold name_more. apply (cpl_det any _ _ _ _ _ (hdet_at _)). intros k _. destruct (pacc_test (PKind KComma) k); [|apply cpl_ret]. apply (cpl_bumped _ _ _ [KIdent]); [exts| | |cbn; lia|reflexivity].
  - apply (cpl_det any _ _ _ _ _ (hdet_at _)). intros k' _. destruct (va && _); [apply cpl_ret|]. apply (cpl_ret_after _ _ _ _ (fun _ => true)), wm8, cpl_name_r.
  - apply (dfl_det_cons _ _ _ _ _ _ (hdet_at _)). cbn [pacc_test]. replace (va && kind_eqb KIdent KTripleDot) with false by (destruct va; reflexivity). apply (dfl_ret_after _ _ _ (fun _ => true)), dfl_name_r.
Qed.
Lemma tw_more va s : T1 (name_more va s).
Proof. unfold name_more. tws. Qed.
#[export] Hint Resolve tw_more : tw.
Lemma multi_eq n s va : @multi_name_r TO n s va = @node_ TO _ KMultiName (b <- @p_at TO (PKind KTripleDot) ;; if va && b then @ret TO _ tt else
  @name_r TO (ts_union s (ts_new [KComma])) ;; @p_loop TO n (name_more va (ts_union s (ts_new [KComma])))).
Proof. reflexivity. Qed.
Lemma cpl_multi q n s va : cpl q 0 no_comma (@multi_name_r TO n s va).
Proof.
  rewrite multi_eq. apply cpl_node_, (cpl_det _ _ _ _ _ _ (hdet_at _)). intros k _. destruct (va && _); [apply cpl_ret|]. apply (cpl_first _ _ []); [apply tw_any; tws|apply cpl_name_r|apply takes_name_r|intros _; exts| | |cbn; lia|reflexivity].
  - intros _. apply w08, cpl_loop; [tws|apply cpl_more|apply nos_more].
  - intros _. apply dfl_loop, nos_more.
Qed.
Lemma dfl_multi n s va : dfl no_comma (@multi_name_r TO n s va) [KIdent].
Proof.
  rewrite multi_eq. apply dfl_node_, (dfl_det_cons _ _ _ _ _ _ (hdet_at _)). cbn [pacc_test]. replace (va && kind_eqb KIdent KTripleDot) with false by (destruct va; reflexivity).
  apply (dfl_bind _ any [KIdent] []); [apply dfl_name_r|intros _; apply dfl_loop, nos_more|hds].
Qed.
Definition par_names (n : nat) : D unit := b <- @p_at TO (PSet PARAM_END) ;; if b then @ret TO _ tt else @multi_name_r TO n STMT_RECOVERY true.
Definition par_vararg : D unit := b <- @p_at TO (PKind KTripleDot) ;; if b then @p_bump TO (PKind KTripleDot) ;; c <- @p_at TO (PKind KRParen) ;; if c then @ret TO _ tt else @p_err_and_bump TO "Nothing can be after a vararg" else @ret TO _ tt.
Lemma params_eq n : @param_list TO n = @node_ TO _ KParamList (@p_expect TO KLParen >>> par_names n >>> par_vararg >>> @p_expect TO KRParen).
Proof. reflexivity. Qed.
Lemma tw_par_names n : T1 (par_names n).
Proof. unfold par_names. tws. Qed.
Lemma tw_par_vararg : T1 par_vararg.
Proof. unfold par_vararg. tws. Qed.
#[export] Hint Resolve tw_par_names tw_par_vararg : tw.
Lemma cpl_par_names n : cpl any 0 (one KRParen) (par_names n).
Proof. unfold par_names. apply (cpl_det _ _ _ _ _ _ (hdet_at _)). intros k _. destruct (pacc_test _ k); [apply cpl_ret|]. apply (cpl_sub _ _ _ no_comma); [apply sub_one; reflexivity|apply cpl_multi]. Qed.
Lemma dfl_par_names n : dfl (one KRParen) (par_names n) [].
Proof. unfold par_names. apply (dfl_det_nil _ _ _ _ (hdet_at _)). intros k Hk. apply kind_eqb_eq in Hk. subst k. apply dfl_ret. Qed.
Lemma cpl_par_vararg : cpl any 0 (one KRParen) par_vararg.
Proof.
  unfold par_vararg. apply (cpl_det _ _ _ _ _ _ (hdet_at _)). intros k _. destruct (pacc_test _ k); [|apply cpl_ret]. apply (cpl_bumped _ _ _ []); [exts| | |cbn; lia|reflexivity].
  - apply (cpl_det _ _ _ _ _ _ (hdet_at _)). intros k' _. destruct (pacc_test _ k'); [apply cpl_ret|apply cpl_stuck, stuck_recover].
  - apply (dfl_det_nil _ _ _ _ (hdet_at _)). intros k' Hk. apply kind_eqb_eq in Hk. subst k'. apply dfl_ret.
Qed.
Lemma dfl_par_vararg : dfl (one KRParen) par_vararg [].
Proof. unfold par_vararg. apply (dfl_det_nil _ _ _ _ (hdet_at _)). intros k Hk. apply kind_eqb_eq in Hk. subst k. apply dfl_ret. Qed.
Lemma cpl_params q n : cpl q 0 any (@param_list TO n).
Proof.
  rewrite params_eq. apply cpl_node_.
  assert (D1 : dfl any (par_vararg >>> @p_expect TO KRParen) [KRParen]) by (apply (dfl_bind _ (one KRParen) [] [KRParen]); [apply dfl_par_vararg|intros _; apply dfl_expect|hds]).
  assert (D2 : dfl any (par_names n >>> par_vararg >>> @p_expect TO KRParen) [KRParen]) by (apply (dfl_bind _ (one KRParen) [] [KRParen]); [apply dfl_par_names|intros _; exact D1|hds]).
  apply (cpl_expected _ _ _ [KRParen]); [intros _; exts| |intros _; exact D2|cbn; lia|reflexivity]. intros _. apply (cpl_step _ (one KRParen) [KRParen]); [tws|apply cpl_par_names|intros _; exts| |intros _; exact D1|hds|cbn; lia|reflexivity].
  intros _. apply (cpl_step _ (one KRParen) [KRParen]); [tws|apply cpl_par_vararg|intros _; exts| |intros _; apply dfl_expect|hds|cbn; lia|reflexivity]. intros _. apply wm8, cpl_expect.
Qed.
Lemma dfl_params n : dfl any (@param_list TO n) [KLParen; KRParen].
Proof.
  rewrite params_eq. apply dfl_node_, (dfl_bind _ any [KLParen] [KRParen]); [apply dfl_expect| |hds]. intros _.
  apply (dfl_bind _ (one KRParen) [] [KRParen]); [apply dfl_par_names| |hds]. intros _. apply (dfl_bind _ (one KRParen) [] [KRParen]); [apply dfl_par_vararg|intros _; apply dfl_expect|hds].
Qed.
(** ** Small things *)
Lemma cpl_literal q : cpl q 0 any (@literal TO).
Proof. unfold literal. apply cpl_guard, wm0, cpl_node, cpl_bump. Qed.
Lemma cpl_table_sep q : cpl q 0 any (@table_sep TO).
Proof. unfold table_sep, p_bump_ts. apply cpl_node_, (cpl_det _ _ _ _ _ _ (hdet_at _)). intros k _. destruct (pacc_test _ k); [apply wm0, cpl_bump|apply cpl_panic]. Qed.
Lemma cpl_table_correct q n : cpl q 0 any (@table_correct TO n).
Proof. apply cpl_stuck, stuck_err_node. Qed.
Lemma cpl_dot q l : cpl q 0 any (@dot_expr TO l).
Proof. unfold dot_expr. apply cpl_pre, (cpl_bumped _ _ _ [KIdent]); [exts|apply wm8, cpl_expect|apply dfl_expect|cbn; lia|reflexivity]. Qed.
Lemma cpl_goto q : cpl q 0 any (@goto_stmt TO).
Proof. unfold goto_stmt. apply cpl_node_, (cpl_bumped _ _ _ [KIdent]); [exts|apply wm8, cpl_name_ref|apply dfl_name_ref|cbn; lia|reflexivity]. Qed.
Lemma cpl_label_delim q : cpl q (-8) any (@label_delim TO).
Proof. unfold label_delim. apply cpl_node_, cpl_expect. Qed.
Lemma dfl_label_delim S : dfl S (@label_delim TO) [KDoubleColon].
Proof. unfold label_delim. apply dfl_node_, dfl_expect. Qed.
Lemma tw_label_delim : T1 (@label_delim TO).
Proof. unfold label_delim. tws. Qed.
#[export] Hint Resolve tw_label_delim : tw.
Lemma cpl_label q : cpl q 0 any (@label_stmt TO).
Proof.
  unfold label_stmt. apply cpl_guard, cpl_node_, (cpl_first _ _ [KIdent; KDoubleColon]); [apply tw_any; tws|apply cpl_label_delim|unfold label_delim; apply takes_node_, takes_expect|intros _; exts| | |cbn; lia|reflexivity]; intros _.
  - apply (cpl_step _ any [KDoubleColon]); [tws|apply wm0, cpl_name_r|intros _; exts|intros _; apply wm8, cpl_label_delim|intros _; apply dfl_label_delim|hds|cbn; lia|reflexivity].
  - apply (dfl_bind _ any [KIdent] [KDoubleColon]); [apply dfl_name_r|intros _; apply dfl_label_delim|hds].
Qed.
Lemma cpl_break q : cpl q 0 any (@break_stmt TO).
Proof. unfold break_stmt. apply cpl_node_, wm0, cpl_bump. Qed.

(** ** The name of a function *)
Lemma cpl_tail c : cpl any 0 any (fname_tail c).
Proof.
  unfold fname_tail. apply (cpl_ret_after _ _ _ _ (fun _ => tt)), cpl_pre_by, (cpl_det _ _ _ _ _ _ (hdet_at _)). intros k _. destruct (pacc_test _ k).
  - apply (cpl_bumped _ _ _ [KIdent]); [exts| | |cbn; lia|reflexivity]; [apply (cpl_ret_after _ _ _ _ (fun _ => KFunctionMethod)), wm8, cpl_name_r|apply (dfl_ret_after _ _ _ (fun _ => KFunctionMethod)), dfl_name_r].
  - apply (cpl_ret_after _ _ _ _ (fun _ => KFunctionStatic)), wm0, cpl_name_r.
Qed.
Lemma dfl_tail c : dfl any (fname_tail c) [KIdent].
Proof.
  unfold fname_tail. apply (dfl_ret_after _ _ _ (fun _ => tt)), dfl_pre_by, (dfl_det_cons _ _ _ _ _ _ (hdet_at _)). cbn [pacc_test kind_eqb]. apply (dfl_ret_after _ _ _ (fun _ => KFunctionStatic)), dfl_name_r.
Qed.
Lemma dfl_tail_colon c : dfl any (fname_tail c) [KColon; KIdent].
Proof.
  unfold fname_tail. apply (dfl_ret_after _ _ _ (fun _ => tt)), dfl_pre_by, (dfl_det_cons _ _ _ _ _ _ (hdet_at _)). cbn [pacc_test kind_eqb]. apply (dfl_bind _ any [KColon] [KIdent]); [apply dfl_bump| |hds]. intros _. apply (dfl_ret_after _ _ _ (fun _ => KFunctionMethod)), dfl_name_r.
Qed.
(** Neither a name nor a colon: the rest of the name is an error at once. *)
Lemma tail_stuck c k x F a r1 F1 : clean (fl F) -> k <> KIdent -> k <> KColon -> fname_tail c (mkDS (k :: x) F) = Ok (a, mkDS r1 F1) -> cp (fl F1) = length (fl F).
Proof.
  intros C N1 N2 E. destruct (tail_run _ _ _ _ _ _ E) as (kt & G & B & ->). rewrite cp_app_clean by exact C. rewrite (bind_det _ _ _ _ _ (hdet_at _)) in B. cbn [hd0 nth pacc_test] in B.
  replace (kind_eqb k KColon) with false in B by (symmetry; now apply kind_eqb_neq).
  assert (ST : stuck (kind_eqb k) (@name_r TO fname_rec)).
  { unfold name_r. apply (stuck_det _ _ _ _ (hdet_at _)). intros k' Hk. apply kind_eqb_eq in Hk. subst k'. cbn [pacc_test]. replace (kind_eqb k KIdent) with false by (symmetry; now apply kind_eqb_neq). apply stuck_recover. }
  cbn [bind ret tree_ops] in B. unfold tr_bind, tr_ret in B. destruct (@name_r TO fname_rec (mkDS (k :: x) [])) as [[u [s1 G1]]| |] eqn:M; cbn [rbind fst snd] in B; try discriminate B. injection B as _ _ <-.
  rewrite (ST (k :: x) _ _ _ _ clean_nil (kind_eqb_refl k) M). cbn. lia.
Qed.
Lemma dfl_path_step : dfl (one KColon) path_step [KIdent].
Proof.
  intros z F a r F1 Sz C E. unfold path_step in E. rewrite peek_run in E. cbn [app nth] in E. apply kind_eqb_eq in Sz. unfold hd0 in Sz. rewrite <- Sz in E. cbn [kind_eqb] in E.
  exact (dfl_ret_after any _ _ (fun _ => true) (dfl_name_ref_r any path_rec) z F a r F1 eq_refl C E).
Qed.
Lemma cpl_path_step : cpl any 8 (one KColon) path_step.
Proof.
  unfold path_step. apply (cpl_peek _ _ _ []); [| |reflexivity|cbn; lia].
  - intros k. destruct (kind_eqb k KLParen); [apply cpl_ret|]. apply (cpl_ret_after _ _ _ _ (fun _ => true)), wm8, cpl_name_ref_r.
  - intros k _ (k1 & x & F & a & r1 & F1 & C & E & L). destruct (kind_eqb k1 KLParen).
    { cbn [ret tree_ops] in E. unfold tr_ret in E. injection E as _ _ <-. unfold clean in C. lia. }
    destruct (kind_eqb k KIdent) eqn:EK; [apply kind_eqb_eq in EK; subst k; exact dfl_path_step|]. exfalso.
    assert (ST : stuck (kind_eqb k) (@name_ref_r TO path_rec)).
    { unfold name_ref_r. apply (stuck_det _ _ _ _ (hdet_at _)). intros k' Hk. apply kind_eqb_eq in Hk. subst k'. cbn [pacc_test]. rewrite EK. apply stuck_recover. }
    cbn [bind ret tree_ops] in E. unfold tr_bind, tr_ret in E. destruct (@name_ref_r TO path_rec (mkDS (k :: x) F)) as [[u [s1 G1]]| |] eqn:M; cbn [rbind fst snd] in E; try discriminate E. injection E as _ _ <-.
    rewrite (ST (k :: x) _ _ _ _ C (kind_eqb_refl k) M) in L. lia.
Qed.
Lemma cpl_path_body : cpl any 0 (one KColon) path_body.
Proof.
  unfold path_body. apply (cpl_det _ _ _ _ _ _ (hdet_at _)). intros k _. destruct (pacc_test _ k); [apply cpl_ret|]. apply (cpl_det _ _ _ _ _ _ (hdet_at _)). intros k' _. destruct (pacc_test _ k'); [|apply cpl_ret].
  apply (cpl_bumped _ _ _ [KIdent]); [apply ext_step|apply cpl_path_step|apply dfl_path_step|cbn; lia|reflexivity].
Qed.
Lemma nos_path_body : nos (one KColon) path_body.
Proof. unfold path_body. apply (nos_det _ _ _ _ (hdet_at _)). intros k Hk. apply kind_eqb_eq in Hk. subst k. apply nos_ret. Qed.
Lemma cpl_path_loop n : cpl any 0 (one KColon) (@p_loop TO n path_body).
Proof.
  induction n as [|n IH]; cbn [p_loop]; [apply cpl_out|]. intros u x F b r F1 N G C Q E L. cbn [bind tree_ops] in *. unfold tr_bind in *.
  destruct (path_body (mkDS (u ++ x) F)) as [[a1 [s1 G1]]| |] eqn:M1; cbn [rbind fst snd] in E; try discriminate E.
  destruct (ext_body _ _ _ _ _ M1) as (g1 & Eg1 & L1).
  assert (XF : forall a : bool, ext (if a then @p_loop TO n path_body else @ret TO unit tt)) by (intros [|]; [apply ext_loop, ext_body|apply ext_ret]).
  destruct (XF _ _ _ _ _ _ E) as (h1 & Eh1 & _).
  assert (V1 : cp (fl G1) = length (fl F) + length u -> exists w, (Z.of_nat (length w) <= 8 * Z.of_nat (length u) + 0)%Z /\ ne w = true /\ forall z a' r2 F2, one KColon (hd0 z) = true ->
    rbind (path_body (mkDS (u ++ w ++ z) F)) (fun r0 => (if fst r0 then @p_loop TO n path_body else @ret TO unit tt) (snd r0)) = Ok (a', mkDS r2 F2) -> r2 = z /\ clean (fl F2)).
  { intros LC. destruct (cpl_path_body _ _ _ _ _ _ N G C Q M1 LC) as (w1 & W1 & NW1 & R). exists w1. split; [lia|]. split; [nes|]. intros z a' r2 F2 Sz E2.
    destruct (path_body (mkDS (u ++ w1 ++ z) F)) as [[a2 [s2 G2]]| |] eqn:M2; cbn [rbind fst snd] in E2; try discriminate E2.
    destruct (R _ _ _ _ Sz M2) as [-> C2]. destruct a2; [exact (dfl_loop _ _ nos_path_body n _ _ _ _ _ Sz C2 E2)|]. cbn [ret tree_ops] in E2. unfold tr_ret in E2. injection E2 as _ <- <-. auto. }
  destruct (clean_or (fl G1)) as [C1|D1].
  2:{ apply V1. rewrite <- L, Eh1. symmetry. now apply cp_app_dirty. }
  destruct (Nat.eq_dec (cp (fl G1)) (length (fl F) + length u)) as [LC|LC]; [exact (V1 LC)|].
  pose proof (cp_mono (fl G1) h1) as MO. rewrite <- Eh1, L in MO. pose proof C1 as Cg. rewrite Eg1 in Cg. apply clean_app in Cg as [_ Cg]. specialize (L1 Cg).
  assert (LG : length (fl G1) = length (fl F) + length g1) by (rewrite Eg1; apply app_length).
  assert (C1' : cp (fl G1) = length (fl G1)) by exact C1. rewrite C1' in *.
  destruct a1.
  2:{ cbn [ret tree_ops] in E. unfold tr_ret in E. injection E as _ _ <-. lia. }
  destruct (app_split _ _ _ _ L1) as (u2 & N2 & Eu & ->); [rewrite clean_lead by exact Cg; lia|].
  assert (Lu : length u = length g1 + length u2) by (rewrite Eu, app_length, clean_lead by exact Cg; reflexivity).
  destruct (IH u2 x G1 b r F1 N2) as (w & W & NW & R); [rewrite Eu in G; exact (good_app _ _ G)|exact C1|reflexivity|exact E|lia|].
  exists w. split; [lia|]. split; [nes|]. intros z a' r2 F2 Sz E2. destruct (path_body (mkDS (u ++ w ++ z) F)) as [[a2 [s2 G2]]| |] eqn:M2; cbn [rbind fst snd] in E2; try discriminate E2.
  destruct (snoc_ex _ N) as (v & k & Ev).
  assert (A1 : forall t : list kind, u ++ t = v ++ k :: t) by (intros t; rewrite Ev, <- app_assoc; reflexivity).
  rewrite A1 in M1, M2. destruct (four_body _ _ _ _ _ _ _ _ _ _ _ C M1 M2) as [[(v' & <- & <- & Es & ->)|[[D1 _]|LL]]|[(PA & _)|(D1 & _)]].
  - assert (U2 : u2 = v' ++ [k]). { apply (app_inv_tail x). rewrite Es, <- app_assoc. reflexivity. }
    assert (E3 : @p_loop TO n path_body (mkDS (u2 ++ w ++ z) G1) = Ok (a', mkDS r2 F2)) by (rewrite U2, <- app_assoc; exact E2). exact (R _ _ _ _ Sz E3).
  - destruct (clean_not _ C1 D1).
  - rewrite Ev, app_length in *. cbn [length] in *. lia.
  - discriminate PA.
  - destruct (clean_not _ C1 D1).
Qed.
Lemma cpl_path n : cpl any 0 (one KColon) (@index_path TO n).
Proof.
  rewrite path_eq. apply cpl_node, (cpl_first _ _ []); [tws|apply cpl_name_ref_r|apply takes_name_ref_r|intros _; apply ext_loop, ext_body|intros _; apply w08, cpl_path_loop|intros _; apply dfl_loop, nos_path_body|cbn; lia|reflexivity].
Qed.
Lemma cpl_fname_path n : cpl any 0 (one KLParen) (fname_path n).
Proof.
  unfold fname_path. intros u x F b r F1 N G C Q E L. cbn [bind tree_ops] in *. unfold tr_bind in *.
  destruct (@index_path TO n (mkDS (u ++ x) F)) as [[a1 [s1 G1]]| |] eqn:M1; cbn [rbind fst snd] in E; try discriminate E.
  destruct (ext_path n _ _ _ _ _ M1) as (g1 & Eg1 & L1). destruct (proj1 (tw_fname_tail a1) _ _ _ _ _ E) as (h1 & Eh1 & _).
  assert (V1 : cp (fl G1) = length (fl F) + length u -> exists w, (Z.of_nat (length w) <= 8 * Z.of_nat (length u) + 0)%Z /\ ne w = true /\ forall z a' r2 F2, one KLParen (hd0 z) = true ->
    rbind (@index_path TO n (mkDS (u ++ w ++ z) F)) (fun r0 => fname_tail (fst r0) (snd r0)) = Ok (a', mkDS r2 F2) -> r2 = z /\ clean (fl F2)).
  { intros LC. rewrite path_eq in M1.
    assert (K : cpl any (-8) (one KColon) (@node TO _ KIndexPath (@name_ref_r TO path_rec >>> @p_loop TO n path_body))).
    { apply cpl_node, (cpl_bind_e any (-8) (-8) 0 1 (one KColon) any []); [tws|apply cpl_name_ref_r|apply takes_name_ref_r|intros _; apply ext_loop, ext_body|intros _; apply cpl_path_loop|intros _; apply dfl_loop, nos_path_body|hds|reflexivity|cbn; lia|cbn; lia]. }
    destruct (K _ _ _ _ _ _ N G C Q M1 LC) as (w1 & W1 & NW1 & R). exists (w1 ++ [KColon; KIdent]). split; [rewrite app_length; cbn [length]; lia|]. split; [nes|]. intros z a' r2 F2 Sz E2. rewrite <- app_assoc in E2. cbn [app] in E2. rewrite path_eq in E2.
    destruct (@node TO _ KIndexPath _ (mkDS (u ++ w1 ++ KColon :: KIdent :: z) F)) as [[a2 [s2 G2]]| |] eqn:M2; cbn [rbind fst snd] in E2; try discriminate E2.
    destruct (R (KColon :: KIdent :: z) _ _ _ eq_refl M2) as [-> C2]. exact (dfl_tail_colon _ z _ _ _ _ eq_refl C2 E2). }
  destruct (clean_or (fl G1)) as [C1|D1].
  2:{ apply V1. rewrite <- L, Eh1. symmetry. now apply cp_app_dirty. }
  destruct (Nat.eq_dec (cp (fl G1)) (length (fl F) + length u)) as [LC|LC]; [exact (V1 LC)|].
  pose proof (cp_mono (fl G1) h1) as MO. rewrite <- Eh1, L in MO. pose proof C1 as Cg. rewrite Eg1 in Cg. apply clean_app in Cg as [_ Cg]. specialize (L1 Cg).
  assert (LG : length (fl G1) = length (fl F) + length g1) by (rewrite Eg1; apply app_length).
  assert (C1' : cp (fl G1) = length (fl G1)) by exact C1. rewrite C1' in *.
  destruct (app_split _ _ _ _ L1) as (u2 & N2 & Eu & ->); [rewrite clean_lead by exact Cg; lia|].
  assert (Lu : length u = length g1 + length u2) by (rewrite Eu, app_length, clean_lead by exact Cg; reflexivity).
  destruct (snoc_ex _ N) as (v & k & Ev).
  assert (A1 : forall t : list kind, u ++ t = v ++ k :: t) by (intros t; rewrite Ev, <- app_assoc; reflexivity).
  assert (NP : forall v' (t : list kind), u2 ++ x = v' ++ k :: x -> u2 ++ t = v' ++ k :: t).
  { intros v' t Es. assert (U2 : u2 = v' ++ [k]) by (apply (app_inv_tail x); rewrite Es, <- app_assoc; reflexivity). now rewrite U2, <- app_assoc. }
  assert (LV : length v + 1 = length u) by (rewrite Ev, app_length; reflexivity).
  destruct (list_eq_dec (fun a b : kind => ltac:(decide equality)) u2 [KIdent]) as [EI|NI].
  - exists []. split; [cbn [length]; lia|]. split; [nes|]. intros z a' r2 F2 Sz E2. cbn [app] in E2. destruct (@index_path TO n (mkDS (u ++ z) F)) as [[a2 [s2 G2]]| |] eqn:M2; cbn [rbind fst snd] in E2; try discriminate E2.
    rewrite A1 in M1, M2. apply kind_eqb_eq in Sz. destruct (four_path n _ _ _ _ _ _ _ _ _ _ _ C M1 M2) as [[(v' & <- & <- & Es & ->)|[[D1 _]|LL]]|[(_ & _ & _ & _ & _ & _ & H & _)|(D1 & _)]].
    + rewrite <- (NP _ z Es), EI in E2. exact (dfl_tail a1 z _ _ _ _ eq_refl C1 E2).
    + destruct (clean_not _ C1 D1).
    + lia.
    + elim H. now symmetry.
    + destruct (clean_not _ C1 D1).
  - destruct (cpl_tail a1 u2 x G1 b r F1 N2) as (w & W & NW & R); [rewrite Eu in G; exact (good_app _ _ G)|exact C1|reflexivity|exact E|lia|].
    exists w. split; [lia|]. split; [nes|]. intros z a' r2 F2 Sz E2. destruct (@index_path TO n (mkDS (u ++ w ++ z) F)) as [[a2 [s2 G2]]| |] eqn:M2; cbn [rbind fst snd] in E2; try discriminate E2.
    rewrite A1 in M1, M2. destruct (four_path n _ _ _ _ _ _ _ _ _ _ _ C M1 M2) as [[(v' & <- & <- & Es & ->)|[[D1 _]|LL]]|[(_ & _ & Es & _ & LL & _ & _ & (p & ED))|(D1 & _)]].
    + rewrite <- (NP _ (w ++ z) Es) in E2. exact (R z _ _ _ eq_refl E2).
    + destruct (clean_not _ C1 D1).
    + lia.
    + exfalso. assert (U2 : u2 = [k]) by (apply (app_inv_tail x); exact Es). rewrite U2 in E, Lu, NI. cbn [app length] in *.
      assert (NC : k <> KColon). { intros ->. apply (G p). rewrite Ev, ED, <- app_assoc. reflexivity. }
      assert (NK : k <> KIdent) by (intros ->; now apply NI). pose proof (tail_stuck _ _ _ _ _ _ _ C1 NK NC E) as ST. rewrite ST in L. lia.
    + destruct (clean_not _ C1 D1).
Qed.
Lemma peek_drop q c S {B} (m : D B) : cpl q c S m -> cpl q c S (@bind TO _ B (@p_nth TO 1) (fun _ => m)).
Proof. intros H. exact H. Qed.
Lemma cpl_fname n : cpl any 0 (one KLParen) (@function_def_content TO n).
Proof.
  rewrite content_eq. apply cpl_node_, (cpl_det _ _ _ _ _ _ (hdet_at _)). intros k _. destruct (pacc_test (PKind KIdent) k) eqn:EK.
  - apply kind_eqb_eq in EK. subst k. apply (cpl_peek _ _ _ []); [| |reflexivity|cbn; lia].
    + intros k. destruct (true && kind_eqb k KLParen); [apply wm0, cpl_name_r|]. apply cpl_any, cpl_fname_path.
    + intros k Hk _. apply kind_eqb_eq in Hk. subst k. intros z F a r F1 Sz C E. rewrite peek_run in E. cbn [app nth] in E. apply kind_eqb_eq in Sz. unfold hd0 in Sz. rewrite <- Sz in E. cbn [kind_eqb andb] in E.
      exact (dfl_name_r any _ z F a r F1 eq_refl C E).
  - cbn [andb]. apply peek_drop, cpl_any, cpl_fname_path.
Qed.
Lemma dfl_fname n : dfl (one KLParen) (@function_def_content TO n) [KIdent].
Proof.
  rewrite content_eq. apply dfl_node_, (dfl_det_cons _ _ _ _ _ _ (hdet_at _)). cbn [pacc_test]. intros z F a r F1 Sz C E. rewrite peek_run in E. cbn [app nth] in E. apply kind_eqb_eq in Sz. unfold hd0 in Sz. rewrite <- Sz in E. cbn [kind_eqb andb] in E.
  exact (dfl_name_r any _ z F a r F1 eq_refl C E).
Qed.
