(** SaysNames.v — names and parameter lists: what the first error says (SaysProofs.v). *)
From Coq Require Import String.
From Verif Require Import Base SyntaxKind TokenSet Lexer BindingPowers Parser Grammar ParserTree EventProofs SinkProofs FirstProofs ContProofs ContGrammar SaysProofs.

Lemma kp_recover m s : said (PMsg m) = true -> kp (@p_err_recover TO m s). Proof. intros H. kps. Qed.
Lemma kp_name_r s : kp (@name_r TO s). Proof. kps. Qed.
Lemma kp_name_ref_r s : kp (@name_ref_r TO s). Proof. kps. Qed.
Lemma kp_name : kp (@name TO). Proof. kps. Qed.
Lemma kp_name_ref : kp (@name_ref TO). Proof. kps. Qed.
Lemma kp_multi n s v : kp (@multi_name_r TO n s v). Proof. kps. Qed.
Lemma kp_params n : kp (@param_list TO n). Proof. kps. Qed.
Lemma kp_fname n : kp (@function_def_content TO n). Proof. kps. Qed.
#[export] Hint Resolve kp_recover kp_name_r kp_name_ref_r kp_name kp_name_ref kp_multi kp_params kp_fname : kp.
Lemma promise_name K : promise (PMsg "expected a name") = Some K -> one KIdent K = true.
Proof. cbn. intros H. injection H as <-. reflexivity. Qed.
Lemma promise_ref K : promise (PMsg "expected a name referencer") = Some K -> one KIdent K = true.
Proof. cbn. intros H. injection H as <-. reflexivity. Qed.
Lemma promise_id K : promise (PMsg "Expected an identifier") = Some K -> one KIdent K = true.
Proof. cbn. intros H. injection H as <-. reflexivity. Qed.
Lemma sub_none S : sub none S.
Proof. intros k H. discriminate H. Qed.
(** No promise is made. *)
Lemma s_quiet q m {A} (d : D A) : errs m d -> promise (PMsg m) = None -> says q none d.
Proof. intros H P. apply (s_errs _ _ _ _ H). intros K E. congruence. Qed.
Lemma s_weak q S {A} (m : D A) : says q none m -> says q S m.
Proof. apply s_sub, sub_none. Qed.

(** ** Names *)
Lemma s_name_r q s : says q (one KIdent) (@name_r TO s).
Proof. unfold name_r. apply (s_det q _ _ _ _ (hdet_at _)). intros k _. destruct (pacc_test _ k); [unfold name_unchecked; apply s_node_, s_bump; apply tw_any, tw_bump|]. eapply s_errs; [apply errs_recover|apply promise_name]. Qed.
Lemma h_name_r pa q S s : hlt pa q S (@name_r TO s).
Proof. unfold name_r. apply (h_det _ q _ _ _ _ (hdet_at _)). intros k _. destruct (pacc_test _ k); [unfold name_unchecked; apply h_node_, h_bump|]. apply h_stuck; [exts|apply stuck_recover]. Qed.
Lemma s_name_ref_r q s : says q (one KIdent) (@name_ref_r TO s).
Proof. unfold name_ref_r. apply (s_det q _ _ _ _ (hdet_at _)). intros k _. destruct (pacc_test _ k); [unfold name_ref_unchecked; apply s_node_, s_bump; apply tw_any, tw_bump|]. eapply s_errs; [apply errs_recover|apply promise_ref]. Qed.
Lemma h_name_ref_r pa q S s : hlt pa q S (@name_ref_r TO s).
Proof. unfold name_ref_r. apply (h_det _ q _ _ _ _ (hdet_at _)). intros k _. destruct (pacc_test _ k); [unfold name_ref_unchecked; apply h_node_, h_bump|]. apply h_stuck; [exts|apply stuck_recover]. Qed.
Lemma s_name q : says q (one KIdent) (@name TO).
Proof. unfold name. apply (s_det q _ _ _ _ (hdet_at _)). intros k _. destruct (pacc_test _ k); [unfold name_unchecked; apply s_node_, s_bump; apply tw_any, tw_bump|]. eapply s_errs; [apply errs_error|apply promise_id]. Qed.
Lemma h_name pa q S : hlt pa q S (@name TO).
Proof. unfold name. apply (h_det _ q _ _ _ _ (hdet_at _)). intros k _. destruct (pacc_test _ k); [unfold name_unchecked; apply h_node_, h_bump|]. apply h_stuck; [exts|apply stuck_msg]. Qed.
Lemma s_name_ref q : says q (one KIdent) (@name_ref TO).
Proof. unfold name_ref. apply s_node; [apply tw_any, tw_expect|apply s_expect]. Qed.
Lemma h_name_ref pa q S : hlt pa q S (@name_ref TO).
Proof. unfold name_ref. apply h_node, h_expect. Qed.
Lemma takes_name_ref q : takes q 1 (@name_ref TO).
Proof. unfold name_ref. apply takes_node, takes_expect. Qed.
Lemma tk_last q {A B} (m : D A) (f : A -> D B) : takes q 1 m -> (forall a, ext (f a)) -> takes q 1 (@bind TO A B m f).
Proof. apply takes_bind. Qed.
Lemma s_after_bump q S {B} a (f : unit -> D B) S2 : ext (f tt) -> kp (f tt) -> says any S2 (f tt) -> eats S2 (f tt) -> says q S (@bind TO _ B (@p_bump TO a) f).
Proof.
  intros X K H E. apply (s_bind q S S2); [apply tw_any, tw_bump|now intros []|now intros []|apply s_bump|now intros []|apply h_bump|now intros []|right; apply takes_bump].
Qed.
Lemma s_after_bump0 q S {B} a (f : unit -> D B) : ext (f tt) -> kp (f tt) -> says any none (f tt) -> says q S (@bind TO _ B (@p_bump TO a) f).
Proof. intros X K H. apply (s_after_bump q S a f none); auto. apply eats_none. Qed.
Lemma s_after_expect q K S2 {B} (f : bool -> D B) : (forall b, ext (f b)) -> (forall b, kp (f b)) -> (forall b, says any S2 (f b)) -> (forall b, eats S2 (f b)) -> says q (one K) (@bind TO _ B (@p_expect TO K) f).
Proof.
  intros X KF H E. apply (s_bind q _ S2); [apply tw_any, tw_expect|exact X|exact KF|apply s_expect|exact H|apply h_expect|exact E|right; apply takes_expect].
Qed.
(** A list of names. *)
Lemma kp_more va s : kp (name_more va s).
Proof. unfold name_more. kps. Qed.
#[export] Hint Resolve kp_more : kp.
Lemma s_more va s : says any none (name_more va s).
Proof.
  unfold name_more. apply (s_det any _ _ _ _ (hdet_at _)). intros k _. destruct (pacc_test _ k); [|apply s_ret]. apply (s_after_bump _ _ _ _ (one KIdent)); [exts|kps| |].
  - apply (s_det any _ _ _ _ (hdet_at _)). intros k' _. destruct (va && _); [apply s_ret|]. apply (s_ret_after _ _ _ (fun _ => true)); [apply tw_any; tws|apply s_name_r].
  - apply eats_one; [reflexivity|exts|]. apply (dfl_det_cons _ _ _ _ _ _ (hdet_at _)). cbn [pacc_test]. replace (va && kind_eqb KIdent KTripleDot) with false by (destruct va; reflexivity). apply (dfl_ret_after _ _ _ (fun _ => true)), dfl_name_r.
Qed.
Definition no_dots (va : bool) : kind -> bool := fun k => negb (va && kind_eqb k KTripleDot).
Lemma h_more va s : hlt (no_dots va) any no_comma (name_more va s).
Proof.
  unfold name_more. apply (h_det _ any _ _ _ _ (hdet_at _)). intros k _. destruct (pacc_test _ k); [|apply h_ret].
  intros u x F a F1 PX N G C Q E C1 z a' r2 F2 Sz E2. cbn [bind tree_ops] in E, E2. unfold tr_bind at 1 in E. unfold tr_bind at 1 in E2.
  destruct (@p_bump TO (PKind KComma) (mkDS (u ++ x) F)) as [[t1 [s1 G1]]| |] eqn:M1; cbn [rbind fst snd] in E; try discriminate E. destruct (@p_bump TO (PKind KComma) (mkDS (u ++ z) F)) as [[t2 [s2 G2]]| |] eqn:M2; cbn [rbind fst snd] in E2; try discriminate E2.
  destruct (bump_inv _ _ _ _ _ _ M1) as (k1 & R1 & -> & _). destruct (bump_inv _ _ _ _ _ _ M2) as (k2 & R2 & -> & _). destruct u as [|k0 u]; [congruence|]. cbn [app] in R1, R2.
  assert (k1 = k0) by congruence. assert (k2 = k0) by congruence. assert (s1 = u ++ x) by congruence. assert (s2 = u ++ z) by congruence. subst k1 k2 s1 s2.
  set (tl := fun r : bool => if va && r then @ret TO _ false else @name_r TO s >>> @ret TO _ true) in *.
  change (@bind TO _ _ (@p_at TO (PKind KTripleDot)) tl (mkDS (u ++ x) (F ++ [PTok k0])) = Ok (a, mkDS x F1)) in E. change (@bind TO _ _ (@p_at TO (PKind KTripleDot)) tl (mkDS (u ++ z) (F ++ [PTok k0])) = Ok (a', mkDS r2 F2)) in E2.
  rewrite (bind_det _ _ _ _ _ (hdet_at _)) in E. rewrite (bind_det _ _ _ _ _ (hdet_at _)) in E2. assert (C' : clean (fl (F ++ [PTok k0]))) by (now apply clean_snoc).
  destruct u as [|k3 u].
  - cbn [app pacc_test] in E. unfold tl in E. unfold no_dots in PX. apply negb_true_iff in PX. rewrite PX in E. exfalso.
    assert (TK : takes any 1 (@name_r TO s >>> @ret TO _ true)) by (apply takes_bind; [apply takes_name_r|intros _; exts]). pose proof (TK _ _ _ _ _ C' eq_refl E C1) as L.
    assert (X : ext (@name_r TO s >>> @ret TO _ true)) by exts. pose proof (exact_len _ [] x _ _ _ X E C1) as L2. cbn [length] in L2. lia.
  - cbn [app hd0 nth pacc_test] in E, E2. unfold tl in E, E2. destruct (va && kind_eqb k3 KTripleDot).
    + exfalso. cbn [ret tree_ops] in E. unfold tr_ret in E. injection E as _ E _. apply (app_inv_tail x (k3 :: u) []) in E. discriminate E.
    + refine (h_ret_after (no_dots va) any no_comma (@name_r TO s) (fun _ => true) (h_name_r _ _ _ s) (k3 :: u) x _ _ _ PX (@cons_nn _ k3 u) (good_app [k0] _ G) C' eq_refl E C1 z _ _ _ Sz E2).
Qed.
Lemma s_multi q n s va : says q (one KIdent) (@multi_name_r TO n s va).
Proof.
  rewrite multi_eq. apply s_node_; [apply tw_any; tws|]. apply (s_det q _ _ _ _ (hdet_at _)). intros k _. destruct (va && _); [apply s_ret|].
  apply s_seq; [apply tw_any; tws|intros _; exts|intros _; kps|apply s_name_r|intros _; apply s_loop; [tws|kps|apply s_more]].
Qed.
Lemma h_loop_p pa S b : T1 b -> hlt pa any S b -> nos S b -> forall n, hlt pa any S (@p_loop TO n b).
Proof. apply h_loop. Qed.
Lemma h_multi q n s va : hlt (no_dots va) q no_comma (@multi_name_r TO n s va).
Proof.
  rewrite multi_eq. apply h_node_, (h_det _ q _ _ _ _ (hdet_at _)). intros k _. destruct (va && _); [apply h_ret|].
  apply (h_bind _ _ no_comma any); [apply tw_any; tws|intros _; exts|apply h_name_r|intros _; apply h_loop; [tws|apply h_more|apply nos_more]|intros _; apply dfl_loop, nos_more|apply sub_any].
Qed.
Lemma h_multi_plain q n s : halts q no_comma (@multi_name_r TO n s false).
Proof. intros u x F a F1 _. exact (h_multi q n s false u x F a F1 eq_refl). Qed.
(** ** Parameters *)
Lemma kp_par_names n : kp (par_names n).
Proof. unfold par_names. kps. Qed.
Lemma kp_par_vararg : kp par_vararg.
Proof. unfold par_vararg. kps. Qed.
#[export] Hint Resolve kp_par_names kp_par_vararg : kp.
Lemma s_par_names n : says any (one KIdent) (par_names n).
Proof. unfold par_names. apply (s_det any _ _ _ _ (hdet_at _)). intros k _. destruct (pacc_test _ k); [apply s_ret|apply s_multi]. Qed.
Lemma h_par_names n : hlt (no_dots true) any (one KRParen) (par_names n).
Proof. unfold par_names. apply (h_det _ any _ _ _ _ (hdet_at _)). intros k _. destruct (pacc_test _ k); [apply h_ret|]. apply (h_sub _ _ _ no_comma); [apply sub_one; reflexivity|apply h_multi]. Qed.
Lemma errs_and_bump m : errs m (@p_err_and_bump TO m).
Proof. unfold p_err_and_bump. apply errs_recover. Qed.
Lemma s_par_vararg : says any none par_vararg.
Proof.
  unfold par_vararg. apply (s_det any _ _ _ _ (hdet_at _)). intros k _. destruct (pacc_test _ k); [|apply s_ret]. apply s_after_bump0; [exts|kps|].
  apply (s_det any _ _ _ _ (hdet_at _)). intros k' _. destruct (pacc_test _ k'); [apply s_ret|]. eapply s_quiet; [apply errs_and_bump|reflexivity].
Qed.
Lemma h_par_vararg : halts any (one KRParen) par_vararg.
Proof.
  unfold par_vararg. apply (h_det _ any _ _ _ _ (hdet_at _)). intros k _. destruct (pacc_test _ k); [|apply h_ret]. apply (h_bind _ _ _ any); [apply tw_any; tws|intros _; exts|apply h_bump| | |apply sub_any]; intros _.
  - apply (h_det _ any _ _ _ _ (hdet_at _)). intros k' _. destruct (pacc_test _ k'); [apply h_ret|]. apply h_stuck; [exts|apply stuck_recover].
  - apply (dfl_det_nil _ _ _ _ (hdet_at _)). intros k' Hk. apply kind_eqb_eq in Hk. subst k'. apply dfl_ret.
Qed.
Definition par_end : D bool := par_vararg >>> @p_expect TO KRParen.
Definition par_rest (n : nat) : D bool := par_names n >>> par_end.
Lemma t_par_end : T1 par_end. Proof. unfold par_end. tws. Qed.
Lemma t_par_rest n : T1 (par_rest n). Proof. unfold par_rest, par_end. tws. Qed.
Lemma kp_par_end : kp par_end. Proof. unfold par_end. kps. Qed.
Lemma kp_par_rest n : kp (par_rest n). Proof. unfold par_rest, par_end. kps. Qed.
Lemma d_par_end : dfl any par_end [KRParen].
Proof. unfold par_end. apply (dfl_bind _ (one KRParen) [] [KRParen]); [apply dfl_par_vararg|intros _; apply dfl_expect|hds]. Qed.
Lemma d_par_rest n : dfl any (par_rest n) [KRParen].
Proof. unfold par_rest. apply (dfl_bind _ (one KRParen) [] [KRParen]); [apply dfl_par_names|intros _; apply d_par_end|hds]. Qed.
Lemma s_par_end : says any (one KRParen) par_end.
Proof.
  unfold par_end. apply (s_bind _ _ (one KRParen)); [tws|intros _; exts|intros _; kps|apply s_weak, s_par_vararg|intros _; apply s_expect|apply h_par_vararg|intros _; apply eats_expect|left; auto].
Qed.
(** At dots nothing is promised before them. *)
Lemma s_par_end_dots : says (kind_eqb KTripleDot) none par_end.
Proof.
  apply (s_eats _ (one KRParen)); [|apply s_any, s_par_end]. unfold par_end, par_vararg. apply FirstProofs.eats_bind; [|intros _; exts]. apply FirstProofs.eats_at. cbn [pacc_test]. rewrite kind_eqb_refl. apply FirstProofs.eats_bind; [apply FirstProofs.eats_bump|intros _; exts].
Qed.
Definition id_or (k : kind) : kind -> bool := fun K => (kind_eqb KIdent K || kind_eqb k K)%bool.
Lemma s_par_rest n : says any (id_or KRParen) (par_rest n).
Proof.
  unfold par_rest. apply (s_bind_p (no_dots true) _ _ (one KRParen)); [tws|intros _; apply t_par_end|intros _; apply kp_par_end| |intros _; apply s_par_end|apply h_par_names| | |].
  - apply (s_sub _ (one KIdent)); [|apply s_par_names]. intros k Hk. unfold id_or. unfold one in Hk. now rewrite Hk.
  - intros _ r F a r1 F1 e K C Q. unfold no_dots in Q. cbn [andb] in Q. rewrite negb_involutive in Q. apply kind_eqb_eq in Q. apply s_par_end_dots; [exact C|rewrite Q; reflexivity].
  - intros _. apply eats_one; [reflexivity|apply t_par_end|apply d_par_end].
  - left. intros K Hk. unfold id_or. unfold one in Hk. rewrite Hk. apply orb_true_r.
Qed.
Lemma eats_par_rest n : eats (id_or KRParen) (par_rest n).
Proof.
  apply (eats_or _ (kind_eqb KIdent) (one KRParen)).
  - intros k H. unfold id_or in H. apply orb_prop in H. exact H.
  - unfold par_rest. apply FirstProofs.eats_bind; [|intros _; apply t_par_end]. unfold par_names. apply FirstProofs.eats_at. replace (pacc_test (PSet PARAM_END) KIdent) with false by reflexivity. rewrite multi_eq. apply FirstProofs.eats_node_, FirstProofs.eats_at.
    cbn [pacc_test]. replace (true && kind_eqb KIdent KTripleDot) with false by reflexivity. apply FirstProofs.eats_bind; [apply eats_name_r|intros _; exts].
  - apply eats_one; [reflexivity|apply t_par_rest|apply d_par_rest].
Qed.
Lemma params_eq' n : @param_list TO n = @node_ TO _ KParamList (@p_expect TO KLParen >>> par_rest n).
Proof. reflexivity. Qed.
Lemma s_params q n : says q (one KLParen) (@param_list TO n).
Proof.
  rewrite params_eq'. apply s_node_; [apply tw_any, tw_bind; [apply tw_expect|intros _; apply t_par_rest]|]. apply (s_after_expect _ _ (id_or KRParen)); intros _; [apply t_par_rest|apply kp_par_rest|apply s_par_rest|apply eats_par_rest].
Qed.
Lemma takes_skip e {A B} (m : D A) (f : A -> D B) q : ext m -> (forall a, ext (f a)) -> (forall a, takes any e (f a)) -> takes q e (@bind TO A B m f).
Proof. intros X X2 TK. refine (takes_weak q (0 + e) e _ _ (takes_more q 0 e m f (takes0 q m X) TK X2)). lia. Qed.
Lemma h_params q S n pa : hlt pa q S (@param_list TO n).
Proof.
  rewrite params_eq'. apply h_node_, h_last; [apply tw_any; tws|intros _; apply t_par_rest| |]; intros _.
  - unfold par_rest, par_end. apply takes_skip; [exts|intros _; exts|intros _]. apply takes_skip; [exts|intros _; exts|intros _; apply takes_expect].
  - unfold par_rest, par_end. apply h_last; [tws|intros _; exts| |]; intros _.
    + apply takes_skip; [exts|intros _; exts|intros _; apply takes_expect].
    + apply h_last; [tws|intros _; exts|intros _; apply takes_expect|intros _; apply h_expect].
Qed.
Lemma eats_params n : eats (one KLParen) (@param_list TO n).
Proof. rewrite params_eq'. apply FirstProofs.eats_node_, FirstProofs.eats_bind; [apply eats_expect|intros _; apply t_par_rest]. Qed.
Lemma takes_params q n : takes q 1 (@param_list TO n).
Proof. rewrite params_eq'. apply takes_node_, takes_bind; [apply takes_expect|intros _; apply t_par_rest]. Qed.
