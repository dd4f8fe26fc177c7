(** SaysGrammar.v — the functions of the grammar that recurse: what the first error says (SaysProofs.v). *)
From Coq Require Import String.
From Verif Require Import Base SyntaxKind TokenSet Lexer BindingPowers Parser Grammar ParserTree EventProofs SinkProofs FirstProofs ContProofs ContGrammar ContOpen SaysProofs SaysNames.

Ltac twx := first [solve [tws] | solve [apply tw_any; tws]].
Ltac tks := apply takes_skip; [exts|intros ?; exts|intros ?].
Ltac tkb := apply takes_bind; [|intros ?; exts].
Ltac tke := solve [repeat first [apply takes_expect | apply takes_bump | tks]].
Ltac hle := solve [repeat first [apply h_expect | apply h_bump | (apply h_last; [twx|intros ?; exts|intros ?; tke|intros ?])]].
(** A step that promises nothing before one that expects a token. *)
Lemma s_then q S S2 {A B} (m : D A) (f : A -> D B) : tw q m -> (forall a, ext (f a)) -> (forall a, kp (f a)) -> says q none m -> (forall a, says any S2 (f a)) -> halts q S2 m -> (forall a, eats S2 (f a)) -> sub S2 S -> says q S (@bind TO A B m f).
Proof. intros T X K H1 H2 HL EF SS. apply (s_bind q S S2); auto. apply s_weak, H1. Qed.
Lemma s_then_expect {A} (m : D A) K : askable K = true -> T1 m -> says any none m -> halts any (one K) m -> says any (one K) (m >>> @p_expect TO K).
Proof. intros SK T H HL. apply (s_then _ _ (one K)); [exact T|intros _; exts|intros _; kps|exact H|intros _; apply s_expect|exact HL|intros _; apply eats_expect|intros k Hk; exact Hk]. Qed.
Lemma s_while (g : kind -> bool) cond (b : D unit) n : hdet g cond -> T1 cond -> T1 b -> kp cond -> kp b -> says any none b -> says any none (@p_while TO n cond b).
Proof.
  intros Hg Tc Tb Kc Kb H. unfold p_while. apply s_loop.
  - apply tw_bind; [exact Tc|]. intros [|]; [|apply tw_ret]. apply tw_bind; [exact Tb|]. intros a. apply tw_ret.
  - apply kp_bind; [exact Kc|]. intros [|]; [|apply kp_ret]. apply kp_bind; [exact Kb|]. intros a. apply kp_ret.
  - apply (s_det any _ g); [exact Hg|]. intros k _. destruct (g k); [|apply s_ret]. apply s_any, (s_ret_after any none b (fun _ => true)); assumption.
Qed.
Lemma s_peek_if q S T {A} (m1 m2 : D A) : says q S m1 -> says q S m2 -> (forall k (z : list kind) F a r1 F1, q k = true -> clean (fl F) -> m1 (mkDS (k :: T :: z) F) = Ok (a, mkDS r1 F1) -> length (fl F) + 1 < cp (fl F1)) ->
  kind_eqb T KEof = false -> says q S (@bind TO _ _ (@p_nth TO 1) (fun n => if kind_eqb n T then m1 else m2)).
Proof.
  intros H1 H2 P2 TE. apply s_peek; [intros k; destruct (kind_eqb k T); assumption|]. intros k K Q r F a r1 F1 e C Hr E Fe P L z a' r2 F2 E2.
  destruct (kind_eqb K T) eqn:EK; [apply kind_eqb_eq in EK; subst K; exact (P2 _ _ _ _ _ _ Q C E2)|].
  destruct (kind_eqb (nth 1 r KEof) T) eqn:ET.
  - exfalso. apply kind_eqb_eq in ET. destruct r as [|k0 [|k1 r]]; [cbn in ET; subst T; discriminate TE|cbn in ET; subst T; discriminate TE|]. cbn [hd0 nth] in *. subst k0 k1. pose proof (P2 _ _ _ _ _ _ Q C E). lia.
  - destruct (H2 r F a r1 F1 e K C) as (u & y & -> & L2 & _ & _ & E5); [now rewrite Hr|exact E|exact Fe|exact P|]. assert (LU : length u = 1) by lia.
    destruct u as [|k0 [|k1 u]]; try discriminate LU. cbn [app hd0 nth] in Hr. subst k0. pose proof (E5 (@cons_nn _ k [])) as E6. cbn [app length] in E6. refine (E6 _ z _ _ _ E2).
    intros p Hp. destruct p as [|? [|? ?]]; discriminate Hp.
Qed.

(** Runs that get to the end of [w] at least. *)
Definition gets {A} (m : D A) (w : list kind) : Prop := forall z F a r F1, clean (fl F) -> m (mkDS (w ++ z) F) = Ok (a, mkDS r F1) -> length (fl F) + length w <= cp (fl F1).
Lemma gets_dfl {A} (m : D A) w : ext m -> dfl any m w -> gets m w.
Proof. intros X H z F a r F1 C E. destruct (H z F _ _ _ eq_refl C E) as [-> C1]. pose proof (exact_len m w z _ _ _ X E C1). assert (cp (fl F1) = length (fl F1)) by exact C1. lia. Qed.
Lemma gets_bind {A B} (m : D A) (f : A -> D B) w w2 : ext m -> dfl any m w -> (forall a, gets (f a) w2) -> gets (@bind TO A B m f) (w ++ w2).
Proof.
  intros X H H2 z F a r F1 C E. rewrite <- app_assoc in E. cbn [bind tree_ops] in E. unfold tr_bind in E. destruct (m (mkDS (w ++ w2 ++ z) F)) as [[a1 [s1 G1]]| |] eqn:M; cbn [rbind fst snd] in E; try discriminate E.
  destruct (H (w2 ++ z) F _ _ _ eq_refl C M) as [-> C1]. pose proof (exact_len m w (w2 ++ z) _ _ _ X M C1). pose proof (H2 a1 z G1 _ _ _ C1 E). rewrite app_length. lia.
Qed.
Lemma gets_more {A B} (m : D A) (f : A -> D B) w : gets m w -> (forall a, ext (f a)) -> gets (@bind TO A B m f) w.
Proof.
  intros H X z F a r F1 C E. cbn [bind tree_ops] in E. unfold tr_bind in E. destruct (m (mkDS (w ++ z) F)) as [[a1 [s1 G1]]| |] eqn:M; cbn [rbind fst snd] in E; try discriminate E.
  pose proof (H z F _ _ _ C M). destruct (X _ _ _ _ _ _ E) as (h & Eh & _). rewrite Eh. pose proof (cp_mono (fl G1) h). lia.
Qed.
Lemma gets_node {A} k (m : D A) w : gets m w -> gets (@node TO A k m) w.
Proof.
  intros H z F a r F1 C E. unfold node in E. cbn [node_by bind ret tree_ops] in E. unfold tr_node, tr_bind, tr_ret in E. cbn [ds_rem ds_for] in E. destruct (m (mkDS (w ++ z) [])) as [[a1 [s1 G1]]| |] eqn:M; cbn [rbind fst snd] in E; try discriminate E.
  cbn [ds_rem ds_for] in E. injection E as _ _ <-. pose proof (H z [] _ _ _ clean_nil M) as L. rewrite fl_node, cp_app_clean by exact C. cbn [fl flat_map length] in L. lia.
Qed.
Lemma gets_node_ {A} k (m : D A) w : gets m w -> gets (@node_ TO A k m) w.
Proof. intros H. unfold node_. apply gets_more; [now apply gets_node|intros a; exts]. Qed.

Lemma gets_guard {B} w a (f : unit -> D B) : gets (f tt) w -> gets (@bind TO _ B (@bind TO _ _ (@p_at TO a) (fun b => @passert TO b)) f) w.
Proof.
  intros H z F b r F1 C E. unfold p_at, p_current in E. cbn [bind tree_ops p_nth ret] in E. unfold tr_bind, tr_nth, tr_ret in E. cbn [rbind fst snd ds_rem] in E.
  unfold passert in E. destruct (pacc_test a (nth 0 (w ++ z) KEof)); cbn [ret panic tree_ops] in E; unfold tr_ret, tr_panic in E; cbn [rbind fst snd] in E; [|discriminate E]. exact (H _ _ _ _ _ C E).
Qed.
Lemma eats_peek q {A} (f : kind -> D A) : (forall k, eats q (f k)) -> eats q (@bind TO _ _ (@p_nth TO 1) f).
Proof. intros H r F a r1 F1 C Q E. rewrite peek2 in E. exact (H _ _ _ _ _ _ C Q E). Qed.
Lemma takes_multi q n s : takes q 1 (@multi_name_r TO n s false).
Proof. unfold multi_name_r. cbv zeta. apply takes_node_, (takes_det q _ _ _ _ (hdet_at _)). intros k _. cbn [andb]. tkb. apply takes_name_r. Qed.
Lemma eats_multi n s : eats (one KIdent) (@multi_name_r TO n s false).
Proof. unfold multi_name_r. cbv zeta. apply FirstProofs.eats_node_, FirstProofs.eats_at. cbn [andb]. apply FirstProofs.eats_bind; [apply FirstProofs.eats_name_r|intros a; exts]. Qed.
Lemma eats_name : eats (one KIdent) (@name TO).
Proof. unfold name. apply FirstProofs.eats_at. rewrite test_ident. apply FirstProofs.eats_node_, FirstProofs.eats_bump. Qed.

Section Open.
Variable n : nat.
Variable stmt : D unit.
Variable ex : nat -> D (option nat).
Hypothesis HS : T1 stmt.
Hypothesis HE : forall b, T1 (ex b).
Hypothesis DE : forall b, 0 < b -> dfl S0 (ex b) [KIdent].
Hypothesis XE : forall b, eats (kind_eqb KIdent) (ex b).
Hypothesis KS : kp stmt.
Hypothesis KE : forall b, kp (ex b).
Hypothesis HLS : halts any S0 stmt.
Hypothesis HLE : forall b, 0 < b -> halts any S0 (ex b).
Hypothesis TE : forall b, takes any 1 (ex b).
Hypothesis SS : says any none stmt.
Hypothesis SE : forall b, says any none (ex b).
Let t_single : T1 (@expr_single TO ex) := HE LOWEST.
Let x_block : T1 (@block TO n stmt). Proof. now apply t_block. Qed.
Let x_expr : T1 (@expr TO n ex). Proof. now apply t_expr. Qed.
Let x_index : T1 (@index TO ex). Proof. now apply t_index. Qed.
Let x_content : T1 (@table_content TO ex). Proof. now apply t_content. Qed.
Let x_inner : T1 (@table_inner TO n). Proof. now apply t_inner. Qed.
Let x_table : T1 (@table_expr TO n ex). Proof. now apply t_table. Qed.
Let x_function : T1 (@function_expr TO n stmt). Proof. now apply t_function. Qed.
Let x_args : T1 (@arg_list TO n ex). Proof. now apply t_args. Qed.
Let x_mid : T1 (arg_mid n ex). Proof. now apply t_mid. Qed.
Let x_call_args : T1 (@call_args TO n ex). Proof. now apply t_call_args. Qed.
Let x_call l : T1 (@call_expr TO n ex l). Proof. now apply t_call. Qed.
Let x_index_expr l : T1 (@index_expr TO ex l). Proof. now apply t_index_expr. Qed.
Let x_method l : T1 (@method_call_expr TO n ex l). Proof. now apply t_method. Qed.
Let x_postfix m l c : T1 (@postfix_expr TO n ex m l c). Proof. now apply t_postfix. Qed.
Let x_prefix r : T1 (@prefix_expr TO ex r). Proof. now apply t_prefix. Qed.
Let x_atom : T1 (@atom_expr TO n stmt ex). Proof. now apply t_atom. Qed.
Let x_lhs : T1 (@lhs TO n stmt ex). Proof. now apply t_lhs. Qed.
Let x_lhs_tail o : T1 (lhs_tail n ex o). Proof. now apply t_tail. Qed.
Let x_infix b m l : T1 (@infix_loop TO ex m b l). Proof. now apply t_infix. Qed.
Let x_bp b o : T1 (bp_tail n ex b o). Proof. now apply t_bp. Qed.
Let x_paren : T1 (@paren_expr TO ex). Proof. now apply t_paren. Qed.
Let x_else : T1 (@else_branch TO n stmt). Proof. now apply t_else. Qed.
Let x_elseif m : T1 (@elseif_branch TO n stmt ex m). Proof. now apply t_elseif. Qed.
Let x_branches m : T1 (branches n stmt (@elseif_branch TO n stmt ex m)). Proof. apply t_branches; [exact HS|apply x_elseif]. Qed.
Let x_for : T1 (@for_content TO n ex). Proof. now apply t_for. Qed.
Let x_local_tail : T1 (local_tail n ex). Proof. now apply t_local_tail. Qed.
Hint Resolve HS HE t_single x_block x_expr x_index x_content x_inner x_table x_function x_args x_mid x_call_args x_call x_index_expr x_method x_postfix x_prefix x_atom x_lhs x_lhs_tail x_infix x_bp x_paren x_else x_elseif x_branches x_for x_local_tail : tw.
Hint Resolve KS KE : kp.

(** ** Errors are kept *)
Let k_single : kp (@expr_single TO ex) := KE LOWEST.
Let k_block : kp (@block TO n stmt). Proof. unfold block, block_raw. kps. Qed.
Hint Resolve k_single k_block : kp.
Let k_expr : kp (@expr TO n ex). Proof. unfold expr, expr_multi. kps. Qed.
Hint Resolve k_expr : kp.
Let k_paren : kp (@paren_expr TO ex). Proof. unfold paren_expr. kps. Qed.
Let k_index : kp (@index TO ex). Proof. unfold index. kps. Qed.
Hint Resolve k_paren k_index : kp.
Let k_content : kp (@table_content TO ex). Proof. unfold table_content. kps. Qed.
Let k_sep : kp (@table_sep TO). Proof. unfold table_sep. kps. Qed.
Let k_correct : kp (@table_correct TO n). Proof. unfold table_correct. kps. Qed.
Hint Resolve k_content k_sep k_correct : kp.
Let k_inner : kp (@table_inner TO n). Proof. unfold table_inner. kps. Qed.
Hint Resolve k_inner : kp.
Let k_table : kp (@table_expr TO n ex). Proof. unfold table_expr. kps. Qed.
Let k_function : kp (@function_expr TO n stmt). Proof. unfold function_expr. kps. Qed.
Let k_mid : kp (arg_mid n ex). Proof. unfold arg_mid. kps. Qed.
Hint Resolve k_table k_function k_mid : kp.
Let k_args : kp (@arg_list TO n ex). Proof. rewrite args_eq. kps. Qed.
Hint Resolve k_args : kp.
Let k_call_args : kp (@call_args TO n ex). Proof. unfold call_args. kps. Qed.
Hint Resolve k_call_args : kp.
Let k_method l : kp (@method_call_expr TO n ex l). Proof. unfold method_call_expr. kps. Qed.
Let k_dot l : kp (@dot_expr TO l). Proof. unfold dot_expr. kps. Qed.
Hint Resolve k_method k_dot : kp.
Let k_postfix : forall m l c, kp (@postfix_expr TO n ex m l c). Proof. induction m as [|m IH]; intros l c; cbn [postfix_expr]; [kps|]. unfold call_expr, index_expr. kps. Qed.
Hint Resolve k_postfix : kp.
Let k_prefix r : kp (@prefix_expr TO ex r). Proof. unfold prefix_expr. kps. Qed.
Hint Resolve k_prefix : kp.
Let k_literal : kp (@literal TO). Proof. unfold literal. kps. Qed.
Hint Resolve k_literal : kp.
Let k_atom : kp (@atom_expr TO n stmt ex). Proof. unfold atom_expr. cbv zeta. kps. Qed.
Hint Resolve k_atom : kp.
Let k_lhs_tail o : kp (lhs_tail n ex o). Proof. unfold lhs_tail. destruct o as [[? ?]|]; kps. Qed.
Hint Resolve k_lhs_tail : kp.
Let k_lhs : kp (@lhs TO n stmt ex). Proof. rewrite lhs_eq. cbv zeta. kps. Qed.
Hint Resolve k_lhs : kp.
Let k_infix b : forall m l, kp (@infix_loop TO ex m b l). Proof. induction m as [|m IH]; intros l; cbn [infix_loop]; [kps|]. kps. Qed.
Hint Resolve k_infix : kp.
Let k_bp b o : kp (bp_tail n ex b o). Proof. unfold bp_tail. kps. Qed.
Hint Resolve k_bp : kp.
Lemma k_expr_bp b : kp (@expr_bp_body TO n stmt ex b). Proof. rewrite expr_bp_eq. kps. Qed.
Let k_else : kp (@else_branch TO n stmt). Proof. unfold else_branch. kps. Qed.
Hint Resolve k_else : kp.
Let k_elseif : forall m, kp (@elseif_branch TO n stmt ex m). Proof. induction m as [|m IH]; [cbn [elseif_branch]; kps|]. rewrite elseif_eq. unfold then_part, branches. kps. Qed.
Hint Resolve k_elseif : kp.
Let k_for : kp (@for_content TO n ex). Proof. unfold for_content, numeric_for, generic_for. kps. Qed.
Hint Resolve k_for : kp.

(** ** Blocks *)
Lemma h_block_raw q e S : (forall k, S k = true -> pacc_test (PSet e) k = true) -> sub S S0 -> halts q S (@block_raw TO n stmt e).
Proof.
  intros H L. unfold block_raw. apply h_any, h_node_, (h_while _ _ _ _ _ _ (hdet_not_at _)); [tws|exact HS|apply (h_sub _ _ _ S0); [exact L|exact HLS]|]. intros k Hk. now rewrite (H _ Hk).
Qed.
Lemma h_block q : halts q SB (@block TO n stmt).
Proof. apply h_block_raw; [apply block_end|apply sub_B0]. Qed.
Lemma s_block_raw e : says any none (@block_raw TO n stmt e).
Proof. unfold block_raw. apply s_node_; [tws|]. apply (s_while _ _ _ _ (hdet_not_at _)); [tws|exact HS|kps|exact KS|exact SS]. Qed.
Lemma s_block : says any none (@block TO n stmt).
Proof. apply s_block_raw. Qed.
Definition to_end : D bool := @block TO n stmt >>> @p_expect TO KEndKw.
Lemma t_to_end : T1 to_end. Proof. unfold to_end. tws. Qed.
Lemma k_to_end : kp to_end. Proof. unfold to_end. kps. Qed.
Lemma s_to_end : says any (one KEndKw) to_end.
Proof. apply s_then_expect; [reflexivity|tws|apply s_block|]. apply (h_sub _ _ _ SB); [apply sub_one; reflexivity|apply h_block]. Qed.
Lemma e_to_end : eats (one KEndKw) to_end.
Proof. apply eats_one; [reflexivity|apply t_to_end|]. now apply dfl_block_end. Qed.
Lemma h_to_end q S : halts q S to_end.
Proof. unfold to_end. hle. Qed.
Lemma tk_to_end q : takes q 1 to_end.
Proof. unfold to_end. tke. Qed.
(** ** Expressions *)
Lemma h_single : halts any S0 (@expr_single TO ex).
Proof. apply HLE, low_pos. Qed.
Lemma s_single : says any none (@expr_single TO ex).
Proof. apply SE. Qed.
Lemma tk_single q : takes q 1 (@expr_single TO ex).
Proof. apply takes_any, TE. Qed.
Lemma s_expr q : says q none (@expr TO n ex).
Proof.
  unfold expr, expr_multi. apply s_any, s_node_; [tws|]. apply s_seq; [exact t_single|intros _; exts|intros _; kps|apply s_single|intros _].
  apply (s_while _ _ _ _ (hdet_at _)); [tws|tws|kps|kps|]. apply s_after_bump0; [exts|kps|]. apply (s_ret_after _ _ _ (fun _ => tt)); [exact t_single|apply s_single].
Qed.
Lemma h_expr q : halts q S0 (@expr TO n ex).
Proof.
  unfold expr, expr_multi. apply h_any, h_node_, (h_bind _ _ _ S0); [exact t_single|intros _; exts|apply h_single| | |intros k H; exact H]; intros _.
  - apply (h_while _ _ _ _ _ _ (hdet_at _)); [tws|tws| |exact S0_comma]. apply h_last; [tws|intros _; exts| |]; intros _.
    + tkb. apply tk_single.
    + apply (h_ret_after _ _ _ _ (fun _ => tt)), h_single.
  - apply (dfl_while _ _ _ _ _ (hdet_at _)). exact S0_comma.
Qed.
Lemma tk_expr q : takes q 1 (@expr TO n ex).
Proof. unfold expr, expr_multi. apply takes_node_. tkb. apply tk_single. Qed.
(** An expression and a token. *)
Lemma s_single_to K : askable K = true -> S0 K = true -> says any none (@expr_single TO ex >>> @p_expect TO K).
Proof.
  intros SK Z. apply (s_bind _ _ (one K)); [exact t_single|intros _; exts|intros _; kps|apply s_single|intros _; apply s_expect| |intros _; apply eats_expect|right; apply tk_single]. apply (h_sub _ _ _ S0); [now apply sub_one|apply h_single].
Qed.
Lemma s_single_then K {B} (f : bool -> D B) : askable K = true -> S0 K = true -> (forall b, T1 (f b)) -> (forall b, kp (f b)) -> forall S2, (forall b, says any S2 (f b)) -> (forall b, eats S2 (f b)) -> says any none (@expr_single TO ex >>> @bind TO _ B (@p_expect TO K) f).
Proof.
  intros SK Z T KF S2 H EF. apply (s_bind _ _ (one K)); [exact t_single|intros _; exts; apply T|intros _; kps; apply KF|apply s_single|intros _; apply (s_after_expect _ _ S2)| |intros _; apply FirstProofs.eats_bind; [apply eats_expect|apply T]|right; apply tk_single].
  - intros b. apply T.
  - exact KF.
  - exact H.
  - exact EF.
  - apply (h_sub _ _ _ S0); [now apply sub_one|apply h_single].
Qed.
Lemma s_paren : says (kind_eqb KLParen) none (@paren_expr TO ex).
Proof.
  apply (s_eats _ (one KLParen)).
  - unfold paren_expr. apply FirstProofs.eats_node, FirstProofs.eats_bind; [apply eats_expect|intros _; exts].
  - unfold paren_expr. apply s_node; [twx|]. apply (s_after_expect _ _ none); intros _; [exts|kps|apply (s_single_to KRParen); reflexivity|apply eats_none].
Qed.
Lemma h_paren q S : halts q S (@paren_expr TO ex).
Proof. unfold paren_expr. apply h_node. hle. Qed.
Lemma s_index q : says q none (@index TO ex).
Proof. unfold index. apply s_node_; [twx|]. apply s_after_bump0; [exts|kps|apply (s_single_to KRBracket); reflexivity]. Qed.
Lemma h_index q S : halts q S (@index TO ex).
Proof. unfold index. apply h_node_. hle. Qed.
Lemma tk_index q : takes q 1 (@index TO ex).
Proof. unfold index. apply takes_node_. tkb. apply takes_bump. Qed.
(** ** Tables *)
Definition key_value : D unit := @node_ TO _ KKeyValue (@node_ TO _ KTableKey (@name_unchecked TO) >>> @p_bump TO (PKind KEq) >>> @expr_single TO ex).
Definition positional : D unit := @node_ TO _ KPositionalValue (@expr_single TO ex).
Definition keyed : D unit := @node_ TO _ KKeyValue (@node_ TO _ KTableKey (@index TO ex) >>> @p_expect TO KEq >>> @expr_single TO ex).
Lemma content_eq : @table_content TO ex = @node_ TO _ KTableContent (c <- @p_current TO ;; if kind_eqb c KIdent then n0 <- @p_nth TO 1 ;; if kind_eqb n0 KEq then key_value else positional
  else if kind_eqb c KLBracket then keyed else b <- @p_at TO (PSet EXPR_FIRST) ;; if b then positional else @p_error TO "Expected an expression").
Proof. reflexivity. Qed.
Lemma t_positional : T1 positional. Proof. unfold positional. tws. Qed.
Lemma t_key_value : T1 key_value. Proof. unfold key_value. tws. Qed.
Lemma s_positional : says any none positional.
Proof. unfold positional. apply s_node_; [exact t_single|apply s_single]. Qed.
Lemma h_positional : halts any S0 positional.
Proof. unfold positional. apply h_node_, h_single. Qed.
Lemma s_key_value : says any none key_value.
Proof.
  unfold key_value, name_unchecked. apply s_node_; [twx|]. apply s_seq; [twx|intros _; exts|intros _; kps| |intros _].
  - apply s_node_; [twx|]. apply s_node_; [twx|apply s_bump].
  - apply s_after_bump0; [exts|kps|apply s_single].
Qed.
Lemma h_key_value : halts any S0 key_value.
Proof.
  unfold key_value, name_unchecked. apply h_node_, h_last; [twx|intros _; exts| |]; intros _.
  - tkb. apply takes_bump.
  - apply h_last; [twx|intros _; exts|intros _; apply tk_single|intros _; apply h_single].
Qed.
Lemma h_keyed : halts any S0 keyed.
Proof.
  unfold keyed. apply h_node_, h_last; [twx|intros _; exts| |]; intros _.
  - tkb. apply takes_expect.
  - apply h_last; [twx|intros _; exts|intros _; apply tk_single|intros _; apply h_single].
Qed.
Lemma s_keyed : says any none keyed.
Proof.
  unfold keyed. apply s_node_; [twx|]. apply (s_bind _ _ (one KEq)); [twx|intros _; exts|intros _; kps|apply s_node_; [twx|apply s_index]| |apply h_node_, h_index| |right; apply takes_node_, tk_index]; intros _.
  - apply (s_after_expect _ _ none); intros _; [exts|kps|apply s_single|apply eats_none].
  - apply FirstProofs.eats_bind; [apply eats_expect|intros _; exts].
Qed.
Lemma e_key_value k : eats k key_value.
Proof. unfold key_value, name_unchecked. apply FirstProofs.eats_node_, FirstProofs.eats_bind; [|intros _; exts]. apply FirstProofs.eats_node_, FirstProofs.eats_node_, FirstProofs.eats_bump. Qed.
Lemma s_content : says any none (@table_content TO ex).
Proof.
  rewrite content_eq. apply s_nodef, (s_det any _ _ _ _ hdet_current). intros k _. destruct (kind_eqb k KIdent) eqn:EI.
  - apply kind_eqb_eq in EI. subst k. apply s_peek_if; [apply s_any, s_key_value|apply s_any, s_positional| |reflexivity].
    intros k z F a r1 F1 Q C E. apply kind_eqb_eq in Q. subst k. assert (G : gets key_value [KIdent; KEq]).
    { unfold key_value. apply gets_node_, (gets_bind _ _ [KIdent] [KEq]); [exts|unfold name_unchecked; apply dfl_node_, dfl_node_, dfl_bump|intros _]. apply gets_more; [|intros _; exts]. apply gets_dfl; [exts|apply dfl_bump]. }
    pose proof (G z F _ _ _ C E) as L. cbn [length] in L. lia.
  - destruct (kind_eqb k KLBracket); [apply s_any, s_keyed|]. apply (s_det _ _ _ _ _ (hdet_at _)). intros k' _. destruct (pacc_test _ k'); [apply s_any, s_positional|]. eapply s_quiet; [apply errs_error|reflexivity].
Qed.
Lemma tk_key_value : takes any 2 key_value.
Proof.
  unfold key_value, name_unchecked. apply takes_node_, (takes_more any 1 1); [apply takes_node_, takes_node_, takes_bump|intros _|intros _; exts]. tkb. apply takes_bump.
Qed.
Lemma h_content : halts any S0 (@table_content TO ex).
Proof.
  rewrite content_eq. apply h_node_, (h_det _ any _ _ _ _ hdet_current). intros k _. destruct (kind_eqb k KIdent) eqn:EI.
  - apply kind_eqb_eq in EI. subst k. apply h_peek.
    + intros k. destruct (kind_eqb k KEq); [apply h_any, h_key_value|apply h_any, h_positional].
    + intros k Hk x F a F1 C E C1 z a' r2 F2 Sz E2. destruct (kind_eqb (hd0 x) KEq); [destruct (h_take2 key_value k x F a F1); [apply t_key_value|apply tk_key_value|exact C|exact E|exact C1]|].
      assert (NE : kind_eqb (hd0 z) KEq = false) by (revert Sz; destruct (hd0 z); intros Sz; try discriminate Sz; reflexivity). rewrite NE in E2.
      refine (h_positional [k] x F a F1 eq_refl (@cons_nn _ k []) _ C eq_refl E C1 z a' r2 F2 Sz E2). intros p Hp. destruct p as [|? [|? ?]]; discriminate Hp.
  - destruct (kind_eqb k KLBracket); [apply h_any, h_keyed|]. apply (h_det _ _ _ _ _ _ (hdet_at _)). intros k' _. destruct (pacc_test _ k'); [apply h_any, h_positional|apply h_stuck; [exts|apply stuck_msg]].
Qed.
Lemma s_sep q : says q none (@table_sep TO).
Proof. unfold table_sep, p_bump_ts. apply s_nodef, (s_det q _ _ _ _ (hdet_at _)). intros k _. destruct (pacc_test _ k); [apply s_bump|apply s_panic]. Qed.
Lemma h_sep q S : halts q S (@table_sep TO).
Proof. unfold table_sep, p_bump_ts. apply h_node_, (h_det _ q _ _ _ _ (hdet_at _)). intros k _. destruct (pacc_test _ k); [apply h_bump|apply h_panic]. Qed.
Lemma s_correct q : says q none (@table_correct TO n).
Proof. unfold table_correct, p_err_until. cbv zeta. eapply s_quiet; [apply errs_node|reflexivity]. Qed.
Lemma s_inner : says any none (@table_inner TO n).
Proof.
  unfold table_inner. apply s_loop; [tws|kps|]. apply (s_det any _ _ _ _ (hdet_at _)). intros k _. destruct (pacc_test _ k); [apply s_ret|]. apply (s_det _ _ _ _ _ (hdet_at _)). intros k1 _. destruct (pacc_test _ k1).
  - apply (s_map _ _ _ (fun _ => false)), s_sep.
  - apply (s_det _ _ _ _ _ (hdet_at _)). intros k2 _. destruct (pacc_test _ k2); [apply s_ret|]. apply (s_map _ _ _ (fun _ => true)), s_correct.
Qed.
Lemma h_inner : halts any (one KRBrace) (@table_inner TO n).
Proof.
  unfold table_inner. apply h_loop; [tws| |].
  - apply (h_det _ any _ _ _ _ (hdet_at _)). intros k _. destruct (pacc_test _ k); [apply h_ret|]. apply (h_det _ _ _ _ _ _ (hdet_at _)). intros k1 _. destruct (pacc_test _ k1).
    + apply (h_ret_after _ _ _ _ (fun _ => false)), h_sep.
    + apply (h_det _ _ _ _ _ _ (hdet_at _)). intros k2 _. destruct (pacc_test _ k2); [apply h_ret|]. apply (h_ret_after _ _ _ _ (fun _ => true)), h_stuck; [exts|apply stuck_err_node].
  - apply (nos_det _ _ _ _ (hdet_at _)). intros k Hk. apply kind_eqb_eq in Hk. subst k. apply nos_ret.
Qed.
Lemma s_table q : says q none (@table_expr TO n ex).
Proof.
  unfold table_expr. apply s_node; [twx|]. apply (s_after_bump _ _ _ _ (one KRBrace)); [exts|kps| |].
  - apply s_then_expect; [reflexivity|tws| |].
    + apply (s_while _ _ _ _ (hdet_not_at _)); [tws|tws|kps|kps|]. apply s_seq; [tws|intros _; exts|intros _; kps|apply s_content|intros _; apply s_inner].
    + apply (h_while _ _ _ _ _ _ (hdet_not_at _)); [tws|tws| |exact brace_end]. apply (h_bind _ _ _ S0); [tws|intros _; exts|apply h_content|intros _; apply h_inner|intros _; apply dfl_inner|apply sub_one; reflexivity].
  - apply eats_one; [reflexivity|exts|]. apply (dfl_bind _ (one KRBrace) [] [KRBrace]); [|intros _; apply dfl_expect|hds]. apply (dfl_while _ _ _ _ _ (hdet_not_at _)). exact brace_end.
Qed.
Lemma h_table q S : halts q S (@table_expr TO n ex).
Proof. unfold table_expr. apply h_node. hle. Qed.
(** ** Functions and calls *)
Definition params_to : D bool := @param_list TO n >>> to_end.
Lemma t_params_to : T1 params_to. Proof. unfold params_to, to_end. tws. Qed.
Lemma k_params_to : kp params_to. Proof. unfold params_to, to_end. kps. Qed.
Lemma s_params_to q : says q (one KLParen) params_to.
Proof.
  unfold params_to. apply (s_bind _ _ (one KEndKw)); [twx|intros _; apply t_to_end|intros _; apply k_to_end|apply s_params|intros _; apply s_to_end|apply h_params|intros _; apply e_to_end|right; apply takes_params].
Qed.
Lemma e_params_to : eats (one KLParen) params_to.
Proof. unfold params_to. apply FirstProofs.eats_bind; [apply eats_params|intros _; apply t_to_end]. Qed.
Lemma h_params_to q S : halts q S params_to.
Proof. unfold params_to, to_end. hle. Qed.
Lemma tk_params_to q : takes q 1 params_to.
Proof. unfold params_to, to_end. tke. Qed.
Lemma s_function q : says q none (@function_expr TO n stmt).
Proof. unfold function_expr. apply s_node; [twx|]. apply (s_after_bump _ _ _ _ (one KLParen)); [apply t_params_to|apply k_params_to|apply s_params_to|apply e_params_to]. Qed.
Lemma h_function q S : halts q S (@function_expr TO n stmt).
Proof. unfold function_expr. apply h_node. hle. Qed.
Lemma s_mid : says any none (arg_mid n ex).
Proof. unfold arg_mid. apply (s_det any _ _ _ _ (hdet_at _)). intros k _. destruct (pacc_test _ k); [apply s_ret|apply s_expr]. Qed.
Lemma h_mid : halts any (one KRParen) (arg_mid n ex).
Proof. unfold arg_mid. apply (h_det _ any _ _ _ _ (hdet_at _)). intros k _. destruct (pacc_test _ k); [apply h_ret|]. apply (h_sub _ _ _ S0); [apply sub_one; reflexivity|apply h_expr]. Qed.
Lemma s_args q : says q none (@arg_list TO n ex).
Proof.
  rewrite args_eq. apply s_node_; [twx|]. apply (s_after_bump _ _ _ _ (one KRParen)); [exts|kps| |].
  - apply s_then_expect; [reflexivity|tws|apply s_mid|apply h_mid].
  - apply eats_one; [reflexivity|exts|apply dfl_mid_to].
Qed.
Lemma h_args q S : halts q S (@arg_list TO n ex).
Proof. rewrite args_eq. apply h_node_. hle. Qed.
Lemma tk_args q : takes q 1 (@arg_list TO n ex).
Proof. rewrite args_eq. apply takes_node_. tkb. apply takes_bump. Qed.
Lemma tk_table q : takes q 1 (@table_expr TO n ex).
Proof. unfold table_expr. apply takes_node. tkb. apply takes_bump. Qed.
Lemma s_call_args q : says q none (@call_args TO n ex).
Proof.
  unfold call_args. apply s_guard, s_nodef, (s_det q _ _ _ _ hdet_current). intros k _. destruct (kind_eqb k KLParen); [apply s_args|]. destruct (kind_eqb k KLBrace); [apply (s_map _ _ _ (fun _ => tt)), s_table|].
  destruct (kind_eqb k KStr); [apply s_bump|apply s_panic].
Qed.
Lemma h_call_args q S : halts q S (@call_args TO n ex).
Proof.
  unfold call_args. apply h_guard, h_node_, (h_det _ q _ _ _ _ hdet_current). intros k _. destruct (kind_eqb k KLParen); [apply h_args|]. destruct (kind_eqb k KLBrace); [apply (h_ret_after _ _ _ _ (fun _ => tt)), h_table|].
  destruct (kind_eqb k KStr); [apply h_bump|apply h_panic].
Qed.
Lemma tk_call_args q : takes q 1 (@call_args TO n ex).
Proof.
  unfold call_args. apply takes_guard, takes_node_, (takes_det q _ _ _ _ hdet_current). intros k _. destruct (kind_eqb k KLParen); [apply tk_args|]. destruct (kind_eqb k KLBrace); [tkb; apply tk_table|].
  destruct (kind_eqb k KStr); [apply takes_bump|apply takes_panic].
Qed.
Definition call_or : D unit := b <- @p_at TO (PSet CALL_FIRST) ;; if b then @call_args TO n ex else @p_error TO "Expected call arguments".
Lemma t_call_or : T1 call_or. Proof. unfold call_or. tws. Qed.
Lemma k_call_or : kp call_or. Proof. unfold call_or. kps. Qed.
Lemma promise_call K : promise (PMsg "Expected call arguments") = Some K -> one KLParen K = true.
Proof. cbn. intros H. injection H as <-. reflexivity. Qed.
Lemma s_call_or : says any (one KLParen) call_or.
Proof. unfold call_or. apply (s_det any _ _ _ _ (hdet_at _)). intros k _. destruct (pacc_test _ k); [apply s_weak, s_call_args|]. eapply s_errs; [apply errs_error|apply promise_call]. Qed.
Lemma h_call_or q S : halts q S call_or.
Proof. unfold call_or. apply (h_det _ q _ _ _ _ (hdet_at _)). intros k _. destruct (pacc_test _ k); [apply h_call_args|apply h_stuck; [exts|apply stuck_msg]]. Qed.
Lemma tk_call_or q : takes q 1 call_or.
Proof. unfold call_or. apply (takes_det q _ _ _ _ (hdet_at _)). intros k _. destruct (pacc_test _ k); [apply tk_call_args|apply takes_stuck, fails_msg]. Qed.
Lemma e_call_or : eats (one KLParen) call_or.
Proof.
  unfold call_or. apply FirstProofs.eats_at. replace (pacc_test (PSet CALL_FIRST) KLParen) with true by reflexivity. unfold call_args. apply FirstProofs.eats_guard, FirstProofs.eats_node_, FirstProofs.eats_cur. cbn [kind_eqb].
  rewrite args_eq. apply FirstProofs.eats_node_, FirstProofs.eats_bind; [apply FirstProofs.eats_bump|intros _; exts].
Qed.
Lemma method_eq l : @method_call_expr TO n ex l = @pre_node TO _ l KMethodCallExpr (@p_bump TO (PKind KColon) >>> @name_ref TO >>> call_or).
Proof. unfold method_call_expr, call_or. reflexivity. Qed.
Hint Resolve t_call_or : tw.
Hint Resolve k_call_or : kp.
Opaque call_or.
Lemma s_method q l : says q none (@method_call_expr TO n ex l).
Proof.
  rewrite method_eq. apply s_pre; [apply tw_any; tws|]. apply (s_after_bump _ _ _ _ (one KIdent)); [exts|kps| |].
  - apply (s_bind _ _ (one KLParen)); [tws|intros _; apply t_call_or|intros _; apply k_call_or|apply s_name_ref|intros _; apply s_call_or|apply h_name_ref|intros _; apply e_call_or|right; apply takes_name_ref].
  - apply FirstProofs.eats_bind; [unfold name_ref; apply FirstProofs.eats_node, eats_expect|intros _; apply t_call_or].
Qed.
Lemma h_method q S l : halts q S (@method_call_expr TO n ex l).
Proof.
  rewrite method_eq. apply h_pre, h_last; [apply tw_any; tws|intros _; exts| |]; intros _.
  - tkb. apply takes_name_ref.
  - apply h_last; [tws|intros _; apply t_call_or|intros _; apply tk_call_or|intros _; apply h_call_or].
Qed.
Lemma s_dot q l : says q none (@dot_expr TO l).
Proof. unfold dot_expr. apply s_pre; [twx|]. apply (s_after_bump _ _ _ _ (one KIdent)); [exts|kps|apply s_expect|apply eats_expect]. Qed.
Lemma h_dot q S l : halts q S (@dot_expr TO l).
Proof. unfold dot_expr. apply h_pre. hle. Qed.
Lemma s_postfix : forall m l c, says any none (@postfix_expr TO n ex m l c).
Proof.
  induction m as [|m IH]; intros l c; cbn [postfix_expr]; [apply s_out|]. apply (s_det any _ _ _ _ hdet_current). intros k _. apply (s_det _ _ _ _ _ (hdet_at _)). intros k' _.
  assert (Z : forall (p : D nat), T1 p -> says (kind_eqb k') none p -> says (kind_eqb k') none (@bind TO _ _ p (fun l => @postfix_expr TO n ex m l true))).
  { intros p T C. apply s_seq; [now apply tw_any|intros l'; apply x_postfix|intros l'; apply k_postfix|exact C|intros l'; apply IH]. }
  destruct (c && _); [apply Z; [tws|unfold call_expr; apply s_pre; [twx|apply s_call_args]]|]. destruct (_ && c); [apply Z; [tws|apply s_method]|]. destruct (kind_eqb k KLBracket); [apply Z; [tws|unfold index_expr; apply s_pre; [twx|apply s_index]]|].
  destruct (kind_eqb k KDot); [apply Z; [tws|apply s_dot]|apply s_ret].
Qed.
Lemma h_postfix : forall m l c, halts any S0 (@postfix_expr TO n ex m l c).
Proof.
  induction m as [|m IH]; intros l c; cbn [postfix_expr]; [apply h_out|]. apply (h_det _ any _ _ _ _ hdet_current). intros k _. apply (h_det _ _ _ _ _ _ (hdet_at _)). intros k' _.
  assert (Z : forall (p : D nat), T1 p -> halts (kind_eqb k') any p -> halts (kind_eqb k') S0 (@bind TO _ _ p (fun l => @postfix_expr TO n ex m l true))).
  { intros p T C. apply (h_bind _ _ _ any); [now apply tw_any|intros l'; apply x_postfix|exact C|intros l'; apply IH|intros l'; apply dfl_postfix|apply sub_any]. }
  destruct (c && _); [apply Z; [tws|unfold call_expr; apply h_pre, h_call_args]|]. destruct (_ && c); [apply Z; [tws|apply h_method]|]. destruct (kind_eqb k KLBracket); [apply Z; [tws|unfold index_expr; apply h_pre, h_index]|].
  destruct (kind_eqb k KDot); [apply Z; [tws|apply h_dot]|apply h_ret].
Qed.
Definition pre_end (o : option nat) : D kind := match o with None => @panic TO _ | Some _ => @ret TO _ KPrefixExpr end.
Lemma s_prefix q r : says q none (@prefix_expr TO ex r).
Proof.
  unfold prefix_expr. apply (s_map _ _ _ (fun c => Some c)), s_node_by, s_after_bump0; [exts|kps|]. apply s_seq; [apply HE|intros o; exts|intros o; kps|apply SE|intros [?|]; [apply s_ret|apply s_panic]].
Qed.
Lemma h_prefix q r : 0 < r -> halts q S0 (@prefix_expr TO ex r).
Proof.
  intros P. unfold prefix_expr. apply (h_ret_after _ _ _ _ (fun c => Some c)), h_node_by, h_last; [twx|intros _; exts| |]; intros _.
  - apply takes_bind; [apply TE|intros o; exts].
  - apply (h_bind _ _ _ S0); [apply HE|intros o; exts|now apply HLE|intros [?|]; [apply h_ret|apply h_panic]|intros [?|]; [apply dfl_ret|apply dfl_panic]|intros k H; exact H].
Qed.
Lemma tk_prefix q r : takes q 1 (@prefix_expr TO ex r).
Proof. unfold prefix_expr. tkb. apply takes_node_by. tkb. apply takes_bump. Qed.

(** ** Operands and operators *)
Lemma s_literal q : says q none (@literal TO).
Proof. unfold literal. apply s_guard, s_node; [twx|apply s_bump]. Qed.
Lemma h_literal q S : halts q S (@literal TO).
Proof. unfold literal. apply h_guard, h_node, h_bump. Qed.
Lemma tk_literal q : takes q 1 (@literal TO).
Proof. unfold literal. apply takes_guard, takes_node, takes_bump. Qed.
Lemma s_atom : says any none (@atom_expr TO n stmt ex).
Proof.
  unfold atom_expr. apply (s_det any _ _ _ _ hdet_current). intros k _. cbv zeta. destruct (0 <? prefix_binding_power k).
  - apply (s_map _ _ _ (fun o => option_map (fun c => (c, false)) o)), s_prefix.
  - apply (s_det _ _ _ _ _ (hdet_at _)). intros k1 _. destruct (pacc_test _ k1); [apply (s_map _ _ _ (fun c => Some (c, false))), s_literal|]. apply (s_det _ _ _ _ _ hdet_current). intros k2 _.
    destruct (kind_eqb k2 KFunctionKw); [apply (s_map _ _ _ (fun c => Some (c, true))), s_function|]. destruct (kind_eqb k2 KLBrace); [apply (s_map _ _ _ (fun c => Some (c, true))), s_table|].
    destruct (kind_eqb k2 KIdent) eqn:EI.
    { apply kind_eqb_eq in EI. subst k2. apply (s_map _ _ _ (fun c => Some (c, true))), (s_eats _ (one KIdent)); [|apply s_name_ref]. unfold name_ref. apply FirstProofs.eats_node, eats_expect. }
    destruct (kind_eqb k2 KLParen) eqn:EP.
    { apply kind_eqb_eq in EP. subst k2. apply (s_map _ _ _ (fun c => Some (c, true))), s_paren. }
    apply (s_map _ _ _ (fun _ => None)). eapply s_quiet; [apply errs_recover|reflexivity].
Qed.
Lemma h_atom : halts any S0 (@atom_expr TO n stmt ex).
Proof.
  unfold atom_expr. apply (h_det _ any _ _ _ _ hdet_current). intros k _. cbv zeta. destruct (0 <? prefix_binding_power k) eqn:P.
  - apply Nat.ltb_lt in P. apply (h_ret_after _ _ _ _ (fun o => option_map (fun c => (c, false)) o)), h_prefix, P.
  - apply (h_det _ _ _ _ _ _ (hdet_at _)). intros k1 _. destruct (pacc_test _ k1); [apply (h_ret_after _ _ _ _ (fun c => Some (c, false))), h_literal|]. apply (h_det _ _ _ _ _ _ hdet_current). intros k2 _.
    destruct (kind_eqb k2 KFunctionKw); [apply (h_ret_after _ _ _ _ (fun c => Some (c, true))), h_function|]. destruct (kind_eqb k2 KLBrace); [apply (h_ret_after _ _ _ _ (fun c => Some (c, true))), h_table|].
    destruct (kind_eqb k2 KIdent); [apply (h_ret_after _ _ _ _ (fun c => Some (c, true))), h_name_ref|]. destruct (kind_eqb k2 KLParen); [apply (h_ret_after _ _ _ _ (fun c => Some (c, true))), h_paren|].
    apply (h_ret_after _ _ _ _ (fun _ => None)), h_stuck; [exts|apply stuck_recover].
Qed.
Lemma tk_paren q : takes q 1 (@paren_expr TO ex).
Proof. unfold paren_expr. apply takes_node. tke. Qed.
Lemma tk_function q : takes q 1 (@function_expr TO n stmt).
Proof. unfold function_expr. apply takes_node. tkb. apply takes_bump. Qed.
Lemma tk_atom q : takes q 1 (@atom_expr TO n stmt ex).
Proof.
  unfold atom_expr. apply (takes_det q _ _ _ _ hdet_current). intros k _. cbv zeta. destruct (0 <? prefix_binding_power k); [tkb; apply tk_prefix|].
  apply (takes_det _ _ _ _ _ (hdet_at _)). intros k1 _. destruct (pacc_test _ k1); [tkb; apply tk_literal|]. apply (takes_det _ _ _ _ _ hdet_current). intros k2 _.
  destruct (kind_eqb k2 KFunctionKw); [tkb; apply tk_function|]. destruct (kind_eqb k2 KLBrace); [tkb; apply tk_table|]. destruct (kind_eqb k2 KIdent); [tkb; apply takes_name_ref|]. destruct (kind_eqb k2 KLParen); [tkb; apply tk_paren|].
  tkb. apply takes_stuck, fails_recover.
Qed.
Lemma s_lhs_tail o : says any none (lhs_tail n ex o).
Proof. unfold lhs_tail. destruct o as [[l c]|]; [apply (s_map _ _ _ (fun c => Some c)), s_postfix|apply s_ret]. Qed.
Lemma h_lhs_tail o : halts any S0 (lhs_tail n ex o).
Proof. unfold lhs_tail. destruct o as [[l c]|]; [apply (h_ret_after _ _ _ _ (fun c => Some c)), h_postfix|apply h_ret]. Qed.
Lemma s_lhs : says any none (@lhs TO n stmt ex).
Proof.
  rewrite lhs_eq. apply (s_det any _ _ _ _ hdet_current). intros k _. cbv zeta. destruct (NOT_AN_OP <? prefix_binding_power k).
  - apply (s_map _ _ _ (fun c => Some c)), s_node; [twx|]. apply s_after_bump0; [apply HE|apply KE|apply SE].
  - apply s_any, s_seq; [apply x_atom|intros o; apply x_lhs_tail|intros o; apply k_lhs_tail|apply s_atom|apply s_lhs_tail].
Qed.
Lemma h_lhs : halts any S0 (@lhs TO n stmt ex).
Proof.
  rewrite lhs_eq. apply (h_det _ any _ _ _ _ hdet_current). intros k _. cbv zeta. destruct (NOT_AN_OP <? prefix_binding_power k) eqn:P.
  - apply Nat.ltb_lt in P. unfold NOT_AN_OP in P. apply (h_ret_after _ _ _ _ (fun c => Some c)), h_node, h_last; [twx|intros _; apply HE|intros _; apply TE|intros _; now apply HLE].
  - apply h_any, (h_bind _ _ _ S0); [apply x_atom|intros o; apply x_lhs_tail|apply h_atom|apply h_lhs_tail|intros o; now apply dfl_lhs_tail|intros k' H; exact H].
Qed.
Lemma tk_lhs q : takes q 1 (@lhs TO n stmt ex).
Proof.
  rewrite lhs_eq. apply (takes_det q _ _ _ _ hdet_current). intros k _. cbv zeta. destruct (NOT_AN_OP <? prefix_binding_power k).
  - tkb. apply takes_node, takes_bind; [apply takes_bump|intros _; apply HE].
  - apply takes_bind; [apply tk_atom|intros o; apply x_lhs_tail].
Qed.
Lemma s_infix b : forall m l, says any none (@infix_loop TO ex m b l).
Proof.
  induction m as [|m IH]; intros l; cbn [infix_loop]; [apply s_out|]. apply (s_det any _ _ _ _ hdet_current). intros k _. destruct (infix_binding_power k) as [lb rb]. destruct (lb <? b); [apply s_ret|].
  apply s_after_bump0; [exts|kps|]. apply s_seq; [apply tw_pre, HE|intros l'; apply x_infix|intros l'; apply k_infix|apply s_pre; [apply HE|apply SE]|exact IH].
Qed.
Lemma h_infix b : 0 < b -> forall m l, halts any S0 (@infix_loop TO ex m b l).
Proof.
  intros P. induction m as [|m IH]; intros l; cbn [infix_loop]; [apply h_out|]. apply (h_det _ any _ _ _ _ hdet_current). intros k _. destruct (infix_binding_power k) as [lb rb] eqn:EB. destruct (lb <? b) eqn:LB; [apply h_ret|].
  apply Nat.ltb_ge in LB. assert (R : 0 < rb) by (apply (r_bp_pos k lb); [exact EB|lia]). apply h_last; [twx|intros _; exts|intros _|intros _].
  - apply takes_bind; [|intros l'; apply x_infix]. unfold pre_node. apply takes_pre_by, takes_bind; [apply TE|intros ?; exts].
  - apply (h_bind _ _ _ S0); [apply tw_pre, HE|intros l'; apply x_infix|apply h_pre; now apply HLE|exact IH|intros l'; now apply dfl_infix|intros k' H; exact H].
Qed.
Lemma s_expr_bp b : says any none (@expr_bp_body TO n stmt ex b).
Proof.
  rewrite expr_bp_eq. apply s_seq; [apply x_lhs|intros o; apply x_bp|intros o; apply k_bp|apply s_lhs|intros o]. unfold bp_tail. destruct o as [l|]; [apply (s_map _ _ _ (fun c => Some c)), s_infix|apply s_ret].
Qed.
Lemma h_expr_bp b : 0 < b -> halts any S0 (@expr_bp_body TO n stmt ex b).
Proof.
  intros P. rewrite expr_bp_eq. apply (h_bind _ _ _ S0); [apply x_lhs|intros o; apply x_bp|apply h_lhs| |intros o; now apply dfl_bp_tail|intros k H; exact H]. intros o. unfold bp_tail. destruct o as [l|]; [apply (h_ret_after _ _ _ _ (fun c => Some c)); now apply h_infix|apply h_ret].
Qed.
Lemma tk_expr_bp b : takes any 1 (@expr_bp_body TO n stmt ex b).
Proof. rewrite expr_bp_eq. apply takes_bind; [apply tk_lhs|intros o; apply x_bp]. Qed.
(** ** Statements *)
Variable fname_says : says any (one KIdent) (@function_def_content TO n).
Variable fname_halts : halts any (one KLParen) (@function_def_content TO n).
Variable fname_eats : eats (one KIdent) (@function_def_content TO n).
Variable fname_takes : takes any 1 (@function_def_content TO n).
Lemma s_else q : says q none (@else_branch TO n stmt).
Proof. unfold else_branch. apply s_node_; [twx|]. apply s_after_bump0; [apply x_block|apply k_block|apply s_block]. Qed.
Lemma h_else q : halts q SB (@else_branch TO n stmt).
Proof. unfold else_branch. apply h_node_, (h_bind _ _ _ any); [twx|intros _; apply x_block|apply h_bump|intros _; apply h_block|intros _; apply dfl_block|apply sub_any]. Qed.
Lemma s_branches m : says any none m -> says any none (branches n stmt m).
Proof.
  intros H. unfold branches. apply (s_det any _ _ _ _ hdet_current). intros k _. destruct (kind_eqb k KElseifKw); [apply s_any, H|]. destruct (kind_eqb k KElseKw); [apply s_else|apply s_ret].
Qed.
Lemma h_branches m : halts any (one KEndKw) m -> halts any (one KEndKw) (branches n stmt m).
Proof.
  intros H. unfold branches. apply (h_det _ any _ _ _ _ hdet_current). intros k _. destruct (kind_eqb k KElseifKw); [apply h_any, H|]. destruct (kind_eqb k KElseKw); [|apply h_ret].
  apply (h_sub _ _ _ SB); [apply sub_one; reflexivity|apply h_else].
Qed.
Lemma k_branches m : kp m -> kp (branches n stmt m).
Proof. intros H. unfold branches. kps. Qed.
Lemma s_then_part {A} (f : D A) S : T1 f -> kp f -> says any S f -> eats S f -> sub S SB -> says any none (then_part n stmt ex f).
Proof.
  intros T K H EF L. unfold then_part. apply (s_single_then KThenKw _ eq_refl eq_refl) with (S2 := S); intros _.
  - apply tw_bind; [apply x_block|intros _; exact T].
  - apply kp_bind; [apply k_block|intros _; exact K].
  - apply (s_bind _ _ S); [apply x_block|intros _; apply T|intros _; exact K|apply s_weak, s_block|intros _; exact H|apply (h_sub _ _ _ SB); [exact L|apply h_block]|intros _; exact EF|left; intros k Hk; exact Hk].
  - apply eats_after; [apply (dfl_sub _ SB); [exact L|apply dfl_block]|intros _; exact EF|apply x_block].
Qed.
Lemma tk_then_part {A} (f : D A) q : T1 f -> takes q 1 (then_part n stmt ex f).
Proof. intros T. unfold then_part. (tkb; first [apply tk_single | apply T]). Qed.
Lemma h_then_part {A} (f : D A) q : T1 f -> halts any (one KEndKw) f -> dfl (one KEndKw) f [] -> halts q (one KEndKw) (then_part n stmt ex f).
Proof.
  intros T H Df. unfold then_part. apply h_last; [apply tw_any, t_single|intros _; exts; apply T|intros _; (tkb; first [apply takes_expect | apply T])|intros _].
  apply (h_bind _ _ _ any); [tws|intros _; exts; apply T|apply h_expect| | |apply sub_any]; intros _.
  - apply (h_bind _ _ _ SB); [apply x_block|intros _; apply T|apply h_block|intros _; exact H|intros _; exact Df|apply sub_one; reflexivity].
  - apply (dfl_bind _ SB [] []); [apply dfl_block|intros _; exact Df|intros z Hz; cbn [app]; now apply one_end].
Qed.
Lemma s_elseif : forall m, says any none (@elseif_branch TO n stmt ex m).
Proof.
  induction m as [|m IH]; [apply s_out|]. rewrite elseif_eq. apply s_nodef, s_after_bump0; [unfold then_part; exts; apply x_branches|unfold then_part; kps; apply k_branches, k_elseif|].
  apply (s_then_part _ none); [apply x_branches|apply k_branches, k_elseif|apply s_branches, IH|apply eats_none|intros k Hk; discriminate Hk].
Qed.
Lemma h_elseif : forall m, halts any (one KEndKw) (@elseif_branch TO n stmt ex m).
Proof.
  induction m as [|m IH]; [apply h_out|]. rewrite elseif_eq. apply h_node_, h_last; [twx|intros _; unfold then_part; exts; apply x_branches|intros _; apply tk_then_part, x_branches|intros _].
  apply h_then_part; [apply x_branches|apply h_branches, IH|apply dfl_branches].
Qed.
Definition branches_end : D bool := branches n stmt (@elseif_branch TO n stmt ex n) >>> @p_expect TO KEndKw.
Lemma t_branches_end : T1 branches_end. Proof. unfold branches_end. apply tw_bind; [apply x_branches|intros _; tws]. Qed.
Lemma k_branches_end : kp branches_end. Proof. unfold branches_end. apply kp_bind; [apply k_branches, k_elseif|intros _; kps]. Qed.
Lemma s_if q : says q none (@if_stmt TO n stmt ex).
Proof.
  rewrite if_eq. fold branches_end. apply s_nodef, s_after_bump0; [unfold then_part; exts; apply t_branches_end|unfold then_part; kps; apply k_branches_end|].
  apply (s_then_part _ (one KEndKw)); [apply t_branches_end|apply k_branches_end| | |apply sub_one; reflexivity]; unfold branches_end.
  - apply s_then_expect; [reflexivity|apply x_branches|apply s_branches, s_elseif|apply h_branches, h_elseif].
  - apply eats_after; [apply dfl_branches|intros _; apply eats_expect|apply x_branches].
Qed.
Lemma h_if q S : halts q S (@if_stmt TO n stmt ex).
Proof.
  rewrite if_eq. fold branches_end. pose proof t_branches_end as TB. apply h_node_, h_last; [twx|intros _; unfold then_part; exts; apply TB|intros _; apply tk_then_part, TB|intros _]. unfold then_part.
  apply h_last; [exact t_single|intros _; exts; apply TB|intros _; (tkb; first [apply takes_expect | apply TB])|intros _].
  assert (K : takes any 1 branches_end) by (unfold branches_end; apply takes_skip; [apply x_branches|intros _; exts|intros _; apply takes_expect]).
  apply h_last; [tws|intros _; exts; apply TB|intros _; apply takes_skip; [apply x_block|intros _; apply TB|intros _; exact K]|intros _].
  apply h_last; [apply x_block|intros _; apply TB|intros _; exact K|intros _]. unfold branches_end. apply h_last; [apply x_branches|intros _; exts|intros _; apply takes_expect|intros _; apply h_expect].
Qed.
Definition do_end : D bool := @p_expect TO KDoKw >>> to_end.
Hint Resolve t_to_end : tw.
Hint Resolve k_to_end : kp.
Lemma t_do_end : T1 do_end. Proof. unfold do_end. apply tw_bind; [tws|intros _; apply t_to_end]. Qed.
Lemma k_do_end : kp do_end. Proof. unfold do_end. apply kp_bind; [kps|intros _; apply k_to_end]. Qed.
Lemma s_do_end : says any (one KDoKw) do_end.
Proof. unfold do_end. apply (s_after_expect _ _ (one KEndKw)); intros _; [apply t_to_end|apply k_to_end|apply s_to_end|apply e_to_end]. Qed.
Lemma e_do_end : eats (one KDoKw) do_end.
Proof. unfold do_end. apply FirstProofs.eats_bind; [apply eats_expect|intros _; apply t_to_end]. Qed.
Lemma tk_do_end q : takes q 1 do_end.
Proof. unfold do_end. apply takes_bind; [apply takes_expect|intros _; apply t_to_end]. Qed.
Lemma h_do_end q S : halts q S do_end.
Proof. unfold do_end. apply h_last; [twx|intros _; apply t_to_end|intros _; apply tk_to_end|intros _; apply h_to_end]. Qed.
Lemma while_eq : @while_stmt TO n stmt ex = @node_ TO _ KWhileStmt (@p_bump TO (PKind KWhileKw) >>> @expr_single TO ex >>> do_end).
Proof. reflexivity. Qed.
Lemma s_while_stmt q : says q none (@while_stmt TO n stmt ex).
Proof.
  rewrite while_eq. apply s_nodef, s_after_bump0; [exts; apply t_do_end|kps; apply k_do_end|].
  apply (s_bind _ _ (one KDoKw)); [exact t_single|intros _; apply t_do_end|intros _; apply k_do_end|apply s_single|intros _; apply s_do_end|apply (h_sub _ _ _ S0); [now apply sub_one|apply h_single]|intros _; apply e_do_end|right; apply tk_single].
Qed.
Lemma h_while_stmt q S : halts q S (@while_stmt TO n stmt ex).
Proof.
  rewrite while_eq. apply h_node_, h_last; [twx|intros _; exts; apply t_do_end|intros _; (tkb; first [apply tk_single | apply t_do_end])|intros _].
  apply h_last; [exact t_single|intros _; apply t_do_end|intros _; apply tk_do_end|intros _; apply h_do_end].
Qed.
Hint Resolve t_do_end : tw.
Hint Resolve k_do_end : kp.
(** [for]. *)
Lemma t_numeric : T1 (@numeric_for TO n ex). Proof. unfold numeric_for. tws. Qed.
Lemma t_generic : T1 (@generic_for TO n ex). Proof. unfold generic_for. tws. Qed.
Lemma s_numeric : says (kind_eqb KIdent) none (@numeric_for TO n ex).
Proof.
  unfold numeric_for. apply s_guard, s_node_; [twx|]. apply s_seq; [twx|intros _; exts|intros _; kps|apply (s_eats _ (one KIdent)); [apply eats_name|apply s_name]|intros _].
  apply s_after_bump0; [exts|kps|apply s_expr].
Qed.
Lemma h_numeric q : halts q S0 (@numeric_for TO n ex).
Proof.
  unfold numeric_for. apply h_guard, h_node_, h_last; [twx|intros _; exts|intros _; tkb; apply takes_bump|intros _]. apply h_last; [twx|intros _; exts|intros _; apply tk_expr|intros _; apply h_expr].
Qed.
Lemma tk_numeric : takes any 2 (@numeric_for TO n ex).
Proof. unfold numeric_for. apply takes_guard, takes_node_, (takes_more any 1 1); [apply takes_name|intros _|intros _; exts]. tkb. apply takes_bump. Qed.
Lemma tk_generic : takes any 2 (@generic_for TO n ex).
Proof. unfold generic_for. apply takes_guard, takes_node_, (takes_more any 1 1); [apply takes_multi|intros _|intros _; exts]. tkb. apply takes_expect. Qed.
Lemma s_generic : says (kind_eqb KIdent) none (@generic_for TO n ex).
Proof.
  unfold generic_for. apply s_guard, s_node_; [twx|]. apply (s_bind _ _ (one KInKw)); [twx|intros _; exts|intros _; kps|apply (s_eats _ (one KIdent)); [apply eats_multi|apply s_multi]| | | |right; apply takes_multi].
  - intros _. apply (s_after_expect _ _ none); intros _; [exts|kps|apply s_single|apply eats_none].
  - apply (h_sub _ _ _ no_comma); [apply sub_one; reflexivity|apply h_multi_plain].
  - intros _. apply FirstProofs.eats_bind; [apply eats_expect|intros _; exts].
Qed.
Lemma h_generic q : halts q S0 (@generic_for TO n ex).
Proof.
  unfold generic_for. apply h_guard, h_node_, h_last; [twx|intros _; exts|intros _; tkb; apply takes_expect|intros _]. apply h_last; [twx|intros _; exts|intros _; apply tk_single|intros _; apply h_single].
Qed.
Lemma g_numeric : gets (@numeric_for TO n ex) [KIdent; KEq].
Proof.
  unfold numeric_for. apply gets_guard, gets_node_, (gets_bind _ _ [KIdent] [KEq]); [exts|apply dfl_name|intros _]. apply gets_more; [|intros _; exts]. apply gets_dfl; [exts|apply dfl_bump].
Qed.
Lemma s_for_content : says any (one KIdent) (@for_content TO n ex).
Proof.
  unfold for_content. apply s_nodef, (s_det any _ _ _ _ (hdet_at _)). intros k _. destruct (pacc_test _ k) eqn:EI; [|eapply s_errs; [apply errs_error|apply promise_id]].
  cbn [pacc_test] in EI. apply kind_eqb_eq in EI. subst k. apply s_peek_if; [apply s_weak, s_numeric|apply s_weak, s_generic| |reflexivity].
  intros k z F a r1 F1 Q C E. apply kind_eqb_eq in Q. subst k. pose proof (g_numeric z F _ _ _ C E) as L. cbn [length] in L. lia.
Qed.
Lemma h_for_content : halts any S0 (@for_content TO n ex).
Proof.
  unfold for_content. apply h_node_, (h_det _ any _ _ _ _ (hdet_at _)). intros k _. destruct (pacc_test _ k) eqn:EI; [|apply h_stuck; [exts|apply stuck_msg]]. apply h_peek.
  - intros k0. destruct (kind_eqb k0 KEq); [apply h_numeric|apply h_generic].
  - intros k0 Hk x F a F1 C E C1 z a' r2 F2 Sz E2. exfalso. destruct (kind_eqb (hd0 x) KEq).
    + exact (h_take2 (@numeric_for TO n ex) k0 x F a F1 (proj1 t_numeric) tk_numeric C E C1).
    + exact (h_take2 (@generic_for TO n ex) k0 x F a F1 (proj1 t_generic) tk_generic C E C1).
Qed.
Lemma e_for_content : eats (one KIdent) (@for_content TO n ex).
Proof.
  unfold for_content. apply FirstProofs.eats_node_, FirstProofs.eats_at. rewrite test_ident. apply eats_peek. intros k. destruct (kind_eqb k KEq).
  - unfold numeric_for. apply FirstProofs.eats_guard, FirstProofs.eats_node_, FirstProofs.eats_bind; [apply eats_name|intros _; exts].
  - unfold generic_for. apply FirstProofs.eats_guard, FirstProofs.eats_node_, FirstProofs.eats_bind; [apply eats_multi|intros _; exts].
Qed.
Lemma tk_for_content q : takes q 1 (@for_content TO n ex).
Proof.
  unfold for_content. apply takes_node_, (takes_det q _ _ _ _ (hdet_at _)). intros k _. destruct (pacc_test _ k); [|apply takes_stuck, fails_msg]. apply takes_peek. intros k0. apply takes_any, (takes_weak _ 2); [lia|]. destruct (kind_eqb k0 KEq); [apply tk_numeric|apply tk_generic].
Qed.
Lemma for_eq : @for_stmt TO n stmt ex = @node_ TO _ KForStmt (@p_bump TO (PKind KForKw) >>> @for_content TO n ex >>> do_end).
Proof. reflexivity. Qed.
Lemma s_for q : says q none (@for_stmt TO n stmt ex).
Proof.
  rewrite for_eq. apply s_nodef, (s_after_bump _ _ _ _ (one KIdent)); [exts; apply t_do_end|kps; apply k_do_end| |].
  - apply (s_bind _ _ (one KDoKw)); [apply x_for|intros _; apply t_do_end|intros _; apply k_do_end|apply s_for_content|intros _; apply s_do_end|apply (h_sub _ _ _ S0); [now apply sub_one|apply h_for_content]|intros _; apply e_do_end|right; apply tk_for_content].
  - apply FirstProofs.eats_bind; [apply e_for_content|intros _; apply t_do_end].
Qed.
Lemma h_for q S : halts q S (@for_stmt TO n stmt ex).
Proof.
  rewrite for_eq. apply h_node_, h_last; [twx|intros _; exts; apply t_do_end|intros _; tkb; apply tk_for_content|intros _].
  apply h_last; [apply x_for|intros _; apply t_do_end|intros _; apply tk_do_end|intros _; apply h_do_end].
Qed.
(** [repeat]. *)
Lemma repeat_eq : @repeat_until_stmt TO n stmt ex = @node_ TO _ KRepeatUntilStmt (@p_bump TO (PKind KRepeatKw) >>> @block TO n stmt >>> (@p_expect TO KUntilKw >>> @expr_single TO ex)).
Proof. reflexivity. Qed.
Lemma s_repeat q : says q none (@repeat_until_stmt TO n stmt ex).
Proof.
  rewrite repeat_eq. apply s_nodef, (s_after_bump _ _ _ _ (one KUntilKw)); [exts|kps| |].
  - apply (s_bind _ _ (one KUntilKw)); [apply x_block|intros _; exts|intros _; kps|apply s_weak, s_block| | | |left; intros k Hk; exact Hk].
    + intros _. apply (s_after_expect _ _ none); intros _; [exts|kps|apply s_single|apply eats_none].
    + apply (h_sub _ _ _ SB); [apply sub_one; reflexivity|apply h_block].
    + intros _. apply FirstProofs.eats_bind; [apply eats_expect|intros _; exts].
  - apply eats_after; [apply (dfl_sub _ SB); [apply sub_one; reflexivity|apply dfl_block]|intros _; apply FirstProofs.eats_bind; [apply eats_expect|intros _; exts]|apply x_block].
Qed.
Lemma h_repeat q : halts q S0 (@repeat_until_stmt TO n stmt ex).
Proof.
  rewrite repeat_eq. apply h_node_, h_last; [twx|intros _; exts|intros _; apply takes_skip; [apply x_block|intros _; exts|intros _; tkb; apply takes_expect]|intros _].
  apply h_last; [apply x_block|intros _; exts|intros _; tkb; apply takes_expect|intros _]. apply h_last; [twx|intros _; exts|intros _; apply tk_single|intros _; apply h_single].
Qed.
(** Assignments and the rest. *)
Lemma t_assign_tail : T1 (assign_tail n ex). Proof. unfold assign_tail. tws. Qed.
Lemma k_assign_tail : kp (assign_tail n ex). Proof. unfold assign_tail. kps. Qed.
Lemma s_assign_tail : says any none (assign_tail n ex).
Proof. unfold assign_tail. apply s_seq; [tws|intros b; exts|intros b; kps|apply s_accept|intros b]. destruct b; [apply (s_map _ _ _ (fun _ => KAssignStmt)), s_expr|apply s_ret]. Qed.
Lemma h_assign_tail : halts any S0 (assign_tail n ex).
Proof. unfold assign_tail. apply h_accept; [intros b; exts|apply (h_ret_after _ _ _ _ (fun _ => KAssignStmt)), h_expr|right; tkb; apply tk_expr|apply h_ret]. Qed.
Lemma s_expr_stmt q : says q none (@expr_stmt TO n ex).
Proof.
  rewrite expr_stmt_eq. apply (s_map _ _ _ (fun _ => tt)), s_node_by, s_any, s_seq; [apply x_expr|intros _; apply t_assign_tail|intros _; apply k_assign_tail|apply s_expr|intros _; apply s_assign_tail].
Qed.
Lemma h_expr_stmt q : halts q S0 (@expr_stmt TO n ex).
Proof.
  rewrite expr_stmt_eq. apply (h_ret_after _ _ _ _ (fun _ => tt)), h_node_by, (h_bind _ _ _ S0); [apply tw_any, x_expr|intros _; apply t_assign_tail|apply h_expr|intros _; apply h_assign_tail|intros _; apply dfl_assign_tail|intros k H; exact H].
Qed.
Lemma s_return q : says q none (@return_stmt TO n ex).
Proof. unfold return_stmt. apply s_nodef, s_after_bump0; [exts|kps|]. apply (s_det _ _ _ _ _ (hdet_at _)). intros k _. destruct (pacc_test _ k); [apply s_expr|apply s_ret]. Qed.
Lemma h_return q : halts q S0 (@return_stmt TO n ex).
Proof.
  unfold return_stmt. apply h_node_, (h_bind _ _ _ any); [twx|intros _; exts|apply h_bump| | |apply sub_any]; intros _.
  - apply (h_det _ any _ _ _ _ (hdet_at _)). intros k _. destruct (pacc_test _ k); [apply h_expr|apply h_ret].
  - apply (dfl_det_nil _ _ _ _ (hdet_at _)). intros k Hk. replace (pacc_test (PSet EXPR_FIRST) k) with false by (destruct k; try discriminate Hk; reflexivity). apply dfl_ret.
Qed.
Lemma s_local_tail : says any none (local_tail n ex).
Proof. unfold local_tail. apply s_seq; [tws|intros b; exts|intros b; kps|apply s_accept|intros b]. destruct b; [apply s_expr|apply s_ret]. Qed.
Lemma k_local_tail : kp (local_tail n ex). Proof. unfold local_tail. kps. Qed.
Lemma h_local_tail : halts any S0 (local_tail n ex).
Proof. unfold local_tail. apply h_accept; [intros b; exts|apply h_expr|right; apply tk_expr|apply h_ret]. Qed.
Lemma s_local_assign q : says q none (@local_assign_stmt TO n ex).
Proof.
  rewrite local_assign_eq. apply s_nodef, (s_after_bump _ _ _ _ (one KIdent)); [exts; apply x_local_tail|kps; apply k_local_tail| |].
  - apply s_seq; [tws|intros _; apply x_local_tail|intros _; apply k_local_tail|apply s_multi|intros _; apply s_local_tail].
  - apply FirstProofs.eats_bind; [apply eats_multi|intros _; apply x_local_tail].
Qed.
Lemma h_local_assign q : halts q S0 (@local_assign_stmt TO n ex).
Proof.
  rewrite local_assign_eq. apply h_node_, h_last; [twx|intros _; exts; apply x_local_tail|intros _; tkb; apply takes_multi|intros _].
  apply (h_bind _ _ _ no_comma); [tws|intros _; apply x_local_tail|apply h_multi_plain|intros _; apply h_local_tail|intros _; apply dfl_local_tail|apply S0_no_comma].
Qed.
Lemma local_function_eq : @local_function_def_stmt TO n stmt = @node_ TO _ KLocalFunctionDefStmt (@p_bump TO (PKind KLocalKw) >>> @p_expect TO KFunctionKw >>> @name_r TO (ts_union STMT_RECOVERY (ts_new [KLParen])) >>> params_to).
Proof. reflexivity. Qed.
Lemma t_local_function : T1 (@local_function_def_stmt TO n stmt). Proof. unfold local_function_def_stmt. tws. Qed.
Lemma s_local_function q : says q none (@local_function_def_stmt TO n stmt).
Proof.
  rewrite local_function_eq. pose proof t_params_to as TP. pose proof k_params_to as KP. apply s_nodef, (s_after_bump _ _ _ _ (one KFunctionKw)); [exts; apply TP|kps; apply KP| |].
  - apply (s_after_expect _ _ (one KIdent)); intros _; [exts; apply TP|kps; apply KP| |apply FirstProofs.eats_bind; [apply FirstProofs.eats_name_r|intros _; apply TP]].
    apply (s_bind _ _ (one KLParen)); [tws|intros _; apply TP|intros _; apply KP|apply s_name_r|intros _; apply s_params_to|apply h_name_r|intros _; apply e_params_to|right; apply takes_name_r].
  - apply FirstProofs.eats_bind; [apply eats_expect|intros _; exts; apply TP].
Qed.
Lemma h_local_function q S : halts q S (@local_function_def_stmt TO n stmt).
Proof.
  rewrite local_function_eq. pose proof t_params_to as TP. apply h_node_, h_last; [twx|intros _; exts; apply TP|intros _; tkb; first [apply takes_expect|apply TP]|intros _].
  apply h_last; [twx|intros _; exts; apply TP|intros _; tkb; first [apply takes_name_r|apply TP]|intros _]. apply h_last; [twx|intros _; apply TP|intros _; apply tk_params_to|intros _; apply h_params_to].
Qed.
Lemma tk_local_function : takes any 2 (@local_function_def_stmt TO n stmt).
Proof. rewrite local_function_eq. pose proof t_params_to as TP. apply takes_node_, (takes_more any 1 1); [apply takes_bump|intros _|intros _; exts; apply TP]. tkb; first [apply takes_expect|apply TP]. Qed.
Lemma tk_local_assign : takes any 2 (@local_assign_stmt TO n ex).
Proof. rewrite local_assign_eq. apply takes_node_, (takes_more any 1 1); [apply takes_bump|intros _|intros _; exts; apply x_local_tail]. tkb; first [apply takes_multi|apply x_local_tail]. Qed.
Lemma t_local_assign : T1 (@local_assign_stmt TO n ex). Proof. unfold local_assign_stmt. tws. Qed.
Lemma s_local : says (kind_eqb KLocalKw) none (@local_stmt TO n stmt ex).
Proof.
  unfold local_stmt. apply s_peek_if; [apply s_local_function|apply s_local_assign| |reflexivity]. intros k z F a r1 F1 Q C E. apply kind_eqb_eq in Q. subst k.
  assert (G : gets (@local_function_def_stmt TO n stmt) [KLocalKw; KFunctionKw]).
  { rewrite local_function_eq. pose proof t_params_to as TP. apply gets_node_, (gets_bind _ _ [KLocalKw] [KFunctionKw]); [exts|apply dfl_bump|intros _]. apply gets_more; [|intros _; exts; apply TP]. apply gets_dfl; [exts|apply dfl_expect]. }
  pose proof (G z F _ _ _ C E) as L. cbn [length] in L. lia.
Qed.
Lemma h_local q : halts q S0 (@local_stmt TO n stmt ex).
Proof.
  unfold local_stmt. apply h_peek.
  - intros k. destruct (kind_eqb k KFunctionKw); [apply h_local_function|apply h_local_assign].
  - intros k Hk x F a F1 C E C1 z a' r2 F2 Sz E2. exfalso. destruct (kind_eqb (hd0 x) KFunctionKw).
    + exact (h_take2 (@local_function_def_stmt TO n stmt) k x F a F1 (proj1 t_local_function) tk_local_function C E C1).
    + exact (h_take2 (@local_assign_stmt TO n ex) k x F a F1 (proj1 t_local_assign) tk_local_assign C E C1).
Qed.
Lemma function_def_eq : @function_def_stmt TO n stmt = @node_ TO _ KFunctionDefStmt (@p_expect TO KFunctionKw >>> @function_def_content TO n >>> params_to).
Proof. reflexivity. Qed.
Lemma s_function_def : says (kind_eqb KFunctionKw) none (@function_def_stmt TO n stmt).
Proof.
  pose proof t_params_to as TP. pose proof k_params_to as KP. rewrite function_def_eq. apply (s_eats _ (one KFunctionKw)).
  - apply FirstProofs.eats_node_, FirstProofs.eats_bind; [apply eats_expect|intros _; exts; apply TP].
  - apply s_nodef, (s_after_expect _ _ (one KIdent)); intros _; [exts; apply TP|apply kp_bind; [apply kp_fname|intros _; apply KP]| |apply FirstProofs.eats_bind; [exact fname_eats|intros _; apply TP]].
    apply (s_bind _ _ (one KLParen)); [tws|intros _; apply TP|intros _; apply KP|exact fname_says|intros _; apply s_params_to|exact fname_halts|intros _; apply e_params_to|right; apply fname_takes].
Qed.
Lemma h_function_def q S : halts q S (@function_def_stmt TO n stmt).
Proof.
  pose proof t_params_to as TP. rewrite function_def_eq. apply h_node_, h_last; [twx|intros _; exts; apply TP|intros _; apply takes_bind; [exact fname_takes|intros _; apply TP]|intros _].
  apply h_last; [tws|intros _; apply TP|intros _; apply tk_params_to|intros _; apply h_params_to].
Qed.
Lemma s_do q : says q none (@do_stmt TO n stmt).
Proof. unfold do_stmt. apply s_nodef, (s_after_bump _ _ _ _ (one KEndKw)); [apply t_to_end|apply k_to_end|apply s_to_end|apply e_to_end]. Qed.
Lemma h_do q S : halts q S (@do_stmt TO n stmt).
Proof. unfold do_stmt. apply h_node_, h_last; [twx|intros _; apply t_to_end|intros _; apply tk_to_end|intros _; apply h_to_end]. Qed.
Lemma s_goto q : says q none (@goto_stmt TO).
Proof. unfold goto_stmt. apply s_nodef, (s_after_bump _ _ _ _ (one KIdent)); [exts|kps|apply s_name_ref|unfold name_ref; apply FirstProofs.eats_node, eats_expect]. Qed.
Lemma h_goto q S : halts q S (@goto_stmt TO).
Proof. unfold goto_stmt. apply h_node_, h_last; [twx|intros _; exts|intros _; apply takes_name_ref|intros _; apply h_name_ref]. Qed.
Definition delim_end : D unit := @name_r TO STMT_RECOVERY >>> @label_delim TO.
Lemma t_delim_end : T1 delim_end. Proof. unfold delim_end. tws. Qed.
Lemma k_delim_end : kp delim_end. Proof. unfold delim_end, label_delim. kps. Qed.
Lemma s_label_delim q : says q (one KDoubleColon) (@label_delim TO).
Proof. unfold label_delim. apply (s_map _ _ _ (fun _ => tt)). unfold node. apply s_node_by, (s_map _ _ _ (fun _ => KLabelDelim)), s_expect. Qed.
Lemma e_label_delim : eats (one KDoubleColon) (@label_delim TO).
Proof. unfold label_delim. apply FirstProofs.eats_node_, eats_expect. Qed.
Lemma h_label_delim q S : halts q S (@label_delim TO).
Proof. unfold label_delim. apply h_node_, h_expect. Qed.
Lemma tk_label_delim q : takes q 1 (@label_delim TO).
Proof. unfold label_delim. apply takes_node_, takes_expect. Qed.
Lemma label_eq : @label_stmt TO = @bind TO _ unit (@bind TO _ _ (@p_at TO (PKind KDoubleColon)) (fun b => @passert TO b)) (fun _ => @node_ TO _ KLabelStmt (@label_delim TO >>> delim_end)).
Proof. reflexivity. Qed.
Lemma s_label : says (kind_eqb KDoubleColon) none (@label_stmt TO).
Proof.
  rewrite label_eq. apply s_guard, s_nodef, (s_bind _ _ (one KIdent)); [twx|intros _; apply t_delim_end|intros _; apply k_delim_end|apply (s_eats _ (one KDoubleColon)); [apply e_label_delim|apply s_label_delim]| |apply h_label_delim| |right; apply tk_label_delim].
  - intros _. unfold delim_end. apply (s_bind _ _ (one KDoubleColon)); [twx|intros _; exts|intros _; unfold label_delim; kps|apply s_name_r|intros _; apply s_label_delim|apply h_name_r|intros _; apply e_label_delim|right; apply takes_name_r].
  - intros _. unfold delim_end. apply FirstProofs.eats_bind; [apply FirstProofs.eats_name_r|intros _; exts].
Qed.
Lemma h_label q S : halts q S (@label_stmt TO).
Proof.
  rewrite label_eq. apply h_guard, h_node_, h_last; [twx|intros _; apply t_delim_end|intros _; unfold delim_end; tkb; apply takes_name_r|intros _]. unfold delim_end.
  apply h_last; [twx|intros _; exts|intros _; apply tk_label_delim|intros _; apply h_label_delim].
Qed.
Lemma s_break q : says q none (@break_stmt TO).
Proof. unfold break_stmt. apply s_nodef, s_bump. Qed.
Lemma h_break q S : halts q S (@break_stmt TO).
Proof. unfold break_stmt. apply h_node_, h_bump. Qed.
(** ** A statement *)
Let x_choice : T1 (choice n stmt ex). Proof. now apply t_choice. Qed.
Lemma kp_and_bump m : said (PMsg m) = true -> kp (@p_err_and_bump TO m). Proof. intros H. unfold p_err_and_bump. kps. Qed.
Hint Resolve t_to_end t_params_to t_branches_end : tw.
Let kp_if : kp (@if_stmt TO n stmt ex). Proof. unfold if_stmt. kps. Qed.
Let kp_local : kp (@local_stmt TO n stmt ex). Proof. unfold local_stmt, local_function_def_stmt, local_assign_stmt. kps. Qed.
Let kp_repeat : kp (@repeat_until_stmt TO n stmt ex). Proof. unfold repeat_until_stmt. kps. Qed.
Let kp_fdef : kp (@function_def_stmt TO n stmt). Proof. unfold function_def_stmt. kps. Qed.
Let kp_return : kp (@return_stmt TO n ex). Proof. unfold return_stmt. kps. Qed.
Let kp_do : kp (@do_stmt TO n stmt). Proof. unfold do_stmt. kps. Qed.
Let kp_while : kp (@while_stmt TO n stmt ex). Proof. unfold while_stmt. kps. Qed.
Let kp_for : kp (@for_stmt TO n stmt ex). Proof. unfold for_stmt. kps. Qed.
Let kp_expr_stmt : kp (@expr_stmt TO n ex). Proof. unfold expr_stmt. kps. Qed.
Let kp_label : kp (@label_stmt TO). Proof. unfold label_stmt, label_delim. kps. Qed.
Let kp_goto : kp (@goto_stmt TO). Proof. unfold goto_stmt. kps. Qed.
Let kp_break : kp (@break_stmt TO). Proof. unfold break_stmt. kps. Qed.
Hint Resolve kp_if kp_local kp_repeat kp_fdef kp_return kp_do kp_while kp_for kp_expr_stmt kp_label kp_goto kp_break kp_and_bump : kp.
Lemma kp_choice : kp (choice n stmt ex).
Proof. unfold choice. kps. Qed.
Lemma k_stmt : kp (@stmt_body TO n stmt ex).
Proof. rewrite stmt_eq. apply kp_bind; [apply kp_choice|intros _; kps]. Qed.
Lemma s_choice : says any none (choice n stmt ex).
Proof.
  unfold choice. apply (s_det any _ _ _ _ hdet_current). intros k _.
  destruct (kind_eqb k KIfKw); [apply s_if|]. destruct (kind_eqb k KDoubleColon) eqn:ED; [apply kind_eqb_eq in ED; subst k; apply s_label|]. destruct (kind_eqb k KGotoKw); [apply s_goto|].
  destruct (kind_eqb k KLocalKw) eqn:EL; [apply kind_eqb_eq in EL; subst k; apply s_local|]. destruct (kind_eqb k KRepeatKw); [apply s_repeat|]. destruct (kind_eqb k KFunctionKw) eqn:EF; [apply kind_eqb_eq in EF; subst k; apply s_function_def|].
  destruct (kind_eqb k KReturnKw); [apply s_return|]. destruct (kind_eqb k KDoKw); [apply s_do|]. destruct (kind_eqb k KWhileKw); [apply s_while_stmt|]. destruct (kind_eqb k KForKw); [apply s_for|].
  destruct (kind_eqb k KBreakKw); [apply s_break|]. destruct (kind_eqb k KIdent); [apply s_expr_stmt|]. destruct (kind_eqb k KLParen); [apply s_expr_stmt|]. destruct (kind_eqb k KSemicolon); [eapply s_quiet; [apply errs_and_bump|reflexivity]|].
  apply (s_det _ _ _ _ _ (hdet_at _)). intros k1 _. destruct (pacc_test _ k1); [eapply s_quiet; [apply errs_and_bump|reflexivity]|]. destruct (kind_eqb k KEndKw); [eapply s_quiet; [apply errs_node|reflexivity]|eapply s_quiet; [apply errs_and_bump|reflexivity]].
Qed.
Lemma h_choice : halts any S0 (choice n stmt ex).
Proof.
  unfold choice. apply (h_det _ any _ _ _ _ hdet_current). intros k _.
  destruct (kind_eqb k KIfKw); [apply h_if|]. destruct (kind_eqb k KDoubleColon); [apply h_label|]. destruct (kind_eqb k KGotoKw); [apply h_goto|].
  destruct (kind_eqb k KLocalKw); [apply h_local|]. destruct (kind_eqb k KRepeatKw); [apply h_repeat|]. destruct (kind_eqb k KFunctionKw); [apply h_function_def|].
  destruct (kind_eqb k KReturnKw); [apply h_return|]. destruct (kind_eqb k KDoKw); [apply h_do|]. destruct (kind_eqb k KWhileKw); [apply h_while_stmt|]. destruct (kind_eqb k KForKw); [apply h_for|].
  destruct (kind_eqb k KBreakKw); [apply h_break|]. destruct (kind_eqb k KIdent); [apply h_expr_stmt|]. destruct (kind_eqb k KLParen); [apply h_expr_stmt|]. destruct (kind_eqb k KSemicolon); [apply h_stuck; [exts|apply stuck_recover]|].
  apply (h_det _ _ _ _ _ _ (hdet_at _)). intros k1 _. destruct (pacc_test _ k1); [apply h_stuck; [exts|apply stuck_recover]|]. destruct (kind_eqb k KEndKw); [apply h_stuck; [exts|apply stuck_err_node]|apply h_stuck; [exts|apply stuck_recover]].
Qed.
Lemma s_stmt : says any none (@stmt_body TO n stmt ex).
Proof. rewrite stmt_eq. apply s_seq; [apply x_choice|intros _; exts|intros _; kps|apply s_choice|intros _]. apply (s_map _ _ _ (fun _ => tt)), s_accept. Qed.
Lemma h_stmt : halts any S0 (@stmt_body TO n stmt ex).
Proof.
  rewrite stmt_eq. apply (h_bind _ _ _ S0); [apply x_choice|intros _; exts|apply h_choice| | |intros k H; exact H]; intros _.
  - apply h_accept; [intros b; exts|apply h_ret|left; apply dfl_ret|apply h_ret].
  - apply dfl_accept_nil; [apply S0_accept; reflexivity|apply dfl_ret].
Qed.
Lemma k_root : kp (@root TO n stmt).
Proof. unfold root, root_block, block_raw. kps. Qed.
Lemma s_root : says any none (@root TO n stmt).
Proof. unfold root, root_block. apply s_nodef, s_block_raw. Qed.
End Open.
