(** LocalProofs.v — proof tools for PropsLocal.v: parsing a statement does not look at what was built before,
    and dressing a forest with tokens is local. *)
From Verif Require Import Base SyntaxKind TokenSet Lexer BindingPowers Parser Grammar ParserTree Event EventProofs Tree TreeSink SinkProofs DressProofs
  ParserTotal LuaSyntax LuaRun LuaComplete ParserFuel LexSpec.

(** * Statements do not look back *)
Definition framed {A} (m : D A) : Prop :=
  forall r F, m (mkDS r F) = (let? (a, st) := m (mkDS r []) in Ok (a, mkDS (ds_rem st) (F ++ ds_for st))).
Lemma fr_ret {A} (a : A) : framed (@ret TO A a).
Proof. intros r F. cbn. now rewrite app_nil_r. Qed.
Lemma fr_bind {A B} (m : D A) (f : A -> D B) : framed m -> (forall a, framed (f a)) -> framed (@bind TO A B m f).
Proof.
  intros H1 H2 r F. cbn [bind tree_ops]. unfold tr_bind. rewrite (H1 r F). destruct (m (mkDS r [])) as [[a [r1 f1]]| |]; cbn [rbind fst snd ds_rem ds_for]; try reflexivity.
  rewrite (H2 a r1 (F ++ f1)), (H2 a r1 f1). destruct (f a (mkDS r1 [])) as [[b [r2 f2]]| |]; cbn [rbind ds_rem ds_for]; try reflexivity. now rewrite app_assoc.
Qed.
Lemma fr_nth n : framed (@p_nth TO n).
Proof. intros r F. cbn. now rewrite app_nil_r. Qed.
Lemma fr_adv : framed (@p_adv TO).
Proof. intros [|k r] F; cbn; [reflexivity|]. destruct (kind_eqb k KEof); reflexivity. Qed.
Lemma fr_error e : framed (@p_push_error TO e).
Proof. intros r F. reflexivity. Qed.
Lemma fr_out {A} : framed (@out TO A).
Proof. intros r F. reflexivity. Qed.
Lemma fr_panic {A} : framed (@panic TO A).
Proof. intros r F. reflexivity. Qed.
Lemma fr_err_node b : framed (@err_node TO b).
Proof. intros r F. cbn [err_node tree_ops]. unfold tr_err_node. cbn [ds_rem ds_for]. destruct (b (mkDS r [])) as [[e st]| |]; reflexivity. Qed.
Lemma fr_node_by {A} b (x : D A) : framed x -> framed (@bind TO nat A (@node_by TO b) (fun _ => x)).
Proof.
  intros H r F. cbn [bind node_by tree_ops]. unfold tr_bind, tr_node. cbn [ds_rem ds_for]. destruct (b (mkDS r [])) as [[k st]| |]; cbn [rbind fst snd ds_rem ds_for app]; try reflexivity.
  rewrite (H _ (F ++ _)), (H _ [PNode k (ds_for st)]). destruct (x _) as [[c st']| |]; cbn [rbind]; try reflexivity. cbn [ds_rem ds_for]. now rewrite <- app_assoc.
Qed.
Lemma fr_node_ {A} k (b : D A) : framed (@node_ TO A k b).
Proof. unfold node_, node. apply fr_node_by, fr_ret. Qed.
Lemma fr_loop b : framed b -> forall n, framed (@p_loop TO n b).
Proof. intros H. induction n as [|n IH]; cbn [p_loop]; [apply fr_out|]. apply fr_bind; [exact H|]. intros [|]; [exact IH|apply fr_ret]. Qed.
Lemma fr_at a : framed (@p_at TO a).
Proof. unfold p_at, p_current. apply fr_bind; [apply fr_nth|]. intros k. apply fr_ret. Qed.
Lemma fr_accept a : framed (@p_accept TO a).
Proof. unfold p_accept. apply fr_bind; [apply fr_at|]. intros [|]; [|apply fr_ret]. apply fr_bind; [apply fr_adv|]. intros _. apply fr_ret. Qed.
Lemma fr_err_recover m s : framed (@p_err_recover TO m s).
Proof.
  unfold p_err_recover, p_error, p_current. apply fr_bind; [apply fr_nth|]. intros c. destruct (kind_eqb c KEndKw); [apply fr_error|]. apply fr_bind; [apply fr_at|]. intros [|]; [apply fr_error|apply fr_err_node].
Qed.
Lemma fr_passert b : framed (@passert TO b).
Proof. unfold passert. destruct b; [apply fr_ret|apply fr_panic]. Qed.
Ltac frame := repeat first
  [ apply fr_node_ | apply fr_err_recover | apply fr_err_node | apply fr_at | apply fr_accept | apply fr_adv | apply fr_nth | apply fr_error | apply fr_passert | apply fr_ret | apply fr_panic | apply fr_out
  | apply fr_node_by; apply fr_ret
  | match goal with |- framed (@bind TO _ _ _ _) => apply fr_bind; [|intros ?] end
  | match goal with |- framed (if ?b then _ else _) => destruct b end ].
Lemma fr_stmt n s e : framed (@stmt_body TO n s e).
Proof.
  unfold stmt_body, p_current.
  unfold if_stmt, label_stmt, goto_stmt, local_stmt, local_function_def_stmt, local_assign_stmt, repeat_until_stmt, function_def_stmt, return_stmt, do_stmt, while_stmt, for_stmt, break_stmt, expr_stmt, p_err_and_bump.
  frame.
Qed.
Lemma fr_stmt_f n : framed (@stmt_f TO n).
Proof. destruct n; [apply fr_out|apply fr_stmt]. Qed.
Lemma fr_block_body n m E : framed (block_body n m E).
Proof.
  unfold block_body, p_while. apply fr_loop. apply fr_bind; [apply fr_bind; [apply fr_at|intros b; apply fr_ret]|]. intros [|]; [|apply fr_ret]. apply fr_bind; [apply fr_stmt_f|]. intros _. apply fr_ret.
Qed.

(** * The statements of a valid program at the head of a file *)
(** The token [k] after the program [b] does not continue its last statement. *)
Fixpoint ends_before (b : block) (k : kind) : bool :=
  match b with
  | BNil => true
  | BCons s semi BNil => semi || (existsb (kind_eqb k) after_kinds && negb (kind_eqb k KSemicolon) && (negb (kind_eqb k KLParen) || negb (open_stat impl s)) && (negb (is_return s) || existsb (kind_eqb k) end_kinds))
  | BCons _ _ b => ends_before b k
  end.
Lemma in_kinds k l : existsb (kind_eqb k) l = true -> In k l.
Proof. intros H. apply existsb_exists in H as (x & Hx & E). apply kind_eqb_eq in E as ->. exact Hx. Qed.
Fixpoint count (b : block) : nat := match b with BNil => 0 | BCons _ _ b => S (count b) end.
Lemma count_w b : block_ok impl b = true -> count b <= length (block_w b).
Proof. induction b as [|s semi b IH]; intros H; cbn [count block_w]; [lia|]. cbn [block_ok] in H. rewrite !andb_true_iff in H. destruct H as [[[H1 H2] _] _]. pose proof (stat_w_pos s H1). specialize (IH H2). rewrite !app_length. lia. Qed.
Lemma head_runs : forall b n m r F, block_ok impl b = true -> ends_before b (hd0 r) = true -> 2 * length (block_w b ++ r) + 2 <= n ->
  block_body n (count b + m) ROOT_END (mkDS (block_w b ++ r) F) = block_body n m ROOT_END (mkDS r (F ++ block_t b)).
Proof.
  destruct lua_complete as (_ & _ & _ & _ & _ & HS & _ & _).
  induction b as [|s semi b IH]; intros n m r F Ho He Hn; cbn [block_w block_t count app Nat.add]; [now rewrite app_nil_r|].
  pose proof Ho as Ho'. cbn [block_ok] in Ho. rewrite !andb_true_iff in Ho. destruct Ho as [[[H1 H2] H3] H4].
  rewrite <- !app_assoc in *. cbn [block_w] in Hn. rewrite <- !app_assoc in Hn.
  assert (Fol : fol s (hd0 (semi_w semi ++ block_w b ++ r)) /\ (semi = false -> hd0 (block_w b ++ r) <> KSemicolon)).
  { destruct semi; cbn [semi_w app].
    - split; [|discriminate]. split; [cbn; tauto|]. split; [discriminate|]. intros _. cbn. tauto.
    - cbn [orb] in H4. destruct b as [|s' semi' b'].
      + cbn [block_w app]. cbn [ends_before orb] in He. rewrite !andb_true_iff in He. destruct He as [[[E1 E2] E3] E4]. apply in_kinds in E1. apply negb_true_iff in E2. split.
        * split; [exact E1|]. split.
          { intros E. rewrite E in E3. cbn in E3. now apply negb_true_iff in E3. }
          { intros R. rewrite R in E4. cbn [negb orb] in E4. now apply in_kinds in E4. }
        * intros _ E. rewrite E in E2. discriminate.
      + pose proof H2 as H2'. cbn [block_ok] in H2'. rewrite !andb_true_iff in H2'. destruct H2' as [[[K1 _] _] _].
        cbn [block_w]. rewrite <- app_assoc. pose proof (stat_first_in s' ((semi_w semi' ++ block_w b') ++ r) K1) as Hi.
        cbn [is_nil] in H3. rewrite orb_false_r in H3. apply negb_true_iff in H3. split.
        * split; [cbn in *; tauto|]. split.
          { intros E. destruct (open_stat impl s); [|reflexivity]. exfalso. cbn [andb] in H4. apply negb_true_iff in H4. unfold starts_paren in H4. cbn [block_w] in H4.
            pose proof (stat_w_pos s' K1) as Hp. destruct (stat_w s') as [|k l]; [cbn [length] in Hp; lia|]. cbn [hd0 hd app] in E, H4. rewrite E in H4. discriminate H4. }
          { intros R. congruence. }
        * intros _ E. rewrite E in Hi. cbn in Hi. intuition discriminate. }
  destruct Fol as [Fol NS]. destruct n as [|n]; [lia|]. unfold block_body at 1. unfold p_while. cbn [p_loop].
  match goal with |- @bind TO bool unit ?body ?k (mkDS ?w F) = _ => assert (D1 : Does body w (block_w b ++ r) true (stat_t s :: semi_t semi)) end.
  { eapply (D_bind _ _ _ _ _ _ _ []); [apply D_at; apply D_ret|]. cbn [pacc_test].
    pose proof (stat_first_not_end s (semi_w semi ++ block_w b ++ r) ROOT_END (or_introl eq_refl) H1) as NE. rewrite NE. cbn [negb].
    rewrite <- (app_nil_r (stat_t s :: semi_t semi)). eapply D_bind; [|apply D_ret]. rewrite stmt_f_dispatch.
    change (stat_t s :: semi_t semi) with ([stat_t s] ++ semi_t semi). eapply D_bind.
    - apply (HS s H1); [rewrite !app_length in *; lia|exact Fol].
    - destruct semi; cbn [semi_w semi_t app].
      + change [PTok KSemicolon] with ([PTok KSemicolon] ++ []). eapply D_bind; [apply D_accept; [reflexivity|discriminate]|apply D_ret].
      + eapply (D_bind _ _ _ _ _ _ _ []); [apply D_accept_no; cbn [pacc_test]; apply kind_eqb_neq; now apply NS|apply D_ret]. }
  cbn [bind tree_ops]. unfold tr_bind at 1. specialize (D1 F). cbn [bind tree_ops] in D1. rewrite D1. cbn [rbind fst snd].
  assert (He' : ends_before b (hd0 r) = true) by (destruct b; [reflexivity|exact He]).
  specialize (IH (S n) m r (F ++ stat_t s :: semi_t semi) H2 He'). unfold block_body, p_while in IH. cbn [bind tree_ops] in IH. rewrite IH by (rewrite !app_length in *; lia).
  rewrite <- app_assoc. reflexivity.
Qed.
(** The whole file: the statements of [b], then those of the rest on its own. *)
Theorem head_and_rest b r fs1 fs2 n1 n2 : block_ok impl b = true -> ends_before b (hd0 r) = true ->
  @root_f TO n1 (mkDS (block_w b ++ r) []) = Ok (tt, mkDS [] [PNode KSourceFile [PNode KBlock fs1]]) ->
  @root_f TO n2 (mkDS r []) = Ok (tt, mkDS [] [PNode KSourceFile [PNode KBlock fs2]]) -> fs1 = block_t b ++ fs2.
Proof.
  intros Ho He R1 R2. set (N := n1 + n2 + (2 * length (block_w b ++ r) + 2)).
  apply (up_root_f n1 (N + count b)) in R1; [|unfold N; lia]. apply (up_root_f n2 N) in R2; [|unfold N; lia].
  assert (G : forall M w fs, @root_f TO M (mkDS w []) = Ok (tt, mkDS [] [PNode KSourceFile [PNode KBlock fs]]) -> block_body M M ROOT_END (mkDS w []) = Ok (tt, mkDS [] fs)).
  { intros M w fs. unfold root_f, root, root_block, block_raw, node_, node. fold (block_body M M ROOT_END). cbn [bind node_by tree_ops]. unfold tr_bind, tr_node. cbn [ds_rem ds_for].
    destruct (block_body M M ROOT_END (mkDS w [])) as [[[] [r0 f0]]| |]; cbn [rbind fst snd ds_rem ds_for tr_ret ret app]; try discriminate. intros E. injection E as -> ->. reflexivity. }
  apply G in R1, R2. clear G.
  assert (R1' : block_body (N + count b) (count b + N) ROOT_END (mkDS (block_w b ++ r) []) = Ok (tt, mkDS [] fs1)) by (rewrite (Nat.add_comm (count b) N); exact R1).
  rewrite head_runs in R1' by (auto; unfold N; lia). cbn [app] in R1'. rewrite fr_block_body in R1'.
  assert (U : up (block_body N N ROOT_END) (block_body (N + count b) N ROOT_END)).
  { unfold block_body. apply up_while; [apply up_refl| |lia]. apply up_knot. lia. }
  rewrite (U _ _ R2) in R1'. cbn [rbind ds_rem ds_for] in R1'. now injection R1'.
Qed.
