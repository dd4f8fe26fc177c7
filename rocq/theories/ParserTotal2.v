(** ParserTotal2.v — continuation of ParserTotal.v: the recursive grammar functions. *)
From Verif Require Import Base SyntaxKind TokenSet Lexer BindingPowers Parser Grammar Tree ParserTree SinkProofs GrammarSpec ParserTotal.

Lemma Tr_conseq' {A} (m : D A) rem (Q Q' : A -> forest -> list kind -> Prop) :
  Tr m rem Q -> (forall a f' r, NEof r -> rem = fkinds f' ++ r -> Q a f' r -> Q' a f' r) -> Tr m rem Q'.
Proof.
  intros H HQ HN f. destruct (H HN f) as (a & f' & r & H1 & H2 & H3). exists a, f', r.
  split; [exact H1|]. split; [exact H2|]. apply HQ; auto. rewrite H2 in HN. now apply NEof_app in HN.
Qed.

Lemma Tr_eq {A} (m : D A) rem (Q : A -> forest -> list kind -> Prop) :
  Tr m rem (fun a f r => rem = fkinds f ++ r -> NEof r -> Q a f r) -> Tr m rem Q.
Proof. intros H. refine (Tr_conseq' _ _ _ _ H _). intros a f r HN He HQ. now apply HQ. Qed.

Lemma Tr_unit (m : D unit) rem (Q : unit -> forest -> list kind -> Prop) :
  Tr m rem (fun _ f r => Q tt f r) -> Tr m rem Q.
Proof. intros H. refine (Tr_conseq _ _ _ _ H _). now intros [] f r _ HQ. Qed.

Lemma cur_run {B} (k : kind -> D B) r f : @bind TO kind B (@p_current TO) k (mkDS r f) = k (hd0 r) (mkDS r f).
Proof. reflexivity. Qed.
Lemma at_run {B} a (k : bool -> D B) r f : @bind TO bool B (@p_at TO a) k (mkDS r f) = k (pacc_test a (hd0 r)) (mkDS r f).
Proof. reflexivity. Qed.

Definition isnode (t : ptree) : Prop := match t with PNode _ _ => True | _ => False end.

Lemma pre_node_run {A} t pre k (body : D A) r f (Q : forest -> list kind -> Prop) : isnode t -> NEof r ->
  Tr body r (fun _ f' r' => Q f' r') ->
  exists fs r', @pre_node TO A (length f) k body (mkDS r (f ++ t :: pre)) =
      Ok (length f, mkDS r' (f ++ [PNode k (t :: pre ++ fs)])) /\ r = fkinds fs ++ r' /\ Q fs r'.
Proof.
  intros Ht HN Hb. destruct (Hb HN []) as (a & fs & r' & H1 & H2 & H3). exists fs, r'. split; [|auto].
  unfold pre_node. apply pre_run; [exact Ht|]. now rewrite (bind_run _ _ _ _ _ H1).
Qed.

Lemma TrO_Tr (m : D (option nat)) rem (Q : option nat -> forest -> list kind -> Prop) :
  TrO m rem (fun t r => forall a, Q a [t] r) (fun f r => forall a, Q a f r) -> Tr m rem Q.
Proof.
  intros H HN f. destruct (H HN f) as [(k & fs & r & H1 & H2 & H3)|(f' & r & H1 & H2 & H3)].
  - exists (Some (length f)), [PNode k fs], r. rewrite fkinds_node1. auto.
  - exists None, f', r. auto.
Qed.

Lemma Tree_stmts_app f : Tree false NStmts f -> forall g, Tree false NStmts g -> Tree false NStmts (f ++ g).
Proof.
  remember NStmts as x eqn:Ex. induction 1; try discriminate; intros g0 Hg; [exact Hg|].
  rewrite <- !app_assoc. apply T_stmts_cons; auto.
Qed.
Lemma Tree_multi_tail_snoc t : Tree false NMultiTail t -> forall e, Tree false NExprO e ->
  Tree false NMultiTail (t ++ PTok KComma :: e).
Proof.
  remember NMultiTail as x eqn:Ex. induction 1; try discriminate; intros n0 Hn.
  - rewrite <- (app_nil_r n0). apply T_multi_cons; [exact Hn|constructor].
  - cbn [app]. rewrite <- app_assoc. apply T_multi_cons; auto.
Qed.

Lemma has_tok_kinds f : fkinds f <> [] -> existsb has_tok f = true.
Proof.
  set (P1 := fun t => pkinds t <> [] -> has_tok t = true). set (PF := fun f => fkinds f <> [] -> existsb has_tok f = true).
  change (PF f). apply (forest_ind' P1 PF); unfold P1, PF; try reflexivity.
  - intros e H. destruct (H eq_refl).
  - intros fs e IH H. exact (IH H).
  - intros k fs IH H. exact (IH H).
  - intros H. destruct (H eq_refl).
  - intros t fs H1 H2 H. cbn [existsb]. unfold fkinds in *. cbn [flat_map] in H. destruct (pkinds t) eqn:E; [rewrite (H2 H); apply orb_true_r|rewrite H1; [reflexivity|discriminate]].
Qed.
Lemma has_tok_less f r rem : rem = fkinds f ++ r -> length r < length rem -> existsb has_tok f = true.
Proof. intros -> H. apply has_tok_kinds. intros E. rewrite E in H. cbn in H. lia. Qed.

Lemma is_err_noerrs f : is_err false f -> noerrs f = false.
Proof. intros (_ & e & [->|(ks & ->)]); reflexivity. Qed.
Lemma noerrs_app a b : noerrs (a ++ b) = noerrs a && noerrs b.
Proof. apply forallb_app. Qed.

Lemma prefix_bp_in k : 0 < prefix_binding_power k -> In k unary_ops.
Proof. destruct k; vm_compute; try lia; auto. Qed.
Lemma prefix_bp_not k : prefix_binding_power k = 0 -> ~ In k unary_ops.
Proof. destruct k; vm_compute; try discriminate; intros _ [E|[E|[E|[]]]]; discriminate E. Qed.
Lemma infix_bp_in k l r : infix_binding_power k = (l, r) -> LOWEST <= l -> In k binary_ops.
Proof. destruct k; vm_compute; intros [= <- <-] H; try lia; tauto. Qed.
Lemma not_first k : ts_contains EXPR_FIRST k = true ->
  In k unary_ops \/ In k literals \/ k = KFunctionKw \/ k = KLBrace \/ k = KIdent \/ k = KLParen.
Proof. destruct k; vm_compute; try discriminate; tauto. Qed.
Lemma unary_first k : In k unary_ops -> ts_contains EXPR_FIRST k = true.
Proof. intros [<-|[<-|[<-|[]]]]; reflexivity. Qed.

Section Open.
Variable n : nat.
Variable stmt : D unit.
Variable expr_bp : nat -> D (option nat).

Definition expr_q (rem : list kind) (t : ptree) (r : list kind) : Prop :=
  Tree false NExpr [t] /\ length r < length rem /\ (noerr t = true -> hd0 r <> KLBracket).
Definition expr_n (rem : list kind) (f : forest) (r : list kind) : Prop :=
  is_err false f /\ ts_contains EXPR_FIRST (hd0 rem) = false.

Hypothesis Hst : forall rem (Q : unit -> forest -> list kind -> Prop), 2 * length rem + 2 <= n ->
  (forall f sc r, Tree false NStmt f -> (rem <> [] -> existsb has_tok f = true) -> sc = [] \/ sc = [PTok KSemicolon] ->
     (rem <> [] -> length r < length rem) -> Q tt (f ++ sc) r) -> Tr stmt rem Q.
Hypothesis Hex : forall b rem, LOWEST <= b -> 2 * length rem + 1 <= n -> TrO (expr_bp b) rem (expr_q rem) (expr_n rem).

Lemma Tr_expr b rem (Q : option nat -> forest -> list kind -> Prop) : LOWEST <= b -> 2 * length rem + 1 <= n ->
  (forall a f r, Tree false NExprO f -> (ts_contains EXPR_FIRST (hd0 rem) = true -> length r < length rem) ->
     (noerrs f = true -> hd0 r <> KLBracket) -> Q a f r) ->
  Tr (expr_bp b) rem Q.
Proof.
  intros Hb Hn HQ. apply TrO_Tr. intros HN f. destruct (Hex b rem Hb Hn HN f) as [(k & fs & r & H1 & H2 & H3 & H4 & H5)|(f' & r & H1 & H2 & H3 & H4)].
  - left. exists k, fs, r. split; [exact H1|]. split; [exact H2|]. intros a. apply HQ.
    + now apply T_expr.
    + auto.
    + cbn [noerrs forallb]. rewrite andb_true_r. exact H5.
  - right. exists f', r. split; [exact H1|]. split; [exact H2|]. intros a. apply HQ.
    + now apply T_expr_err.
    + congruence.
    + apply is_err_noerrs in H3. congruence.
Qed.

Lemma Tr_expr_single rem (Q : option nat -> forest -> list kind -> Prop) : 2 * length rem + 1 <= n ->
  (forall a f r, Tree false NExprO f -> (ts_contains EXPR_FIRST (hd0 rem) = true -> length r < length rem) ->
     (noerrs f = true -> hd0 r <> KLBracket) -> Q a f r) ->
  Tr (@expr_single TO expr_bp) rem Q.
Proof. apply Tr_expr. lia. Qed.

Lemma Tr_block_raw ts rem (Q : unit -> forest -> list kind -> Prop) : 2 * length rem + 2 <= n ->
  ts_contains ts KEof = true ->
  (forall f r, Tree false NBlock f -> ts_contains ts (hd0 r) = true -> Q tt f r) ->
  Tr (@block_raw TO n stmt ts) rem Q.
Proof.
  intros Hn Hts HQ. unfold block_raw. apply Tr_node. unfold p_while.
  apply (Tr_loop (fun f r => Tree false NStmts f)
                 (fun f r => Q tt [PNode KBlock f] r) rem) with (f1 := []); [|reflexivity|constructor|lia].
  intros f1 r1 He1 H1 HN1. apply Tr_bind. apply Tr_at. apply Tr_ret. intros _ _.
  cbn [pacc_test]. destruct (ts_contains ts (hd0 r1)) eqn:Et; cbn [negb].
  - apply Tr_ret. rewrite app_nil_r. apply HQ; [now apply T_block|exact Et].
  - apply Tr_bind. apply Hst; [lens|]. intros f sc r2 Hf Hh Hsc Hp He2 HN2. apply Tr_ret.
    assert (Hr1 : r1 <> []) by (intros ->; cbn in Et; congruence). split; [exact (Hp Hr1)|].
    rewrite app_nil_r. apply Tree_stmts_app; [exact H1|]. cbn [app]. rewrite <- (app_nil_r sc).
      apply T_stmts_cons; [exact Hf|exact (Hh Hr1)|exact Hsc|constructor].
Qed.

Lemma Tr_block rem (Q : unit -> forest -> list kind -> Prop) : 2 * length rem + 2 <= n ->
  (forall f r, Tree false NBlock f -> Q tt f r) -> Tr (@block TO n stmt) rem Q.
Proof. intros Hn HQ. apply Tr_block_raw; [exact Hn|reflexivity|auto]. Qed.

Lemma Tr_root rem (Q : unit -> forest -> list kind -> Prop) : 2 * length rem + 2 <= n ->
  (forall f, Tree false NSource f -> Q tt f []) -> Tr (@root TO n stmt) rem Q.
Proof.
  intros Hn HQ. apply Tr_node. eapply Tr_conseq'.
  - apply (Tr_block_raw ROOT_END rem (fun _ f r => Tree false NBlock f /\ ts_contains ROOT_END (hd0 r) = true)); auto.
  - intros [] f' r' HN' _ [H1 H2]. destruct r' as [|k r']; [apply HQ; now apply T_source|].
    apply NEof_hd in HN'. destruct k; try discriminate H2. congruence.
Qed.

Lemma Tr_expr_multi rem (Q : unit -> forest -> list kind -> Prop) : 2 * length rem + 1 <= n ->
  (forall f r, Tree false NMulti f -> (ts_contains EXPR_FIRST (hd0 rem) = true -> length r < length rem) -> Q tt f r) ->
  Tr (@expr_multi TO n expr_bp) rem Q.
Proof.
  intros Hn HQ. unfold expr_multi. apply Tr_node. apply Tr_bind. apply Tr_expr_single; [exact Hn|].
  intros _ f1 r1 H1 Hp1 _ He1 HN1. unfold p_while.
  apply (Tr_loop (fun f r => exists t, f = f1 ++ t /\ Tree false NMultiTail t)
                 (fun f r => Q tt [PNode KMultivalExpr f] r) rem) with (f1 := f1);
    [|exact He1|exists []; rewrite app_nil_r; split; [reflexivity|constructor]|lens].
  intros f2 r2 He2 (t & -> & Ht) HN2. apply Tr_at.
  cbn [pacc_test]. destruct (kind_eqb (hd0 r2) KComma) eqn:Ec.
  - apply kind_eqb_true in Ec. destruct (hd0_cons _ _ Ec) as [r ->]; [discriminate|].
    apply Tr_bind. apply Tr_bind. apply Tr_bump; [reflexivity|]. intros _ HN3. apply Tr_bind.
    apply Tr_expr_single; [lens|]. intros _ f3 r3 H3 _ _ He3 _. apply Tr_ret. intros _ _. apply Tr_ret.
    split; [lens|]. exists (t ++ PTok KComma :: f3). split; [|now apply Tree_multi_tail_snoc].
    now rewrite !app_nil_r, <- app_assoc.
  - apply Tr_ret. rewrite app_nil_r. apply HQ; [now apply T_multi|].
    intros Hf. specialize (Hp1 Hf). rewrite fkinds_app, <- app_assoc in He2. lens.
Qed.

Lemma Tr_req k rem (Q : bool -> forest -> list kind -> Prop) : k <> KEof ->
  (forall a f r, req false k f -> Q a f r) -> Tr (@p_expect TO k) rem Q.
Proof. intros Hk HQ. apply Tr_expect; [exact Hk|]. intros. now apply HQ. Qed.

Lemma TrM_paren_expr r (Q : ptree -> list kind -> Prop) : 2 * length r + 1 <= n ->
  (forall t r', Tree false (NPost true) [t] -> length r' <= length r -> Q t r') ->
  TrM (@paren_expr TO expr_bp) (KLParen :: r) Q.
Proof.
  intros Hn HQ. apply TrM_node. apply Tr_bind. apply Tr_expect; [discriminate|].
  intros _ f1 r1 _ He1 _ Hf1. rewrite Hf1 in He1 |- * by reflexivity.
  change (KLParen :: r = KLParen :: r1) in He1. injection He1 as <-. intros _ _.
  apply Tr_bind. apply Tr_expr; [lia|lia|]. intros _ e r2 He _ _ He2 _.
  apply Tr_eq. apply Tr_req; [discriminate|]. intros _ f3 r3 H3 He3 _.
  cbn [app]. apply HQ; [now apply T_paren|lens].
Qed.

Lemma Tr_index r (Q : unit -> forest -> list kind -> Prop) : 2 * length r + 1 <= n ->
  (forall f r', Tree false NIndex f -> length r' <= length r -> Q tt f r') ->
  Tr (@index TO expr_bp) (KLBracket :: r) Q.
Proof.
  intros Hn HQ. apply Tr_node. apply Tr_bind. apply Tr_bump; [reflexivity|]. intros _ _.
  apply Tr_bind. apply Tr_expr_single; [lia|]. intros _ e r2 He _ _ He2 _.
  apply Tr_eq. apply Tr_req; [discriminate|]. intros _ f3 r3 H3 He3 _.
  cbn [app]. apply HQ; [now apply T_index|lens].
Qed.

Lemma Tr_table_content rem (Q : unit -> forest -> list kind -> Prop) : 2 * length rem + 1 <= n ->
  (forall f r, Tree false NField f ->
     (length r < length rem \/ (r = rem /\ hd0 rem <> KLBracket /\ noerrs f = false)) ->
     (noerrs f = true -> hd0 r <> KLBracket) -> Q tt f r) ->
  Tr (@table_content TO expr_bp) rem Q.
Proof.
  intros Hn HQ. unfold table_content. apply Tr_node. apply Tr_cur.
  assert (Hpos : ts_contains EXPR_FIRST (hd0 rem) = true ->
    Tr (@node_ TO _ KPositionalValue (@expr_single TO expr_bp)) rem
       (fun (_ : unit) f' r' => Q tt [PNode KTableContent f'] r')).
  { intros Hf. apply Tr_node. apply Tr_expr_single; [exact Hn|]. intros _ e r He Hp Hfl. apply HQ.
    - now apply T_field_pos.
    - left. auto.
    - cbn [noerrs forallb noerr]. rewrite !andb_true_r. exact Hfl. }
  destruct (kind_eqb (hd0 rem) KIdent) eqn:Ei.
  - apply kind_eqb_true in Ei. apply Tr_nth.
    destruct (kind_eqb (nth 1 rem KEof) KEq) eqn:Eq.
    + apply kind_eqb_true in Eq. destruct rem as [|k1 [|k2 r]]; [discriminate Eq|discriminate Eq|].
      cbn in Ei, Eq. subst k1 k2. apply Tr_node. apply Tr_bind. apply Tr_node.
      apply Tr_name_unchecked. intros _ _ _. apply Tr_bind. apply Tr_bump; [reflexivity|]. intros _ _.
      apply Tr_eq. apply Tr_expr_single; [lens|]. intros _ e r' He _ Hfl He' _. apply HQ.
      * cbn [app]. now apply T_field_name.
      * left. lens.
      * cbn [noerrs forallb noerr app]. rewrite !andb_true_r. exact Hfl.
    + apply Hpos. rewrite Ei. reflexivity.
  - apply kind_eqb_neq in Ei. destruct (kind_eqb (hd0 rem) KLBracket) eqn:Eb.
    + apply kind_eqb_true in Eb. destruct (hd0_cons _ _ Eb) as [r ->]; [discriminate|].
      apply Tr_node. apply Tr_bind. apply Tr_node. apply Tr_index; [lens|]. intros i r1 Hi Hl1 _ _.
      apply Tr_bind. apply Tr_eq. apply Tr_req; [discriminate|]. intros _ q r2 Hq He2 HN2 _ _.
      apply Tr_eq. apply Tr_expr_single; [lens|]. intros _ e r' He _ Hfl He' _. apply HQ.
      * cbn [app]. now apply T_field_index.
      * left. lens.
      * cbn [noerrs forallb noerr app]. rewrite !andb_true_r. intros Hne. apply Hfl.
        apply andb_true_iff in Hne as [_ Hne]. change (noerrs (q ++ e) = true) in Hne.
        rewrite noerrs_app in Hne. now apply andb_true_iff in Hne.
    + apply kind_eqb_neq in Eb. apply Tr_at. cbn [pacc_test].
      destruct (ts_contains EXPR_FIRST (hd0 rem)) eqn:Ef; [now apply Hpos|].
      apply Tr_perror. apply HQ.
      * apply T_field_err. apply is_err_mark.
      * right. auto.
      * discriminate.
Qed.

(** The turn after a field: nothing (the table ends or an error leaves us at [[]), a separator,
    or error nodes and possibly a separator. *)
Definition inner_post (r1 : list kind) (j : forest) (r : list kind) : Prop :=
  (j = [] /\ r = r1 /\ (ts_contains TABLE_END (hd0 r) = true \/ hd0 r = KLBracket)) \/
  (length r < length r1 /\ exists s, (s = KComma \/ s = KSemicolon) /\ j = [PNode KTableSep [PTok s]]) \/
  (length r < length r1 /\ Forall junk j /\ noerrs j = false /\ Forall (fun t => has_tok t = true) j).

Lemma TABLE_REC_not k : ts_contains TABLE_RECOVERY k = true -> ts_contains TABLE_END k = false ->
  ts_contains TABLE_SEP k = false -> k = KLBracket.
Proof. kinds k. Qed.
Lemma TABLE_until k : ts_contains TABLE_RECOVERY k = false -> ts_contains TABLE_END k = false ->
  ts_contains (ts_union TABLE_RECOVERY (ts_new [KEndKw])) k = false.
Proof. kinds k. Qed.

Lemma Tr_table_inner rem (Q : unit -> forest -> list kind -> Prop) : length rem < n ->
  (forall j r, inner_post rem j r -> Q tt j r) -> Tr (@table_inner TO n) rem Q.
Proof.
  intros Hn HQ. unfold table_inner. apply Tr_unit.
  apply (Tr_loop (fun j r => (j = [] /\ r = rem) \/ (length r < length rem /\ Forall junk j /\ noerrs j = false /\ Forall (fun t => has_tok t = true) j))
                 (fun j r => Q tt j r) rem) with (f1 := []); [|reflexivity|now left|lia].
  intros f1 r1 He1 Hi HN1.
  apply Tr_at. cbn [pacc_test]. destruct (ts_contains TABLE_END (hd0 r1)) eqn:Ee.
  - apply Tr_ret. rewrite app_nil_r. apply HQ. destruct Hi as [[-> ->]|Hi]; [|right; right; exact Hi].
    left. auto.
  - apply Tr_at. cbn [pacc_test]. destruct (ts_contains TABLE_SEP (hd0 r1)) eqn:Es.
    + apply Tr_bind. apply Tr_table_sep; [exact Es|]. intros r2 Hs Hl _ _. apply Tr_ret.
      rewrite app_nil_r. apply HQ. destruct Hi as [[-> ->]|(Hl1 & Hj & Hne & Hh)].
      * right. left. split; [exact Hl|]. exists (hd0 rem). auto.
      * right. right. split; [lia|]. split; [|split].
        -- apply Forall_app. split; [exact Hj|]. constructor; [|constructor]. right. eauto.
        -- rewrite noerrs_app, Hne. reflexivity.
        -- apply Forall_app. split; [exact Hh|]. constructor; [reflexivity|constructor].
    + apply Tr_at. cbn [pacc_test]. destruct (ts_contains TABLE_RECOVERY (hd0 r1)) eqn:Er.
      * apply Tr_ret. rewrite app_nil_r. apply HQ. destruct Hi as [[-> ->]|Hi]; [|right; right; exact Hi].
        left. split; [reflexivity|]. split; [reflexivity|]. right. now apply TABLE_REC_not.
      * apply Tr_bind. unfold table_correct. apply Tr_err_until; [lens|]. intros ks e r2 He2 Hp _ _. apply Tr_ret.
        rewrite app_nil_r.
        assert (Hlt : length r2 < length r1).
        { apply Hp; [|now apply TABLE_until]. intros ->. discriminate Ee. }
        split; [exact Hlt|]. right. split.
        { destruct Hi as [[_ ->]|[Hl _]]; lia. }
        assert (Ht : has_tok (PErrN (map PTok ks) e) = true).
        { pose proof (has_tok_less [PErrN (map PTok ks) e] r2 r1) as Ht. cbn [existsb] in Ht. rewrite orb_false_r in Ht. apply Ht; [|exact Hlt].
          rewrite He2. unfold fkinds. cbn [flat_map pkinds]. rewrite app_nil_r. f_equal. clear. induction ks as [|k ks IH]; [reflexivity|]. cbn. now rewrite <- IH. }
        destruct Hi as [[-> _]|(_ & Hj & Hne & Hh)].
        -- split; [|split; [reflexivity|constructor; [exact Ht|constructor]]]. constructor; [|constructor]. left. eauto.
        -- split; [apply Forall_app; split; [exact Hj|]; constructor; [left; eauto|constructor]|].
           split; [now rewrite noerrs_app, Hne|]. apply Forall_app. split; [exact Hh|constructor; [exact Ht|constructor]].
Qed.

(** Field lists open on the right. *)
Definition fopen (f : forest) : Prop := forall g, Tree false NFields g -> Tree false NFields (f ++ g).

Lemma Tr_table_body r (Q : bool -> forest -> list kind -> Prop) : 2 * length r + 1 <= n ->
  (forall a fs rb r', Tree false NFields fs -> req false KRBrace rb -> Q a (PTok KLBrace :: fs ++ rb) r') ->
  Tr (@p_bump TO (PKind KLBrace) ;;
      @p_while TO n (b <- @p_at TO (PSet TABLE_END) ;; @ret TO _ (negb b))
       (@table_content TO expr_bp ;; @table_inner TO n) ;;
      @p_expect TO KRBrace) (KLBrace :: r) Q.
Proof.
  intros Hn HQ. apply Tr_bind. apply Tr_bump; [reflexivity|]. intros _ HN0.
  apply Tr_bind. unfold p_while.
  assert (Hl : Tr (@p_loop TO n (b <- (b <- @p_at TO (PSet TABLE_END) ;; @ret TO _ (negb b)) ;;
       if b then (@table_content TO expr_bp ;; @table_inner TO n) ;; @ret TO _ true else @ret TO _ false)) r
       (fun _ f r' => Tree false NFields f)).
  { apply (Tr_loop (fun f r => fopen f \/ (Tree false NFields f /\ ts_contains TABLE_END (hd0 r) = true))
                   (fun f r => Tree false NFields f) r) with (f1 := []); [|reflexivity|left; intros g Hg; exact Hg|lia].
    intros f1 r1 He1 Hi HN1. apply Tr_bind. apply Tr_at. apply Tr_ret. intros _ _. cbn [pacc_test].
    destruct (ts_contains TABLE_END (hd0 r1)) eqn:Ee; cbn [negb].
    - apply Tr_ret. rewrite app_nil_r. destruct Hi as [Hi|[Hi _]]; [|exact Hi].
      rewrite <- (app_nil_r f1). apply Hi. constructor.
    - destruct Hi as [Hi|[_ Hi]]; [|congruence]. apply Tr_bind. apply Tr_bind. apply Tr_eq.
      apply Tr_table_content; [lens|]. intros fld r2 Hfld Hpr Hfl He2 HN2 _ _.
      apply Tr_table_inner; [lens|]. intros j r3 Hj _ _. apply Tr_ret. rewrite app_nil_r.
      destruct Hj as [(-> & -> & Hj)|[(Hl & s & Hs & ->)|(Hl & Hj & Hne & Hh)]].
      + assert (Hlt : length r2 < length r1) by (destruct Hpr as [Hpr|(-> & Hb & _)]; [exact Hpr|]; destruct Hj; congruence).
        split; [exact Hlt|].
        rewrite app_nil_r. destruct Hj as [Hj|Hj].
        * right. split; [|exact Hj]. apply Hi. now apply T_fields_last.
        * left. intros g Hg. rewrite <- app_assoc. apply Hi.
          apply (T_fields_err _ fld [] g); auto; rewrite app_nil_r; [|exact (has_tok_less _ _ _ He2 Hlt)].
          destruct (noerrs fld) eqn:En; [|reflexivity]. now specialize (Hfl eq_refl).
      + split; [lens|]. left. intros g Hg. rewrite <- !app_assoc. apply Hi. cbn [app].
        now apply T_fields_cons.
      + split; [lens|]. left. intros g Hg. rewrite <- !app_assoc. apply Hi.
        cbn [app]. apply T_fields_err; auto; [now rewrite noerrs_app, Hne, andb_false_r|].
        rewrite existsb_app. destruct j as [|t j]; [discriminate Hne|]. inversion Hh as [|? ? Ht _]; subst. cbn [existsb]. rewrite Ht. apply orb_true_r. }
  refine (Tr_conseq _ _ _ _ Hl _). intros [] f2 r2 _ Hf _ _.
  apply Tr_req; [discriminate|]. intros a rb r3 Hrb. cbn [app]. now apply HQ.
Qed.

Lemma TrM_table_expr r (Q : ptree -> list kind -> Prop) : 2 * length r + 1 <= n ->
  (forall fs rb r', Tree false NFields fs -> req false KRBrace rb -> length r' <= length r ->
     Q (PNode KTableExpr (PTok KLBrace :: fs ++ rb)) r') ->
  TrM (@table_expr TO n expr_bp) (KLBrace :: r) Q.
Proof.
  intros Hn HQ. apply TrM_node. apply Tr_eq. apply Tr_table_body; [exact Hn|]. intros a fs rb r' Hf Hr He _. apply HQ; auto.
  rewrite fkinds_cons, <- app_assoc in He. injection He as He. rewrite He, app_length. lia.
Qed.

Lemma TrM_function_expr r (Q : ptree -> list kind -> Prop) : 2 * length r + 2 <= n ->
  (forall t r', Tree false (NPost true) [t] -> length r' <= length r -> Q t r') ->
  TrM (@function_expr TO n stmt) (KFunctionKw :: r) Q.
Proof.
  intros Hn HQ. apply TrM_node. apply Tr_bind. apply Tr_bump; [reflexivity|]. intros _ _.
  apply Tr_bind. apply Tr_param_list; [lia|]. intros p r1 Hp He1 _.
  apply Tr_bind. apply Tr_block; [lens|]. intros b r2 Hb He2 _.
  apply Tr_eq. apply Tr_req; [discriminate|]. intros _ en r3 Hen He3 _. cbn [app].
  apply HQ; [now apply T_function|lens].
Qed.

Lemma Tr_arg_list r (Q : unit -> forest -> list kind -> Prop) : 2 * length r + 1 <= n ->
  (forall f r', Tree false NCallArgs [PNode KCallArgs f] -> length r' <= length r -> Q tt f r') ->
  Tr (@arg_list TO n expr_bp) (KLParen :: r) Q.
Proof.
  intros Hn HQ. apply Tr_node. apply Tr_bind. apply Tr_bump; [reflexivity|]. intros _ _.
  apply Tr_bind. apply Tr_at. destruct (pacc_test (PKind KRParen) (hd0 r)).
  - apply Tr_ret. intros _ _. apply Tr_eq. apply Tr_req; [discriminate|]. intros _ rp r3 Hrp He3 _.
    cbn [app]. apply HQ; [now apply T_args_none|lens].
  - apply Tr_expr_multi; [exact Hn|]. intros e r2 He _ He2 _.
    apply Tr_eq. apply Tr_req; [discriminate|]. intros _ rp r3 Hrp He3 _. cbn [app].
    apply HQ; [now apply T_args|lens].
Qed.

Lemma CALL_FIRST_in k : ts_contains CALL_FIRST k = true -> k = KLParen \/ k = KLBrace \/ k = KStr.
Proof. kinds k. Qed.

Lemma Tr_call_args rem (Q : unit -> forest -> list kind -> Prop) : 2 * length rem <= n ->
  ts_contains CALL_FIRST (hd0 rem) = true ->
  (forall f r', Tree false NCallArgs f -> length r' < length rem -> Q tt f r') ->
  Tr (@call_args TO n expr_bp) rem Q.
Proof.
  intros Hn Hc HQ. unfold call_args. apply Tr_bind. apply Tr_at. cbn [pacc_test]. rewrite Hc. apply Tr_ret.
  intros _ _. apply Tr_node. apply Tr_cur. destruct rem as [|k r]; [discriminate Hc|]. cbn [nth length] in *.
  destruct (CALL_FIRST_in _ Hc) as [->|[->| ->]].
  - apply Tr_arg_list; [lia|]. intros f r' Hf Hl. apply HQ; [exact Hf|lia].
  - change (kind_eqb KLBrace KLParen) with false. cbn iota. change (kind_eqb KLBrace KLBrace) with true. cbn iota.
    apply Tr_bindM. apply TrM_table_expr; [lia|]. intros fs rb r' Hf Hrb He _ _. apply Tr_ret.
    apply HQ; [now apply T_args_table|]. lia.
  - apply Tr_bump_any. apply HQ; [apply T_args_str|lia].
Qed.

Lemma fkinds1 t : fkinds [t] = pkinds t.
Proof. unfold fkinds. cbn [flat_map]. apply app_nil_r. Qed.

Lemma isnode_pk t pre fs k r : pkinds (PNode k (t :: pre ++ fs)) ++ r = pkinds t ++ fkinds pre ++ fkinds fs ++ r.
Proof. rewrite pkinds_node, fkinds_cons, fkinds_app, <- !app_assoc. reflexivity. Qed.

Lemma postfix_run : forall m t cc r f, isnode t -> Tree false (NPost cc) [t] -> NEof r -> length r < m ->
  2 * length r <= n ->
  exists t' r', @postfix_expr TO n expr_bp m (length f) cc (mkDS r (f ++ [t])) = Ok (length f, mkDS r' (f ++ [t'])) /\
    isnode t' /\ pkinds t ++ r = pkinds t' ++ r' /\ (exists c, Tree false (NPost c) [t']) /\
    hd0 r' <> KLBracket /\ length r' <= length r.
Proof.
  induction m as [|m IH]; intros t cc r f Ht HT HN Hm Hn; [lia|].
  cbn [postfix_expr].
  rewrite cur_run. cbv beta zeta.
  rewrite at_run. cbn [pacc_test].
  assert (Hstep : forall A k (body : D A),
     Tr body r (fun _ fs r' => Tree false (NPost true) [PNode k (t :: fs)] /\ length r' < length r) ->
     exists t' r', @bind TO _ _ (@pre_node TO A (length f) k body) (fun lhs => @postfix_expr TO n expr_bp m lhs true)
        (mkDS r (f ++ [t])) = Ok (length f, mkDS r' (f ++ [t'])) /\
    isnode t' /\ pkinds t ++ r = pkinds t' ++ r' /\ (exists c, Tree false (NPost c) [t']) /\
    hd0 r' <> KLBracket /\ length r' <= length r).
  { intros A k body Hb.
    destruct (pre_node_run t [] k body r f (fun fs r' => Tree false (NPost true) [PNode k (t :: fs)] /\ length r' < length r) Ht HN Hb)
      as (fs & r1 & H1 & He & HT1 & Hl). rewrite (bind_run _ _ _ _ _ H1). cbn [app].
    destruct (IH (PNode k (t :: fs)) true r1 f I HT1) as (t' & r' & G1 & G2 & G3 & G4 & G5 & G6).
    - rewrite He in HN. now apply NEof_app in HN.
    - lia.
    - lia.
    - exists t', r'. split; [exact G1|]. split; [exact G2|]. split; [|split; [exact G4|split; [exact G5|lia]]].
      rewrite <- G3, He, pkinds_node, fkinds_cons, <- app_assoc. reflexivity. }
  destruct (cc && ts_contains CALL_FIRST (hd0 r)) eqn:E1.
  { apply andb_true_iff in E1 as [-> E1]. unfold call_expr. apply Hstep.
    apply Tr_call_args; [lia|exact E1|]. intros f' r' Hf Hl. split; [now apply T_call|exact Hl]. }
  destruct (kind_eqb (hd0 r) KColon && cc) eqn:E2.
  { apply andb_true_iff in E2 as [E2 ->]. apply kind_eqb_true in E2.
    destruct (hd0_cons _ _ E2) as [r1 ->]; [discriminate|]. unfold method_call_expr. apply Hstep.
    apply Tr_bind. apply Tr_bump; [reflexivity|]. intros _ _. apply Tr_bindM. apply TrM_name_ref.
    intros nm r2 Hnm He2 _ _ _. apply Tr_at. cbn [pacc_test].
    destruct (ts_contains CALL_FIRST (hd0 r2)) eqn:Ec.
    - apply Tr_call_args; [lens|exact Ec|]. intros a r3 Ha Hl. split; [|lens]. cbn [app].
      apply T_method_call; auto.
    - apply Tr_perror. split; [|lens]. cbn [app]. apply T_method_call_err; [exact HT|exact Hnm|]. apply is_err_mark. }
  destruct (kind_eqb (hd0 r) KLBracket) eqn:E3.
  { apply kind_eqb_true in E3.
    destruct (hd0_cons _ _ E3) as [r1 ->]; [discriminate|]. unfold index_expr. apply Hstep.
    apply Tr_index; [lens|]. intros i r2 Hi Hl. split; [|cbn; lia]. now apply (T_index_expr _ cc). }
  apply kind_eqb_neq in E3.
  destruct (kind_eqb (hd0 r) KDot) eqn:E4.
  { apply kind_eqb_true in E4.
    destruct (hd0_cons _ _ E4) as [r1 ->]; [discriminate|]. unfold dot_expr. apply Hstep.
    apply Tr_bind. apply Tr_bump; [reflexivity|]. intros _ _. apply Tr_eq. apply Tr_req; [discriminate|].
    intros a nm r2 Hnm He2 _. split; [|lens]. cbn [app]. now apply (T_dot_expr _ cc). }
  exists t, r. split; [reflexivity|]. eauto 7.
Qed.

(** [lhs] and [expr_bp]. *)
Lemma TrO_lhs rem : 2 * length rem <= n ->
  TrO (@lhs TO n stmt expr_bp) rem (fun t r => Tree false NLhs [t] /\ length r < length rem /\ (noerr t = true -> hd0 r <> KLBracket))
      (expr_n rem).
Proof.
  intros Hn HN f. unfold lhs.
  rewrite cur_run. cbv beta zeta.
  destruct (NOT_AN_OP <? prefix_binding_power (hd0 rem)) eqn:Ep.
  { apply Nat.ltb_lt in Ep. destruct rem as [|k r]; [vm_compute in Ep; lia|]. cbn [nth] in *. left.
    assert (HM : TrM (@node TO _ KPrefixExpr (@p_bump TO PAny ;; expr_bp (prefix_binding_power k))) (k :: r)
      (fun t r' => Tree false NLhs [t] /\ length r' < length (k :: r) /\ (noerr t = true -> hd0 r' <> KLBracket))).
    { apply TrM_node. apply Tr_bind. apply Tr_bump_any. intros _ _. apply Tr_eq. apply Tr_expr.
      - exact Ep.
      - cbn [length] in Hn. lia.
      - intros a e r' He _ Hfl He' _. cbn [app]. split; [apply T_prefix; [now apply prefix_bp_in|exact He]|].
        split; [lens|]. cbn [noerr forallb]. exact Hfl. }
    destruct (HM HN f) as (kk & fs & r' & H1 & H2 & H3). exists kk, fs, r'. rewrite (bind_run _ _ _ _ _ H1). auto. }
  assert (Hpost : forall (m : D (option (nat * bool))) ,
    (exists k fs r1 cc, m (mkDS rem f) = Ok (Some (length f, cc), mkDS r1 (f ++ [PNode k fs])) /\ rem = fkinds fs ++ r1 /\
       Tree false (NPost cc) [PNode k fs] /\ length r1 < length rem) \/
    (exists f' rem', m (mkDS rem f) = Ok (None, mkDS rem' (f ++ f')) /\ rem = fkinds f' ++ rem' /\ expr_n rem f' rem') ->
    (exists k fs rem', @bind TO _ _ m (fun o => match o with None => @ret TO _ None | Some (l, cc) =>
         c <- @postfix_expr TO n expr_bp n l cc ;; @ret TO _ (Some c) end) (mkDS rem f) = Ok (Some (length f), mkDS rem' (f ++ [PNode k fs])) /\
       rem = fkinds fs ++ rem' /\ (Tree false NLhs [PNode k fs] /\ length rem' < length rem /\ (noerr (PNode k fs) = true -> hd0 rem' <> KLBracket))) \/
    (exists f' rem', @bind TO _ _ m (fun o => match o with None => @ret TO _ None | Some (l, cc) =>
         c <- @postfix_expr TO n expr_bp n l cc ;; @ret TO _ (Some c) end) (mkDS rem f) = Ok (None, mkDS rem' (f ++ f')) /\
       rem = fkinds f' ++ rem' /\ expr_n rem f' rem')).
  { intros m [(k & fs & r1 & cc & H1 & H2 & H3 & H4)|(f' & r1 & H1 & H2 & H3)].
    - left. rewrite (bind_run _ _ _ _ _ H1).
      destruct (postfix_run n (PNode k fs) cc r1 f I H3) as (t' & r' & G1 & G2 & G3 & (c & G4) & G5 & G6).
      + rewrite H2 in HN. now apply NEof_app in HN.
      + lia.
      + lia.
      + rewrite (bind_run _ _ _ _ _ G1). destruct t' as [| | |k' fs']; try contradiction.
        exists k', fs', r'. split; [reflexivity|]. rewrite !pkinds_node in G3. split; [congruence|].
        split; [now apply (T_post _ c)|]. split; [lia|auto].
    - right. rewrite (bind_run _ _ _ _ _ H1). exists f', r1. auto. }
  apply Hpost. clear Hpost. unfold atom_expr.
  rewrite cur_run. cbv beta zeta.
  change (0 <? prefix_binding_power (hd0 rem)) with (NOT_AN_OP <? prefix_binding_power (hd0 rem)). rewrite Ep.
  rewrite at_run. cbn [pacc_test].
  assert (HM : forall (m : D nat) cc, TrM m rem (fun t r => Tree false (NPost cc) [t] /\ length r < length rem) ->
     exists k fs r1 cc', (@bind TO _ _ m (fun c => @ret TO _ (Some (c, cc)))) (mkDS rem f) = Ok (Some (length f, cc'), mkDS r1 (f ++ [PNode k fs])) /\ rem = fkinds fs ++ r1 /\
       Tree false (NPost cc') [PNode k fs] /\ length r1 < length rem).
  { intros m cc H. destruct (H HN f) as (k & fs & r & H1 & H2 & H3 & H4). exists k, fs, r, cc.
    rewrite (bind_run _ _ _ _ _ H1). auto. }
  destruct (ts_contains LITERAL_FIRST (hd0 rem)) eqn:El.
  { left. apply HM. apply TrM_literal; [exact El|]. intros r' Hi Hl. split; [now apply T_literal|exact Hl]. }
  rewrite cur_run. cbv beta zeta.
  destruct (kind_eqb (hd0 rem) KFunctionKw) eqn:E1.
  { left. apply kind_eqb_true in E1. destruct (hd0_cons _ _ E1) as [r ->]; [discriminate|]. apply HM.
    apply TrM_function_expr; [lens|]. intros t r' Ht Hl. split; [exact Ht|cbn; lia]. }
  destruct (kind_eqb (hd0 rem) KLBrace) eqn:E2.
  { left. apply kind_eqb_true in E2. destruct (hd0_cons _ _ E2) as [r ->]; [discriminate|]. apply HM.
    apply TrM_table_expr; [lens|]. intros fs rb r' Hf Hr He. split; [now apply T_table|]. cbn; lia. }
  destruct (kind_eqb (hd0 rem) KIdent) eqn:E3.
  { left. apply kind_eqb_true in E3. destruct (hd0_cons _ _ E3) as [r ->]; [discriminate|]. apply HM.
    apply TrM_name_ref. intros nm r' Hnm He Hi. rewrite Hi in He |- * by reflexivity. split; [apply T_nameref_expr|]. injection He as ->. cbn; lia. }
  destruct (kind_eqb (hd0 rem) KLParen) eqn:E4.
  { left. apply kind_eqb_true in E4. destruct (hd0_cons _ _ E4) as [r ->]; [discriminate|]. apply HM.
    apply TrM_paren_expr; [lens|]. intros t r' Ht Hl. split; [exact Ht|cbn; lia]. }
  right.
  assert (Hf : ts_contains EXPR_FIRST (hd0 rem) = false).
  { destruct (ts_contains EXPR_FIRST (hd0 rem)) eqn:Ef; [|reflexivity]. exfalso.
    apply kind_eqb_neq in E1, E2, E3, E4.
    destruct (not_first _ Ef) as [Hu|[Hl|[H|[H|[H|H]]]]]; try congruence.
    - destruct Hu as [H|[H|[H|[]]]]; rewrite <- H in Ep; discriminate Ep.
    - cbn [In literals] in Hl. decompose [or] Hl; try contradiction; rewrite <- H in El || rewrite <- H0 in El; discriminate El. }
  assert (HR : Tr (@p_err_recover TO "Expected an expression" EXPR_RECOVERY_SET ;; @ret TO (option (nat * bool)) None) rem
     (fun a f' r => a = None /\ expr_n rem f' r)).
  { apply Tr_bind. apply Tr_err_recover. intros f' r' He _ _ _ _. apply Tr_ret. rewrite app_nil_r. split; [reflexivity|]. split; assumption. }
  destruct (HR HN f) as (a & f' & r & H1 & H2 & -> & H3). exists f', r. auto.
Qed.

Lemma infix_bp_r k l r : infix_binding_power k = (l, r) -> LOWEST <= l -> LOWEST <= r.
Proof. destruct k; vm_compute; intros [= <- <-] H; lia. Qed.

Lemma infix_run : forall m b t r f, LOWEST <= b -> isnode t -> Tree false NExpr [t] -> NEof r -> length r < m ->
  2 * length r <= n -> (noerr t = true -> hd0 r <> KLBracket) ->
  exists t' r', @infix_loop TO expr_bp m b (length f) (mkDS r (f ++ [t])) = Ok (length f, mkDS r' (f ++ [t'])) /\
    isnode t' /\ pkinds t ++ r = pkinds t' ++ r' /\ Tree false NExpr [t'] /\
    (noerr t' = true -> hd0 r' <> KLBracket) /\ length r' <= length r.
Proof.
  induction m as [|m IH]; intros b t r f Hb Ht HT HN Hm Hn Hfl; [lia|].
  cbn [infix_loop].
  rewrite cur_run. cbv beta zeta.
  destruct (infix_binding_power (hd0 r)) as [lb rb] eqn:Ei.
  destruct (lb <? b) eqn:El.
  { exists t, r. split; [reflexivity|]. auto 7. }
  apply Nat.ltb_ge in El.
  destruct r as [|k r]; [cbn [nth] in Ei; vm_compute in Ei; injection Ei as <- <-; unfold LOWEST in Hb; lia|]. cbn [nth] in *.
  assert (Hbump : @p_bump TO PAny (mkDS (k :: r) (f ++ [t])) = Ok (tt, mkDS r ((f ++ [t]) ++ [PTok k]))).
  { assert (H : Tr (@p_bump TO PAny) (k :: r) (fun _ f' r' => f' = [PTok k] /\ r' = r)) by (now apply Tr_bump_any).
    destruct (H HN (f ++ [t])) as ([] & f' & r' & H1 & _ & -> & ->). exact H1. }
  rewrite (bind_run _ _ _ _ _ Hbump), <- app_assoc. cbn [app].
  cbn [length] in *.
  destruct (pre_node_run t [PTok k] KInfixExpr (expr_bp rb) r f
     (fun fs r' => Tree false NExprO fs /\ (noerrs fs = true -> hd0 r' <> KLBracket)) Ht (NEof_tail _ _ HN)) as (fs & r1 & H1 & He & HT1 & Hf1).
  { apply Tr_expr; [apply (infix_bp_r _ _ _ Ei); lia|lia|]. auto. }
  rewrite (bind_run _ _ _ _ _ H1). cbn [app].
  destruct (IH b (PNode KInfixExpr (t :: PTok k :: fs)) r1 f Hb I) as (t' & r' & G1 & G2 & G3 & G4 & G5 & G6).
  - apply T_infix; [exact HT| |exact HT1]. apply (infix_bp_in _ _ _ Ei). lia.
  - apply NEof_tail in HN. rewrite He in HN. now apply NEof_app in HN.
  - lens.
  - lens.
  - cbn [noerr forallb]. intros H. apply andb_true_iff in H as [_ H]. now apply Hf1.
  - exists t', r'. split; [exact G1|]. split; [exact G2|]. split; [|split; [exact G4|split; [exact G5|lens]]].
    rewrite <- G3, He, pkinds_node, !fkinds_cons, <- !app_assoc. reflexivity.
Qed.

Lemma TrO_expr_bp_body b rem : LOWEST <= b -> 2 * length rem <= n ->
  TrO (@expr_bp_body TO n stmt expr_bp b) rem (expr_q rem) (expr_n rem).
Proof.
  intros Hb Hn HN f. unfold expr_bp_body.
  destruct (TrO_lhs rem Hn HN f) as [(k & fs & r & H1 & H2 & H3 & H4 & H5)|(f' & r & H1 & H2 & H3)].
  - left. rewrite (bind_run _ _ _ _ _ H1).
    destruct (infix_run n b (PNode k fs) r f Hb I) as (t' & r' & G1 & G2 & G3 & G4 & G5 & G6).
    + now apply T_expr_lhs.
    + rewrite H2 in HN. now apply NEof_app in HN.
    + lia.
    + lia.
    + exact H5.
    + rewrite (bind_run _ _ _ _ _ G1). destruct t' as [| | |k' fs']; try contradiction.
      exists k', fs', r'. rewrite !pkinds_node in G3. split; [reflexivity|]. split; [congruence|].
      split; [exact G4|]. split; [lia|exact G5].
  - right. rewrite (bind_run _ _ _ _ _ H1). exists f', r. auto.
Qed.

(** ** Statements. The hypothesis is the fuel left inside [stmt_f (S n)]. *)
Lemma Tr_else_branch r (Q : unit -> forest -> list kind -> Prop) : 2 * length r + 2 <= n ->
  (forall f r', Tree false NElse f -> length r' <= length r -> Q tt f r') ->
  Tr (@else_branch TO n stmt) (KElseKw :: r) Q.
Proof.
  intros Hn HQ. apply Tr_node. apply Tr_bind. apply Tr_bump; [reflexivity|]. intros _ _.
  apply Tr_eq. apply Tr_block; [lia|]. intros b r2 Hb He _. cbn [app]. apply HQ; [now apply T_else|lens].
Qed.

Lemma Tr_else_tail (m : D unit) rem (Q : unit -> forest -> list kind -> Prop) : 2 * length rem <= n ->
  (hd0 rem = KElseifKw -> Tr m rem (fun _ f r' => Tree false NElse f /\ length r' <= length rem)) ->
  (forall f r', Tree false NElse f -> length r' <= length rem -> Q tt f r') ->
  Tr (c <- @p_current TO ;;
      if kind_eqb c KElseifKw then m
      else if kind_eqb c KElseKw then @else_branch TO n stmt else @ret TO _ tt) rem Q.
Proof.
  intros Hn Hm HQ. apply Tr_cur. destruct (kind_eqb (hd0 rem) KElseifKw) eqn:E1.
  - apply kind_eqb_true in E1. refine (Tr_conseq _ _ _ _ (Hm E1) _). intros [] f r _ [H1 H2]. now apply HQ.
  - destruct (kind_eqb (hd0 rem) KElseKw) eqn:E2.
    + apply kind_eqb_true in E2. destruct (hd0_cons _ _ E2) as [r ->]; [discriminate|].
      cbn [length] in *. apply Tr_else_branch; [lia|]. intros f r' Hf Hl. apply HQ; [exact Hf|cbn; lia].
    + apply Tr_ret. apply HQ; [constructor|lia].
Qed.

Lemma Tr_elseif : forall m r (Q : unit -> forest -> list kind -> Prop), length r < m -> 2 * length r + 2 <= n ->
  (forall f r', Tree false NElse f -> length r' <= length r -> Q tt f r') ->
  Tr (@elseif_branch TO n stmt expr_bp m) (KElseifKw :: r) Q.
Proof.
  induction m as [|m IH]; intros r Q Hm Hn HQ; [lia|]. cbn [elseif_branch].
  apply Tr_node. apply Tr_bind. apply Tr_bump; [reflexivity|]. intros _ _.
  apply Tr_bind. apply Tr_expr_single; [lia|]. intros _ c r1 Hc _ _ He1 _.
  apply Tr_bind. apply Tr_req; [discriminate|]. intros _ th r2 Hth He2 _.
  apply Tr_bind. apply Tr_block; [lens|]. intros b r3 Hb He3 _.
  apply Tr_else_tail; [lens| |].
  - intros Hh. destruct (hd0_cons _ _ Hh) as [r4 ->]; [discriminate|]. apply IH; [lens|lens|].
    intros f r' Hf Hl. split; [exact Hf|cbn; lia].
  - intros e r' Hel Hl. cbn [app]. apply HQ; [now apply T_elseif|lens].
Qed.

Lemma Tr_if_stmt r (Q : unit -> forest -> list kind -> Prop) : 2 * length r + 2 <= n ->
  stmt_q (KIfKw :: r) Q -> Tr (@if_stmt TO n stmt expr_bp) (KIfKw :: r) Q.
Proof.
  intros Hn HQ. apply Tr_node. apply Tr_bind. apply Tr_bump; [reflexivity|]. intros _ _.
  apply Tr_bind. apply Tr_expr_single; [lia|]. intros _ c r1 Hc _ _ He1 _.
  apply Tr_bind. apply Tr_req; [discriminate|]. intros _ th r2 Hth He2 _.
  apply Tr_bind. apply Tr_block; [lens|]. intros b r3 Hb He3 _.
  apply Tr_bind. apply Tr_else_tail; [lens| |].
  - intros Hh. destruct (hd0_cons _ _ Hh) as [r4 ->]; [discriminate|]. apply Tr_elseif; [lens|lens|].
    intros f r' Hf Hl. split; [exact Hf|cbn; lia].
  - intros e r4 Hel Hl _ _. apply Tr_eq. apply Tr_req; [discriminate|]. intros _ en r5 Hen He5 _. cbn [app].
    apply HQ; [now apply T_if|lens].
Qed.

Lemma Tr_while_stmt r (Q : unit -> forest -> list kind -> Prop) : 2 * length r + 2 <= n ->
  stmt_q (KWhileKw :: r) Q -> Tr (@while_stmt TO n stmt expr_bp) (KWhileKw :: r) Q.
Proof.
  intros Hn HQ. apply Tr_node. apply Tr_bind. apply Tr_bump; [reflexivity|]. intros _ _.
  apply Tr_bind. apply Tr_expr_single; [lia|]. intros _ c r1 Hc _ _ He1 _.
  apply Tr_bind. apply Tr_req; [discriminate|]. intros _ th r2 Hth He2 _.
  apply Tr_bind. apply Tr_block; [lens|]. intros b r3 Hb He3 _.
  apply Tr_eq. apply Tr_req; [discriminate|]. intros _ en r5 Hen He5 _. cbn [app].
  apply HQ; [now apply T_while|lens].
Qed.

Lemma Tr_for_content rem (Q : unit -> forest -> list kind -> Prop) : 2 * length rem + 2 <= n ->
  (forall c r', Tree false NFor c -> Q tt [PNode KForContent c] r') ->
  Tr (@for_content TO n expr_bp) rem Q.
Proof.
  intros Hn HQ. apply Tr_node. apply Tr_at. cbn [pacc_test]. destruct (kind_eqb (hd0 rem) KIdent) eqn:Ei.
  - apply kind_eqb_true in Ei. destruct (hd0_cons _ _ Ei) as [r ->]; [discriminate|]. apply Tr_nth. cbn [nth].
    destruct (kind_eqb (hd0 r) KEq) eqn:Eq.
    + apply kind_eqb_true in Eq. destruct (hd0_cons _ _ Eq) as [r2 ->]; [discriminate|].
      unfold numeric_for. apply Tr_bind. apply Tr_at. cbn [pacc_test nth]. apply Tr_ret. intros _ _.
      apply Tr_node. apply Tr_bind. unfold name. apply Tr_at. cbn [pacc_test nth].
      apply Tr_node. apply Tr_bump; [reflexivity|]. intros _ _.
      apply Tr_bind. apply Tr_bump; [reflexivity|]. intros _ _. unfold expr.
      apply Tr_expr_multi; [lens|]. intros e r3 He _. cbn [app]. apply HQ. now apply T_for_num.
    + unfold generic_for. apply Tr_bind. apply Tr_at. cbn [pacc_test nth]. apply Tr_ret. intros _ _.
      apply Tr_node. apply Tr_bind. apply Tr_multi_name; [lens|]. intros ns r1 Hns He1 _.
      apply Tr_bind. apply Tr_req; [discriminate|]. intros _ i r2 Hi He2 _.
      apply Tr_expr_single; [lens|]. intros _ e r3 He _ _. cbn [app]. apply HQ. apply T_for_gen; auto.
      destruct Hns as [Hns|[H _]]; [exact Hns|discriminate H].
  - apply Tr_perror. apply HQ. apply T_for_err. apply is_err_mark.
Qed.

Lemma Tr_for_stmt r (Q : unit -> forest -> list kind -> Prop) : 2 * length r + 2 <= n ->
  stmt_q (KForKw :: r) Q -> Tr (@for_stmt TO n stmt expr_bp) (KForKw :: r) Q.
Proof.
  intros Hn HQ. apply Tr_node. apply Tr_bind. apply Tr_bump; [reflexivity|]. intros _ _.
  apply Tr_bind. apply Tr_for_content; [lia|]. intros c r1 Hc He1 _.
  apply Tr_bind. apply Tr_req; [discriminate|]. intros _ th r2 Hth He2 _.
  apply Tr_bind. apply Tr_block; [lens|]. intros b r3 Hb He3 _.
  apply Tr_eq. apply Tr_req; [discriminate|]. intros _ en r5 Hen He5 _.
  apply HQ; [now apply T_for|lens].
Qed.

Lemma Tr_repeat_stmt r (Q : unit -> forest -> list kind -> Prop) : 2 * length r + 2 <= n ->
  stmt_q (KRepeatKw :: r) Q -> Tr (@repeat_until_stmt TO n stmt expr_bp) (KRepeatKw :: r) Q.
Proof.
  intros Hn HQ. apply Tr_node. apply Tr_bind. apply Tr_bump; [reflexivity|]. intros _ _.
  apply Tr_bind. apply Tr_block; [lens|]. intros b r3 Hb He3 _.
  apply Tr_bind. apply Tr_req; [discriminate|]. intros _ th r2 Hth He2 _.
  apply Tr_eq. apply Tr_expr_single; [lens|]. intros _ c r1 Hc _ _ He1 _. cbn [app].
  apply HQ; [now apply T_repeat|lens].
Qed.

Lemma Tr_do_stmt r (Q : unit -> forest -> list kind -> Prop) : 2 * length r + 2 <= n ->
  stmt_q (KDoKw :: r) Q -> Tr (@do_stmt TO n stmt) (KDoKw :: r) Q.
Proof.
  intros Hn HQ. apply Tr_node. apply Tr_bind. apply Tr_bump; [reflexivity|]. intros _ _.
  apply Tr_bind. apply Tr_block; [lens|]. intros b r3 Hb He3 _.
  apply Tr_eq. apply Tr_req; [discriminate|]. intros _ th r2 Hth He2 _. cbn [app].
  apply HQ; [now apply T_do|lens].
Qed.

Lemma Tr_expr_stmt rem (Q : unit -> forest -> list kind -> Prop) : 2 * length rem + 1 <= n ->
  ts_contains EXPR_FIRST (hd0 rem) = true -> stmt_q rem Q -> Tr (@expr_stmt TO n expr_bp) rem Q.
Proof.
  intros Hn Hf HQ. unfold expr_stmt. apply Tr_bindM. apply TrM_node_by. apply Tr_bind. apply Tr_expr_multi; [lia|].
  intros l r1 Hl Hp He1 _. apply Tr_bind. destruct (kind_eqb (hd0 r1) KEq) eqn:Eq.
  - apply kind_eqb_true in Eq. destruct (hd0_cons _ _ Eq) as [r2 ->]; [discriminate|].
    apply Tr_accept_yes; [reflexivity|]. intros _ _. apply Tr_bind. apply Tr_expr_multi; [lens|].
    intros e r3 He _ He3 _. apply Tr_ret. intros _ _. apply Tr_ret. cbn [app]. rewrite app_nil_r.
    apply HQ; [now apply T_assign|lens].
  - apply Tr_accept_no; [exact Eq|]. intros _ _. apply Tr_ret. intros _ _. apply Tr_ret. rewrite !app_nil_r.
    apply HQ; [now apply T_expr_stmt|auto].
Qed.

Lemma Tr_return_stmt r (Q : unit -> forest -> list kind -> Prop) : 2 * length r + 1 <= n ->
  stmt_q (KReturnKw :: r) Q -> Tr (@return_stmt TO n expr_bp) (KReturnKw :: r) Q.
Proof.
  intros Hn HQ. apply Tr_node. apply Tr_bind. apply Tr_bump; [reflexivity|]. intros _ _.
  apply Tr_at. cbn [pacc_test]. destruct (ts_contains EXPR_FIRST (hd0 r)) eqn:Ef.
  - apply Tr_expr_multi; [lia|]. intros e r1 He Hp. specialize (Hp Ef). cbn [app]. apply HQ; [now apply T_return_val|cbn; lia].
  - apply Tr_ret. cbn [app]. apply HQ; [now apply T_return|cbn; lia].
Qed.

Lemma Tr_local_assign r (Q : unit -> forest -> list kind -> Prop) : 2 * length r + 1 <= n ->
  stmt_q (KLocalKw :: r) Q -> Tr (@local_assign_stmt TO n expr_bp) (KLocalKw :: r) Q.
Proof.
  intros Hn HQ. apply Tr_node. apply Tr_bind. apply Tr_bump; [reflexivity|]. intros _ _.
  apply Tr_bind. apply Tr_multi_name; [lia|]. intros ns r1 Hns He1 _.
  assert (Hns' : Tree false NNames ns) by (destruct Hns as [Hns|[H _]]; [exact Hns|discriminate H]).
  apply Tr_bind. destruct (kind_eqb (hd0 r1) KEq) eqn:Eq.
  - apply kind_eqb_true in Eq. destruct (hd0_cons _ _ Eq) as [r2 ->]; [discriminate|].
    apply Tr_accept_yes; [reflexivity|]. intros _ _. apply Tr_eq. apply Tr_expr_multi; [lens|].
    intros e r3 He _ He3 _. cbn [app]. apply HQ; [now apply T_local_init|lens].
  - apply Tr_accept_no; [exact Eq|]. intros _ _. apply Tr_ret. rewrite !app_nil_r. cbn [app].
    apply HQ; [now apply T_local|lens].
Qed.

Lemma Tr_local_fun r (Q : unit -> forest -> list kind -> Prop) : 2 * length r + 2 <= n ->
  stmt_q (KLocalKw :: r) Q -> Tr (@local_function_def_stmt TO n stmt) (KLocalKw :: r) Q.
Proof.
  intros Hn HQ. apply Tr_node. apply Tr_bind. apply Tr_bump; [reflexivity|]. intros _ _.
  apply Tr_bind. apply Tr_req; [discriminate|]. intros _ fk r1 Hfk He1 _.
  apply Tr_bind. apply Tr_name_r. intros nm r2 Hnm _ He2 _.
  apply Tr_bind. apply Tr_param_list; [lens|]. intros p r3 Hp He3 _.
  apply Tr_bind. apply Tr_block; [lens|]. intros b r4 Hb He4 _.
  apply Tr_eq. apply Tr_req; [discriminate|]. intros _ th r5 Hth He5 _. cbn [app].
  apply HQ; [now apply T_local_fun|lens].
Qed.

Lemma Tr_fun_stmt r (Q : unit -> forest -> list kind -> Prop) : 2 * length r + 2 <= n ->
  stmt_q (KFunctionKw :: r) Q -> Tr (@function_def_stmt TO n stmt) (KFunctionKw :: r) Q.
Proof.
  intros Hn HQ. apply Tr_node. apply Tr_bind. apply Tr_expect; [discriminate|].
  intros _ f1 r1 _ He1 _ Hf1. rewrite Hf1 in He1 |- * by reflexivity.
  change (KFunctionKw :: r = KFunctionKw :: r1) in He1. injection He1 as <-. intros _ _.
  apply Tr_bind. apply Tr_function_def_content; [lia|]. intros nm r2 Hnm He2 _.
  apply Tr_bind. apply Tr_param_list; [lens|]. intros p r3 Hp He3 _.
  apply Tr_bind. apply Tr_block; [lens|]. intros b r4 Hb He4 _.
  apply Tr_eq. apply Tr_req; [discriminate|]. intros _ th r5 Hth He5 _. cbn [app].
  apply HQ; [now apply T_fun|lens].
Qed.

Lemma Tr_stmt_body rem (Q : unit -> forest -> list kind -> Prop) : 2 * length rem + 1 <= n ->
  (forall f sc r, Tree false NStmt f -> (rem <> [] -> existsb has_tok f = true) -> sc = [] \/ sc = [PTok KSemicolon] ->
     (rem <> [] -> length r < length rem) -> Q tt (f ++ sc) r) -> Tr (@stmt_body TO n stmt expr_bp) rem Q.
Proof.
  intros Hn HQ. unfold stmt_body. apply Tr_bind.
  assert (Hacc : forall (m : D unit),
    Tr m rem (fun _ f r => Tree false NStmt f /\ (rem <> [] -> length r < length rem)) ->
    Tr m rem (fun (_ : unit) f1 r1 => rem = fkinds f1 ++ r1 -> NEof r1 ->
      Tr (@p_accept TO (PKind KSemicolon) ;; @ret TO _ tt) r1 (fun b f2 r2 => Q b (f1 ++ f2) r2))).
  { intros m H. refine (Tr_conseq _ _ _ _ H _). intros [] f r _ [Hf Hl] He _. apply Tr_bind.
    assert (Hh : rem <> [] -> existsb has_tok f = true) by (intros H0; exact (has_tok_less _ _ _ He (Hl H0))).
    destruct (kind_eqb (hd0 r) KSemicolon) eqn:Eq.
    - apply kind_eqb_true in Eq. destruct (hd0_cons _ _ Eq) as [r2 ->]; [discriminate|].
      apply Tr_accept_yes; [reflexivity|]. intros _ _. apply Tr_ret. rewrite app_nil_r.
      apply HQ; [exact Hf|exact Hh|now right|]. intros H0. specialize (Hl H0). cbn [length] in Hl. lia.
    - apply Tr_accept_no; [exact Eq|]. intros _ _. apply Tr_ret. apply HQ; auto. }
  apply Hacc. clear Hacc HQ. apply Tr_cur.
  assert (HQ : stmt_q rem (fun _ f r => Tree false NStmt f /\ (rem <> [] -> length r < length rem))) by (intros f r Hf Hl; auto).
  set (QQ := fun (_ : unit) f r => Tree false NStmt f /\ (rem <> [] -> length r < length rem)) in *.
  Ltac kcase H r0 := match goal with |- Tr (if kind_eqb (hd0 ?rem) ?k then _ else _) ?rem _ =>
     destruct (kind_eqb (hd0 rem) k) eqn:H;
     [apply kind_eqb_true in H; destruct (hd0_cons _ _ H) as [r0 ->]; [discriminate|]; cbn [length] in *|] end.
  kcase E r. { apply Tr_if_stmt; [lia|exact HQ]. } clear E.
  kcase E r. { apply Tr_label_stmt. exact HQ. } clear E.
  kcase E r. { apply Tr_goto_stmt. exact HQ. } clear E.
  kcase E r. { unfold local_stmt. apply Tr_nth. destruct (kind_eqb (nth 1 (KLocalKw :: r) KEof) KFunctionKw).
    - apply Tr_local_fun; [lia|exact HQ].
    - apply Tr_local_assign; [lia|exact HQ]. } clear E.
  kcase E r. { apply Tr_repeat_stmt; [lia|exact HQ]. } clear E.
  kcase E r. { apply Tr_fun_stmt; [lia|exact HQ]. } clear E.
  kcase E r. { apply Tr_return_stmt; [lia|exact HQ]. } clear E.
  kcase E r. { apply Tr_do_stmt; [lia|exact HQ]. } clear E.
  kcase E r. { apply Tr_while_stmt; [lia|exact HQ]. } clear E.
  kcase E r. { apply Tr_for_stmt; [lia|exact HQ]. } clear E.
  kcase E r. { apply Tr_break_stmt. exact HQ. } clear E.
  kcase E r. { apply Tr_expr_stmt; [cbn [length]; lia|reflexivity|exact HQ]. } clear E.
  kcase E r. { apply Tr_expr_stmt; [cbn [length]; lia|reflexivity|exact HQ]. } clear E.
  assert (Hbump : forall msg, hd0 rem <> KEndKw -> Tr (@p_err_and_bump TO msg) rem QQ).
  { intros msg He. unfold p_err_and_bump. apply Tr_err_recover. intros f r Hf _ Hl.
    split; [now apply T_stmt_err|]. intros Hr. apply Hl; auto. }
  destruct (kind_eqb (hd0 rem) KSemicolon) eqn:Es.
  { apply Hbump. apply kind_eqb_true in Es. rewrite Es. discriminate. }
  apply Tr_at. cbn [pacc_test]. destruct (ts_contains LITERAL_FIRST (hd0 rem)) eqn:El.
  { apply Hbump. intros H. rewrite H in El. discriminate El. }
  kcase E r.
  - apply Tr_err_node. apply Tr_bind. apply Tr_bump; [reflexivity|]. intros _ _. apply Tr_ret. cbn [app].
    split; [apply T_stmt_err; apply (is_err_node [KEndKw])|]. cbn; lia.
  - apply Hbump. apply kind_eqb_neq in E. exact E.
Qed.
End Open.

(** ** The knot *)
Lemma knot : forall n,
  (forall rem (Q : unit -> forest -> list kind -> Prop), 2 * length rem + 2 <= n ->
    (forall f sc r, Tree false NStmt f -> (rem <> [] -> existsb has_tok f = true) -> sc = [] \/ sc = [PTok KSemicolon] ->
       (rem <> [] -> length r < length rem) -> Q tt (f ++ sc) r) -> Tr (@stmt_f TO n) rem Q) /\
  (forall b rem, LOWEST <= b -> 2 * length rem + 1 <= n -> TrO (@expr_f TO n b) rem (expr_q rem) (expr_n rem)).
Proof.
  induction n as [|n [IHs IHe]]; [split; intros; lia|]. split.
  - intros rem Q Hn HQ. cbn [stmt_f]. apply (Tr_stmt_body n _ _ IHs IHe); [lia|exact HQ].
  - intros b rem Hb Hn. cbn [expr_f]. apply (TrO_expr_bp_body n _ _ IHs IHe); [exact Hb|lia].
Qed.

(** The tree-building parser run on any sequence of tokens. *)
Theorem root_total n rem : 2 * length rem + 2 <= n -> NEof rem ->
  exists f, @root_f TO n (mkDS rem []) = Ok (tt, mkDS [] f) /\ fkinds f = rem /\ Tree false NSource f.
Proof.
  intros Hn HN. destruct (knot n) as [Hs _].
  assert (H : Tr (@root_f TO n) rem (fun _ f r => r = [] /\ Tree false NSource f)).
  { unfold root_f. apply (Tr_root n _ Hs); [exact Hn|]. auto. }
  destruct (H HN []) as ([] & f & r & H1 & H2 & -> & H3). exists f. rewrite app_nil_r in H2. auto.
Qed.

Theorem block_total n rem : 2 * length rem + 2 <= n -> NEof rem ->
  exists f r, @block_f TO n (mkDS rem []) = Ok (tt, mkDS r f) /\ rem = fkinds f ++ r /\ Tree false NBlock f /\
    ts_contains BLOCK_END (hd0 r) = true.
Proof.
  intros Hn HN. destruct (knot n) as [Hs _].
  assert (H : Tr (@block_f TO n) rem (fun _ f r => Tree false NBlock f /\ ts_contains BLOCK_END (hd0 r) = true)).
  { unfold block_f. apply (Tr_block_raw n _ Hs); [exact Hn|reflexivity|]. auto. }
  destruct (H HN []) as ([] & f & r & H1 & H2 & H3 & H4). exists f, r. auto.
Qed.
