(** ParserTotal.v — the tree-building parser is total, consumes tokens in order and produces trees
    of the grammar of GrammarSpec.v (not strict). *)
From Verif Require Import Base SyntaxKind TokenSet Lexer BindingPowers Parser Grammar Tree ParserTree SinkProofs GrammarSpec.

Notation hd0 r := (nth 0 r KEof).
Definition NEof (r : list kind) : Prop := ~ In KEof r.

Lemma NEof_tail k r : NEof (k :: r) -> NEof r.
Proof. unfold NEof; cbn; tauto. Qed.
Lemma NEof_app a r : NEof (a ++ r) -> NEof r.
Proof. unfold NEof; rewrite in_app_iff; tauto. Qed.
Lemma NEof_hd k r : NEof (k :: r) -> k <> KEof.
Proof. unfold NEof; cbn; intuition. Qed.
Lemma hd0_cons r k : hd0 r = k -> k <> KEof -> exists r', r = k :: r'.
Proof. destruct r as [|x r]; cbn; intros <- H; [congruence|eauto]. Qed.

Lemma fkinds_app a b : fkinds (a ++ b) = fkinds a ++ fkinds b.
Proof. apply flat_map_app. Qed.
Lemma fkinds_cons t f : fkinds (t :: f) = pkinds t ++ fkinds f.
Proof. reflexivity. Qed.
Lemma pkinds_node k fs : pkinds (PNode k fs) = fkinds fs.
Proof. reflexivity. Qed.
Lemma fkinds_node1 k fs : fkinds [PNode k fs] = fkinds fs.
Proof. unfold fkinds at 1. cbn [flat_map]. now rewrite pkinds_node, app_nil_r. Qed.

(** [Tr m rem Q]: run on the tokens [rem], [m] succeeds and appends a forest [f'] covering the
    tokens it consumed. *)
Definition Tr {A} (m : D A) (rem : list kind) (Q : A -> forest -> list kind -> Prop) : Prop :=
  NEof rem -> forall f, exists a f' rem',
    m (mkDS rem f) = Ok (a, mkDS rem' (f ++ f')) /\ rem = fkinds f' ++ rem' /\ Q a f' rem'.

(** The same for computations returning the mark of the one node they append. *)
Definition TrM (m : D nat) (rem : list kind) (Q : ptree -> list kind -> Prop) : Prop :=
  NEof rem -> forall f, exists k fs rem',
    m (mkDS rem f) = Ok (length f, mkDS rem' (f ++ [PNode k fs])) /\
    rem = fkinds fs ++ rem' /\ Q (PNode k fs) rem'.

(** An optional mark. *)
Definition TrO (m : D (option nat)) (rem : list kind) (Q : ptree -> list kind -> Prop)
  (QN : forest -> list kind -> Prop) : Prop :=
  NEof rem -> forall f,
    (exists k fs rem', m (mkDS rem f) = Ok (Some (length f), mkDS rem' (f ++ [PNode k fs])) /\
       rem = fkinds fs ++ rem' /\ Q (PNode k fs) rem') \/
    (exists f' rem', m (mkDS rem f) = Ok (None, mkDS rem' (f ++ f')) /\
       rem = fkinds f' ++ rem' /\ QN f' rem').

Notation TO := tree_ops.

Lemma Tr_conseq {A} (m : D A) rem (Q Q' : A -> forest -> list kind -> Prop) :
  Tr m rem Q -> (forall a f' r, rem = fkinds f' ++ r -> Q a f' r -> Q' a f' r) -> Tr m rem Q'.
Proof.
  intros H HQ HN f. destruct (H HN f) as (a & f' & r & H1 & H2 & H3). exists a, f', r. auto.
Qed.
Lemma TrM_conseq (m : D nat) rem (Q Q' : ptree -> list kind -> Prop) :
  TrM m rem Q -> (forall k fs r, rem = fkinds fs ++ r -> Q (PNode k fs) r -> Q' (PNode k fs) r) -> TrM m rem Q'.
Proof.
  intros H HQ HN f. destruct (H HN f) as (k & fs & r & H1 & H2 & H3). exists k, fs, r. auto.
Qed.

Lemma Tr_ret {A} (a : A) rem (Q : A -> forest -> list kind -> Prop) :
  Q a [] rem -> Tr (@ret TO A a) rem Q.
Proof. intros H _ f. exists a, [], rem. cbn. rewrite app_nil_r. auto. Qed.

Lemma Tr_bind {A B} (m : D A) (k : A -> D B) rem (Q : B -> forest -> list kind -> Prop) :
  Tr m rem (fun a f1 r1 => rem = fkinds f1 ++ r1 -> NEof r1 ->
              Tr (k a) r1 (fun b f2 r2 => Q b (f1 ++ f2) r2)) ->
  Tr (@bind TO A B m k) rem Q.
Proof.
  intros H HN f. destruct (H HN f) as (a & f1 & r1 & H1 & H2 & H3).
  assert (HN1 : NEof r1) by (rewrite H2 in HN; now apply NEof_app in HN).
  destruct (H3 H2 HN1 HN1 (f ++ f1)) as (b & f2 & r2 & G1 & G2 & G3).
  exists b, (f1 ++ f2), r2. cbn [bind TO tree_ops]. unfold tr_bind. rewrite H1. cbn [rbind fst snd].
  rewrite G1, <- app_assoc. split; [reflexivity|]. split; [|exact G3].
  rewrite fkinds_app, <- app_assoc, <- G2. exact H2.
Qed.

(** Sequencing after a node whose mark is dropped. *)
Lemma Tr_bindM {B} (m : D nat) (k : D B) rem (Q : B -> forest -> list kind -> Prop) :
  TrM m rem (fun t r1 => (forall k fs, t = PNode k fs -> rem = fkinds fs ++ r1) -> NEof r1 ->
              Tr k r1 (fun b f2 r2 => Q b (t :: f2) r2)) ->
  Tr (@bind TO nat B m (fun _ => k)) rem Q.
Proof.
  intros H HN f. destruct (H HN f) as (kk & fs & r1 & H1 & H2 & H3).
  assert (HN1 : NEof r1) by (rewrite H2 in HN; now apply NEof_app in HN).
  assert (H2' : forall k fs', PNode kk fs = PNode k fs' -> rem = fkinds fs' ++ r1) by (intros ? ? [= _ <-]; exact H2).
  destruct (H3 H2' HN1 HN1 (f ++ [PNode kk fs])) as (b & f2 & r2 & G1 & G2 & G3).
  exists b, (PNode kk fs :: f2), r2. cbn [bind TO tree_ops]. unfold tr_bind. rewrite H1. cbn [rbind fst snd].
  rewrite G1, <- app_assoc. split; [reflexivity|]. split; [|exact G3].
  rewrite fkinds_cons, pkinds_node, <- app_assoc, <- G2. exact H2.
Qed.

Lemma Tr_bindO {B} (m : D (option nat)) (k : D B) rem (Q : B -> forest -> list kind -> Prop) :
  TrO m rem (fun t r1 => (forall k fs, t = PNode k fs -> rem = fkinds fs ++ r1) -> NEof r1 ->
              Tr k r1 (fun b f2 r2 => Q b (t :: f2) r2))
            (fun f1 r1 => rem = fkinds f1 ++ r1 -> NEof r1 -> Tr k r1 (fun b f2 r2 => Q b (f1 ++ f2) r2)) ->
  Tr (@bind TO (option nat) B m (fun _ => k)) rem Q.
Proof.
  intros H HN f. destruct (H HN f) as [(kk & fs & r1 & H1 & H2 & H3)|(f1 & r1 & H1 & H2 & H3)].
  - assert (HN1 : NEof r1) by (rewrite H2 in HN; now apply NEof_app in HN).
    assert (H2' : forall k fs', PNode kk fs = PNode k fs' -> rem = fkinds fs' ++ r1) by (intros ? ? [= _ <-]; exact H2).
    destruct (H3 H2' HN1 HN1 (f ++ [PNode kk fs])) as (b & f2 & r2 & G1 & G2 & G3).
    exists b, (PNode kk fs :: f2), r2. cbn [bind TO tree_ops]. unfold tr_bind. rewrite H1. cbn [rbind fst snd].
    rewrite G1, <- app_assoc. split; [reflexivity|]. split; [|exact G3].
    rewrite fkinds_cons, pkinds_node, <- app_assoc, <- G2. exact H2.
  - assert (HN1 : NEof r1) by (rewrite H2 in HN; now apply NEof_app in HN).
    destruct (H3 H2 HN1 HN1 (f ++ f1)) as (b & f2 & r2 & G1 & G2 & G3).
    exists b, (f1 ++ f2), r2. cbn [bind TO tree_ops]. unfold tr_bind. rewrite H1. cbn [rbind fst snd].
    rewrite G1, <- app_assoc. split; [reflexivity|]. split; [|exact G3].
    rewrite fkinds_app, <- app_assoc, <- G2. exact H2.
Qed.

Lemma Tr_nth {B} n (k : kind -> D B) rem (Q : B -> forest -> list kind -> Prop) :
  Tr (k (nth n rem KEof)) rem Q -> Tr (@bind TO kind B (@p_nth TO n) k) rem Q.
Proof. intros H HN f. exact (H HN f). Qed.
Lemma Tr_cur {B} (k : kind -> D B) rem (Q : B -> forest -> list kind -> Prop) :
  Tr (k (hd0 rem)) rem Q -> Tr (@bind TO kind B (@p_current TO) k) rem Q.
Proof. intros H HN f. exact (H HN f). Qed.
Lemma Tr_at {B} a (k : bool -> D B) rem (Q : B -> forest -> list kind -> Prop) :
  Tr (k (pacc_test a (hd0 rem))) rem Q -> Tr (@bind TO bool B (@p_at TO a) k) rem Q.
Proof. intros H HN f. exact (H HN f). Qed.
Lemma Tr_at1 a rem (Q : bool -> forest -> list kind -> Prop) :
  Q (pacc_test a (hd0 rem)) [] rem -> Tr (@p_at TO a) rem Q.
Proof. intros H _ f. exists (pacc_test a (hd0 rem)), [], rem. rewrite app_nil_r. auto. Qed.

Lemma kind_eqb_true a b : kind_eqb a b = true -> a = b.
Proof. apply kind_eqb_eq. Qed.
Lemma kind_eqb_false a b : a <> b -> kind_eqb a b = false.
Proof. apply kind_eqb_neq. Qed.

Lemma adv_run k r f : k <> KEof -> @p_adv TO (mkDS (k :: r) f) = Ok (tt, mkDS r (f ++ [PTok k])).
Proof.
  intros H. cbn. unfold tr_adv. cbn [ds_rem ds_for]. now rewrite kind_eqb_false.
Qed.

Lemma Tr_adv k r (Q : unit -> forest -> list kind -> Prop) :
  Q tt [PTok k] r -> Tr (@p_adv TO) (k :: r) Q.
Proof.
  intros H HN f. exists tt, [PTok k], r. rewrite adv_run by (now apply NEof_hd in HN). auto.
Qed.

Lemma Tr_accept_yes a k r (Q : bool -> forest -> list kind -> Prop) :
  pacc_test a k = true -> Q true [PTok k] r -> Tr (@p_accept TO a) (k :: r) Q.
Proof.
  intros Ht HQ. unfold p_accept. apply Tr_at. cbn [nth]. rewrite Ht. apply Tr_bind. apply Tr_adv.
  intros _ _. apply Tr_ret. exact HQ.
Qed.
Lemma Tr_accept_no a rem (Q : bool -> forest -> list kind -> Prop) :
  pacc_test a (hd0 rem) = false -> Q false [] rem -> Tr (@p_accept TO a) rem Q.
Proof. intros Ht HQ. unfold p_accept. apply Tr_at. rewrite Ht. now apply Tr_ret. Qed.

Lemma Tr_bump a k r (Q : unit -> forest -> list kind -> Prop) :
  pacc_test a k = true -> Q tt [PTok k] r -> Tr (@p_bump TO a) (k :: r) Q.
Proof.
  intros Ht HQ. unfold p_bump. apply Tr_bind. apply Tr_accept_yes; [exact Ht|]. intros _ _.
  unfold passert. apply Tr_ret. exact HQ.
Qed.
Lemma Tr_bump_any k r (Q : unit -> forest -> list kind -> Prop) :
  Q tt [PTok k] r -> Tr (@p_bump TO PAny) (k :: r) Q.
Proof.
  intros HQ HN. apply Tr_bump; [|exact HQ|exact HN]. apply NEof_hd in HN. cbn. now rewrite kind_eqb_false.
Qed.

Lemma Tr_error e rem (Q : unit -> forest -> list kind -> Prop) :
  Q tt [PErr e] rem -> Tr (@p_push_error TO e) rem Q.
Proof. intros H _ f. exists tt, [PErr e], rem. auto. Qed.

Lemma Tr_perror m rem (Q : unit -> forest -> list kind -> Prop) :
  Q tt [PErr (PMsg m)] rem -> Tr (@p_error TO m) rem Q.
Proof. apply Tr_error. Qed.

Lemma Tr_expect k rem (Q : bool -> forest -> list kind -> Prop) : k <> KEof ->
  (forall b f' r', req false k f' -> rem = fkinds f' ++ r' -> length r' <= length rem ->
     (hd0 rem = k -> f' = [PTok k]) -> Q b f' r') ->
  Tr (@p_expect TO k) rem Q.
Proof.
  intros Hk HQ. unfold p_expect. apply Tr_cur. destruct (kind_eqb (hd0 rem) k) eqn:E.
  - apply kind_eqb_true in E. destruct (hd0_cons _ _ E Hk) as [r ->].
    apply Tr_bind. apply Tr_bump_any. intros _ _. apply Tr_ret.
    apply HQ; [now left|reflexivity|cbn; lia|reflexivity].
  - apply Tr_bind. apply Tr_error. intros _ _. apply Tr_ret. apply HQ; [right; split; [reflexivity|eexists; reflexivity]|reflexivity|cbn; lia|].
    intros H. apply kind_eqb_neq in E. congruence.
Qed.

Lemma TrM_node_by (body : D kind) rem (Q : ptree -> list kind -> Prop) :
  Tr body rem (fun k f' r' => Q (PNode k f') r') -> TrM (@node_by TO body) rem Q.
Proof.
  intros H HN f. destruct (H HN []) as (k & f' & r' & H1 & H2 & H3). exists k, f', r'.
  cbn [node_by TO tree_ops]. unfold tr_node. cbn [ds_rem ds_for]. rewrite H1. cbn [rbind ds_rem ds_for app].
  auto.
Qed.

Lemma TrM_node {A} k (body : D A) rem (Q : ptree -> list kind -> Prop) :
  Tr body rem (fun _ f' r' => Q (PNode k f') r') -> TrM (@node TO A k body) rem Q.
Proof.
  intros H. apply TrM_node_by. apply Tr_bind. eapply Tr_conseq; [exact H|]. cbn beta.
  intros a f' r _ HQ _ _. apply Tr_ret. now rewrite app_nil_r.
Qed.

Lemma Tr_node {A} k (body : D A) rem (Q : unit -> forest -> list kind -> Prop) :
  Tr body rem (fun _ f' r' => Q tt [PNode k f'] r') -> Tr (@node_ TO A k body) rem Q.
Proof.
  intros H. unfold node_. apply Tr_bindM. apply TrM_node. eapply Tr_conseq; [exact H|].
  intros a f' r _ HQ _ _. apply Tr_ret. exact HQ.
Qed.

Lemma Tr_err_node (body : D perr) rem (Q : unit -> forest -> list kind -> Prop) :
  Tr body rem (fun e f' r' => Q tt [PErrN f' e] r') -> Tr (@err_node TO body) rem Q.
Proof.
  intros H HN f. destruct (H HN []) as (e & f' & r' & H1 & H2 & H3). exists tt, [PErrN f' e], r'.
  cbn [err_node TO tree_ops]. unfold tr_err_node. cbn [ds_rem ds_for]. rewrite H1. cbn [rbind ds_rem ds_for app].
  split; [reflexivity|]. split; [|exact H3]. unfold fkinds. cbn [flat_map pkinds]. now rewrite app_nil_r.
Qed.

Lemma bind_run {A B} (m : D A) (k : A -> D B) st a st' : m st = Ok (a, st') -> @bind TO A B m k st = k a st'.
Proof. intros H. cbn [bind TO tree_ops]. unfold tr_bind. now rewrite H. Qed.

(** [pre_node_by] on a node followed by [pre]. *)
Lemma pre_run f t pre rem (body : D kind) k fs r' : (match t with PNode _ _ => True | _ => False end) ->
  body (mkDS rem []) = Ok (k, mkDS r' fs) ->
  @pre_node_by TO (length f) body (mkDS rem (f ++ t :: pre)) =
  Ok (length f, mkDS r' (f ++ [PNode k (t :: pre ++ fs)])).
Proof.
  intros Ht H. cbn [pre_node_by TO tree_ops]. unfold tr_pre. cbn [ds_rem ds_for].
  rewrite skipn_app, skipn_all, Nat.sub_diag. cbn [skipn app].
  destruct t as [| | |kt ft]; try contradiction. rewrite H. cbn [rbind ds_rem ds_for].
  rewrite firstn_app, firstn_all, Nat.sub_diag. cbn [firstn]. now rewrite app_nil_r.
Qed.

(** Loops: each turn that continues consumes at least one token. *)
Lemma Tr_loop (Inv : forest -> list kind -> Prop) (Post : forest -> list kind -> Prop) rem0 (body : D bool) :
  (forall f1 r1, rem0 = fkinds f1 ++ r1 -> Inv f1 r1 -> NEof r1 ->
     Tr body r1 (fun b f2 r2 => if b then length r2 < length r1 /\ Inv (f1 ++ f2) r2 else Post (f1 ++ f2) r2)) ->
  forall n f1 r1, rem0 = fkinds f1 ++ r1 -> Inv f1 r1 -> length r1 < n ->
    Tr (@p_loop TO n body) r1 (fun _ f2 r2 => Post (f1 ++ f2) r2).
Proof.
  intros Hb. induction n as [|n IH]; intros f1 r1 He Hi Hn HN; [lia|]. cbn [p_loop].
  revert HN. apply Tr_bind. intros HN.
  refine (Tr_conseq _ _ _ _ (Hb f1 r1 He Hi HN) _ HN).
  intros b f2 r2 He2 Hq He2' HN2. destruct b.
  - destruct Hq as [Hl Hi2]. eapply Tr_conseq; [apply (IH (f1 ++ f2) r2)|].
    + rewrite fkinds_app, <- app_assoc, <- He2. exact He.
    + exact Hi2.
    + lia.
    + cbn beta. intros _ f3 r3 _ HP. now rewrite app_assoc.
  - apply Tr_ret. now rewrite app_nil_r.
Qed.

(** ** Error helpers *)
Lemma is_err_mark e : is_err false [PErr e].
Proof. split; [reflexivity|]. exists e. now left. Qed.
Lemma is_err_node ks e : is_err false [PErrN (map PTok ks) e].
Proof. split; [reflexivity|]. exists e. right. now exists ks. Qed.

Lemma Tr_err_recover m ts rem (Q : unit -> forest -> list kind -> Prop) :
  (forall f' r', is_err false f' -> length r' <= length rem ->
     (rem <> [] -> hd0 rem <> KEndKw -> ts_contains ts (hd0 rem) = false -> length r' < length rem) ->
     Q tt f' r') ->
  Tr (@p_err_recover TO m ts) rem Q.
Proof.
  intros HQ. unfold p_err_recover. apply Tr_cur. destruct (kind_eqb (hd0 rem) KEndKw) eqn:E.
  - apply kind_eqb_true in E. apply Tr_perror. apply HQ; [apply is_err_mark|lia|congruence].
  - apply kind_eqb_neq in E. apply Tr_at. cbn [pacc_test]. destruct (ts_contains ts (hd0 rem)) eqn:Et.
    + apply Tr_perror. apply HQ; [apply is_err_mark|lia|congruence].
    + apply Tr_err_node. apply Tr_bind. destruct rem as [|k r].
      * apply Tr_accept_no; [reflexivity|]. intros _ _. apply Tr_ret.
        apply HQ; [apply (is_err_node [])|lia|congruence].
      * intros HN. pose proof (NEof_hd _ _ HN) as Hk.
        assert (Ht : pacc_test PAny k = true) by (cbn; now rewrite kind_eqb_false).
        revert HN. apply Tr_accept_yes; [exact Ht|]. intros _ _. apply Tr_ret.
        apply HQ; [apply (is_err_node [k])|cbn; lia|cbn; lia].
Qed.

Lemma ts_empty_contains k : ts_contains ts_empty k = false.
Proof. destruct k; reflexivity. Qed.

Lemma TrM_Tr (m : D nat) rem (Q : nat -> forest -> list kind -> Prop) :
  TrM m rem (fun t r => forall a, Q a [t] r) -> Tr m rem Q.
Proof.
  intros H HN f. destruct (H HN f) as (k & fs & r & H1 & H2 & H3). exists (length f), [PNode k fs], r.
  split; [exact H1|]. split; [now rewrite fkinds_node1|apply H3].
Qed.

Ltac lens :=
  repeat match goal with
  | H : _ = fkinds _ ++ _ |- _ => apply (f_equal (@length kind)) in H; rewrite !app_length in H
  end; cbn [length] in *; lia.

(** The kinds in the token sets. *)
Ltac kinds k := destruct k; vm_compute; try tauto; try congruence; try discriminate.

Lemma LITERAL_FIRST_in k : ts_contains LITERAL_FIRST k = true -> In k literals.
Proof. kinds k. Qed.
Lemma TABLE_SEP_in k : ts_contains TABLE_SEP k = true -> k = KComma \/ k = KSemicolon.
Proof. kinds k. Qed.

(** ** Functions without recursion *)
Lemma Tr_name_unchecked r (Q : unit -> forest -> list kind -> Prop) : (Tree false NName [PNode KName [PTok KIdent]] -> Q tt [PNode KName [PTok KIdent]] r) ->
  Tr (@name_unchecked TO) (KIdent :: r) Q.
Proof. intros HQ. apply Tr_node. apply Tr_bump; [reflexivity|]. apply HQ. constructor. Qed.

Lemma Tr_name_r ts rem (Q : unit -> forest -> list kind -> Prop) :
  (forall f' r', Tree false NName f' -> (hd0 rem <> KIdent -> is_err false f') -> Q tt f' r') -> Tr (@name_r TO ts) rem Q.
Proof.
  intros HQ. unfold name_r. apply Tr_at. cbn [pacc_test].
  destruct (kind_eqb (hd0 rem) KIdent) eqn:E.
  - apply kind_eqb_true in E. destruct (hd0_cons _ _ E) as [r ->]; [discriminate|].
    apply Tr_name_unchecked. intros H. apply HQ; [exact H|cbn; congruence].
  - apply Tr_err_recover. intros f' r' He _ _. apply HQ; [now apply T_name_err|auto].
Qed.

Lemma Tr_name_ref_r ts rem (Q : unit -> forest -> list kind -> Prop) :
  (forall f' r', Tree false NNameRef f' -> Q tt f' r') -> Tr (@name_ref_r TO ts) rem Q.
Proof.
  intros HQ. unfold name_ref_r. apply Tr_at. cbn [pacc_test].
  destruct (kind_eqb (hd0 rem) KIdent) eqn:E.
  - apply kind_eqb_true in E. destruct (hd0_cons _ _ E) as [r ->]; [discriminate|].
    apply Tr_node. apply Tr_bump; [reflexivity|]. apply HQ. constructor.
  - apply Tr_err_recover. intros f' r' He _ _. apply HQ. now apply T_nameref_err.
Qed.

Lemma TrM_name_ref rem (Q : ptree -> list kind -> Prop) :
  (forall n r', req false KIdent n -> rem = fkinds n ++ r' -> (hd0 rem = KIdent -> n = [PTok KIdent]) -> Q (PNode KNameRef n) r') ->
  TrM (@name_ref TO) rem Q.
Proof.
  intros HQ. apply TrM_node. apply Tr_expect; [discriminate|]. intros b f' r' H He _ Hi. now apply HQ.
Qed.

(** What [multi_name_r] leaves: the node's children and what comes next. *)
Definition mname_post (va : bool) (c : forest) (r : list kind) : Prop :=
  Tree false NNames c \/
  (va = true /\ hd0 r = KTripleDot /\ (c = [] \/ exists ns, Tree false NNames ns /\ c = ns ++ [PTok KComma])).

Lemma Tree_name_tail_snoc t : Tree false NNameTail t -> forall n, Tree false NName n ->
  Tree false NNameTail (t ++ PTok KComma :: n).
Proof.
  remember NNameTail as x eqn:Ex. induction 1; try discriminate; intros n0 Hn.
  - rewrite <- (app_nil_r n0). apply T_names_cons; [exact Hn|constructor].
  - cbn [app]. rewrite <- app_assoc. apply T_names_cons; auto.
Qed.

Lemma Tr_multi_name n ts va rem (Q : unit -> forest -> list kind -> Prop) : length rem < n ->
  (forall c r', mname_post va c r' -> Q tt [PNode KMultiName c] r') ->
  Tr (@multi_name_r TO n ts va) rem Q.
Proof.
  intros Hn HQ. unfold multi_name_r. apply Tr_node. apply Tr_at. cbn [pacc_test].
  destruct (va && kind_eqb (hd0 rem) KTripleDot) eqn:E.
  - apply Tr_ret. apply HQ. right. apply andb_true_iff in E as [-> E]. apply kind_eqb_true in E. auto.
  - apply Tr_bind. apply Tr_name_r. intros f1 r1 H1 _ He1 HN1.
    apply (Tr_loop (fun f r => exists t, f = f1 ++ t /\ Tree false NNameTail t)
                   (fun f r => Q tt [PNode KMultiName f] r) rem) with (f1 := f1);
      [|exact He1|exists []; rewrite app_nil_r; split; [reflexivity|constructor]|lens].
    intros f2 r2 He2 (t & -> & Ht) HN2. apply Tr_at. cbn [pacc_test].
    destruct (kind_eqb (hd0 r2) KComma) eqn:Ec.
    + apply kind_eqb_true in Ec. destruct (hd0_cons _ _ Ec) as [r ->]; [discriminate|].
      apply Tr_bind. apply Tr_bump; [reflexivity|]. intros _ _. apply Tr_at. cbn [pacc_test].
      destruct (va && kind_eqb (hd0 r) KTripleDot) eqn:Ed.
      * apply Tr_ret. apply HQ. right. apply andb_true_iff in Ed as [-> Ed]. apply kind_eqb_true in Ed.
        split; [reflexivity|]. split; [exact Ed|]. right. exists (f1 ++ t). split; [|now rewrite app_nil_r].
        now apply T_names.
      * apply Tr_bind. apply Tr_name_r. intros f3 r3 H3 _ He3 HN3. apply Tr_ret. split; [lens|].
        exists (t ++ PTok KComma :: f3). split; [now rewrite app_nil_r, <- app_assoc|].
        now apply Tree_name_tail_snoc.
    + apply Tr_ret. rewrite app_nil_r. apply HQ. left. now apply T_names.
Qed.

Lemma Tr_param_list n rem (Q : unit -> forest -> list kind -> Prop) : length rem < n ->
  (forall f' r', Tree false NParamList f' -> Q tt f' r') -> Tr (@param_list TO n) rem Q.
Proof.
  intros Hn HQ. unfold param_list. apply Tr_node. apply Tr_bind.
  apply Tr_expect; [discriminate|]. intros _ l r1 Hl _ _ _ He1 HN1.
  assert (Hend : forall p r2, Tree false NParams p -> rem = fkinds (l ++ p) ++ r2 ->
     Tr (@p_expect TO KRParen) r2 (fun _ f3 r3 => Q tt [PNode KParamList (l ++ p ++ f3)] r3)).
  { intros p r2 Hp _. apply Tr_expect; [discriminate|]. intros _ r r3 Hr _ _ _. apply HQ.
    now apply T_param_list. }
  assert (Hdots : forall p0 r2, length r2 <= length r1 ->
     (hd0 r2 <> KTripleDot -> Tree false NParams p0) ->
     (forall x, x = [] \/ is_err false x -> hd0 r2 = KTripleDot -> Tree false NParams (p0 ++ PTok KTripleDot :: x)) ->
     Tr (b <- @p_at TO (PKind KTripleDot) ;;
         if b then @p_bump TO (PKind KTripleDot) ;;
                   c <- p_at (PKind KRParen) ;;
                   if c then ret tt else p_err_and_bump "Nothing can be after a vararg"
         else ret tt) r2 (fun _ f2 r3 => Tree false NParams (p0 ++ f2))).
  { intros p0 r2 Hlen Hno Hyes. apply Tr_at. cbn [pacc_test]. destruct (kind_eqb (hd0 r2) KTripleDot) eqn:Ed.
    - apply kind_eqb_true in Ed. destruct (hd0_cons _ _ Ed) as [r ->]; [discriminate|].
      apply Tr_bind. apply Tr_bump; [reflexivity|]. intros _ _. apply Tr_at.
      destruct (pacc_test (PKind KRParen) (hd0 r)).
      + apply Tr_ret. apply (Hyes []); auto.
      + unfold p_err_and_bump. apply Tr_err_recover. intros x r3 Hx _ _. apply Hyes; auto.
    - apply kind_eqb_neq in Ed. apply Tr_ret. rewrite app_nil_r. auto. }
  apply Tr_bind. apply Tr_at. cbn [pacc_test]. destruct (ts_contains PARAM_END (hd0 r1)) eqn:Ep.
  - apply Tr_ret. intros _ _. apply Tr_bind. eapply Tr_conseq; [apply (Hdots [] r1)|].
    + lia.
    + intros _. constructor.
    + intros x Hx Hd. rewrite Hd in Ep. discriminate Ep.
    + intros [] f2 r2 He2 Hp _ _. cbn [app] in *. eapply Tr_conseq; [apply (Hend f2 r2 Hp)|].
      * rewrite fkinds_app, <- app_assoc, <- He2. exact He1.
      * auto.
  - apply Tr_multi_name; [lens|]. intros c r2 Hc He2 _. apply Tr_bind.
    eapply Tr_conseq; [apply (Hdots [PNode KMultiName c] r2)|].
    + lens.
    + intros Hd. destruct Hc as [Hc|(_ & Hd' & _)]; [now apply T_params_names|contradiction].
    + intros x Hx Hd. destruct Hc as [Hc|(_ & _ & [->|(ns & Hns & ->)])].
      * now apply T_params_names_dots_nocomma.
      * now apply T_params_dots.
      * now apply T_params_names_dots.
    + intros [] f2 r3 He3 Hp _ _. eapply Tr_conseq; [apply (Hend _ r3 Hp)|].
      * rewrite !fkinds_app, <- !app_assoc, <- He3, <- He2. exact He1.
      * intros a3 f3 r4 _ H. exact H.
Qed.

Lemma TrM_literal rem (Q : ptree -> list kind -> Prop) : ts_contains LITERAL_FIRST (hd0 rem) = true ->
  (forall r', In (hd0 rem) literals -> length r' < length rem -> Q (PNode KLiteral [PTok (hd0 rem)]) r') ->
  TrM (@literal TO) rem Q.
Proof.
  intros H HQ. destruct rem as [|k r]; [discriminate H|]. cbn [nth] in *. unfold literal, passert.
  intros HN f. cbn [bind TO tree_ops p_at p_current p_nth ret].
  unfold tr_bind, tr_nth, tr_ret. cbn [rbind fst snd ds_rem nth pacc_test]. rewrite H. cbn [rbind fst snd].
  assert (HM : TrM (@node TO _ KLiteral (p_bump PAny)) (k :: r) Q).
  { apply TrM_node. apply Tr_bump_any. apply HQ; [now apply LITERAL_FIRST_in|cbn; lia]. }
  exact (HM HN f).
Qed.

Lemma Tr_table_sep rem (Q : unit -> forest -> list kind -> Prop) : ts_contains TABLE_SEP (hd0 rem) = true ->
  (forall r', (hd0 rem = KComma \/ hd0 rem = KSemicolon) -> length r' < length rem ->
     Q tt [PNode KTableSep [PTok (hd0 rem)]] r') -> Tr (@table_sep TO) rem Q.
Proof.
  intros H HQ. destruct rem as [|k r]; [discriminate H|]. cbn [nth] in *. apply Tr_node. unfold p_bump_ts.
  apply Tr_at. cbn [pacc_test nth]. rewrite H. apply Tr_bump_any. apply HQ; [now apply TABLE_SEP_in|cbn; lia].
Qed.

Lemma Tr_err_until n m ts rem (Q : unit -> forest -> list kind -> Prop) : length rem < n ->
  (forall ks e r', rem = ks ++ r' ->
     (rem <> [] -> ts_contains (ts_union ts (ts_new [KEndKw])) (hd0 rem) = false -> length r' < length rem) ->
     Q tt [PErrN (map PTok ks) e] r') ->
  Tr (@p_err_until TO n m ts) rem Q.
Proof.
  intros Hn HQ HN. unfold p_err_until. revert HN. apply Tr_err_node. apply Tr_bind.
  assert (Hfk : forall ks, fkinds (map PTok ks) = ks).
  { induction ks as [|k ks IH]; [reflexivity|]. cbn [map]. rewrite fkinds_cons, IH. reflexivity. }
  set (ts' := ts_union ts (ts_new [KEndKw])) in *.
  eapply Tr_conseq; [apply (Tr_loop (fun f r => exists ks, f = map PTok ks)
     (fun f r => exists ks, f = map PTok ks /\ (r = [] \/ ts_contains ts' (hd0 r) = true)) rem) with (f1 := [])|].
  - intros f1 r1 He1 [ks ->] HN1. apply Tr_bind. apply Tr_at. cbn [pacc_test].
    destruct (ts_contains ts' (hd0 r1)) eqn:Et.
    + apply Tr_ret. intros _ _. apply Tr_ret. exists ks. rewrite !app_nil_r. auto.
    + apply Tr_at. cbn [pacc_test]. apply Tr_ret. intros _ _. destruct r1 as [|k r1].
      * cbn. apply Tr_ret. exists ks. rewrite !app_nil_r. auto.
      * cbn [nth]. rewrite kind_eqb_false by (now apply NEof_hd in HN1). cbn [negb]. apply Tr_bind.
        apply Tr_bump_any. intros _ _. apply Tr_ret. split; [cbn; lia|]. exists (ks ++ [k]).
        rewrite map_app. reflexivity.
  - reflexivity.
  - now exists [].
  - exact Hn.
  - cbn [app]. intros [] f2 r2 He2 (ks & -> & Hor) _ _. apply Tr_ret. rewrite app_nil_r.
    rewrite Hfk in He2. apply HQ; [exact He2|]. intros Hne Hh. destruct ks as [|k ks].
    + cbn in He2. subst r2. destruct Hor as [->|Hor]; congruence.
    + subst rem. cbn. rewrite app_length. lia.
Qed.

Lemma Tr_label_delim rem (Q : unit -> forest -> list kind -> Prop) : (forall d r', req false KDoubleColon d -> (hd0 rem = KDoubleColon -> d = [PTok KDoubleColon]) ->
    Q tt [PNode KLabelDelim d] r') -> Tr (@label_delim TO) rem Q.
Proof. intros HQ. apply Tr_node. apply Tr_expect; [discriminate|]. intros _ d r' Hd _ _ Hp. now apply HQ. Qed.

Definition stmt_q (rem : list kind) (Q : unit -> forest -> list kind -> Prop) : Prop :=
  forall f' r', Tree false NStmt f' -> length r' < length rem -> Q tt f' r'.

Lemma Tr_label_stmt r (Q : unit -> forest -> list kind -> Prop) : stmt_q (KDoubleColon :: r) Q -> Tr (@label_stmt TO) (KDoubleColon :: r) Q.
Proof.
  intros HQ. unfold label_stmt. apply Tr_bind. apply Tr_at. cbn [pacc_test nth]. apply Tr_ret. intros _ _.
  apply Tr_node. apply Tr_bind. apply Tr_label_delim. intros d r1 Hd Hdd He1 HN1. rewrite Hdd in He1 |- * by reflexivity. apply Tr_bind.
  apply Tr_name_r. intros nm r2 Hn _ He2 HN2. eapply Tr_conseq; [apply (Tr_label_delim r2 (fun _ f r => exists d2, req false KDoubleColon d2 /\ f = [PNode KLabelDelim d2]))|].
  - intros d2 r3 H2 _. eauto.
  - intros [] f3 r3 He3 (d2 & H2 & ->). apply HQ.
    + cbn [app]. apply (T_label _ [PTok KDoubleColon]); [now left|exact Hn|exact H2].
    + change (fkinds [PNode KLabelDelim [PTok KDoubleColon]]) with [KDoubleColon] in He1. cbn [app] in He1. injection He1 as ->. lens.
Qed.

Lemma Tr_goto_stmt r (Q : unit -> forest -> list kind -> Prop) : stmt_q (KGotoKw :: r) Q -> Tr (@goto_stmt TO) (KGotoKw :: r) Q.
Proof.
  intros HQ. apply Tr_node. apply Tr_bind. apply Tr_bump; [reflexivity|]. intros _ _. apply TrM_Tr.
  apply TrM_name_ref. intros n r' Hn He _ _. apply HQ; [now apply T_goto|]. lens.
Qed.

Lemma Tr_break_stmt r (Q : unit -> forest -> list kind -> Prop) : stmt_q (KBreakKw :: r) Q -> Tr (@break_stmt TO) (KBreakKw :: r) Q.
Proof. intros HQ. apply Tr_node. apply Tr_bump; [reflexivity|]. apply HQ; [apply T_break|cbn; lia]. Qed.

Lemma Tree_path_tail_snoc t : Tree false NPathTail t -> forall n, Tree false NNameRef n ->
  Tree false NPathTail (t ++ PTok KDot :: n).
Proof.
  remember NPathTail as x eqn:Ex. induction 1; try discriminate; intros n0 Hn.
  - rewrite <- (app_nil_r n0). apply T_path_cons; [exact Hn|constructor].
  - cbn [app]. rewrite <- app_assoc. apply T_path_cons; auto.
Qed.

Definition path_post (c : forest) (r : list kind) : Prop :=
  Tree false NPath c \/
  exists p, c = p ++ [PTok KDot] /\ Tree false NPath p /\ nth 1 r KEof = KLParen.

Lemma TrM_index_path n rem (Q : ptree -> list kind -> Prop) : length rem < n ->
  (forall c r', path_post c r' -> Q (PNode KIndexPath c) r') -> TrM (@index_path TO n) rem Q.
Proof.
  intros Hn HQ. unfold index_path. apply TrM_node. apply Tr_bind. apply Tr_name_ref_r. intros f1 r1 H1 He1 HN1.
  apply (Tr_loop (fun f r => exists t, f = f1 ++ t /\ Tree false NPathTail t)
                 (fun f r => Q (PNode KIndexPath f) r) rem) with (f1 := f1);
    [|exact He1|exists []; rewrite app_nil_r; split; [reflexivity|constructor]|lens].
  intros f2 r2 He2 (t & -> & Ht) HN2. apply Tr_at.
  destruct (pacc_test (PKind KColon) (hd0 r2)) eqn:Ec.
  - apply Tr_ret. rewrite app_nil_r. apply HQ. left. now apply T_path.
  - apply Tr_at. cbn [pacc_test]. destruct (kind_eqb (hd0 r2) KDot) eqn:Ed.
    + apply kind_eqb_true in Ed. destruct (hd0_cons _ _ Ed) as [r ->]; [discriminate|].
      apply Tr_bind. apply Tr_bump; [reflexivity|]. intros _ _. apply Tr_nth.
      destruct (kind_eqb (nth 1 r KEof) KLParen) eqn:El.
      * apply kind_eqb_true in El. apply Tr_ret. apply HQ. right. exists (f1 ++ t).
        split; [now rewrite app_nil_r|]. split; [now apply T_path|exact El].
      * apply Tr_bind. apply Tr_name_ref_r. intros f3 r3 H3 He3 HN3. apply Tr_ret. split; [lens|].
        exists (t ++ PTok KDot :: f3). split; [now rewrite app_nil_r, <- app_assoc|].
        now apply Tree_path_tail_snoc.
    + apply Tr_ret. rewrite app_nil_r. apply HQ. left. now apply T_path.
Qed.

Lemma Tr_function_def_content n rem (Q : unit -> forest -> list kind -> Prop) : length rem < n ->
  (forall f' r', Tree false NFunName f' -> Q tt f' r') -> Tr (@function_def_content TO n) rem Q.
Proof.
  intros Hn HQ. unfold function_def_content. apply Tr_node. apply Tr_at. apply Tr_nth.
  destruct (pacc_test (PKind KIdent) (hd0 rem) && kind_eqb (nth 1 rem KEof) KLParen) eqn:E.
  - apply Tr_name_r. intros f' r' Hf _. apply HQ. now apply T_fun_plain.
  - intros HN f.
    assert (Hpath : TrM (@index_path TO n) rem (fun t r => exists c, t = PNode KIndexPath c /\ path_post c r)).
    { apply TrM_index_path; [exact Hn|]. eauto. }
    destruct (Hpath HN f) as (kp & fsp & r1 & H1 & He1 & c & E1 & Hc). injection E1 as -> ->.
    assert (HN1 : NEof r1) by (rewrite He1 in HN; now apply NEof_app in HN).
    rewrite (bind_run _ _ _ _ _ H1).
    match goal with |- context [pre_node_by _ ?b] => set (body := b) end.
    assert (Hbody : Tr body r1 (fun k f2 r2 => Tree false NFunName [PNode KFunctionDefContent [PNode k (PNode KIndexPath c :: f2)]])).
    { unfold body. apply Tr_at. cbn [pacc_test]. destruct (kind_eqb (hd0 r1) KColon) eqn:Ec.
      - apply kind_eqb_true in Ec. destruct (hd0_cons _ _ Ec) as [r ->]; [discriminate|].
        apply Tr_bind. apply Tr_bump; [reflexivity|]. intros _ _. apply Tr_bind. apply Tr_name_r.
        intros nm r3 Hnm Herr _ _. apply Tr_ret. rewrite app_nil_r. cbn [app].
        destruct Hc as [Hc|(p & -> & Hp & Hl)].
        + now apply T_fun_method.
        + apply T_fun_method_err; [exact Hp|]. apply Herr. cbn in Hl. rewrite Hl. discriminate.
      - apply Tr_bind. apply Tr_name_r. intros nm r3 Hnm _ _ _. apply Tr_ret. rewrite app_nil_r.
        destruct Hc as [Hc|(p & -> & Hp & _)].
        + now apply T_fun_static_nodot.
        + now apply T_fun_static. }
    destruct (Hbody HN1 []) as (k & f2 & r2 & H2 & He2 & HT).
    rewrite (bind_run _ _ _ _ _ (pre_run f (PNode KIndexPath c) [] r1 body k f2 r2 I H2)). cbn [app].
    exists tt, [PNode k (PNode KIndexPath c :: f2)], r2. split; [reflexivity|]. split.
    + rewrite fkinds_node1, fkinds_cons, pkinds_node, <- app_assoc, <- He2. exact He1.
    + now apply HQ.
Qed.
