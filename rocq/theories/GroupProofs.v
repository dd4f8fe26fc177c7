(** GroupProofs.v — proof tools for C72: everything the parser builds is grouped as Grouping.v says (partial
    correctness, by induction over the grammar). *)
From Verif Require Import Base SyntaxKind TokenSet Lexer BindingPowers Parser Grammar ParserTree SinkProofs DressProofs GrammarSpec ParserTotal
  ParserTotal2 ValidSpec PropsPtr Grouping.

Lemma toks_pkinds : toks = pkinds. Proof. reflexivity. Qed.
Notation ers := (flat_map erase).
Lemma next_ers g r : next (ers g) (hd0 r) = hd0 (fkinds g ++ r).
Proof. unfold next. rewrite toks_pkinds. change (flat_map pkinds (ers g)) with (fkinds (ers g)). rewrite fkinds_erase. destruct (fkinds g); reflexivity. Qed.

Lemma nodes_in_node K fs nx : nodes_in (PNode K fs) nx = (K, fs, nx) :: nodes_of fs nx.
Proof. cbn [nodes_in]. f_equal. induction fs as [|t fs IH]; [reflexivity|]. cbn [nodes_of]. now rewrite <- IH. Qed.
Lemma next_app a b nx : next (a ++ b) nx = next a (next b nx).
Proof. unfold next. rewrite flat_map_app. destruct (flat_map toks a); reflexivity. Qed.
Lemma nodes_of_app a b nx : nodes_of (a ++ b) nx = nodes_of a (next b nx) ++ nodes_of b nx.
Proof. induction a as [|t a IH]; [reflexivity|]. cbn [app nodes_of]. now rewrite IH, next_app, app_assoc. Qed.
Lemma closed_app a b nx : closed (a ++ b) nx <-> closed a (next b nx) /\ closed b nx.
Proof. induction a as [|t a IH]; [cbn; tauto|]. cbn [app closed]. rewrite IH, next_app. tauto. Qed.
Lemma wg_app a b nx : well_grouped (a ++ b) nx <-> well_grouped a (next b nx) /\ well_grouped b nx.
Proof. unfold well_grouped. rewrite nodes_of_app. apply Forall_app. Qed.
Lemma wg_node K fs nx : well_grouped [PNode K fs] nx <-> grouped K fs nx /\ well_grouped fs nx.
Proof. unfold well_grouped. cbn [nodes_of]. rewrite app_nil_r, nodes_in_node, Forall_cons_iff. reflexivity. Qed.
Lemma wg_nil nx : well_grouped [] nx. Proof. constructor. Qed.
Lemma wg_tok k nx : well_grouped [PTok k] nx. Proof. constructor. Qed.

(** Partial correctness of a grammar function run on the tokens [rem]. *)
Definition PC {A} (cl : bool) (m : D A) (rem : list kind) (Q : A -> forest -> list kind -> Prop) : Prop :=
  forall f0 a st', m (mkDS rem f0) = Ok (a, st') -> exists g r, st' = mkDS r (f0 ++ g) /\ rem = fkinds g ++ r /\
    well_grouped (ers g) (hd0 r) /\ (cl = true -> closed (ers g) (hd0 r)) /\ Q a g r.
Definition any {A} : A -> forest -> list kind -> Prop := fun _ _ _ => True.

Lemma PC_conseq {A} cl cl' (m : D A) rem (Q Q' : A -> forest -> list kind -> Prop) : PC cl m rem Q -> (cl' = true -> cl = true) ->
  (forall a g r, rem = fkinds g ++ r -> Q a g r -> Q' a g r) -> PC cl' m rem Q'.
Proof. intros H Hc HQ f0 a st' Hr. destruct (H f0 a st' Hr) as (g & r & H1 & H2 & H3 & H4 & H5). exists g, r. repeat split; auto. Qed.
Lemma PC_any {A} cl (m : D A) rem (Q : A -> forest -> list kind -> Prop) : PC cl m rem Q -> PC cl m rem any.
Proof. intros H. apply (PC_conseq _ _ _ _ _ _ H); [auto|]. intros; exact I. Qed.
Lemma PC_weak {A} (m : D A) rem (Q : A -> forest -> list kind -> Prop) : PC true m rem Q -> PC false m rem Q.
Proof. intros H. apply (PC_conseq _ _ _ _ _ _ H); [discriminate|auto]. Qed.
Lemma PC_ret {A} cl (a : A) rem (Q : A -> forest -> list kind -> Prop) : Q a [] rem -> PC cl (@ret TO A a) rem Q.
Proof. intros H f0 b st' Hr. cbv in Hr. injection Hr as <- <-. exists [], rem. rewrite app_nil_r. repeat split; auto. apply wg_nil. Qed.
Lemma PC_bind {A B} cl (m : D A) (k : A -> D B) rem (Q : A -> forest -> list kind -> Prop) (Q' : B -> forest -> list kind -> Prop) :
  PC cl m rem Q -> (forall a g r, rem = fkinds g ++ r -> Q a g r -> PC cl (k a) r (fun b h s => Q' b (g ++ h) s)) -> PC cl (@bind TO A B m k) rem Q'.
Proof.
  intros Hm Hk f0 b st' Hr. change (rbind (m (mkDS rem f0)) (fun p => k (fst p) (snd p)) = Ok (b, st')) in Hr. apply rbind_ok in Hr as ((a & st1) & H1 & H2).
  destruct (Hm _ _ _ H1) as (g & r & -> & E1 & G1 & C1 & Q1). cbn [fst snd] in H2.
  destruct (Hk _ _ _ E1 Q1 _ _ _ H2) as (h & s & -> & E2 & G2 & C2 & Q2).
  exists (g ++ h), s. rewrite app_assoc. split; [reflexivity|]. rewrite fkinds_app, <- app_assoc, <- E2. split; [exact E1|].
  rewrite flat_map_app, wg_app, closed_app, next_ers, <- E2. repeat split; auto.
Qed.
Lemma PC_bind_any {A B} cl (m : D A) (k : A -> D B) rem : PC cl m rem any -> (forall a r, PC cl (k a) r any) -> PC cl (@bind TO A B m k) rem any.
Proof. intros H1 H2. apply (PC_bind _ _ _ _ _ _ H1). intros a g r _ _. apply (PC_conseq _ _ _ _ _ _ (H2 a r)); auto. Qed.
Lemma PC_nth {B} cl n (k : kind -> D B) rem (Q : B -> forest -> list kind -> Prop) : PC cl (k (nth n rem KEof)) rem Q -> PC cl (@bind TO kind B (@p_nth TO n) k) rem Q.
Proof. intros H f0 a st' Hr. apply H. exact Hr. Qed.
Lemma PC_cur {B} cl (k : kind -> D B) rem (Q : B -> forest -> list kind -> Prop) : PC cl (k (hd0 rem)) rem Q -> PC cl (@bind TO kind B (@p_current TO) k) rem Q.
Proof. intros H f0 a st' Hr. apply H. rewrite <- cur_run. exact Hr. Qed.
Lemma PC_at {B} cl a (k : bool -> D B) rem (Q : B -> forest -> list kind -> Prop) : PC cl (k (pacc_test a (hd0 rem))) rem Q -> PC cl (@bind TO bool B (@p_at TO a) k) rem Q.
Proof. intros H f0 b st' Hr. apply H. rewrite <- at_run. exact Hr. Qed.
Lemma PC_at1 cl a rem (Q : bool -> forest -> list kind -> Prop) : Q (pacc_test a (hd0 rem)) [] rem -> PC cl (@p_at TO a) rem Q.
Proof. intros H. unfold p_at. apply PC_cur, PC_ret, H. Qed.
Lemma PC_panic {A} cl rem (Q : A -> forest -> list kind -> Prop) : PC cl (@panic TO A) rem Q.
Proof. intros f0 a st' Hr. discriminate Hr. Qed.
Lemma PC_out {A} cl rem (Q : A -> forest -> list kind -> Prop) : PC cl (@out TO A) rem Q.
Proof. intros f0 a st' Hr. discriminate Hr. Qed.
Lemma PC_adv cl rem (Q : unit -> forest -> list kind -> Prop) : (forall k r, rem = k :: r -> Q tt [PTok k] r) -> PC cl (@p_adv TO) rem Q.
Proof.
  intros H f0 a st' Hr. change (tr_adv (mkDS rem f0) = Ok (a, st')) in Hr. unfold tr_adv in Hr. cbn [ds_rem ds_for] in Hr. destruct rem as [|k r]; [discriminate|].
  destruct (kind_eqb k KEof); [discriminate|]. injection Hr as <- <-. exists [PTok k], r. repeat split; auto. apply wg_tok.
Qed.
Lemma PC_accept cl a rem (Q : bool -> forest -> list kind -> Prop) : (forall k r, rem = k :: r -> pacc_test a k = true -> Q true [PTok k] r) ->
  (pacc_test a (hd0 rem) = false -> Q false [] rem) -> PC cl (@p_accept TO a) rem Q.
Proof.
  intros H1 H2. unfold p_accept. apply PC_at. destruct (pacc_test a (hd0 rem)) eqn:T; [|apply PC_ret; auto].
  eapply PC_bind; [apply (PC_adv cl rem (fun _ g r => exists k, g = [PTok k] /\ rem = k :: r)); eauto|]. intros [] g r Er (k & -> & ->). apply PC_ret.
  rewrite app_nil_r. apply H1; auto.
Qed.
Lemma PC_bump cl a rem (Q : unit -> forest -> list kind -> Prop) : (forall k r, rem = k :: r -> pacc_test a k = true -> Q tt [PTok k] r) -> PC cl (@p_bump TO a) rem Q.
Proof.
  intros H. unfold p_bump. eapply PC_bind.
  - apply (PC_accept cl a rem (fun b g r => b = true -> exists k, g = [PTok k] /\ rem = k :: r /\ pacc_test a k = true)); [eauto|discriminate].
  - intros b g r Er Hb. destruct b; [|apply PC_panic]. destruct (Hb eq_refl) as (k & -> & -> & T). apply PC_ret. rewrite app_nil_r. auto.
Qed.
Lemma PC_push cl e rem (Q : unit -> forest -> list kind -> Prop) : Q tt [PErr e] rem -> PC cl (@p_push_error TO e) rem Q.
Proof. intros H f0 a st' Hr. cbv in Hr. injection Hr as <- <-. exists [PErr e], rem. repeat split; auto. apply wg_nil. Qed.
Lemma PC_expect cl k rem (Q : bool -> forest -> list kind -> Prop) : (forall r, rem = k :: r -> Q true [PTok k] r) -> (forall e, Q false [PErr e] rem) -> PC cl (@p_expect TO k) rem Q.
Proof.
  intros H1 H2. unfold p_expect. apply PC_cur. destruct (kind_eqb (hd0 rem) k) eqn:T.
  - eapply PC_bind; [apply (PC_bump cl PAny rem (fun _ g r => exists j, g = [PTok j] /\ rem = j :: r)); eauto|]. intros [] g r Er (j & -> & ->). apply PC_ret.
    rewrite app_nil_r. apply kind_eqb_true in T. cbn [hd0] in T. subst j. auto.
  - eapply PC_bind; [apply (PC_push cl _ rem (fun _ g r => (exists e, g = [PErr e]) /\ r = rem)); eauto|]. intros [] g r Er ((e & ->) & ->). apply PC_ret.
    rewrite app_nil_r. auto.
Qed.

(** Nodes. *)
Definition plain (K : kind) : bool := negb (among K expr_kinds) && negb (among K [KReturnStmt; KExprStmt; KAssignStmt]).
Lemma among_in k l : among k l = true <-> In k l.
Proof. unfold among. rewrite existsb_exists. split; [intros (x & H1 & H2); apply kind_eqb_eq in H2; congruence|intros H; exists k; split; [exact H|apply kind_eqb_refl]]. Qed.
Lemma extends_plain K fs k : among K expr_kinds = false -> extends (PNode K fs) k = false.
Proof. intros H. destruct K; try reflexivity; discriminate H. Qed.
Lemma grouped_plain K fs nx : plain K = true -> (In K operand_parents -> closed fs nx) -> grouped K fs nx.
Proof.
  intros H Hc. split; [exact Hc|]. unfold plain in H. apply andb_true_iff in H as [H1 H2]. apply negb_true_iff in H1, H2.
  repeat split; intros; subst; try discriminate H1; try discriminate H2. exfalso. match goal with HI : In K _ |- _ => destruct HI as [<-|[<-|[]]]; discriminate H2 end.
Qed.
Lemma node_by_inv (body : D kind) rem f0 i st' : @node_by TO body (mkDS rem f0) = Ok (i, st') ->
  exists K st, body (mkDS rem []) = Ok (K, st) /\ i = length f0 /\ st' = mkDS (ds_rem st) (f0 ++ [PNode K (ds_for st)]).
Proof.
  intros Hr. change (tr_node body (mkDS rem f0) = Ok (i, st')) in Hr. unfold tr_node in Hr. cbn [ds_rem ds_for] in Hr.
  apply rbind_ok in Hr as ((K & st) & H1 & H2). injection H2 as <- <-. exists K, st. auto.
Qed.
(** A function that returns the mark of the one node it adds. *)
Definition PCM (m : D nat) (rem : list kind) (Q : ptree -> list kind -> Prop) : Prop :=
  forall f0 a st', m (mkDS rem f0) = Ok (a, st') -> exists K fs r, a = length f0 /\ st' = mkDS r (f0 ++ [PNode K fs]) /\ rem = fkinds fs ++ r /\
    well_grouped [PNode K (ers fs)] (hd0 r) /\ Q (PNode K fs) r.
Lemma PCM_node_by cl (body : D kind) rem (Q : kind -> forest -> list kind -> Prop) (Q' : ptree -> list kind -> Prop) : PC cl body rem Q ->
  (forall K fs r, rem = fkinds fs ++ r -> Q K fs r -> (cl = true -> closed (ers fs) (hd0 r)) -> grouped K (ers fs) (hd0 r) /\ Q' (PNode K fs) r) ->
  PCM (@node_by TO body) rem Q'.
Proof.
  intros H HQ f0 a st' Hr. destruct (node_by_inv _ _ _ _ _ Hr) as (K & st & H1 & -> & ->).
  destruct (H _ _ _ H1) as (g & r & -> & E1 & G1 & C1 & Q1). cbn [ds_rem ds_for app]. destruct (HQ _ _ _ E1 Q1 C1) as [HG HQ'].
  exists K, g, r. rewrite wg_node. repeat split; auto; apply HG.
Qed.
Lemma PCM_node {A} cl K (body : D A) rem (Q : A -> forest -> list kind -> Prop) (Q' : ptree -> list kind -> Prop) : PC cl body rem Q ->
  (forall a fs r, rem = fkinds fs ++ r -> Q a fs r -> (cl = true -> closed (ers fs) (hd0 r)) -> grouped K (ers fs) (hd0 r) /\ Q' (PNode K fs) r) ->
  PCM (@node TO A K body) rem Q'.
Proof.
  intros H HQ. unfold node. apply (PCM_node_by cl _ _ (fun j fs r => j = K /\ exists a, Q a fs r)).
  - apply (PC_bind _ _ _ _ _ _ H). intros a g r Er HQa. apply PC_ret. rewrite app_nil_r. eauto.
  - intros j fs r Er (-> & a & HQa). eauto.
Qed.
Lemma PCM_PC cl m rem (Q : ptree -> list kind -> Prop) : PCM m rem Q -> (cl = true -> forall t r, Q t r -> extends (hd t (erase t)) (hd0 r) = false) -> PC cl m rem any.
Proof.
  intros H Hc f0 a st' Hr. destruct (H _ _ _ Hr) as (K & fs & r & -> & -> & E1 & G1 & Q1). exists [PNode K fs], r.
  rewrite fkinds_node1. split; [reflexivity|]. split; [exact E1|]. split; [exact G1|]. split; [|exact I]. intros Hcl. split; [|exact I]. exact (Hc Hcl _ _ Q1).
Qed.
Lemma PC_node {A} c cl K (body : D A) rem : plain K = true -> (among K operand_parents = true -> c = true) -> PC c body rem any -> PC cl (@node_ TO A K body) rem any.
Proof.
  intros Hp Hc H. unfold node_. apply PC_bind_any; [|intros; apply PC_ret; exact I].
  apply (PCM_PC _ _ _ (fun t _ => exists fs, t = PNode K fs)).
  - apply (PCM_node c _ _ _ _ _ H). intros a fs r Er _ Hcl. split; [|eauto]. apply grouped_plain; [exact Hp|]. intros HI. apply Hcl, Hc. now apply among_in.
  - intros _ t r (fs & ->). cbn [erase hd]. apply extends_plain. unfold plain in Hp. apply andb_true_iff in Hp as [Hp _]. now apply negb_true_iff in Hp.
Qed.
Lemma PC_err_node cl c (body : D perr) rem : PC c body rem any -> PC cl (@err_node TO body) rem any.
Proof.
  intros H f0 a st' Hr. change (tr_err_node body (mkDS rem f0) = Ok (a, st')) in Hr. unfold tr_err_node in Hr. cbn [ds_rem ds_for] in Hr.
  apply rbind_ok in Hr as ((e & st) & H1 & H2). injection H2 as <- <-. destruct (H _ _ _ H1) as (g & r & -> & E1 & G1 & _ & _). cbn [ds_rem ds_for app].
  exists [PErrN g e], r. split; [reflexivity|]. split; [unfold fkinds; cbn [flat_map pkinds]; rewrite app_nil_r; exact E1|].
  split; [|split; [intros _; split; [reflexivity|exact I]|exact I]]. change (ers [PErrN g e]) with [PNode KError (ers g)]. rewrite wg_node. split; [|exact G1].
  apply grouped_plain; [reflexivity|]. intros HI. apply among_in in HI. discriminate HI.
Qed.
Lemma PC_loop cl n (body : D bool) : (forall rem, PC cl body rem any) -> forall rem, PC cl (@p_loop TO n body) rem any.
Proof.
  intros H. induction n as [|n IH]; intros rem; cbn [p_loop]; [apply PC_out|]. apply PC_bind_any; [apply H|]. intros b r. destruct b; [apply IH|apply PC_ret; exact I].
Qed.

Ltac pc_leaf := fail.
Ltac pc := repeat first
  [ pc_leaf
  | match goal with
    | |- PC _ (@ret _ _ _) _ _ => apply PC_ret; exact I
    | |- PC _ (@panic _ _) _ _ => apply PC_panic
    | |- PC _ (@out _ _) _ _ => apply PC_out
    | |- PC _ (@p_bump _ _) _ _ => apply PC_bump; intros; exact I
    | |- PC _ (@p_accept _ _) _ _ => apply PC_accept; intros; exact I
    | |- PC _ (@p_expect _ _) _ _ => apply PC_expect; intros; exact I
    | |- PC _ (@p_push_error _ _) _ _ => apply PC_push; exact I
    | |- PC _ (@p_adv _) _ _ => apply PC_adv; intros; exact I
    | |- PC _ (@p_at _ _) _ _ => apply PC_at1; exact I
    | |- PC _ (@bind _ _ _ (@p_current _) _) _ _ => apply PC_cur
    | |- PC _ (@bind _ _ _ (@p_at _ _) _) _ _ => apply PC_at
    | |- PC _ (@bind _ _ _ (@p_nth _ _) _) _ _ => apply PC_nth
    | H : forall r, PC ?cl ?m r any |- PC ?cl ?m _ any => apply H
    | |- PC _ (@bind _ _ _ _ _) _ _ => apply PC_bind_any
    | |- forall _, _ => intro
    | |- PC _ (if ?b then _ else _) _ _ => destruct b
    end ].

Lemma PC_while cl n (c : D bool) (body : D unit) : (forall rem, PC cl c rem any) -> (forall rem, PC cl body rem any) -> forall rem, PC cl (@p_while TO n c body) rem any.
Proof. intros H1 H2 rem. unfold p_while. apply PC_loop. pc. Qed.
Lemma PC_error cl m rem : PC cl (@p_error TO m) rem any.
Proof. unfold p_error. pc. Qed.
Lemma PC_err_recover cl m ts rem : PC cl (@p_err_recover TO m ts) rem any.
Proof. unfold p_err_recover. pc; try apply PC_error. apply (PC_err_node _ false). pc. Qed.
Lemma PC_err_until cl n m ts rem : PC cl (@p_err_until TO n m ts) rem any.
Proof. unfold p_err_until. apply (PC_err_node _ false). apply PC_bind_any; [apply PC_while; pc|pc]. Qed.
Lemma PC_bump_ts cl s rem : PC cl (@p_bump_ts TO s) rem any.
Proof. unfold p_bump_ts. pc. Qed.
Lemma PC_passert cl b rem : PC cl (@passert TO b) rem any.
Proof. unfold passert. pc. Qed.

Lemma grouped_easy K fs nx : among K [KInfixExpr; KPrefixExpr; KReturnStmt; KExprStmt; KAssignStmt] = false -> (In K operand_parents -> closed fs nx) -> grouped K fs nx.
Proof.
  intros H Hc. split; [exact Hc|]. repeat split; intros; subst; try discriminate H. exfalso. match goal with HI : In K _ |- _ => destruct HI as [<-|[<-|[]]]; discriminate H end.
Qed.
Lemma grouped_leaf K fs nx : among K [KInfixExpr; KPrefixExpr; KReturnStmt; KExprStmt; KAssignStmt] = false -> among K operand_parents = false -> grouped K fs nx.
Proof. intros H1 H2. apply grouped_easy; [exact H1|]. intros H. apply among_in in H. congruence. Qed.
(** A node that is not an operand parent and is used where it need not be closed. *)
Lemma PC_node_leaf {A} c K (body : D A) rem : among K [KInfixExpr; KPrefixExpr; KReturnStmt; KExprStmt; KAssignStmt] = false -> among K operand_parents = false ->
  PC c body rem any -> PC false (@node_ TO A K body) rem any.
Proof.
  intros H1 H2 H. unfold node_. apply PC_bind_any; [|intros; apply PC_ret; exact I]. apply (PCM_PC _ _ _ (fun _ _ => True)); [|discriminate].
  apply (PCM_node c _ _ _ _ _ H). intros a fs r Er _ Hcl. split; [|exact I]. now apply grouped_leaf.
Qed.
(** Marks. *)
Definition isk (l : list kind) (t : ptree) (r : list kind) : Prop := exists K fs, t = PNode K fs /\ In K l.
Lemma PCM_leaf {A} c K l (body : D A) rem : among K [KInfixExpr; KPrefixExpr; KReturnStmt; KExprStmt; KAssignStmt] = false ->
  (among K operand_parents = true -> c = true) -> In K l -> PC c body rem any -> PCM (@node TO A K body) rem (isk l).
Proof.
  intros H1 H2 Hl H. apply (PCM_node c _ _ _ _ _ H). intros a fs r Er _ Hcl. split; [|exists K, fs; auto]. apply grouped_easy; [exact H1|].
  intros HI. apply Hcl, H2. now apply among_in.
Qed.

(** ** Functions that do not recurse *)
Lemma PC_name_unchecked cl rem : PC cl (@name_unchecked TO) rem any.
Proof. unfold name_unchecked. apply (PC_node false); [reflexivity|discriminate|]. pc. Qed.
Ltac pc_leaf ::= match goal with
  | |- PC _ (@p_error _ _) _ _ => apply PC_error
  | |- PC _ (@p_err_recover _ _ _) _ _ => apply PC_err_recover
  | |- PC _ (@p_err_until _ _ _ _) _ _ => apply PC_err_until
  | |- PC _ (@p_bump_ts _ _) _ _ => apply PC_bump_ts
  | |- PC _ (@passert _ _) _ _ => apply PC_passert
  | |- PC _ (@name_unchecked _) _ _ => apply PC_name_unchecked
  end.
Lemma PC_err_and_bump cl m rem : PC cl (@p_err_and_bump TO m) rem any.
Proof. unfold p_err_and_bump. pc. Qed.
Lemma PC_name_r cl ts rem : PC cl (@name_r TO ts) rem any.
Proof. unfold name_r. pc. Qed.
Lemma PC_name cl rem : PC cl (@name TO) rem any.
Proof. unfold name. pc. apply (PC_node false); [reflexivity|discriminate|]. pc. Qed.
Lemma PC_name_ref_r ts rem : PC false (@name_ref_r TO ts) rem any.
Proof. unfold name_ref_r, name_ref_unchecked. pc. apply (PC_node_leaf false); [reflexivity|reflexivity|]. pc. Qed.
Lemma PCM_name_ref rem : PCM (@name_ref TO) rem (isk [KNameRef]).
Proof. unfold name_ref. apply (PCM_leaf false); [reflexivity|discriminate|now left|]. pc. Qed.
Lemma PC_name_ref rem : PC false (@name_ref TO) rem any.
Proof. apply (PCM_PC _ _ _ _ (PCM_name_ref rem)). discriminate. Qed.
Ltac pc_leaf ::= match goal with
  | |- PC _ (@p_error _ _) _ _ => apply PC_error
  | |- PC _ (@p_err_recover _ _ _) _ _ => apply PC_err_recover
  | |- PC _ (@p_err_until _ _ _ _) _ _ => apply PC_err_until
  | |- PC _ (@p_bump_ts _ _) _ _ => apply PC_bump_ts
  | |- PC _ (@passert _ _) _ _ => apply PC_passert
  | |- PC _ (@name_unchecked _) _ _ => apply PC_name_unchecked
  | |- PC _ (@p_err_and_bump _ _) _ _ => apply PC_err_and_bump
  | |- PC _ (@name_r _ _) _ _ => apply PC_name_r
  | |- PC _ (@name _) _ _ => apply PC_name
  | |- PC _ (@name_ref_r _ _) _ _ => apply PC_name_ref_r
  | |- PC _ (@name_ref _) _ _ => apply PC_name_ref
  end.
Lemma PC_multi_name_r cl n ts va rem : PC cl (@multi_name_r TO n ts va) rem any.
Proof.
  unfold multi_name_r. apply (PC_node false); [reflexivity|discriminate|]. apply PC_at. destruct (va && _); [pc|]. apply PC_bind_any; [pc|]. intros _ r. apply PC_loop.
  intros r'. pc.
Qed.
Lemma PC_param_list cl n rem : PC cl (@param_list TO n) rem any.
Proof. unfold param_list. apply (PC_node false); [reflexivity|discriminate|]. pc. apply PC_multi_name_r. Qed.
Lemma PCM_seq {A} (m : D A) (k : A -> D nat) rem Q : (forall f0 a st', m (mkDS rem f0) = Ok (a, st') -> st' = mkDS rem f0) -> (forall a, PCM (k a) rem Q) -> PCM (@bind TO A nat m k) rem Q.
Proof.
  intros H1 H2 f0 a st' Hr. change (rbind (m (mkDS rem f0)) (fun p => k (fst p) (snd p)) = Ok (a, st')) in Hr. apply rbind_ok in Hr as ((b & st) & E1 & E2).
  rewrite (H1 _ _ _ E1) in E2. exact (H2 _ _ _ _ E2).
Qed.
Lemma at_assert_inv a rem f0 u st' : (@bind TO bool unit (@p_at TO a) (@passert TO)) (mkDS rem f0) = Ok (u, st') -> st' = mkDS rem f0.
Proof. intros H. rewrite at_run in H. unfold passert in H. destruct (pacc_test _ _); [|discriminate H]. injection H as _ <-. reflexivity. Qed.
Lemma PCM_literal rem : PCM (@literal TO) rem (isk [KLiteral]).
Proof.
  unfold literal. apply PCM_seq; [intros f0 a st' H; exact (at_assert_inv _ _ _ _ _ H)|]. intros _. apply (PCM_leaf false); [reflexivity|discriminate|now left|]. pc.
Qed.
Lemma PC_table_sep cl rem : PC cl (@table_sep TO) rem any.
Proof. unfold table_sep. apply (PC_node false); [reflexivity|discriminate|]. pc. Qed.
Lemma PC_table_correct cl n rem : PC cl (@table_correct TO n) rem any.
Proof. unfold table_correct. pc. Qed.
Lemma PC_goto cl rem : PC cl (@goto_stmt TO) rem any.
Proof. unfold goto_stmt. apply (PC_node false); [reflexivity|discriminate|]. pc. Qed.
Lemma PC_label_delim cl rem : PC cl (@label_delim TO) rem any.
Proof. unfold label_delim. apply (PC_node false); [reflexivity|discriminate|]. pc. Qed.
Lemma PC_label cl rem : PC cl (@label_stmt TO) rem any.
Proof. unfold label_stmt. pc. apply (PC_node false); [reflexivity|discriminate|]. pc; apply PC_label_delim. Qed.
Lemma PC_break cl rem : PC cl (@break_stmt TO) rem any.
Proof. unfold break_stmt. apply (PC_node false); [reflexivity|discriminate|]. pc. Qed.
Lemma PCM_index_path n rem : PCM (@index_path TO n) rem (isk [KIndexPath]).
Proof.
  unfold index_path. apply (PCM_leaf false); [reflexivity|discriminate|now left|]. apply PC_bind_any; [pc|]. intros _ r. apply PC_loop. intros r'. pc.
Qed.

(** [precede] on the last node but for some tokens. *)
Lemma pre_inv f0 K fs pre (body : D kind) r i st' : @pre_node_by TO (length f0) body (mkDS r (f0 ++ PNode K fs :: pre)) = Ok (i, st') ->
  exists K' st, body (mkDS r []) = Ok (K', st) /\ i = length f0 /\ st' = mkDS (ds_rem st) (f0 ++ [PNode K' (PNode K fs :: pre ++ ds_for st)]).
Proof.
  intros Hr. change (tr_pre (length f0) body (mkDS r (f0 ++ PNode K fs :: pre)) = Ok (i, st')) in Hr. unfold tr_pre in Hr. cbn [ds_rem ds_for] in Hr.
  rewrite skipn_app, skipn_all, Nat.sub_diag in Hr. cbn [skipn app] in Hr. rewrite firstn_app, firstn_all, Nat.sub_diag in Hr. cbn [firstn] in Hr. rewrite app_nil_r in Hr.
  apply rbind_ok in Hr as ((K' & st) & H1 & H2). injection H2 as <- <-. exists K', st. auto.
Qed.
Lemma pre_node_inv {A} f0 K fs pre K' (body : D A) r i st' : @pre_node TO A (length f0) K' body (mkDS r (f0 ++ PNode K fs :: pre)) = Ok (i, st') ->
  exists a st, body (mkDS r []) = Ok (a, st) /\ i = length f0 /\ st' = mkDS (ds_rem st) (f0 ++ [PNode K' (PNode K fs :: pre ++ ds_for st)]).
Proof.
  intros Hr. unfold pre_node in Hr. destruct (pre_inv _ _ _ _ _ _ _ _ Hr) as (K2 & st & H1 & -> & ->).
  change (rbind (body (mkDS r [])) (fun p => Ok (K', snd p)) = Ok (K2, st)) in H1. apply rbind_ok in H1 as ((a & st1) & H1 & H2). cbn [snd] in H2. injection H2 as <- <-. eauto.
Qed.

Lemma PC_function_def_content cl n rem : PC cl (@function_def_content TO n) rem any.
Proof.
  unfold function_def_content. apply (PC_node false); [reflexivity|discriminate|]. apply PC_at, PC_nth. destruct (_ && _); [pc|].
  intros f0 a st' Hr. change (rbind ((@index_path TO n) (mkDS rem f0)) (fun p => (@bind TO nat unit (@pre_node_by TO (fst p) (@bind TO bool kind (@p_at TO (PKind KColon)) (fun b : bool => if b then @bind TO unit kind (@p_bump TO (PKind KColon)) (fun _ => @bind TO unit kind (@name_r TO (ts_union (ts_new [KLParen]) STMT_RECOVERY)) (fun _ => @ret TO kind KFunctionMethod)) else @bind TO unit kind (@name_r TO (ts_union (ts_new [KLParen]) STMT_RECOVERY)) (fun _ => @ret TO kind KFunctionStatic)))) (fun _ => @ret TO unit tt)) (snd p)) = Ok (a, st')) in Hr.
  apply rbind_ok in Hr as ((c & st) & H1 & H2). destruct (PCM_index_path _ _ _ _ _ H1) as (K & fs & r & -> & -> & E1 & G1 & (K0 & fs0 & EK & HK)).
  injection EK as <- <-. cbn [fst snd] in H2.
  match type of H2 with @bind TO _ _ ?m _ ?st = _ => change (rbind (m st) (fun p => Ok (tt, snd p)) = Ok (a, st')) in H2 end.
  apply rbind_ok in H2 as ((i & st2) & H2 & H3). injection H3 as <- <-. cbn [snd]. destruct (pre_inv _ _ _ [] _ _ _ _ H2) as (K' & st & H3 & -> & ->).
  match type of H3 with ?m _ = _ => assert (P : PC false m r (fun k _ _ => k = KFunctionMethod \/ k = KFunctionStatic)) end.
  { apply PC_at. destruct (pacc_test _ _).
    - apply (PC_bind _ _ _ _ any); [pc|]. intros _ g1 r1 _ _. apply (PC_bind _ _ _ _ any); [pc|]. intros _ g2 r2 _ _. apply PC_ret. auto.
    - apply (PC_bind _ _ _ _ any); [pc|]. intros _ g2 r2 _ _. apply PC_ret. auto. }
  destruct (P _ _ _ H3) as (g & s & -> & E2 & G2 & _ & HK'). cbn [ds_rem ds_for app]. exists [PNode K' (PNode K fs :: g)], s. split; [reflexivity|].
  split; [rewrite fkinds_node1, fkinds_cons, pkinds_node, <- app_assoc, <- E2; exact E1|]. split; [|split; [discriminate|exact I]].
  cbn [flat_map erase app]. rewrite wg_node. split; [destruct HK' as [-> | ->]; (apply grouped_leaf; reflexivity)|].
  change (PNode K (ers fs) :: ers g) with ([PNode K (ers fs)] ++ ers g). rewrite wg_app, next_ers, <- E2. auto.
Qed.
Ltac pc_leaf ::= match goal with
  | |- PC _ (@p_error _ _) _ _ => apply PC_error
  | |- PC _ (@p_err_recover _ _ _) _ _ => apply PC_err_recover
  | |- PC _ (@p_err_until _ _ _ _) _ _ => apply PC_err_until
  | |- PC _ (@p_bump_ts _ _) _ _ => apply PC_bump_ts
  | |- PC _ (@passert _ _) _ _ => apply PC_passert
  | |- PC _ (@name_unchecked _) _ _ => apply PC_name_unchecked
  | |- PC _ (@p_err_and_bump _ _) _ _ => apply PC_err_and_bump
  | |- PC _ (@name_r _ _) _ _ => apply PC_name_r
  | |- PC _ (@name _) _ _ => apply PC_name
  | |- PC _ (@name_ref_r _ _) _ _ => apply PC_name_ref_r
  | |- PC _ (@name_ref _) _ _ => apply PC_name_ref
  | |- PC _ (@multi_name_r _ _ _ _) _ _ => apply PC_multi_name_r
  | |- PC _ (@param_list _ _) _ _ => apply PC_param_list
  | |- PC _ (@table_sep _) _ _ => apply PC_table_sep
  | |- PC _ (@table_correct _ _) _ _ => apply PC_table_correct
  | |- PC _ (@goto_stmt _) _ _ => apply PC_goto
  | |- PC _ (@label_stmt _) _ _ => apply PC_label
  | |- PC _ (@break_stmt _) _ _ => apply PC_break
  | |- PC _ (@function_def_content _ _) _ _ => apply PC_function_def_content
  end.

Lemma infix_power k : infix_binding_power k = (left_power k, right_power k).
Proof. destruct k; vm_compute; reflexivity. Qed.
Lemma prefix_power k : prefix_binding_power k = unary_power k.
Proof. destruct k; vm_compute; reflexivity. Qed.

(** What [expr_bp b] leaves behind. *)
Definition nonexp (g : forest) : Prop := Forall (fun t => is_exp t = false) (ers g).
Definition eQ (b : nat) (o : option nat) (g : forest) (r : list kind) : Prop :=
  match o with
  | Some _ => exists K fs, g = [PNode K fs] /\ In K expr_kinds /\ spine b (PNode K (ers fs)) = true /\ left_power (hd0 r) < b
  | None => nonexp g
  end.

Lemma pre_ok {A} cl f0 K fs pre K' (m : D A) r i st' Q : PC cl m r Q -> @pre_node TO A (length f0) K' m (mkDS r (f0 ++ PNode K fs :: pre)) = Ok (i, st') ->
  exists a g s, i = length f0 /\ st' = mkDS s (f0 ++ [PNode K' (PNode K fs :: pre ++ g)]) /\ r = fkinds g ++ s /\ well_grouped (ers g) (hd0 s) /\
    (cl = true -> closed (ers g) (hd0 s)) /\ Q a g s.
Proof.
  intros H Hr. destruct (pre_node_inv _ _ _ _ _ _ _ _ _ Hr) as (a & st & H1 & -> & ->). destruct (H _ _ _ H1) as (g & s & -> & E1 & G & C & HQ).
  exists a, g, s. repeat split; auto.
Qed.
Lemma wg_cons t f nx : well_grouped (t :: f) nx <-> well_grouped [t] (next f nx) /\ well_grouped f nx.
Proof. exact (wg_app [t] f nx). Qed.
Lemma next_ers_cons t g r : next (ers (t :: g)) (hd0 r) = hd0 (fkinds (t :: g) ++ r).
Proof. apply next_ers. Qed.

Section Rec.
Variable fuel : nat.
Variable stmt : D unit.
Variable ebp : nat -> D (option nat).
Hypothesis Hs : forall cl rem, PC cl stmt rem any.
Hypothesis He : forall b rem, PC true (ebp b) rem (eQ b).

Lemma He' cl b rem : PC cl (ebp b) rem any.
Proof. apply (PC_conseq _ _ _ _ _ _ (He b rem)); [auto|]. intros; exact I. Qed.

Lemma PC_block_raw cl ts rem : PC cl (@block_raw TO fuel stmt ts) rem any.
Proof. unfold block_raw. apply (PC_node false); [reflexivity|discriminate|]. apply PC_while; intros; [pc|apply Hs]. Qed.
Lemma PC_block cl rem : PC cl (@block TO fuel stmt) rem any.
Proof. apply PC_block_raw. Qed.
Lemma PC_expr_single cl rem : PC cl (@expr_single TO ebp) rem any.
Proof. apply He'. Qed.
Lemma PC_expr cl rem : PC cl (@expr TO fuel ebp) rem any.
Proof.
  unfold expr, expr_multi. apply (PC_node true); [reflexivity|reflexivity|]. apply PC_bind_any; [apply PC_expr_single|]. intros _ r.
  apply PC_while; intros; pc; apply PC_expr_single.
Qed.
Lemma PCM_paren rem : PCM (@paren_expr TO ebp) rem (isk [KParenExpr]).
Proof. unfold paren_expr. apply (PCM_leaf true); [reflexivity|reflexivity|now left|]. pc; apply He'. Qed.
Lemma PC_index cl rem : PC cl (@index TO ebp) rem any.
Proof. unfold index. apply (PC_node true); [reflexivity|reflexivity|]. pc; apply PC_expr_single. Qed.
Lemma PC_table_content cl rem : PC cl (@table_content TO ebp) rem any.
Proof.
  unfold table_content. apply (PC_node false); [reflexivity|discriminate|].
  pc; (apply (PC_node true); [reflexivity|reflexivity|]); pc; try apply PC_expr_single;
    (apply (PC_node false); [reflexivity|discriminate|]); pc; apply PC_index.
Qed.
Lemma PC_table_inner cl rem : PC cl (@table_inner TO fuel) rem any.
Proof. unfold table_inner. apply PC_loop. intros; pc. Qed.
Lemma PCM_table rem : PCM (@table_expr TO fuel ebp) rem (isk [KTableExpr]).
Proof.
  unfold table_expr. apply (PCM_leaf false); [reflexivity|discriminate|now left|]. pc. apply PC_while; intros; pc; [apply PC_table_content|apply PC_table_inner].
Qed.
Lemma PCM_function rem : PCM (@function_expr TO fuel stmt) rem (isk [KFunctionExpr]).
Proof. unfold function_expr. apply (PCM_leaf false); [reflexivity|discriminate|now left|]. pc. apply PC_block. Qed.
Lemma PC_arg_list cl rem : PC cl (@arg_list TO fuel ebp) rem any.
Proof. unfold arg_list. apply (PC_node false); [reflexivity|discriminate|]. pc; apply PC_expr. Qed.
Lemma PC_call_args cl rem : PC cl (@call_args TO fuel ebp) rem any.
Proof.
  unfold call_args. pc. apply (PC_node false); [reflexivity|discriminate|]. pc; [apply PC_arg_list|]. apply (PCM_PC _ _ _ _ (PCM_table _)). discriminate.
Qed.
Lemma PC_method cl rem : cl = false -> PC cl (@bind TO unit unit (@p_bump TO (PKind KColon)) (fun _ => @bind TO nat unit (@name_ref TO)
   (fun _ => @bind TO bool unit (@p_at TO (PSet CALL_FIRST)) (fun b => if b then @call_args TO fuel ebp else @p_error TO "Expected call arguments")))) rem any.
Proof. intros ->. pc; apply PC_call_args. Qed.

(** Postfix operators. *)
Definition stop_call (cc : bool) (k : kind) : bool :=
  (cc && among k [KLParen; KLBrace; KStr; KColon]) || among k [KLBracket; KDot].
Lemma extends_callable K fs k : In K callable -> extends (PNode K fs) k = stop_call true k.
Proof. intros H. destruct H as [<-|[<-|[<-|[<-|[<-|[<-|[<-|[<-|[]]]]]]]]]; destruct k; reflexivity. Qed.
Lemma postfix_ok n : forall f0 K fs (cc : bool) r a st', @postfix_expr TO fuel ebp n (length f0) cc (mkDS r (f0 ++ [PNode K fs])) = Ok (a, st') ->
  (if cc then In K callable else K = KLiteral) -> well_grouped [PNode K (ers fs)] (hd0 r) ->
  exists K' fs' r', a = length f0 /\ st' = mkDS r' (f0 ++ [PNode K' fs']) /\ fkinds fs ++ r = fkinds fs' ++ r' /\
    well_grouped [PNode K' (ers fs')] (hd0 r') /\ In K' (KLiteral :: callable) /\ extends (PNode K' (ers fs')) (hd0 r') = false.
Proof.
  induction n as [|n IH]; intros f0 K fs cc r a st' Hr HK HG; [discriminate Hr|]. cbn [postfix_expr] in Hr. rewrite cur_run, at_run in Hr.
  assert (STEP : forall (A : Type) K' (m : D A), PC false m r any -> In K' [KCallExpr; KMethodCallExpr; KIndexExpr; KDotExpr] ->
    (@bind TO nat nat (@pre_node TO A (length f0) K' m) (fun l => @postfix_expr TO fuel ebp n l true)) (mkDS r (f0 ++ [PNode K fs])) = Ok (a, st') ->
    exists K' fs' r', a = length f0 /\ st' = mkDS r' (f0 ++ [PNode K' fs']) /\ fkinds fs ++ r = fkinds fs' ++ r' /\
    well_grouped [PNode K' (ers fs')] (hd0 r') /\ In K' (KLiteral :: callable) /\ extends (PNode K' (ers fs')) (hd0 r') = false).
  { clear Hr. intros A K' m Hm HK' Hr. change (rbind (@pre_node TO A (length f0) K' m (mkDS r (f0 ++ [PNode K fs]))) (fun p => @postfix_expr TO fuel ebp n (fst p) true (snd p)) = Ok (a, st')) in Hr.
    apply rbind_ok in Hr as ((i & st) & H1 & H2). destruct (pre_ok _ _ _ _ _ _ _ _ _ _ _ Hm H1) as (u & g & s & -> & -> & E1 & G1 & _ & _). cbn [fst snd app] in H2.
    destruct (IH _ _ _ _ _ _ _ H2) as (K2 & fs2 & r2 & -> & -> & E2 & G2 & HK2 & X2).
    - destruct HK' as [<-|[<-|[<-|[<-|[]]]]]; cbn; tauto.
    - rewrite wg_node. split; [apply grouped_leaf; destruct HK' as [<-|[<-|[<-|[<-|[]]]]]; reflexivity|].
      cbn [flat_map erase app]. rewrite wg_cons, next_ers, <- E1. auto.
    - exists K2, fs2, r2. rewrite fkinds_cons, pkinds_node, <- app_assoc, <- E1 in E2. repeat split; auto. }
  destruct (cc && pacc_test (PSet CALL_FIRST) (hd0 r)) eqn:B1; [apply (STEP unit KCallExpr (@call_args TO fuel ebp)); [apply PC_call_args|cbn; tauto|exact Hr]|].
  destruct (kind_eqb (hd0 r) KColon && cc) eqn:B2; [apply (STEP unit KMethodCallExpr _ (PC_method false r eq_refl)); [cbn; tauto|exact Hr]|].
  destruct (kind_eqb (hd0 r) KLBracket) eqn:B3; [apply (STEP unit KIndexExpr (@index TO ebp)); [apply PC_index|cbn; tauto|exact Hr]|].
  destruct (kind_eqb (hd0 r) KDot) eqn:B4; [apply (STEP bool KDotExpr (@bind TO unit bool (@p_bump TO (PKind KDot)) (fun _ => @p_expect TO KIdent))); [pc|cbn; tauto|exact Hr]|].
  injection Hr as <- <-. exists K, fs, r. split; [reflexivity|]. split; [reflexivity|]. split; [reflexivity|]. split; [exact HG|]. split; [destruct cc; [right; exact HK|left; congruence]|].
  assert (SC : stop_call cc (hd0 r) = false).
  { clear - B1 B2 B3 B4. revert B1 B2 B3 B4. generalize (hd0 r). intros k. destruct cc, k; intros B1 B2 B3 B4; try reflexivity; try discriminate B1; try discriminate B2; try discriminate B3; discriminate B4. }
  destruct cc; [rewrite extends_callable; [exact SC|exact HK]|]. subst K. destruct (hd0 r); try reflexivity; discriminate SC.
Qed.

(** The left-hand side: an operator and its operand, or an atom with its postfix operators. *)
Definition nothing (rem : list kind) (f0 : forest) (st' : tstate) : Prop :=
  exists g r, st' = mkDS r (f0 ++ g) /\ rem = fkinds g ++ r /\ well_grouped (ers g) (hd0 r) /\ nonexp g.
Definition atom_res (rem : list kind) (f0 : forest) (o : option (nat * bool)) (st' : tstate) : Prop :=
  match o with
  | Some (i, cc) => exists K fs r, i = length f0 /\ st' = mkDS r (f0 ++ [PNode K fs]) /\ rem = fkinds fs ++ r /\ well_grouped [PNode K (ers fs)] (hd0 r) /\
      (if cc : bool then In K callable else K = KLiteral)
  | None => nothing rem f0 st'
  end.
Definition lhs_res (rem : list kind) (f0 : forest) (o : option nat) (st' : tstate) : Prop :=
  match o with
  | Some i => exists K fs r, i = length f0 /\ st' = mkDS r (f0 ++ [PNode K fs]) /\ rem = fkinds fs ++ r /\ well_grouped [PNode K (ers fs)] (hd0 r) /\
      In K expr_kinds /\ K <> KInfixExpr /\ extends (PNode K (ers fs)) (hd0 r) = false
  | None => nothing rem f0 st'
  end.
Lemma grouped_prefix fs nx : closed fs nx -> (forall o r, fs = [PTok o; r] -> spine (unary_power o) r = true) -> grouped KPrefixExpr fs nx.
Proof. intros H1 H2. split; [intros _; exact H1|]. repeat split; try discriminate; [intros _; exact H2|]. intros [H|[H|[]]]; discriminate H. Qed.
Lemma grouped_infix fs nx : closed fs nx -> (forall l o r, fs = [l; PTok o; r] -> spine (right_power o) r = true) -> grouped KInfixExpr fs nx.
Proof. intros H1 H2. split; [intros _; exact H1|]. repeat split; try discriminate; [intros _; exact H2|]. intros [H|[H|[]]]; discriminate H. Qed.
Lemma spine_nonexp m t : is_exp t = false -> spine m t = true.
Proof. destruct t as [| | |K [|l [|[o| | |] fs]]]; try reflexivity. cbn [is_exp spine]. intros H. destruct (kind_eqb K KInfixExpr) eqn:B; [|reflexivity]. apply kind_eqb_true in B. subst. discriminate H. Qed.
Lemma eQ_spine b o g r t : eQ b o g r -> ers g = [t] -> spine b t = true.
Proof.
  destruct o as [i|]; cbn [eQ].
  - intros (K & fs & -> & _ & H & _) E. cbn [flat_map erase app] in E. injection E as <-. exact H.
  - intros H E. apply spine_nonexp. unfold nonexp in H. rewrite E in H. exact (Forall_inv H).
Qed.
(** An operand that is closed and after which no tighter operator stands. *)
Lemma eQ_end b o g r t : eQ b o g r -> ers g = [t] -> closed (ers g) (hd0 r) -> is_exp t && ((b <=? left_power (hd0 r)) || extends t (hd0 r)) = false.
Proof.
  intros HQ E C. rewrite E in C. destruct C as [C _]. change (next [] (hd0 r)) with (hd0 r) in C. rewrite C, orb_false_r. destruct o as [i|]; cbn [eQ] in HQ.
  - destruct HQ as (K & fs & -> & _ & _ & H). apply andb_false_iff. right. apply Nat.leb_gt. exact H.
  - unfold nonexp in HQ. rewrite E in HQ. now rewrite (Forall_inv HQ).
Qed.
Lemma bump_any_inv rem f0 u st' : @p_bump TO PAny (mkDS rem f0) = Ok (u, st') -> exists k r, rem = k :: r /\ st' = mkDS r (f0 ++ [PTok k]).
Proof.
  intros H. assert (P : PC false (@p_bump TO PAny) rem (fun _ g r => exists k, g = [PTok k] /\ rem = k :: r)) by (apply PC_bump; eauto). destruct (P _ _ _ H) as (g & r & -> & _ & _ & _ & (k & -> & ->)). eauto.
Qed.
Lemma prefix_ok k rem : hd0 rem = k ->
  PCM (@node TO (option nat) KPrefixExpr (@bind TO unit (option nat) (@p_bump TO PAny) (fun _ => ebp (unary_power k)))) rem
                (fun t r => exists fs, t = PNode KPrefixExpr fs /\ extends (PNode KPrefixExpr (ers fs)) (hd0 r) = false).
Proof.
  intros Hk. apply (PCM_node true _ _ _ (fun o fs r => exists g, fs = PTok k :: g /\ eQ (unary_power k) o g r)).
  - eapply PC_bind; [apply (PC_bump true PAny rem (fun _ g r => exists j, g = [PTok j] /\ rem = j :: r)); eauto|]. intros [] g r Er (j & -> & ->).
    cbn [hd0] in Hk. subst j. apply (PC_conseq _ _ _ _ _ _ (He _ _)); [auto|]. intros o g' r' _ HQ. exists g'. auto.
  - intros o fs r Er (g & -> & HQ) Hc. specialize (Hc eq_refl). cbn [flat_map erase app] in Hc |- *. split.
    + apply grouped_prefix; [exact Hc|]. intros o' t E. injection E as <- E. exact (eQ_spine _ _ _ _ _ HQ E).
    + exists (PTok k :: g). split; [reflexivity|]. cbn [erase flat_map app]. destruct Hc as [_ Hc]. cbn [extends]. change (kind_eqb KPrefixExpr KInfixExpr) with false.
      change (kind_eqb KPrefixExpr KPrefixExpr) with true. cbv iota. destruct (ers g) as [|t [|t' l]] eqn:Eg; try reflexivity. rewrite <- Eg in Hc. exact (eQ_end _ _ _ _ _ HQ Eg Hc).
Qed.
Lemma PC_error_n cl m rem : PC cl (@p_error TO m) rem (fun _ g _ => nonexp g).
Proof. unfold p_error. apply PC_push. constructor. Qed.
Lemma PC_err_node_n cl c (body : D perr) rem : PC c body rem any -> PC cl (@err_node TO body) rem (fun _ g _ => nonexp g).
Proof.
  intros H f0 a st' Hr. destruct (PC_err_node cl _ _ _ H _ _ _ Hr) as (g & r & -> & E1 & G1 & C1 & _). exists g, r. repeat split; auto.
  change (tr_err_node body (mkDS rem f0) = Ok (a, mkDS r (f0 ++ g))) in Hr. unfold tr_err_node in Hr. cbn [ds_rem ds_for] in Hr.
  apply rbind_ok in Hr as ((e & st) & H1 & H2). injection H2 as _ _ Eg. apply app_inv_head in Eg. subst g. repeat constructor.
Qed.
Lemma PC_err_recover_n cl m ts rem : PC cl (@p_err_recover TO m ts) rem (fun _ g _ => nonexp g).
Proof.
  unfold p_err_recover. apply PC_cur. destruct (kind_eqb _ _); [apply PC_error_n|]. apply PC_at. destruct (pacc_test _ _); [apply PC_error_n|]. apply (PC_err_node_n _ false). pc.
Qed.
Definition HF {A} (m : D A) (rem : list kind) (R : forest -> A -> tstate -> Prop) : Prop := forall f0 a st', m (mkDS rem f0) = Ok (a, st') -> R f0 a st'.
Lemma HF_cur {B} (k : kind -> D B) rem (R : forest -> B -> tstate -> Prop) : HF (k (hd0 rem)) rem R -> HF (@bind TO kind B (@p_current TO) k) rem R.
Proof. intros H f0 a st' Hr. apply H. rewrite <- cur_run. exact Hr. Qed.
Lemma HF_at {B} a (k : bool -> D B) rem (R : forest -> B -> tstate -> Prop) : HF (k (pacc_test a (hd0 rem))) rem R -> HF (@bind TO bool B (@p_at TO a) k) rem R.
Proof. intros H f0 b st' Hr. apply H. rewrite <- at_run. exact Hr. Qed.
Lemma HF_bind {A B} (m : D A) (k : A -> D B) rem (R : forest -> B -> tstate -> Prop) : HF m rem (fun f0 a st => forall b st', k a st = Ok (b, st') -> R f0 b st') -> HF (@bind TO A B m k) rem R.
Proof.
  intros H f0 b st' Hr. change (rbind (m (mkDS rem f0)) (fun p => k (fst p) (snd p)) = Ok (b, st')) in Hr. apply rbind_ok in Hr as ((a & st) & H1 & H2). exact (H _ _ _ H1 _ _ H2).
Qed.
Lemma ret_inv {A} (a b : A) st st' : @ret TO A a st = Ok (b, st') -> a = b /\ st = st'.
Proof. intros H. change (Ok (a, st) = Ok (b, st')) in H. split; congruence. Qed.
Lemma atom_ok rem : unary_power (hd0 rem) = 0 -> HF (@atom_expr TO fuel stmt ebp) rem (atom_res rem).
Proof.
  intros H0. unfold atom_expr. apply HF_cur. rewrite prefix_power, H0. cbv zeta. change (0 <? 0) with false. cbv iota.
  assert (P : forall cc l (m : D nat), PCM m rem (isk l) -> (forall K, In K l -> if cc : bool then In K callable else K = KLiteral) ->
    HF (@bind TO nat (option (nat * bool)) m (fun c => @ret TO (option (nat * bool)) (Some (c, cc)))) rem (atom_res rem)).
  { intros cc l m Hm Hl. apply HF_bind. intros f0 c st H1 o st' H2. apply ret_inv in H2 as [<- <-].
    destruct (Hm _ _ _ H1) as (K & fs & r & -> & -> & E1 & G1 & (K0 & fs0 & EK & HK)). injection EK as <- <-. exists K, fs, r. repeat split; auto. exact (Hl _ HK). }
  apply HF_at. destruct (pacc_test _ _); [apply (P false _ _ (PCM_literal _)); intros K [<-|[]]; reflexivity|]. apply HF_cur.
  destruct (kind_eqb _ _); [apply (P true _ _ (PCM_function _)); intros K [<-|[]]; cbn; tauto|].
  destruct (kind_eqb _ _); [apply (P true _ _ (PCM_table _)); intros K [<-|[]]; cbn; tauto|].
  destruct (kind_eqb _ _); [apply (P true _ _ (PCM_name_ref _)); intros K [<-|[]]; cbn; tauto|].
  destruct (kind_eqb _ _); [apply (P true _ _ (PCM_paren _)); intros K [<-|[]]; cbn; tauto|].
  apply HF_bind. intros f0 u st H1 o st' H2. apply ret_inv in H2 as [<- <-]. destruct (PC_err_recover_n false _ _ _ _ _ _ H1) as (g & r & -> & E1 & G1 & _ & H). exists g, r. auto.
Qed.
Lemma closed_nonexp g nx : nonexp g -> closed (ers g) nx.
Proof.
  unfold nonexp. induction (ers g) as [|t f IH]; [intros; exact I|]. intros H. split; [|apply IH; exact (Forall_inv_tail H)]. apply Forall_inv in H.
  destruct t as [| | |K fs]; try reflexivity. apply extends_plain. exact H.
Qed.
Lemma lhs_ok rem : HF (@lhs TO fuel stmt ebp) rem (lhs_res rem).
Proof.
  unfold lhs. apply HF_cur. rewrite prefix_power. cbv zeta. change NOT_AN_OP with 0. destruct (0 <? unary_power (hd0 rem)) eqn:B.
  - apply HF_bind. intros f0 c st H1 o st' H2. apply ret_inv in H2 as [<- <-]. destruct (prefix_ok _ rem eq_refl _ _ _ H1) as (K & fs & r & -> & -> & E1 & G1 & (fs' & EK & X)).
    injection EK as -> ->. exists KPrefixExpr, fs', r. repeat split; auto; [cbn; tauto|discriminate].
  - apply Nat.ltb_ge in B. assert (H0 : unary_power (hd0 rem) = 0) by lia. clear B.
    apply HF_bind. intros f0 a st H1 o st' H2. pose proof (atom_ok _ H0 _ _ _ H1) as HA.
    destruct a as [(l & cc)|]; [|apply ret_inv in H2 as [<- <-]; exact HA].
    cbn [atom_res] in HA. destruct HA as (K & fs & r & -> & -> & E1 & G1 & HK).
    match type of H2 with @bind TO _ _ ?m ?k ?st = _ => change (rbind (m st) (fun p => k (fst p) (snd p)) = Ok (o, st')) in H2 end.
    apply rbind_ok in H2 as ((c & st) & H2 & H3). cbn [fst snd] in H3. apply ret_inv in H3 as [<- <-].
    destruct (postfix_ok _ _ _ _ _ _ _ _ H2 HK G1) as (K' & fs' & r' & -> & -> & E2 & G2 & HK' & X).
    exists K', fs', r'. split; [reflexivity|]. split; [reflexivity|]. split; [congruence|]. split; [exact G2|].
    split; [clear - HK'; destruct HK' as [<-|[<-|[<-|[<-|[<-|[<-|[<-|[<-|[<-|[]]]]]]]]]]; cbn; tauto|]. split; [|exact X].
    intros ->. clear - HK'. cbn in HK'. repeat destruct HK' as [HK'|HK']; try discriminate HK'. exact HK'.
Qed.

(** The chain of binary operators. *)
Lemma spine_infix b l o f : spine b (PNode KInfixExpr (l :: PTok o :: f)) = (b <=? left_power o) && spine b l.
Proof. reflexivity. Qed.
Lemma infix_ok b n : forall f0 K fs r a st', @infix_loop TO ebp n b (length f0) (mkDS r (f0 ++ [PNode K fs])) = Ok (a, st') ->
  In K expr_kinds -> spine b (PNode K (ers fs)) = true -> extends (PNode K (ers fs)) (hd0 r) = false -> well_grouped [PNode K (ers fs)] (hd0 r) ->
  exists K' fs' r', a = length f0 /\ st' = mkDS r' (f0 ++ [PNode K' fs']) /\ fkinds fs ++ r = fkinds fs' ++ r' /\
    well_grouped [PNode K' (ers fs')] (hd0 r') /\ In K' expr_kinds /\ spine b (PNode K' (ers fs')) = true /\ extends (PNode K' (ers fs')) (hd0 r') = false /\ left_power (hd0 r') < b.
Proof.
  induction n as [|n IH]; intros f0 K fs r a st' Hr HK HS HX HG; [discriminate Hr|]. cbn [infix_loop] in Hr. rewrite cur_run, infix_power in Hr. cbv iota in Hr.
  destruct (left_power (hd0 r) <? b) eqn:B.
  { injection Hr as <- <-. exists K, fs, r. apply Nat.ltb_lt in B. repeat split; auto. }
  apply Nat.ltb_ge in B.
  match type of Hr with @bind TO _ _ ?m ?k ?st = _ => change (rbind (m st) (fun p => k (fst p) (snd p)) = Ok (a, st')) in Hr end.
  apply rbind_ok in Hr as ((u & st) & H1 & H2). destruct (bump_any_inv _ _ _ _ H1) as (k & r1 & -> & ->). cbn [fst snd hd0] in *.
  match type of H2 with @bind TO _ _ ?m ?k ?st = _ => change (rbind (m st) (fun p => k (fst p) (snd p)) = Ok (a, st')) in H2 end.
  apply rbind_ok in H2 as ((c & st) & H2 & H3). rewrite <- app_assoc in H2. cbn [app] in H2.
  destruct (pre_ok _ _ _ _ _ _ _ _ _ _ _ (He _ _) H2) as (o & g & s & -> & -> & E1 & G1 & C1 & HQ). cbn [fst snd] in H3. specialize (C1 eq_refl).
  destruct (IH _ _ _ _ _ _ H3) as (K' & fs' & r' & -> & -> & E2 & R).
  - cbn; tauto.
  - cbn [flat_map erase app]. rewrite spine_infix, HS, andb_true_r. now apply Nat.leb_le.
  - cbn [flat_map erase app extends]. change (kind_eqb KInfixExpr KInfixExpr) with true. cbv iota. destruct (ers g) as [|t [|t' l]] eqn:Eg; try reflexivity.
    rewrite <- Eg in C1. exact (eQ_end _ _ _ _ _ HQ Eg C1).
  - cbn [flat_map erase app]. rewrite wg_node. split.
    + apply grouped_infix; [split; [exact HX|split; [reflexivity|exact C1]]|]. intros l o' t E. injection E as _ <- E. exact (eQ_spine _ _ _ _ _ HQ E).
    + apply wg_cons. split; [exact HG|]. apply wg_cons. split; [apply wg_tok|exact G1].
  - exists K', fs', r'. split; [reflexivity|]. split; [reflexivity|]. split; [|exact R]. rewrite <- E2, E1, !fkinds_cons, pkinds_node. cbn [pkinds]. rewrite <- !app_assoc. reflexivity.
Qed.
Lemma PC_expr_bp b rem : PC true (@expr_bp_body TO fuel stmt ebp b) rem (eQ b).
Proof.
  intros f0 o st' Hr. unfold expr_bp_body in Hr.
  match type of Hr with @bind TO _ _ ?m ?k ?st = _ => change (rbind (m st) (fun p => k (fst p) (snd p)) = Ok (o, st')) in Hr end.
  apply rbind_ok in Hr as ((l & st) & H1 & H2). cbn [fst snd] in H2. pose proof (lhs_ok _ _ _ _ H1) as HL. destruct l as [i|]; cbn [lhs_res] in HL.
  - destruct HL as (K & fs & r & -> & -> & E1 & G1 & HK & NI & X).
    match type of H2 with @bind TO _ _ ?m ?k ?st = _ => change (rbind (m st) (fun p => k (fst p) (snd p)) = Ok (o, st')) in H2 end.
    apply rbind_ok in H2 as ((c & st) & H2 & H3). cbn [fst snd] in H3. injection H3 as <- <-.
    assert (SP : spine b (PNode K (ers fs)) = true).
    { destruct (ers fs) as [|t [|[k0| | |] f]]; try reflexivity. cbn [spine]. apply kind_eqb_neq in NI. now rewrite NI. }
    destruct (infix_ok _ _ _ _ _ _ _ _ H2 HK SP X G1) as (K' & fs' & r' & -> & -> & E2 & G2 & HK' & SP' & X' & LP).
    exists [PNode K' fs'], r'. rewrite fkinds_node1. split; [reflexivity|]. split; [congruence|]. split; [exact G2|]. split; [intros _; split; [exact X'|exact I]|].
    exists K', fs'. auto.
  - injection H2 as <- <-. destruct HL as (g & r & -> & E1 & G1 & N). exists g, r. repeat split; auto. intros _. now apply closed_nonexp.
Qed.

(** Statements. *)
Ltac nd c := first [apply (PC_node c); [reflexivity|first [reflexivity|discriminate]|]].
Lemma PC_else cl rem : PC cl (@else_branch TO fuel stmt) rem any.
Proof. unfold else_branch. nd false. pc. apply PC_block. Qed.
Lemma PC_elseif n : forall cl rem, PC cl (@elseif_branch TO fuel stmt ebp n) rem any.
Proof.
  induction n as [|n IH]; intros cl rem; cbn [elseif_branch]; [apply PC_out|]. nd true. pc; [apply PC_expr_single|apply PC_block|apply IH|apply PC_else].
Qed.
Lemma PC_if cl rem : PC cl (@if_stmt TO fuel stmt ebp) rem any.
Proof. unfold if_stmt. nd true. pc; [apply PC_expr_single|apply PC_block|apply PC_elseif|apply PC_else]. Qed.
Lemma PC_while_stmt cl rem : PC cl (@while_stmt TO fuel stmt ebp) rem any.
Proof. unfold while_stmt. nd true. pc; [apply PC_expr_single|apply PC_block]. Qed.
Lemma PC_for cl rem : PC cl (@for_stmt TO fuel stmt ebp) rem any.
Proof.
  unfold for_stmt. nd false. pc; [|apply PC_block]. unfold for_content. nd false. pc.
  - unfold numeric_for. pc. nd false. pc. apply PC_expr.
  - unfold generic_for. pc. nd true. pc. apply PC_expr_single.
Qed.
Lemma PC_repeat cl rem : PC cl (@repeat_until_stmt TO fuel stmt ebp) rem any.
Proof. unfold repeat_until_stmt. nd true. pc; [apply PC_block|apply PC_expr_single]. Qed.
Lemma PC_local_function cl rem : PC cl (@local_function_def_stmt TO fuel stmt) rem any.
Proof. unfold local_function_def_stmt. nd false. pc. apply PC_block. Qed.
Lemma PC_function_stmt cl rem : PC cl (@function_def_stmt TO fuel stmt) rem any.
Proof. unfold function_def_stmt. nd false. pc. apply PC_block. Qed.
Lemma PC_do cl rem : PC cl (@do_stmt TO fuel stmt) rem any.
Proof. unfold do_stmt. nd false. pc. apply PC_block. Qed.
Lemma PC_local cl rem : PC cl (@local_stmt TO fuel stmt ebp) rem any.
Proof. unfold local_stmt. pc; [apply PC_local_function|]. unfold local_assign_stmt. nd false. pc. apply PC_expr. Qed.

Lemma PCM_PC_plain cl m rem K : among K expr_kinds = false -> PCM m rem (isk [K]) -> PC cl m rem any.
Proof.
  intros HK H. apply (PCM_PC _ _ _ _ H). intros _ t r (K0 & fs & -> & [<-|[]]). cbn [erase hd]. now apply extends_plain.
Qed.
Lemma PC_expr_node cl rem : PC cl (@expr TO fuel ebp) rem (fun _ g _ => exists fs, ers g = [PNode KMultivalExpr fs]).
Proof.
  intros f0 a st' Hr. destruct (PC_expr cl _ _ _ _ Hr) as (g & r & -> & E1 & G1 & C1 & _). exists g, r. repeat split; auto.
  unfold expr, expr_multi, node_ in Hr.
  match type of Hr with @bind TO _ _ ?m ?k ?st = _ => change (rbind (m st) (fun p => k (fst p) (snd p)) = Ok (a, mkDS r (f0 ++ g))) in Hr end.
  apply rbind_ok in Hr as ((i & st) & H1 & H2). cbn [fst snd] in H2. apply ret_inv in H2 as [_ ->].
  unfold node in H1. destruct (node_by_inv _ _ _ _ _ H1) as (K & st & HB & -> & EK).
  injection EK as _ Eg. apply app_inv_head in Eg. subst g.
  match type of HB with @bind TO _ _ ?m ?k ?st' = _ => change (rbind (m st') (fun p => k (fst p) (snd p)) = Ok (K, st)) in HB end.
  apply rbind_ok in HB as ((u & st1) & HB & H3). cbn [fst snd] in H3. apply ret_inv in H3 as [<- _]. cbn [flat_map erase app]. eauto.
Qed.
Lemma PC_return cl rem : PC cl (@return_stmt TO fuel ebp) rem any.
Proof.
  unfold return_stmt, node_. apply PC_bind_any; [|intros; apply PC_ret; exact I]. apply (PCM_PC_plain _ _ _ KReturnStmt); [reflexivity|].
  apply (PCM_node false _ _ _ (fun _ fs r => ers fs = [PTok KReturnKw] -> among (hd0 r) starts_expr = false)).
  - eapply PC_bind; [apply (PC_bump false (PKind KReturnKw) rem (fun _ g r => exists k, g = [PTok k])); eauto|]. intros [] g r Er (k & ->).
    apply PC_at. destruct (pacc_test (PSet EXPR_FIRST) (hd0 r)) eqn:T.
    + apply (PC_conseq _ _ _ _ _ _ (PC_expr_node false r)); [auto|]. intros a g r' _ (fs & Eg) Ef. rewrite flat_map_app, Eg in Ef. discriminate Ef.
    + apply PC_ret. intros _. revert T. destruct (hd0 r); vm_compute; congruence.
  - intros a fs r Er H _. split; [|exists KReturnStmt, fs; split; [reflexivity|now left]].
    split; [intros HI; apply among_in in HI; discriminate HI|]. repeat split; try discriminate; [intros _; exact H|]. intros [HI|[HI|[]]]; discriminate HI.
Qed.
Lemma PC_expr_stmt cl rem : In (hd0 rem) [KIdent; KLParen] -> PC cl (@expr_stmt TO fuel ebp) rem any.
Proof.
  intros H0. unfold expr_stmt. apply PC_bind_any; [|intros; apply PC_ret; exact I].
  apply (PCM_PC _ _ _ (isk [KExprStmt; KAssignStmt])); [|intros _ t r (K & fs & -> & [<-|[<-|[]]]); reflexivity].
  apply (PCM_node_by false _ _ (fun K _ _ => In K [KExprStmt; KAssignStmt])).
  - apply (PC_bind _ _ _ _ any); [apply PC_expr|]. intros _ g r _ _. apply (PC_bind _ _ _ _ any); [pc|]. intros b g1 r1 _ _. destruct b; [|apply PC_ret; cbn; tauto].
    apply (PC_bind _ _ _ _ any); [apply PC_expr|]. intros _ g2 r2 _ _. apply PC_ret. cbn; tauto.
  - intros K fs r Er HK _. split; [|exists K, fs; auto]. split; [intros HI; apply among_in in HI; destruct HK as [<-|[<-|[]]]; discriminate HI|].
    split; [intros ->; destruct HK as [HK|[HK|[]]]; discriminate HK|]. split; [intros ->; destruct HK as [HK|[HK|[]]]; discriminate HK|].
    split; [intros ->; destruct HK as [HK|[HK|[]]]; discriminate HK|]. intros _. rewrite next_ers, <- Er. exact H0.
Qed.
Lemma PC_stmt cl rem : PC cl (@stmt_body TO fuel stmt ebp) rem any.
Proof.
  unfold stmt_body. apply PC_bind_any; [|intros; pc]. apply PC_cur.
  destruct (kind_eqb _ KIfKw); [apply PC_if|].
  destruct (kind_eqb _ KDoubleColon); [apply PC_label|].
  destruct (kind_eqb _ KGotoKw); [apply PC_goto|].
  destruct (kind_eqb _ KLocalKw); [apply PC_local|].
  destruct (kind_eqb _ KRepeatKw); [apply PC_repeat|].
  destruct (kind_eqb _ KFunctionKw); [apply PC_function_stmt|].
  destruct (kind_eqb _ KReturnKw); [apply PC_return|].
  destruct (kind_eqb _ KDoKw); [apply PC_do|].
  destruct (kind_eqb _ KWhileKw); [apply PC_while_stmt|].
  destruct (kind_eqb _ KForKw); [apply PC_for|].
  destruct (kind_eqb _ KBreakKw); [apply PC_break|].
  destruct (kind_eqb _ KIdent) eqn:B1; [apply PC_expr_stmt; apply kind_eqb_true in B1; left; congruence|].
  destruct (kind_eqb _ KLParen) eqn:B2; [apply PC_expr_stmt; apply kind_eqb_true in B2; right; left; congruence|].
  destruct (kind_eqb _ KSemicolon); [pc|]. apply PC_at. destruct (pacc_test _ _); [pc|]. destruct (kind_eqb _ KEndKw); [|pc].
  apply (PC_err_node _ false). pc.
Qed.
End Rec.

Lemma PC_all n : (forall cl rem, PC cl (@stmt_f TO n) rem any) /\ (forall b rem, PC true (@expr_f TO n b) rem (eQ b)).
Proof.
  induction n as [|n [IHs IHe]]; [split; intros; apply PC_out|]. split; intros.
  - exact (PC_stmt n _ _ IHs IHe cl rem).
  - exact (PC_expr_bp n _ _ IHs IHe b rem).
Qed.
Lemma PC_root n rem : PC false (@root_f TO n) rem any.
Proof.
  unfold root_f, root. apply (PC_node false); [reflexivity|discriminate|]. unfold root_block. destruct (PC_all n) as [H _]. exact (PC_block_raw n _ H _ _ _).
Qed.
