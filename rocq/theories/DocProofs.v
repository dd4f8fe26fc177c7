(** DocProofs.v — the trees of GrammarSpec.v are the trees the corrected grammar file describes. *)
From Verif Require Import Base SyntaxKind ParserTree GrammarSpec Codegen GrammarDoc.
Local Open Scope string_scope.
Local Open Scope nat_scope.
Local Open Scope list_scope.

Definition rname (n : string) : option rule := rule_of corrected_grammar n.
(** Names that stand for one node. *)
Fixpoint derives (fuel : nat) (n : string) (m : string) : bool :=
  match fuel with
  | 0 => false
  | S fuel => (String.eqb n m && d_node corrected n) ||
      (d_class corrected n && match rname n with Some (RAlt rs) => existsb (fun r => match r with RNode n' => derives fuel n' m | _ => false end) rs | _ => false end)
  end.
Lemma derives_fits fuel : forall n k cs, derives fuel n (kind_name k) = true -> fits corrected (RNode n) [PNode k cs].
Proof.
  induction fuel as [|fuel IH]; intros n k cs H; [discriminate|]. cbn [derives] in H. apply orb_true_iff in H as [H|H]; apply andb_true_iff in H as [H1 H2].
  - apply String.eqb_eq in H1. subst n. now apply fits_node.
  - destruct (rname n) as [[ | | | | |rs| ]|] eqn:E; try discriminate. apply existsb_exists in H2 as (r & Hr & H2). destruct r as [m| | | | | |]; try discriminate.
    eapply fits_class; [exact H1|exact E|exact Hr|now apply IH].
Qed.
Lemma fits_node_inv d n f : fits d (RNode n) f -> exists k cs, f = [PNode k cs] /\
  ((kind_name k = n /\ d_node d n = true) \/ (d_class d n = true /\ exists rs m, rule_of (d_rules d) n = Some (RAlt rs) /\ In (RNode m) rs /\ fits d (RNode m) f)).
Proof.
  intros H. remember (RNode n) as r eqn:Er. revert n Er. induction H; intros n' Er; try discriminate; injection Er as <-.
  - eauto 10.
  - destruct (IHfits m eq_refl) as (k & cs & E & _). exists k, cs. split; [exact E|]. right. split; [assumption|]. exists rs, m. repeat split; auto.
Qed.
(** All node kinds of the corrected grammar. *)
Definition expr_kinds : list kind := [KLiteral; KTableExpr; KInfixExpr; KPrefixExpr; KIndexExpr; KDotExpr; KFunctionExpr; KCallExpr; KMethodCallExpr; KNameRef; KParenExpr].
Definition call_kinds : list kind := [KTableExpr; KIndexExpr; KDotExpr; KFunctionExpr; KCallExpr; KMethodCallExpr; KNameRef; KParenExpr].
Definition stmt_kinds : list kind := [KAssignStmt; KLocalAssignStmt; KLocalFunctionDefStmt; KFunctionDefStmt; KForStmt; KIfStmt; KReturnStmt; KWhileStmt; KExprStmt; KBreakStmt; KRepeatUntilStmt; KLabelStmt; KGotoStmt; KDoStmt].
Lemma kind_name_inj a b : kind_name a = kind_name b -> a = b.
Proof. destruct a; intros H; destruct b; (reflexivity || discriminate H). Qed.
Ltac dnode := match goal with |- fits corrected (RNode ?n) [PNode ?k ?cs] => apply (derives_fits 3 n k cs); vm_compute; reflexivity end.
Lemma fits_own k cs : d_node corrected (kind_name k) = true -> fits corrected (RNode (kind_name k)) [PNode k cs].
Proof. apply fits_node. Qed.
Ltac kinds_in H := repeat (destruct H as [H|H]; [subst|]); try contradiction.
Ltac names_in H := repeat (destruct H as [H|H]; [|]); try contradiction.
Lemma fits_expr f : fits corrected (RNode "Expr") f <-> exists k cs, f = [PNode k cs] /\ In k expr_kinds.
Proof.
  split.
  - intros H. apply fits_node_inv in H as (k & cs & E & [[_ H]|(_ & rs & m & Hr & Hm & H)]); [discriminate|]. exists k, cs. split; [exact E|].
    vm_compute in Hr. injection Hr as <-. names_in Hm; injection Hm as <-; apply fits_node_inv in H as (k' & cs' & E' & [[H _]|[H _]]); try discriminate H; rewrite E in E'; injection E' as <- <-.
    all: match type of H with kind_name ?k = ?s => destruct k; try discriminate H; vm_compute; tauto end.
  - intros (k & cs & -> & H). kinds_in H; dnode.
Qed.
Lemma fits_callable f : fits corrected (RNode "Callable") f <-> exists k cs, f = [PNode k cs] /\ In k call_kinds.
Proof.
  split.
  - intros H. apply fits_node_inv in H as (k & cs & E & [[_ H]|(_ & rs & m & Hr & Hm & H)]); [discriminate|]. exists k, cs. split; [exact E|].
    vm_compute in Hr. injection Hr as <-. names_in Hm; injection Hm as <-; apply fits_node_inv in H as (k' & cs' & E' & [[H _]|[H _]]); try discriminate H; rewrite E in E'; injection E' as <- <-.
    all: match type of H with kind_name ?k = ?s => destruct k; try discriminate H; vm_compute; tauto end.
  - intros (k & cs & -> & H). kinds_in H; dnode.
Qed.
Lemma fits_indexable f : fits corrected (RNode "Indexable") f <-> exists k cs, f = [PNode k cs] /\ In k (KLiteral :: call_kinds).
Proof.
  split.
  - intros H. apply fits_node_inv in H as (k & cs & E & [[_ H]|(_ & rs & m & Hr & Hm & H)]); [discriminate|]. exists k, cs. split; [exact E|].
    vm_compute in Hr. injection Hr as <-. names_in Hm; injection Hm as <-.
    + apply fits_node_inv in H as (k' & cs' & E' & [[H _]|[H _]]); try discriminate H; rewrite E in E'; injection E' as <- <-. destruct k; try discriminate H. now left.
    + apply fits_callable in H as (k' & cs' & E' & H). rewrite E in E'. injection E' as <- <-. now right.
  - intros (k & cs & -> & H). cbn [In] in H. kinds_in H; dnode.
Qed.
Lemma fits_stmt f : fits corrected (RNode "Stmt") f <-> exists k cs, f = [PNode k cs] /\ In k stmt_kinds.
Proof.
  split.
  - intros H. apply fits_node_inv in H as (k & cs & E & [[_ H]|(_ & rs & m & Hr & Hm & H)]); [discriminate|]. exists k, cs. split; [exact E|].
    vm_compute in Hr. injection Hr as <-. names_in Hm; injection Hm as <-; apply fits_node_inv in H as (k' & cs' & E' & [[H _]|[H _]]); try discriminate H; rewrite E in E'; injection E' as <- <-.
    all: match type of H with kind_name ?k = ?s => destruct k; try discriminate H; vm_compute; tauto end.
  - intros (k & cs & -> & H). kinds_in H; dnode.
Qed.
Lemma fits_one k f : In k [KName; KNameRef; KMultiName; KSourceFile; KBlock; KLabelDelim; KFunctionDefContent; KFunctionMethod; KFunctionStatic; KParamList; KElseBranch; KElseIfBranch; KForContent; KNumericFor; KGenericFor; KMultivalExpr; KCallArgs; KArgList; KTableExpr; KTableSep; KTableContent; KPositionalValue; KKeyValue; KTableKey; KIndex; KIndexPath] ->
  fits corrected (RNode (kind_name k)) f <-> exists cs, f = [PNode k cs].
Proof.
  intros Hk. split.
  - intros H. apply fits_node_inv in H as (k' & cs & E & [[H _]|[H _]]); [apply kind_name_inj in H; subst k'; eauto|]. exfalso. kinds_in Hk; discriminate H.
  - intros (cs & ->). apply fits_node. kinds_in Hk; reflexivity.
Qed.

(** * Derivations conform *)
Definition one_of (ks : list kind) (f : forest) : Prop := exists k cs, f = [PNode k cs] /\ In k ks.
Definition shape (n : nt) (f : forest) : Prop :=
  match n with
  | NSource => one_of [KSourceFile] f
  | NBlock => one_of [KBlock] f
  | NStmts => fits corrected (RRep (RSeq [RNode "Stmt"; ROpt (RTok ";")])) f
  | NStmt => one_of stmt_kinds f
  | NElse => f = [] \/ one_of [KElseBranch; KElseIfBranch] f
  | NMulti => one_of [KMultivalExpr] f
  | NMultiTail => fits corrected (RRep (RSeq [RTok ","; RNode "Expr"])) f
  | NExprO | NExpr | NLhs => one_of expr_kinds f
  | NPost c => one_of (if c then call_kinds else KLiteral :: call_kinds) f
  | NCallArgs => one_of [KCallArgs] f
  | NIndex => one_of [KIndex] f
  | NFields => fits corrected (ROpt (RSeq [RNode "TableContent"; RRep (RSeq [RNode "TableSep"; RNode "TableContent"]); ROpt (RNode "TableSep")])) f
  | NField => one_of [KTableContent] f
  | NName => one_of [KName] f
  | NNames => fits corrected (RSeq [RNode "Name"; RRep (RSeq [RTok ","; RNode "Name"])]) f /\ names_complete f
  | NNameTail => fits corrected (RRep (RSeq [RTok ","; RNode "Name"])) f /\ (f = [] \/ names_complete f)
  | NParamList => one_of [KParamList] f
  | NParams => f = [] \/ exists ns rest, f = PNode KMultiName ns :: rest /\ ((rest = [] /\ names_complete ns) \/ rest = [PTok KTripleDot])
  | NNameRef => one_of [KNameRef] f
  | NPath => fits corrected (RSeq [RNode "NameRef"; RRep (RSeq [RTok "."; RNode "NameRef"])]) f /\ names_complete f
  | NPathTail => fits corrected (RRep (RSeq [RTok "."; RNode "NameRef"])) f /\ (f = [] \/ names_complete f)
  | NFunName => one_of [KFunctionDefContent] f
  | NFor => one_of [KNumericFor; KGenericFor] f
  end.
Definition plain (t : ptree) : bool := match t with PNode k _ => negb (kind_eqb k KMultiName || kind_eqb k KIndexPath) | _ => true end.
Definition conf_ok (n : nt) (f : forest) : Prop :=
  shape n f /\ Forall (conforms corrected) f /\ Forall ends_ok f /\ (match n with NParams => True | _ => forallb plain f = true end).

Lemma plain_ends k cs : Forall ends_ok cs -> forallb plain cs = true -> ends_ok (PNode k cs).
Proof.
  intros H P. rewrite forallb_forall in P. constructor; [exact H| |].
  - intros b ns a E. assert (HI : In (PNode KMultiName ns) cs) by (rewrite E; apply in_elt). apply P in HI. discriminate HI.
  - intros b ns a E. assert (HI : In (PNode KIndexPath ns) cs) by (rewrite E; apply in_elt). apply P in HI. discriminate HI.
Qed.
Lemma seq_c d r rs t b : fits d r [t] -> fits d (RSeq rs) b -> fits d (RSeq (r :: rs)) (t :: b).
Proof. intros A B. exact (fits_seq_cons d r rs [t] b A B). Qed.
Lemma seq_last d r a : fits d r a -> fits d (RSeq [r]) a.
Proof. intros A. rewrite <- (app_nil_r a). apply fits_seq_cons; [exact A|constructor]. Qed.
Lemma seq_skip d r rs b : fits d (RSeq rs) b -> fits d (RSeq (ROpt r :: rs)) b.
Proof. intros A. exact (fits_seq_cons d (ROpt r) rs [] b (fits_none d r) A). Qed.
Lemma seq_skip_rep d r rs b : fits d (RSeq rs) b -> fits d (RSeq (RRep r :: rs)) b.
Proof. intros A. exact (fits_seq_cons d (RRep r) rs [] b (fits_rep_nil d r) A). Qed.
Ltac dtok := first [left; vm_compute; reflexivity|right; vm_compute; reflexivity].
Ltac alt_in := first [left; reflexivity | right; alt_in].
(** Solves [fits] goals over explicit lists whose open parts are in the context. *)
Ltac ft :=
  lazymatch goal with
  | |- fits _ (RSeq []) [] => constructor
  | |- fits _ (RSeq (_ :: _)) (_ ++ _) => apply fits_seq_cons; [ft|ft]
  | |- fits _ (RSeq [_]) _ => apply seq_last; ft
  | |- fits _ (RSeq (ROpt _ :: _)) (_ :: _) => first [apply seq_c; [ft|ft]|apply seq_skip; ft]
  | |- fits _ (RSeq (_ :: _)) (_ :: _) => first [apply seq_c; [ft|ft]]
  | |- fits _ (RLab _ _) _ => apply fits_lab; ft
  | |- fits _ (ROpt _) [] => apply fits_none
  | |- fits _ (ROpt _) _ => apply fits_some; ft
  | |- fits _ (RTok _) [PTok _] => apply fits_tok; dtok
  | |- fits _ (RNode "Expr") [PNode _ _] => apply fits_expr; eexists _, _; split; [reflexivity|first [assumption|vm_compute; tauto]]
  | |- fits _ (RNode "Callable") [PNode _ _] => apply fits_callable; eexists _, _; split; [reflexivity|first [assumption|vm_compute; tauto]]
  | |- fits _ (RNode "Indexable") [PNode _ _] => apply fits_indexable; eexists _, _; split; [reflexivity|first [assumption|right; assumption|vm_compute; tauto]]
  | |- fits _ (RNode "Stmt") [PNode _ _] => apply fits_stmt; eexists _, _; split; [reflexivity|first [assumption|vm_compute; tauto]]
  | |- fits _ (RNode _) [PNode _ _] => dnode
  | |- fits _ (RAlt _) [_] => alts
  | |- _ => assumption
  end
with alts := match goal with |- fits _ (RAlt ?rs) _ => alts_of rs end
with alts_of l := match l with ?x :: ?l' => first [apply fits_alt with (r := x); [alt_in|ft]|alts_of l'] end.
Ltac open_ok :=
  repeat match goal with
  | H : conf_ok _ _ |- _ => destruct H as (? & ? & ? & ?); cbn [shape] in *
  | H : one_of _ [_] |- _ => let E := fresh in destruct H as (? & ? & E & ?); injection E as ->
  | H : one_of _ _ |- _ => destruct H as (? & ? & -> & ?)
  | H : req true _ _ |- _ => destruct H as [->|[? _]]; [|discriminate]
  | H : ?x = [] \/ is_err true ?x |- _ => destruct H as [->|[? _]]; [|discriminate]
  | H : is_err true _ |- _ => destruct H as [? _]; discriminate
  end.
Lemma Forall_conf_tok d k l : Forall (conforms d) l -> Forall (conforms d) (PTok k :: l).
Proof. intros H. constructor; [constructor|exact H]. Qed.
Lemma Forall_ends_tok k l : Forall ends_ok l -> Forall ends_ok (PTok k :: l).
Proof. intros H. constructor; [constructor|exact H]. Qed.
Lemma plain_cons t l : forallb plain (t :: l) = true <-> plain t = true /\ forallb plain l = true.
Proof. cbn [forallb]. apply andb_true_iff. Qed.
Ltac split_forall :=
  repeat match goal with
  | H : Forall _ (_ :: _) |- _ => inversion H; subst; clear H
  | H : Forall _ [] |- _ => clear H
  | H : forallb plain (_ :: _) = true |- _ => apply plain_cons in H as [? H]
  | H : forallb plain [] = true |- _ => clear H
  end.
Ltac fa :=
  repeat match goal with
  | |- Forall (conforms _) (PTok _ :: _) => apply Forall_conf_tok
  | |- Forall ends_ok (PTok _ :: _) => apply Forall_ends_tok
  | |- Forall _ [] => apply Forall_nil
  | |- Forall _ (_ ++ _) => apply Forall_app; split
  | |- Forall _ (_ :: _) => apply Forall_cons
  | |- conforms _ (PNode _ _) => first [assumption|apply conf_node; [eexists; split; [vm_compute; reflexivity|ft]|]]
  | |- ends_ok (PNode _ _) => first [assumption|apply plain_ends]
  | |- forallb plain (_ ++ _) = true => rewrite forallb_app; apply andb_true_iff; split
  | |- forallb plain (_ :: _) = true => apply plain_cons; split; [first [reflexivity|assumption]|]
  | |- forallb plain [] = true => reflexivity
  end; try assumption; try reflexivity.
Ltac small := repeat match goal with
  | H : In ?k [_] |- _ => destruct H as [H|[]]; subst
  | H : In ?k [KElseBranch; KElseIfBranch] |- _ => destruct H as [H|[H|[]]]; subst
  | H : In ?k [KNumericFor; KGenericFor] |- _ => destruct H as [H|[H|[]]]; subst
  | H : In ?k binary_ops |- _ => unfold binary_ops in H; cbn [In] in H; kinds_in H
  | H : In ?k unary_ops |- _ => unfold unary_ops in H; cbn [In] in H; kinds_in H
  | H : In ?k literals |- _ => unfold literals in H; cbn [In] in H; kinds_in H
  | H : _ = [] \/ one_of _ _ |- _ => destruct H as [->|(? & ? & -> & H)]
  | H : _ /\ _ |- _ => destruct H
  end.
Ltac shp := lazymatch goal with |- one_of _ [PNode _ _] => eexists _, _; split; [reflexivity|first [assumption|vm_compute; tauto]] | |- _ => idtac end.
Lemma rep_one d r a b : fits d r a -> fits d (RRep r) b -> fits d (RRep r) (a ++ b).
Proof. apply fits_rep_cons. Qed.
Lemma complete_end a b : b = [] \/ names_complete b -> names_complete a -> names_complete (a ++ b).
Proof. intros [->|(f & k & s & ->)] H; [now rewrite app_nil_r|]. exists (a ++ f), k, s. now rewrite app_assoc. Qed.
Lemma complete_one k cs : names_complete [PNode k cs].
Proof. exists [], k, cs. reflexivity. Qed.
Lemma complete_cons t b : names_complete b -> names_complete (t :: b).
Proof. intros (f & k & s & ->). exists (t :: f), k, s. reflexivity. Qed.
(** One list of names or one path in a node. *)
Lemma names_ends k before ns after : Forall ends_ok (before ++ PNode KMultiName ns :: after) -> forallb plain before = true -> forallb plain after = true ->
  names_complete ns \/ (k = KParamList /\ exists rest, after = PTok KTripleDot :: rest) -> ends_ok (PNode k (before ++ PNode KMultiName ns :: after)).
Proof.
  intros H P Q C. rewrite forallb_forall in P, Q. constructor; [exact H| |].
  - intros b ns' a E. assert (HI : b = before /\ ns' = ns /\ a = after).
    { revert b E P. induction before as [|x before IH]; intros b E P; destruct b as [|y b]; cbn [app] in E.
      - injection E as <- <-. auto.
      - injection E as <- E. assert (HI : In (PNode KMultiName ns') after) by (rewrite E; apply in_elt). apply Q in HI. discriminate.
      - injection E as -> _. assert (F : plain (PNode KMultiName ns') = true) by (apply P; now left). discriminate.
      - injection E as <- E. destruct (IH (proj2 (proj1 (Forall_cons_iff ends_ok x _) H)) b E (fun z Hz => P z (or_intror Hz))) as (-> & -> & ->). auto. }
    destruct HI as (-> & -> & ->). exact C.
  - intros b p a E. assert (HI : In (PNode KIndexPath p) (before ++ PNode KMultiName ns :: after)) by (rewrite E; apply in_elt).
    apply in_app_iff in HI as [HI|[HI|HI]]; [apply P in HI; discriminate|discriminate|apply Q in HI; discriminate].
Qed.
Lemma path_ends k before p after : Forall ends_ok (before ++ PNode KIndexPath p :: after) -> forallb plain before = true -> forallb plain after = true ->
  names_complete p \/ k = KFunctionStatic -> ends_ok (PNode k (before ++ PNode KIndexPath p :: after)).
Proof.
  intros H P Q C. rewrite forallb_forall in P, Q. constructor; [exact H| |].
  - intros b p' a E. assert (HI : In (PNode KMultiName p') (before ++ PNode KIndexPath p :: after)) by (rewrite E; apply in_elt).
    apply in_app_iff in HI as [HI|[HI|HI]]; [apply P in HI; discriminate|discriminate|apply Q in HI; discriminate].
  - intros b ns' a E. assert (HI : b = before /\ ns' = p /\ a = after).
    { revert b E P. induction before as [|x before IH]; intros b E P; destruct b as [|y b]; cbn [app] in E.
      - injection E as <- <-. auto.
      - injection E as <- E. assert (HI : In (PNode KIndexPath ns') after) by (rewrite E; apply in_elt). apply Q in HI. discriminate.
      - injection E as -> _. assert (F : plain (PNode KIndexPath ns') = true) by (apply P; now left). discriminate.
      - injection E as <- E. destruct (IH (proj2 (proj1 (Forall_cons_iff ends_ok x _) H)) b E (fun z Hz => P z (or_intror Hz))) as (-> & -> & ->). auto. }
    destruct HI as (-> & -> & ->). exact C.
Qed.
(** A list of names, alone or with a comma, is as the rule says. *)
Lemma names_conf ns : fits corrected (RSeq [RNode "Name"; RRep (RSeq [RTok ","; RNode "Name"])]) ns -> Forall (conforms corrected) ns -> conforms corrected (PNode KMultiName ns).
Proof.
  intros H F. apply conf_node; [|exact F]. eexists. split; [vm_compute; reflexivity|]. apply fits_some. inversion H as [ | | | | | | |r rs a b Ha Hb| | |]; subst. inversion Hb as [ | | | | | | |r rs a' b' Ha' Hb'| | |]; subst.
  inversion Hb'; subst. rewrite app_nil_r. apply fits_seq_cons; [exact Ha|]. rewrite <- (app_nil_r a'). apply fits_seq_cons; [exact Ha'|]. apply seq_skip. constructor.
Qed.
Lemma names_comma_conf ns : fits corrected (RSeq [RNode "Name"; RRep (RSeq [RTok ","; RNode "Name"])]) ns -> Forall (conforms corrected) ns -> conforms corrected (PNode KMultiName (ns ++ [PTok KComma])).
Proof.
  intros H F. apply conf_node; [|apply Forall_app; split; [exact F|repeat constructor]]. eexists. split; [vm_compute; reflexivity|]. apply fits_some. inversion H as [ | | | | | | |r rs a b Ha Hb| | |]; subst. inversion Hb as [ | | | | | | |r rs a' b' Ha' Hb'| | |]; subst.
  inversion Hb'; subst. rewrite app_nil_r, <- app_assoc. apply fits_seq_cons; [exact Ha|]. apply fits_seq_cons; [exact Ha'|]. ft.
Qed.
Lemma path_conf ns : fits corrected (RSeq [RNode "NameRef"; RRep (RSeq [RTok "."; RNode "NameRef"])]) ns -> Forall (conforms corrected) ns -> conforms corrected (PNode KIndexPath ns).
Proof.
  intros H F. apply conf_node; [|exact F]. eexists. split; [vm_compute; reflexivity|]. inversion H as [ | | | | | | |r rs a b Ha Hb| | |]; subst. inversion Hb as [ | | | | | | |r rs a' b' Ha' Hb'| | |]; subst.
  inversion Hb'; subst. rewrite app_nil_r. apply fits_seq_cons; [exact Ha|]. rewrite <- (app_nil_r a'). apply fits_seq_cons; [exact Ha'|]. apply seq_skip. constructor.
Qed.
Lemma path_dot_conf ns : fits corrected (RSeq [RNode "NameRef"; RRep (RSeq [RTok "."; RNode "NameRef"])]) ns -> Forall (conforms corrected) ns -> conforms corrected (PNode KIndexPath (ns ++ [PTok KDot])).
Proof.
  intros H F. apply conf_node; [|apply Forall_app; split; [exact F|repeat constructor]]. eexists. split; [vm_compute; reflexivity|]. inversion H as [ | | | | | | |r rs a b Ha Hb| | |]; subst. inversion Hb as [ | | | | | | |r rs a' b' Ha' Hb'| | |]; subst.
  inversion Hb'; subst. rewrite app_nil_r, <- app_assoc. apply fits_seq_cons; [exact Ha|]. apply fits_seq_cons; [exact Ha'|]. ft.
Qed.
Lemma fields_fits_table fs : fits corrected (ROpt (RSeq [RNode "TableContent"; RRep (RSeq [RNode "TableSep"; RNode "TableContent"]); ROpt (RNode "TableSep")])) fs ->
  fits corrected (RSeq [RTok "{"; ROpt (RSeq [RNode "TableContent"; RRep (RSeq [RNode "TableSep"; RNode "TableContent"]); ROpt (RNode "TableSep")]); RTok "}"]) (PTok KLBrace :: fs ++ [PTok KRBrace]).
Proof. intros H. apply seq_c; [ft|]. apply fits_seq_cons; [exact H|ft]. Qed.
Lemma tree_conf n f : Tree true n f -> conf_ok n f.
Proof.
  induction 1; open_ok; cbn [app]; try discriminate; small; split_forall.
  all: try (split; [cbn [shape]; shp|split; [|split]]; fa; fail).
  - (* stmts nil *) split; [apply fits_rep_nil|split; [|split]]; fa.
  - (* stmts cons *) split; [|split; [|split]].
    + cbn [shape]. change (fits corrected (RRep (RSeq [RNode "Stmt"; ROpt (RTok ";")])) ((PNode x x0 :: sc) ++ g)). apply fits_rep_cons; [|assumption].
      match goal with H : sc = [] \/ _ |- _ => destruct H as [->| ->] end; ft.
    + match goal with H : sc = [] \/ _ |- _ => destruct H as [->| ->] end; cbn [app]; fa.
    + match goal with H : sc = [] \/ _ |- _ => destruct H as [->| ->] end; cbn [app]; fa.
    + match goal with H : sc = [] \/ _ |- _ => destruct H as [->| ->] end; cbn [app]; fa.
  - split; [now left|split; [|split]]; fa.
  - split; [right; shp|split; [|split]]; fa.
  - split; [right; shp|split; [|split]]; fa.
  - split; [right; shp|split; [|split]]; fa.
  - split; [right; shp|split; [|split]]; fa.
  - (* local *) split; [cbn [shape]; shp|split; [|split]].
    + apply Forall_cons; [|constructor]. apply conf_node; [eexists; split; [vm_compute; reflexivity|ft]|]. fa. now apply names_conf.
    + apply Forall_cons; [|constructor]. apply (names_ends KLocalAssignStmt [PTok KLocalKw] ns []); [|reflexivity|reflexivity|now left]. cbn [app]. fa.
    + reflexivity.
  - split; [cbn [shape]; shp|split; [|split]].
    + apply Forall_cons; [|constructor]. apply conf_node; [eexists; split; [vm_compute; reflexivity|ft]|]. fa. now apply names_conf.
    + apply Forall_cons; [|constructor]. apply (names_ends KLocalAssignStmt [PTok KLocalKw] ns [PTok KEq; PNode KMultivalExpr _]); [|reflexivity|reflexivity|now left]. cbn [app]. fa.
    + reflexivity.
  - (* generic for *) split; [cbn [shape]; shp|split; [|split]].
    + apply Forall_cons; [|constructor]. apply conf_node; [eexists; split; [vm_compute; reflexivity|ft]|]. fa. now apply names_conf.
    + apply Forall_cons; [|constructor]. apply (names_ends KGenericFor [] ns [PTok KInKw; PNode x x0]); [|reflexivity| |now left]; cbn [app]; fa.
    + reflexivity.
  - (* names *) split; [split|split; [|split]]; [ft|change (names_complete ([PNode KName x0] ++ t)); apply complete_end; [assumption|apply complete_one]|fa|fa|fa].
  - split; [split; [apply fits_rep_nil|now left]|split; [|split]]; fa.
  - split; [split|split; [|split]]; [|right; change (names_complete ([PTok KComma; PNode KName x0] ++ t)); apply complete_end; [assumption|apply complete_cons, complete_one]|fa|fa|fa].
    change (fits corrected (RRep (RSeq [RTok ","; RNode "Name"])) ([PTok KComma; PNode KName x0] ++ t)). apply fits_rep_cons; [ft|assumption].
  - (* param list *) match goal with H : p = [] \/ _ |- _ => destruct H as [->|(ns & rest & -> & [[-> Hc]| ->])] end; cbn [app]; split_forall; (split; [cbn [shape]; shp|split; [|split]]; [| |reflexivity]).
    + fa.
    + fa.
    + apply Forall_cons; [|constructor]. apply conf_node; [eexists; split; [vm_compute; reflexivity|ft]|]. fa.
    + apply Forall_cons; [|constructor]. apply (names_ends KParamList [PTok KLParen] ns [PTok KRParen]); [|reflexivity|reflexivity|now left]; cbn [app]; fa.
    + apply Forall_cons; [|constructor]. apply conf_node; [eexists; split; [vm_compute; reflexivity|]|].
      * apply seq_c; [ft|]. apply (fits_seq_cons corrected _ _ [PNode KMultiName ns; PTok KTripleDot] [PTok KRParen]); ft.
      * fa.
    + apply Forall_cons; [|constructor]. apply (names_ends KParamList [PTok KLParen] ns [PTok KTripleDot; PTok KRParen]); [|reflexivity|reflexivity|right; eauto]; cbn [app]; fa.
  - split; [now left|split; [|split]]; fa.
  - (* params *) split; [right; exists ns, []; split; [reflexivity|now left]|split; [|split; [|exact I]]].
    + apply Forall_cons; [now apply names_conf|constructor].
    + fa.
  - split; [right; exists [], [PTok KTripleDot]; split; [reflexivity|now right]|split; [|split; [|exact I]]]; fa.
  - split; [right; exists (ns ++ [PTok KComma]), [PTok KTripleDot]; split; [reflexivity|now right]|split; [|split; [|exact I]]].
    + apply Forall_cons; [now apply names_comma_conf|fa].
    + fa.
  - split; [right; exists ns, [PTok KTripleDot]; split; [reflexivity|now right]|split; [|split; [|exact I]]].
    + apply Forall_cons; [now apply names_conf|fa].
    + fa.
  - (* static *) split; [cbn [shape]; shp|split; [|split; [|reflexivity]]].
    + fa. now apply path_dot_conf.
    + apply Forall_cons; [|constructor]. apply plain_ends; [|reflexivity]. apply Forall_cons; [|constructor].
      apply (path_ends KFunctionStatic [] (p ++ [PTok KDot])); [|reflexivity|reflexivity|now right]. cbn [app]. fa.
  - split; [cbn [shape]; shp|split; [|split; [|reflexivity]]].
    + fa. now apply path_conf.
    + apply Forall_cons; [|constructor]. apply plain_ends; [|reflexivity]. apply Forall_cons; [|constructor].
      apply (path_ends KFunctionStatic [] p); [|reflexivity|reflexivity|now right]. cbn [app]. fa.
  - split; [cbn [shape]; shp|split; [|split; [|reflexivity]]].
    + fa. now apply path_conf.
    + apply Forall_cons; [|constructor]. apply plain_ends; [|reflexivity]. apply Forall_cons; [|constructor].
      apply (path_ends KFunctionMethod [] p); [|reflexivity|reflexivity|now left]. cbn [app]. fa.
  - (* path *) split; [split|split; [|split]]; [ft|change (names_complete ([PNode KNameRef x0] ++ t)); apply complete_end; [assumption|apply complete_one]|fa|fa|fa].
  - split; [split; [apply fits_rep_nil|now left]|split; [|split]]; fa.
  - split; [split|split; [|split]]; [|right; change (names_complete ([PTok KDot; PNode KNameRef x0] ++ t)); apply complete_end; [assumption|apply complete_cons, complete_one]|fa|fa|fa].
    change (fits corrected (RRep (RSeq [RTok "."; RNode "NameRef"])) ([PTok KDot; PNode KNameRef x0] ++ t)). apply fits_rep_cons; [ft|assumption].
  - split; [apply fits_rep_nil|split; [|split]]; fa.
  - split; [|split; [|split]]; [|fa|fa|fa]. cbn [shape].
    change (fits corrected (RRep (RSeq [RTok ","; RNode "Expr"])) ([PTok KComma; PNode x x0] ++ t)). apply fits_rep_cons; [ft|assumption].
  - (* post *) split; [|split; [|split]]; fa. cbn [shape]. eexists _, _. split; [reflexivity|]. destruct c; match goal with H : In x _ |- _ => revert H end; vm_compute; tauto.
  - split; [cbn [shape]; shp|split; [|split]]; [|fa|reflexivity]. apply Forall_cons; [|constructor]. apply conf_node; [eexists; split; [vm_compute; reflexivity|now apply fields_fits_table]|fa].
  - destruct c; (split; [cbn [shape]; shp|split; [|split]]; fa).
  - destruct c; (split; [cbn [shape]; shp|split; [|split]]; fa).
  - split; [cbn [shape]; shp|split; [|split]]; [|fa|reflexivity]. apply Forall_cons; [|constructor]. apply conf_node; [eexists; split; [vm_compute; reflexivity|alts]|].
    apply Forall_cons; [|constructor]. apply conf_node; [eexists; split; [vm_compute; reflexivity|now apply fields_fits_table]|fa].
  - split; [apply fits_none|split; [|split]]; fa.
  - split; [cbn [shape]|split; [|split]]; fa. apply fits_some. apply seq_c; [ft|]. apply seq_skip_rep, seq_skip. constructor.
  - assert (TS : conforms corrected (PNode KTableSep [PTok s]) /\ ends_ok (PNode KTableSep [PTok s]) /\ plain (PNode KTableSep [PTok s]) = true).
    { split; [|split; [fa|reflexivity]]. match goal with H : s = KComma \/ _ |- _ => destruct H as [->| ->] end; fa. }
    destruct TS as (TS1 & TS2 & TS3). split; [cbn [shape]|split; [|split]]; fa.
    match goal with H : fits _ (ROpt _) g |- _ => inversion H as [ | | | | | | | | |r|r cs F]; subst end; apply fits_some; apply seq_c; [ft| |ft|].
    + apply seq_skip_rep. ft.
    + inversion F as [ | | | | | | |r rs a b Ha Hb| | |]; subst. inversion Hb as [ | | | | | | |r rs a' b' Ha' Hb'| | |]; subst.
      change (PNode KTableSep [PTok s] :: a ++ a' ++ b') with (([PNode KTableSep [PTok s]] ++ a) ++ a' ++ b').
      change (([PNode KTableSep [PTok s]] ++ a) ++ a' ++ b') with ((PNode KTableSep [PTok s] :: a) ++ a' ++ b'). rewrite app_assoc. apply fits_seq_cons; [|exact Hb'].
      apply fits_rep_cons; [|exact Ha']. apply seq_c; [dnode|]. apply seq_last. exact Ha.
Qed.
