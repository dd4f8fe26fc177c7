(** DocConverse.v — trees that conform to the corrected grammar file are derived by the productions of GrammarSpec.v. *)
From Verif Require Import Base SyntaxKind ParserTree GrammarSpec Codegen GrammarDoc DocProofs.
Local Open Scope string_scope.
Local Open Scope nat_scope.
Local Open Scope list_scope.

(** * Inversion of the rules *)
Definition tok_table : list (string * kind) :=
  [("ident", KIdent); (",", KComma); ("::", KDoubleColon); ("goto", KGotoKw); ("break", KBreakKw); ("do", KDoKw); ("end", KEndKw);
   ("function", KFunctionKw); (":", KColon); (".", KDot); ("local", KLocalKw); ("(", KLParen); (")", KRParen); ("...", KTripleDot); ("if", KIfKw);
   ("then", KThenKw); ("else", KElseKw); ("elseif", KElseifKw); ("while", KWhileKw); ("return", KReturnKw); ("for", KForKw); ("=", KEq); ("in", KInKw);
   ("repeat", KRepeatKw); ("until", KUntilKw); ("str", KStr); ("number", KNumber); ("true", KTrueKw); ("false", KFalseKw); ("nil", KNilKw); ("{", KLBrace);
   ("}", KRBrace); (";", KSemicolon); ("^", KCaret); ("*", KAsterisk); ("/", KSlash); ("%", KModulo); ("+", KPlus); ("-", KMinus); ("..", KDoubleDot);
   ("<", KLt); (">", KGt); ("<=", KLtEq); (">=", KGtEq); ("~=", KNotEq); ("==", KEqEq); ("and", KAndKw); ("or", KOrKw); ("not", KNotKw); ("#", KHash);
   ("[", KLBracket); ("]", KRBracket)].
Definition tok_of (s : string) : option kind := match find (fun e => String.eqb (fst e) s) tok_table with Some e => Some (snd e) | None => None end.
Definition tok_agrees (e : string * kind) : bool :=
  match t_macro lua_kinds (fst e), t_macro lua_kinds ("'" ++ fst e ++ "'")%string with
  | Some a, None => String.eqb a (kind_name (snd e)) | None, Some a => String.eqb a (kind_name (snd e)) | _, _ => false
  end.
Lemma tok_table_agrees : forallb tok_agrees tok_table = true.
Proof. vm_compute. reflexivity. Qed.
Lemma tok_inv s k f : tok_of s = Some k -> fits corrected (RTok s) f -> f = [PTok k].
Proof.
  intros E H. inversion H as [ | |s' k' Hk| | | | | | | |]; subst. f_equal. f_equal. unfold tok_of in E. destruct (find (fun e => String.eqb (fst e) s) tok_table) as [[s' k0]|] eqn:F; [|discriminate]. injection E as <-.
  apply find_some in F as [F1 F2]. apply String.eqb_eq in F2. cbn [fst snd] in *. subst s'. pose proof tok_table_agrees as A. rewrite forallb_forall in A. specialize (A _ F1). unfold tok_agrees in A. cbn [fst snd] in A.
  apply kind_name_inj. destruct Hk as [Hk|Hk]; rewrite Hk in A.
  - destruct (t_macro lua_kinds ("'" ++ s ++ "'")); [discriminate|]. now apply String.eqb_eq in A.
  - destruct (t_macro lua_kinds s); [discriminate|]. now apply String.eqb_eq in A.
Qed.
Lemma seq_inv d r rs f : fits d (RSeq (r :: rs)) f -> exists a b, f = a ++ b /\ fits d r a /\ fits d (RSeq rs) b.
Proof. intros H. inversion H; subst. eauto. Qed.
Lemma seq_nil_inv d f : fits d (RSeq []) f -> f = [].
Proof. intros H. now inversion H. Qed.
Lemma lab_inv d l r f : fits d (RLab l r) f -> fits d r f.
Proof. intros H. now inversion H. Qed.
Lemma opt_inv d r f : fits d (ROpt r) f -> f = [] \/ fits d r f.
Proof. intros H. inversion H; auto. Qed.
Lemma alt_inv d rs f : fits d (RAlt rs) f -> exists r, In r rs /\ fits d r f.
Proof. intros H. inversion H; subst; eauto. Qed.
Ltac single H k := apply (proj1 (fits_one k _ ltac:(vm_compute; tauto))) in H as [? ->].
Ltac fi H :=
  lazymatch type of H with
  | fits _ (RSeq []) _ => apply seq_nil_inv in H; subst
  | fits _ (RSeq (_ :: _)) _ => let A := fresh "F" in let B := fresh "F" in apply seq_inv in H as (? & ? & -> & A & B); fi A; fi B
  | fits _ (RLab _ _) _ => apply lab_inv in H; fi H
  | fits _ (ROpt _) _ => apply opt_inv in H as [->|H]; [|fi H]
  | fits _ (RTok ?s) _ => let k := eval vm_compute in (tok_of s) in lazymatch k with Some ?k' => apply (tok_inv s k' _ ltac:(reflexivity)) in H; subst end
  | fits _ (RNode "Expr") _ => apply fits_expr in H as (? & ? & -> & ?)
  | fits _ (RNode "Stmt") _ => apply fits_stmt in H as (? & ? & -> & ?)
  | fits _ (RNode "Callable") _ => apply fits_callable in H as (? & ? & -> & ?)
  | fits _ (RNode "Indexable") _ => apply fits_indexable in H as (? & ? & -> & ?)
  | fits _ (RNode "Name") _ => single H KName
  | fits _ (RNode "NameRef") _ => single H KNameRef
  | fits _ (RNode "MultiName") _ => single H KMultiName
  | fits _ (RNode "Block") _ => single H KBlock
  | fits _ (RNode "LabelDelim") _ => single H KLabelDelim
  | fits _ (RNode "FunctionDefContent") _ => single H KFunctionDefContent
  | fits _ (RNode "FunctionMethod") _ => single H KFunctionMethod
  | fits _ (RNode "FunctionStatic") _ => single H KFunctionStatic
  | fits _ (RNode "ParamList") _ => single H KParamList
  | fits _ (RNode "ElseBranch") _ => single H KElseBranch
  | fits _ (RNode "ElseIfBranch") _ => single H KElseIfBranch
  | fits _ (RNode "ForContent") _ => single H KForContent
  | fits _ (RNode "NumericFor") _ => single H KNumericFor
  | fits _ (RNode "GenericFor") _ => single H KGenericFor
  | fits _ (RNode "MultivalExpr") _ => single H KMultivalExpr
  | fits _ (RNode "CallArgs") _ => single H KCallArgs
  | fits _ (RNode "ArgList") _ => single H KArgList
  | fits _ (RNode "TableExpr") _ => single H KTableExpr
  | fits _ (RNode "TableSep") _ => single H KTableSep
  | fits _ (RNode "TableContent") _ => single H KTableContent
  | fits _ (RNode "PositionalValue") _ => single H KPositionalValue
  | fits _ (RNode "KeyValue") _ => single H KKeyValue
  | fits _ (RNode "TableKey") _ => single H KTableKey
  | fits _ (RNode "Index") _ => single H KIndex
  | fits _ (RNode "IndexPath") _ => single H KIndexPath
  | fits _ (RAlt _) _ => let r := fresh "r" in let I := fresh "I" in apply alt_inv in H as (r & I & H); repeat (destruct I as [I|I]; [subst r; fi H|]); try contradiction I
  | _ => idtac
  end.

(** * What each kind of node becomes *)
Definition nt_of (k : kind) : option nt :=
  match k with
  | KSourceFile => Some NSource | KBlock => Some NBlock
  | KAssignStmt | KLocalAssignStmt | KLocalFunctionDefStmt | KFunctionDefStmt | KForStmt | KIfStmt | KReturnStmt | KWhileStmt | KExprStmt | KBreakStmt
  | KRepeatUntilStmt | KLabelStmt | KGotoStmt | KDoStmt => Some NStmt
  | KElseBranch | KElseIfBranch => Some NElse
  | KMultivalExpr => Some NMulti
  | KInfixExpr => Some NExpr | KPrefixExpr => Some NLhs | KLiteral => Some (NPost false)
  | KTableExpr | KIndexExpr | KDotExpr | KFunctionExpr | KCallExpr | KMethodCallExpr | KNameRef | KParenExpr => Some (NPost true)
  | KCallArgs => Some NCallArgs | KIndex => Some NIndex | KTableContent => Some NField | KName => Some NName | KParamList => Some NParamList
  | KFunctionDefContent => Some NFunName | KNumericFor | KGenericFor => Some NFor
  | _ => None
  end.
Definition inner (k : kind) (cs : forest) : Prop :=
  match k with
  | KMultiName => cs = [] \/ exists ns, Tree true NNames ns /\ (cs = ns \/ cs = ns ++ [PTok KComma])
  | KIndexPath => exists p, Tree true NPath p /\ (cs = p \/ cs = p ++ [PTok KDot])
  | KLabelDelim => cs = [PTok KDoubleColon]
  | KName | KNameRef => cs = [PTok KIdent]
  | KForContent => Tree true NFor cs
  | KFunctionMethod | KFunctionStatic => Tree true NFunName [PNode KFunctionDefContent [PNode k cs]]
  | KArgList => Tree true NCallArgs [PNode KCallArgs [PNode k cs]]
  | KTableExpr => exists fs, cs = PTok KLBrace :: fs ++ [PTok KRBrace] /\ Tree true NFields fs
  | KTableSep => exists s, cs = [PTok s] /\ (s = KComma \/ s = KSemicolon)
  | KTableKey => cs = [PNode KName [PTok KIdent]] \/ Tree true NIndex cs
  | KKeyValue | KPositionalValue => Tree true NField [PNode KTableContent [PNode k cs]]
  | _ => True
  end.
Definition good (t : ptree) : Prop :=
  match t with PNode k cs => (forall n, nt_of k = Some n -> Tree true n [PNode k cs]) /\ inner k cs | _ => True end.
Lemma good_nt k cs n : good (PNode k cs) -> nt_of k = Some n -> Tree true n [PNode k cs].
Proof. intros [H _]. apply H. Qed.
Lemma good_inner k cs : good (PNode k cs) -> inner k cs.
Proof. intros [_ H]. exact H. Qed.
Lemma good_expr k cs : good (PNode k cs) -> In k expr_kinds -> Tree true NExprO [PNode k cs] /\ Tree true NExpr [PNode k cs].
Proof.
  intros H Hk. assert (E : Tree true NExpr [PNode k cs]); [|split; [now apply T_expr|exact E]].
  kinds_in Hk; first [exact (good_nt _ _ _ H eq_refl)|apply T_expr_lhs; exact (good_nt _ _ _ H eq_refl)|apply T_expr_lhs; eapply T_post; exact (good_nt _ _ _ H eq_refl)].
Qed.
Lemma good_call k cs : good (PNode k cs) -> In k call_kinds -> Tree true (NPost true) [PNode k cs].
Proof. intros H Hk. kinds_in Hk; exact (good_nt _ _ _ H eq_refl). Qed.
Lemma good_index k cs : good (PNode k cs) -> In k (KLiteral :: call_kinds) -> exists c, Tree true (NPost c) [PNode k cs].
Proof. intros H [<-|Hk]; [exists false; exact (good_nt _ _ _ H eq_refl)|exists true; now apply good_call]. Qed.
Lemma good_stmt k cs : good (PNode k cs) -> In k stmt_kinds -> Tree true NStmt [PNode k cs].
Proof. intros H Hk. kinds_in Hk; exact (good_nt _ _ _ H eq_refl). Qed.

(** Statements and expressions have tokens. *)
Definition tokful (n : nt) : bool :=
  match n with NStmt | NExprO | NExpr | NLhs | NPost _ | NMulti | NCallArgs | NIndex | NName | NNames | NField | NNameRef => true | _ => false end.
Lemma tree_tok n f : Tree true n f -> tokful n = true -> existsb has_tok f = true.
Proof.
  induction 1; intros T; try discriminate T;
    repeat match goal with H : is_err true _ |- _ => destruct H as [H _]; discriminate H | H : req true _ _ |- _ => destruct H as [->|[H _]]; [|discriminate H]
      | IH : tokful ?n = true -> _ |- _ => first [specialize (IH eq_refl)|clear IH] end;
    cbn [existsb has_tok app] in *; rewrite ?existsb_app, ?orb_true_r, ?orb_false_r in *; cbn [existsb has_tok app] in *; rewrite ?existsb_app, ?orb_true_r, ?orb_false_r in *; auto;
    repeat match goal with H : _ = true |- _ => rewrite H end; cbn [orb]; rewrite ?orb_true_r; auto.
Qed.

(** * Lists *)
Lemma rep_ind d r (P : forest -> Prop) f : fits d (RRep r) f -> P [] -> (forall a b, fits d r a -> P b -> P (a ++ b)) -> P f.
Proof.
  intros H P0 PS. remember (RRep r) as r0 eqn:E. revert r E PS. induction H; intros r1 E PS; try discriminate; [exact P0|]. injection E as ->. apply PS; [assumption|]. now apply (IHfits2 r1).
Qed.
Lemma stmts_of f : fits corrected (RRep (RSeq [RNode "Stmt"; ROpt (RTok ";")])) f -> Forall good f -> Tree true NStmts f.
Proof.
  intros H. refine (rep_ind _ _ (fun f => Forall good f -> Tree true NStmts f) f H _ _); [intros _; constructor|]. intros a b Ha IH G. apply Forall_app in G as [G1 G2]. fi Ha; cbn [app] in *.
  - inversion G1 as [|? ? G3 _]; subst. apply good_stmt in G3; [|assumption]. exact (T_stmts_cons true [PNode _ _] [] b G3 (tree_tok _ _ G3 eq_refl) (or_introl eq_refl) (IH G2)).
  - inversion G1 as [|? ? G3 _]; subst. apply good_stmt in G3; [|assumption]. exact (T_stmts_cons true [PNode _ _] [PTok KSemicolon] b G3 (tree_tok _ _ G3 eq_refl) (or_intror eq_refl) (IH G2)).
Qed.
Lemma multi_tail_of f : fits corrected (RRep (RSeq [RTok ","; RNode "Expr"])) f -> Forall good f -> Tree true NMultiTail f.
Proof.
  intros H. refine (rep_ind _ _ (fun f => Forall good f -> Tree true NMultiTail f) f H _ _); [intros _; constructor|]. intros a b Ha IH G. apply Forall_app in G as [G1 G2]. fi Ha; cbn [app] in *.
  inversion G1 as [|? ? _ G3]; subst. inversion G3; subst. refine (T_multi_cons true [PNode _ _] b _ _); [now apply good_expr|auto].
Qed.
Lemma names_tail_of f : fits corrected (RRep (RSeq [RTok ","; RNode "Name"])) f -> Forall good f -> Tree true NNameTail f.
Proof.
  intros H. refine (rep_ind _ _ (fun f => Forall good f -> Tree true NNameTail f) f H _ _); [intros _; constructor|]. intros a b Ha IH G. apply Forall_app in G as [G1 G2]. fi Ha; cbn [app] in *.
  inversion G1 as [|? ? _ G3]; subst. inversion G3 as [|? ? G4 _]; subst. refine (T_names_cons true [PNode _ _] b _ _); [exact (good_nt _ _ _ G4 eq_refl)|auto].
Qed.
Lemma path_tail_of f : fits corrected (RRep (RSeq [RTok "."; RNode "NameRef"])) f -> Forall good f -> Tree true NPathTail f.
Proof.
  intros H. refine (rep_ind _ _ (fun f => Forall good f -> Tree true NPathTail f) f H _ _); [intros _; constructor|]. intros a b Ha IH G. apply Forall_app in G as [G1 G2]. fi Ha; cbn [app] in *.
  inversion G1 as [|? ? _ G3]; subst. inversion G3 as [|? ? G4 _]; subst. apply good_inner in G4. cbn [inner] in G4. subst. refine (T_path_cons true [PNode _ _] b _ _); [constructor|auto].
Qed.
(** Table fields: what follows a field. *)
Lemma fields_tail_of f o : fits corrected (RRep (RSeq [RNode "TableSep"; RNode "TableContent"])) f -> fits corrected (ROpt (RNode "TableSep")) o -> Forall good (f ++ o) ->
  forall x, Tree true NField x -> Tree true NFields (x ++ f ++ o).
Proof.
  intros H Ho. refine (rep_ind _ _ (fun f => Forall good (f ++ o) -> forall x, Tree true NField x -> Tree true NFields (x ++ f ++ o)) f H _ _).
  - intros G x Hx. cbn [app] in *. fi Ho; [rewrite app_nil_r; now apply T_fields_last|]. inversion G as [|? ? G1 _]; subst. apply good_inner in G1. destruct G1 as (s & -> & Hs). apply T_fields_cons; [exact Hx|exact Hs|constructor].
  - intros a b Ha IH G x Hx. fi Ha. cbn [app] in *. inversion G as [|? ? G1 G2]; subst. apply good_inner in G1. destruct G1 as (s & -> & Hs). inversion G2 as [|? ? G3 G4]; subst.
    apply T_fields_cons; [exact Hx|exact Hs|]. apply (IH G4 [PNode KTableContent _]). exact (good_nt _ _ _ G3 eq_refl).
Qed.
Lemma fields_of f : fits corrected (ROpt (RSeq [RNode "TableContent"; RRep (RSeq [RNode "TableSep"; RNode "TableContent"]); ROpt (RNode "TableSep")])) f -> Forall good f -> Tree true NFields f.
Proof.
  intros H G. apply opt_inv in H as [->|H]; [constructor|]. apply seq_inv in H as (a & b & -> & A & H). apply seq_inv in H as (c & e & -> & C & H). apply seq_inv in H as (o & z & -> & O' & Z). fi Z. rewrite app_nil_r in *.
  fi A. cbn [app] in *. inversion G as [|? ? G1 G2]; subst. apply (fields_tail_of c o C O' G2 [PNode KTableContent _]). exact (good_nt _ _ _ G1 eq_refl).
Qed.
(** A complete list ends in a node. *)
Lemma complete_not_tok f k : ~ names_complete (f ++ [PTok k]).
Proof. intros (g & k' & s & E). apply app_inj_tail in E as [_ E]. discriminate. Qed.
Lemma complete_not_nil : ~ names_complete [].
Proof. intros (g & k' & s & E). destruct g; discriminate. Qed.
Lemma names_inner cs : good (PNode KMultiName cs) -> names_complete cs -> Tree true NNames cs.
Proof. intros [_ [->|(ns & H & [->| ->])]] C; [destruct (complete_not_nil C)|exact H|destruct (complete_not_tok _ _ C)]. Qed.
Lemma path_inner cs : good (PNode KIndexPath cs) -> names_complete cs -> Tree true NPath cs.
Proof. intros [_ (ns & H & [->| ->])] C; [exact H|destruct (complete_not_tok _ _ C)]. Qed.

(** * One node *)
Ltac own := match goal with H : rule_of (d_rules corrected) _ = Some _ |- _ => vm_compute in H; injection H as <- end.
Ltac gs := repeat match goal with H : Forall good (_ :: _) |- _ => inversion H; subst; clear H | H : Forall good [] |- _ => clear H | H : Forall good (_ ++ _) |- _ => apply Forall_app in H as [? ?] | H : good (PTok _) |- _ => clear H end.
Ltac use_good := repeat match goal with
  | H : good (PNode ?k ?cs), I : In ?k expr_kinds |- _ => destruct (good_expr k cs H I); clear H
  | H : good (PNode ?k ?cs), I : In ?k call_kinds |- _ => pose proof (good_call k cs H I); clear H
  | H : good (PNode ?k ?cs), I : In ?k (KLiteral :: call_kinds) |- _ => destruct (good_index k cs H I) as [? ?]; clear H
  | H : good (PNode ?k ?cs) |- _ => let n := eval vm_compute in (nt_of k) in lazymatch n with
      | Some ?n' => let A := fresh in let B := fresh in pose proof (good_nt k cs n' H eq_refl) as A; destruct H as [_ B]; cbn [inner] in B
      | None => lazymatch k with KMultiName => fail | KIndexPath => fail | _ => let B := fresh in destruct H as [_ B]; cbn [inner] in B end end
  end.
Ltac fin := first [assumption|left; reflexivity|eassumption|apply T_else_none].
Tactic Notation "bld" uconstr(t) := refine t; fin.
Ltac pre := split; [intros ? E; injection E as <-|exact I]; use_good; subst.
Ltac pre2 := use_good; subst; split; [intros ? E; try discriminate E; try (injection E as <-)|cbn [inner]].
Lemma node_good k cs : node_fits corrected k cs -> ends_ok (PNode k cs) -> Forall good cs -> good (PNode k cs).
Proof.
  intros (r & Hr & F) En G. inversion En as [|? ? _ EN EP]; subst. clear En.
  destruct k; try (vm_compute in Hr; discriminate Hr);
    try (split; [intros ? E; discriminate E|exact I]);
    vm_compute in Hr; injection Hr as <-; fi F; cbn [app] in *; gs.
  all: lazymatch goal with
  | |- good (PNode KSourceFile _) => pre; bld (T_source true [PNode _ _] _)
  | |- good (PNode KBlock _) => pre; bld (T_block true _ (stmts_of _ _ _))
  | |- good (PNode KName _) => pre2; [apply T_name|reflexivity]
  | |- good (PNode KNameRef _) => pre2; [apply T_nameref_expr|reflexivity]
  | |- good (PNode KLabelDelim _) => pre2; reflexivity
  | |- good (PNode KLabelStmt _) => pre; bld (T_label true [PTok _] [PNode _ _] [PTok _] _ _ _)
  | |- good (PNode KGotoStmt _) => pre; bld (T_goto true [PTok _] _)
  | |- good (PNode KBreakStmt _) => pre; apply T_break
  | |- good (PNode KDoStmt _) => pre; bld (T_do true [PNode _ _] [PTok _] _ _)
  | |- good (PNode KFunctionDefStmt _) => pre; bld (T_fun true [PNode _ _] [PNode _ _] [PNode _ _] [PTok _] _ _ _ _)
  | |- good (PNode KLocalFunctionDefStmt _) => pre; bld (T_local_fun true [PTok _] [PNode _ _] [PNode _ _] [PNode _ _] [PTok _] _ _ _ _ _)
  | |- good (PNode KExprStmt _) => pre; bld (T_expr_stmt true [PNode _ _] _)
  | |- good (PNode KElseBranch _) => pre; bld (T_else true [PNode _ _] _)
  | |- good (PNode KIfStmt [_; _; _; _; _]) => pre; bld (T_if true [PNode _ _] [PTok _] [PNode _ _] [] [PTok _] _ _ _ _ _)
  | |- good (PNode KIfStmt _) => pre; bld (T_if true [PNode _ _] [PTok _] [PNode _ _] [PNode _ _] [PTok _] _ _ _ _ _)
  | |- good (PNode KElseIfBranch [_; _; _; _]) => pre; bld (T_elseif true [PNode _ _] [PTok _] [PNode _ _] [] _ _ _ _)
  | |- good (PNode KElseIfBranch _) => pre; bld (T_elseif true [PNode _ _] [PTok _] [PNode _ _] [PNode _ _] _ _ _ _)
  | |- good (PNode KWhileStmt _) => pre; bld (T_while true [PNode _ _] [PTok _] [PNode _ _] [PTok _] _ _ _ _)
  | |- good (PNode KReturnStmt [_]) => pre; apply T_return
  | |- good (PNode KReturnStmt _) => pre; bld (T_return_val true [PNode _ _] _)
  | |- good (PNode KForStmt _) => pre; bld (T_for true _ [PTok _] [PNode _ _] [PTok _] _ _ _ _)
  | |- good (PNode KForContent _) => pre2; assumption
  | |- good (PNode KNumericFor _) => pre; bld (T_for_num true [PNode _ _] _)
  | |- good (PNode KGenericFor _) => pre; refine (T_for_gen true _ [PTok _] [PNode _ _] _ _ _); [apply names_inner; [assumption|destruct (EN [] _ _ eq_refl) as [C|[C _]]; [exact C|discriminate C]]|fin|fin]
  | |- good (PNode KRepeatUntilStmt _) => pre; bld (T_repeat true [PNode _ _] [PTok _] [PNode _ _] _ _ _)
  | |- good (PNode KLocalAssignStmt [_; _]) => pre; refine (T_local true _ _); apply names_inner; [assumption|destruct (EN [_] _ _ eq_refl) as [C|[C _]]; [exact C|discriminate C]]
  | |- good (PNode KLocalAssignStmt _) => pre; refine (T_local_init true _ [PNode _ _] _ _); [apply names_inner; [assumption|destruct (EN [_] _ _ eq_refl) as [C|[C _]]; [exact C|discriminate C]]|fin]
  | |- good (PNode KAssignStmt _) => pre; bld (T_assign true [PNode _ _] [PNode _ _] _ _)
  | |- good (PNode KCallExpr _) => pre; bld (T_call true _ [PNode _ _] _ _)
  | |- good (PNode KMethodCallExpr _) => pre; bld (T_method_call true _ [PTok _] [PNode _ _] _ _ _)
  | |- good (PNode KIndexExpr _) => pre; refine (T_index_expr true _ _ [PNode _ _] _ _); [eassumption|fin]
  | |- good (PNode KDotExpr _) => pre; refine (T_dot_expr true _ _ [PTok _] _ _); [eassumption|fin]
  | |- good (PNode KMultivalExpr _) => rewrite ?app_nil_r in *; pre; refine (T_multi true [PNode _ _] _ _ _); [fin|now apply multi_tail_of]
  | |- good (PNode KCallArgs [PTok _]) => pre; apply T_args_str
  | |- good (PNode KCallArgs [PNode KArgList _]) => pre; assumption
  | |- good (PNode KCallArgs _) => idtac
  | |- good (PNode KArgList [_; _]) => pre2; bld (T_args_none true [PTok _] _)
  | |- good (PNode KArgList _) => pre2; bld (T_args true [PNode _ _] [PTok _] _ _)
  | |- good (PNode KLiteral _) => pre; apply T_literal; vm_compute; tauto
  | |- good (PNode KFunctionExpr _) => pre; bld (T_function true [PNode _ _] [PNode _ _] [PTok _] _ _ _)
  | |- good (PNode KTableSep _) => pre2; eexists; split; [reflexivity|tauto]
  | |- good (PNode KParenExpr _) => pre; bld (T_paren true [PNode _ _] [PTok _] _ _)
  | |- good (PNode KTableContent [PNode KKeyValue _]) => pre; assumption
  | |- good (PNode KTableContent [PNode KPositionalValue _]) => pre; assumption
  | |- good (PNode KPositionalValue _) => pre2; bld (T_field_pos true [PNode _ _] _)
  | |- good (PNode KKeyValue _) => idtac
  | |- good (PNode KTableKey [PNode KIndex _]) => pre2; right; assumption
  | |- good (PNode KTableKey [PNode KName _]) => pre2; left; reflexivity
  | |- good (PNode KInfixExpr _) => pre; refine (T_infix true _ _ [PNode _ _] _ _ _); [assumption|vm_compute; tauto|assumption]
  | |- good (PNode KPrefixExpr _) => pre; refine (T_prefix true _ [PNode _ _] _ _); [vm_compute; tauto|assumption]
  | |- good (PNode KIndex _) => pre; bld (T_index true [PNode _ _] [PTok _] _ _)
  | |- good (PNode KFunctionDefContent [PNode KName _]) => pre; bld (T_fun_plain true [PNode _ _] _)
  | |- good (PNode KFunctionDefContent _) => pre; assumption
  | |- _ => idtac
  end.
  - (* MultiName *) split; [intros ? E; discriminate E|now left].
  - split; [intros ? E; discriminate E|]. right. eexists. split; [|left; reflexivity]. rewrite app_nil_r in *. use_good. subst. refine (T_names true [PNode _ _] _ _ _); [assumption|now apply names_tail_of].
  - split; [intros ? E; discriminate E|]. right. match goal with |- context [?a :: ?b ++ [PTok KComma]] => exists (a :: b) end. split; [|right; reflexivity]. use_good. subst. refine (T_names true [PNode _ _] _ _ _); [assumption|now apply names_tail_of].
  - (* ParamList *) pre. refine (T_param_list true [PTok _] [] [PTok _] _ _ _); [fin|apply T_params_none|fin].
  - pre. refine (T_param_list true [PTok _] [PNode _ _] [PTok _] _ _ _); [fin| |fin]. apply T_params_names. apply names_inner; [assumption|]. destruct (EN [_] _ _ eq_refl) as [C|[_ (rest & C)]]; [exact C|discriminate C].
  - pre. refine (T_param_list true [PTok _] [PNode _ _; PTok _] [PTok _] _ _ _); [fin| |fin].
    match goal with H : good (PNode KMultiName _) |- _ => apply good_inner in H; destruct H as [->|(ns & H & [->| ->])] end.
    + refine (T_params_dots true [] _). now left.
    + refine (T_params_names_dots_nocomma true ns [] _ _); [assumption|now left].
    + refine (T_params_names_dots true ns [] _ _); [assumption|now left].
  - (* FunctionMethod *) pre2. refine (T_fun_method true _ [PNode _ _] _ _); [|assumption]. apply path_inner; [assumption|]. destruct (EP [] _ _ eq_refl) as [C|C]; [exact C|discriminate C].
  - pre2. match goal with H : good (PNode KIndexPath _) |- _ => apply good_inner in H; destruct H as (p & H & [->| ->]) end.
    + refine (T_fun_static_nodot true p [PNode _ _] _ _); assumption.
    + refine (T_fun_static true p [PNode _ _] _ _); assumption.
  - (* IndexPath *) split; [intros ? E; discriminate E|]. eexists. split; [|left; reflexivity]. rewrite app_nil_r in *. use_good. subst. refine (T_path true [PNode _ _] _ _ _); [apply T_nameref|now apply path_tail_of].
  - split; [intros ? E; discriminate E|]. match goal with |- inner _ (?a :: ?b ++ [PTok KDot]) => exists (a :: b) end. split; [|right; reflexivity]. use_good. subst. refine (T_path true [PNode _ _] _ _ _); [apply T_nameref|now apply path_tail_of].
  - (* TableExpr *) split; [intros ? E; injection E as <-; refine (T_table true [] [PTok _] _ _); [apply T_fields_nil|fin]|]. exists []. split; [reflexivity|constructor].
  - rewrite app_nil_r in *. match goal with |- good (PNode _ (_ :: PNode _ ?a :: ?b ++ _)) => rename a into x; rename b into x0 end.
    assert (FS : Tree true NFields ([PNode KTableContent x] ++ x0 ++ [])).
    { apply fields_tail_of; [assumption|apply fits_none|now rewrite app_nil_r|]. match goal with H : good (PNode KTableContent _) |- _ => exact (good_nt _ _ _ H eq_refl) end. }
    rewrite app_nil_r in FS. cbn [app] in FS. split; [intros ? E; injection E as <-; refine (T_table true _ [PTok _] FS _); fin|]. exists (PNode KTableContent x :: x0). split; [reflexivity|exact FS].
  - match goal with H : good (PNode KTableSep ?z) |- _ => rename z into y end.
    assert (FS : Tree true NFields ([PNode KTableContent x] ++ x0 ++ [PNode KTableSep y])).
    { apply fields_tail_of; [assumption|apply fits_some; dnode|apply Forall_app; split; [assumption|now constructor]|]. match goal with H : good (PNode KTableContent _) |- _ => exact (good_nt _ _ _ H eq_refl) end. }
    cbn [app] in FS. split; [intros ? E; injection E as <-; refine (T_table true (PNode KTableContent x :: x0 ++ [PNode KTableSep y]) [PTok _] FS _); fin|]. exists (PNode KTableContent x :: x0 ++ [PNode KTableSep y]). split; [reflexivity|exact FS].
  - (* CallArgs *) use_good. match goal with H : exists fs, _ |- _ => destruct H as (fs & -> & HF) end. split; [intros ? E; injection E as <-|exact I]. refine (T_args_table true fs [PTok _] HF _). fin.
  - (* KeyValue *) use_good. split; [intros ? E; discriminate E|]. cbn [inner]. match goal with H : _ = [PNode KName _] \/ _ |- _ => destruct H as [->|H] end.
    + refine (T_field_name true [PNode _ _] _). assumption.
    + refine (T_field_index true _ [PTok _] [PNode _ _] _ _ _); [assumption|fin|assumption].
Qed.
Lemma ptree_ind2 (P : ptree -> Prop) (HT : forall k, P (PTok k)) (HE : forall e, P (PErr e)) (HN : forall fs e, P (PErrN fs e)) (HD : forall k fs, Forall P fs -> P (PNode k fs)) : forall t, P t.
Proof. fix IH 1. intros [k|e|fs e|k fs]; [apply HT|apply HE|apply HN|apply HD]. induction fs as [|t fs IHfs]; constructor; [apply IH|exact IHfs]. Qed.
Lemma conf_good t : conforms corrected t -> ends_ok t -> good t.
Proof.
  apply (ptree_ind2 (fun t => conforms corrected t -> ends_ok t -> good t)); clear t; [intros; exact I|intros; exact I|intros; exact I|]. intros k fs IH C E. inversion C as [|? ? NF CF]; subst. inversion E as [|? ? EF _ _]; subst.
  apply node_good; [exact NF|exact E|]. clear NF C E. induction IH as [|t fs Ht _ IHfs]; [constructor|]. inversion CF; subst. inversion EF; subst. constructor; auto.
Qed.
(** The two descriptions agree. *)
Lemma doc_exact f : Tree true NSource f <-> exists cs, f = [PNode KSourceFile cs] /\ conforms corrected (PNode KSourceFile cs) /\ ends_ok (PNode KSourceFile cs).
Proof.
  split.
  - intros H. destruct (tree_conf _ _ H) as ((k & cs & -> & [<-|[]]) & C & E & _). inversion C; subst. inversion E; subst. eauto.
  - intros (cs & -> & C & E). exact (good_nt _ _ _ (conf_good _ C E) eq_refl).
Qed.
Print Assumptions doc_exact.
