(** BlockDress.v — replacing a block of a dressed tree by a block that was dressed alone (used by C35). *)
From Verif Require Import Base SyntaxKind TokenSet Lexer LexSpec Parser Grammar ParserTree ParserTotal Event Tree TreeSink SinkProofs GrammarSpec StrictTree Ast ParseSpec ParseProofs
  LuaRun LuaComplete TreeComplete BlockSwap DressProofs LocalDress.

(** Statements and expressions end with a token. *)
Definition endful (n : nt) : bool :=
  match n with NStmt | NExprO | NExpr | NLhs | NPost _ | NMulti | NCallArgs | NIndex | NName | NNames | NField | NNameRef | NParamList | NFor | NFunName | NPath => true | _ => false end.
Definition tailful (n : nt) : bool := match n with NMultiTail | NNameTail | NPathTail | NFields | NStmts => true | _ => false end.
Lemma ends_one t : ends [t] = closes t. Proof. reflexivity. Qed.
Lemma ends_app_or a b : ends a = true -> b = [] \/ ends b = true -> ends (a ++ b) = true.
Proof. intros A [->|B]; [now rewrite app_nil_r|now apply ends_app]. Qed.
Lemma ends_tail t f : f = [] /\ closes t = true \/ ends f = true -> ends (t :: f) = true.
Proof. intros [[-> H]|H]; [exact H|exact (ends_app [t] f H)]. Qed.
Ltac en1 :=
  match goal with
  | H : ends ?f = true |- ends ?f = true => exact H
  | |- ends [PTok _] = true => reflexivity
  | |- ends [PNode _ _] = true => rewrite ends_one, closes_node
  | |- ends (?a ++ ?b) = true => first [apply ends_app_or; [assumption|assumption]|apply ends_app]
  | |- ends (?t :: ?f) = true => lazymatch f with [] => fail | _ => apply (ends_app [t] f) end
  end.
Lemma Tree_ends n f : Tree true n f -> (endful n = true -> ends f = true) /\ (tailful n = true -> f = [] \/ ends f = true).
Proof.
  induction 1; split; intros HN; try discriminate HN; prep;
    repeat match goal with IH : (endful ?n = true -> _) /\ _ |- _ => destruct IH as [? ?] end;
    repeat match goal with IH : endful ?n = true -> _ |- _ => first [specialize (IH eq_refl)|clear IH] | IH : tailful ?n = true -> _ |- _ => first [specialize (IH eq_refl)|clear IH] end.
  all: try (left; reflexivity).
  all: try right.
  all: try (match goal with H : ?g = [] \/ ends ?g = true |- ends (_ ++ PNode KTableSep [PTok ?s] :: ?g) = true => apply ends_app; apply (ends_app_or [PNode KTableSep [PTok s]]); [reflexivity|exact H] end).
  all: repeat en1.
Qed.

(** ** Changing what follows a dressed forest *)
Definition settled (rt : list rtok) : Prop := eat rt = ([], rt).
Lemma settled_nil : settled []. Proof. reflexivity. Qed.
Lemma settled_app a b c : settled (a ++ b) -> (settled b -> settled c) -> settled (a ++ c).
Proof.
  unfold settled. destruct a as [|p a]; cbn [app]; [auto|]. cbn [eat]. destruct (triv p); [|reflexivity]. destruct (eat (a ++ b)); discriminate.
Qed.
Lemma settled_head a b : settled a -> a <> [] -> settled (a ++ b).
Proof. unfold settled. destruct a as [|p a]; [contradiction|]. intros H _. cbn [app eat] in *. destruct (triv p); [|reflexivity]. destruct (eat a); discriminate. Qed.
Lemma settled_triv tr rest : settled (tr ++ rest) -> forallb triv tr = true -> tr = [].
Proof. unfold settled. destruct tr as [|p tr]; [reflexivity|]. cbn [app eat forallb]. intros H T. apply andb_true_iff in T as [T _]. rewrite T in H. destruct (eat (tr ++ rest)); discriminate. Qed.
Lemma eat_settled tr rest : forallb triv tr = true -> settled rest -> eat (tr ++ rest) = (tr, rest).
Proof. intros T H. rewrite <- (app_nil_r tr) at 2. exact (eat_before _ _ _ _ H T). Qed.
Lemma Dress_noerrs f pos rt a : Dress f pos rt a -> noerrs f = true -> dr_errs a = [].
Proof.
  induction 1 as [pos rt|k fs pos rt tr p rest b He Hd IH|e fs pos rt b Hd IH|e fs gs pos rt tr rest a b He Ha IHa Hb IHb|k fs gs pos rt tr rest a b He Ha IHa Hb IHb]; intros HN;
    cbn [dr_errs]; try discriminate HN; [reflexivity| |].
  - apply noerrs_cons in HN as [_ HN]. auto.
  - apply noerrs_cons in HN as [H1 H2]. apply noerr_node in H1. now rewrite IHa, IHb.
Qed.
Lemma Dress_pos f pos rt a : Dress f pos rt a -> noerrs f = true -> forall pos', Dress f pos' rt a.
Proof.
  induction 1 as [pos rt|k fs pos rt tr p rest b He Hd IH|e fs pos rt b Hd IH|e fs gs pos rt tr rest a b He Ha IHa Hb IHb|k fs gs pos rt tr rest a b He Ha IHa Hb IHb]; intros HN pos';
    try discriminate HN.
  - constructor.
  - apply noerrs_cons in HN as [_ HN]. exact (D_tok k _ _ _ _ _ _ _ He (IH HN _)).
  - apply noerrs_cons in HN as [H1 H2]. apply noerr_node in H1. exact (D_node k _ _ _ _ _ _ _ _ He (IHa H1 _) (IHb H2 _)).
Qed.
Definition dr_with (l : list rtok) (a : dressed) : dressed := mkDr (dr_green a) (dr_errs a) (dr_used a) l.
Lemma Dress_suffix f pos rt a : Dress f pos rt a -> noerrs f = true -> forall l, (settled (dr_left a) -> settled l) -> Dress f pos (dr_used a ++ l) (dr_with l a).
Proof.
  induction 1 as [pos rt|k fs pos rt tr p rest b He Hd IH|e fs pos rt b Hd IH|e fs gs pos rt tr rest a b He Ha IHa Hb IHb|k fs gs pos rt tr rest a b He Ha IHa Hb IHb]; intros HN l HL;
    try discriminate HN; unfold dr_with in *; cbn [dr_green dr_errs dr_used dr_left] in *.
  - constructor.
  - apply noerrs_cons in HN as [_ HN]. destruct (eat_triv _ _ _ He) as [T P]. rewrite <- !app_assoc. cbn [app].
    assert (He' : eat (tr ++ p :: dr_used b ++ l) = (tr, p :: dr_used b ++ l)) by (apply eat_settled; [exact T|unfold settled; cbn [eat]; now rewrite P]).
    pose proof (D_tok k fs pos _ tr p _ _ He' (IH HN l HL)) as G. cbn [dr_green dr_errs dr_used dr_left] in G. rewrite <- !app_assoc in G. cbn [app] in G. exact G.
  - apply noerrs_cons in HN as [H1 H2]. apply noerr_node in H1. assert (T : forallb triv tr = true) by (pose proof (eat_triv _ _ _ He) as X; destruct rest; [apply X|apply X]).
    pose proof (eat_eat _ _ _ He) as S0. pose proof (Dress_used _ _ _ _ Ha) as U1. pose proof (Dress_used _ _ _ _ Hb) as U2.
    assert (C1 : settled (dr_left a) -> settled (dr_used b ++ l)) by (rewrite U2; intros S1; exact (settled_app _ _ _ S1 HL)).
    assert (C0 : settled (dr_used a ++ dr_used b ++ l)) by (change (settled rest) in S0; rewrite U1 in S0; exact (settled_app _ _ _ S0 C1)).
    rewrite <- !app_assoc. pose proof (D_node k fs gs pos _ tr _ _ _ (eat_settled _ _ T C0) (IHa H1 _ C1) (IHb H2 _ HL)) as G.
    cbn [dr_green dr_errs dr_used dr_left] in G. rewrite <- !app_assoc in G. exact G.
Qed.

(** ** Replacing an element of a green tree *)
Inductive repl (old new : green) : list green -> list green -> Prop :=
| rp_here x y : repl old new (x ++ old :: y) (x ++ new :: y)
| rp_in x k cs cs' y : repl old new cs cs' -> repl old new (x ++ GNode k cs :: y) (x ++ GNode k cs' :: y).
Lemma repl_app o n p q f' : repl o n (p ++ q) f' ->
  (exists p', f' = p' ++ q /\ repl o n p p') \/ (exists q', f' = p ++ q' /\ repl o n q q').
Proof.
  intros H. inversion H as [x y E1 E2|x K fs fs' y HS E1 E2]; subst; destruct (split_mid _ _ _ _ _ E1) as [(m & -> & ->)|(m & -> & ->)].
  - left. exists (x ++ n :: m). split; [now rewrite <- app_assoc|constructor].
  - right. exists (m ++ n :: y). split; [now rewrite <- app_assoc|constructor].
  - left. exists (x ++ GNode K fs' :: m). split; [now rewrite <- app_assoc|now constructor].
  - right. exists (m ++ GNode K fs' :: y). split; [now rewrite <- app_assoc|now constructor].
Qed.
Lemma repl_one o n g f' : repl o n [g] f' -> (g = o /\ f' = [n]) \/ exists k cs cs', g = GNode k cs /\ f' = [GNode k cs'] /\ repl o n cs cs'.
Proof.
  assert (U : forall x u y, x ++ u :: y = [g] -> x = [] /\ u = g /\ y = []).
  { intros [|a x] u y E; [cbn in E; injection E as -> ->; auto|]. cbn in E. injection E as _ E. destruct x; discriminate. }
  intros H. inversion H as [x y E1 E2|x K fs fs' y HS E1 E2]; destruct (U _ _ _ E1) as (-> & <- & ->).
  - left. auto.
  - right. exists K, fs, fs'. split; [reflexivity|]. split; [reflexivity|exact HS].
Qed.
Lemma repl_toks k ob n l f' : repl (GNode k ob) n (map gtok l) f' -> False.
Proof.
  intros H. inversion H as [x y E1 E2|x K fs fs' y HS E1 E2]; apply (f_equal (fun l => forallb (fun g => match g with GTok _ _ => true | _ => false end) l)) in E1;
    rewrite forallb_app in E1; cbn [forallb] in E1; rewrite andb_false_r in E1; symmetry in E1; apply not_true_iff_false in E1; apply E1; clear; induction l as [|[? ?] l IH]; auto.
Qed.

Lemma swap_mono_r b b' p q q' : swap b b' q q' -> swap b b' (p ++ q) (p ++ q').
Proof. intros H. inversion H as [x y E1 E2|x K fs fs' y HS E1 E2]; rewrite !app_assoc; constructor; assumption. Qed.
Lemma swap_noerrs b b' f f' : swap b b' f f' -> noerrs f = true -> noerrs b' = true -> noerrs f' = true.
Proof.
  intros H HF HB. induction H as [x y|x K fs fs' y HS IH]; apply noerrs_app in HF as [H1 H2]; apply noerrs_cons in H2 as [H2 H3]; apply noerrs_app; (split; [exact H1|]); apply noerrs_cons; (split; [|exact H3]); apply noerr_node; auto.
Qed.
Lemma Dress_used_kinds f pos rt a r : Dress f pos rt a -> map fst (nontriv rt) = fkinds f ++ r -> map fst (nontriv (dr_used a)) = fkinds f.
Proof.
  intros H E. pose proof (Dress_kinds _ _ _ _ _ H E) as L. pose proof (Dress_used _ _ _ _ H) as U.
  assert (Z : map fst (nontriv rt) = map fst (nontriv (dr_used a)) ++ map fst (nontriv (dr_left a))) by (rewrite U, nontriv_app, map_app; reflexivity).
  rewrite E, L in Z. apply app_inv_tail in Z. now symmetry.
Qed.
Lemma nontriv_triv tr : forallb triv tr = true -> nontriv tr = [].
Proof. induction tr as [|p tr IH]; [reflexivity|]. cbn [forallb]. intros H. apply andb_true_iff in H as [H1 H2]. unfold nontriv in *. cbn [filter]. rewrite H1. exact (IH H2). Qed.
(** A block dressed alone, put in the place of another. *)
Lemma dress_swap ob b' rtb a1 : Dress b' 0 rtb a1 -> dr_left a1 = [] -> map fst (nontriv rtb) = fkinds b' -> noerrs b' = true -> ends b' = true -> settled rtb -> rtb <> [] ->
  forall F pos rt a, Dress F pos rt a -> noerrs F = true -> forall gs', repl (GNode KBlock ob) (GNode KBlock (dr_green a1)) (dr_green a) gs' ->
  exists b F' used', swap b b' F F' /\ Dress F' pos (used' ++ dr_left a) (mkDr gs' [] used' (dr_left a)) /\ (settled rt -> settled (used' ++ dr_left a)) /\
    (forall r, map fst (nontriv rt) = fkinds F ++ r -> map fst (nontriv used') = fkinds F').
Proof.
  intros HB HL HKb HNb HE HS HNe F pos rt a H.
  induction H as [pos rt|k fs pos rt tr p rest b He Hd IH|e fs pos rt b Hd IH|e fs gs pos rt tr rest a b He Ha IHa Hb IHb|k fs gs pos rt tr rest a b He Ha IHa Hb IHb]; intros HN gs' HR;
    try discriminate HN; cbn [dr_green dr_left] in *.
  - exfalso. inversion HR as [x y E|x K c c' y HR' E]; destruct x; discriminate E.
  - apply noerrs_cons in HN as [_ HN]. destruct (eat_triv _ _ _ He) as [T P]. apply repl_app in HR as [(p' & -> & HR)|(q' & -> & HR)].
    { exfalso. assert (E : map gtok tr ++ [gtok p] = map gtok (tr ++ [p])) by (now rewrite map_app). rewrite E in HR. exact (repl_toks _ _ _ _ _ HR). }
    destruct (IH HN _ HR) as (b0 & F' & used' & H1 & H2 & H3 & H4). exists b0, (PTok k :: F'), ((tr ++ [p]) ++ used'). split; [|split; [|split]].
    + exact (swap_mono_r _ _ [PTok k] _ _ H1).
    + assert (He' : eat (tr ++ p :: used' ++ dr_left b) = (tr, p :: used' ++ dr_left b)) by (apply eat_settled; [exact T|unfold settled; cbn [eat]; now rewrite P]).
      pose proof (D_tok k F' pos _ tr p _ _ He' (Dress_pos _ _ _ _ H2 (swap_noerrs _ _ _ _ H1 HN HNb) _)) as G. cbn [dr_green dr_errs dr_used dr_left] in G. rewrite <- !app_assoc in *. cbn [app] in *. exact G.
    + rewrite (eat_app _ _ _ He), <- !app_assoc. intros S0. apply (settled_app tr (p :: rest) _); [exact S0|]. intros _. unfold settled. cbn [app eat]. now rewrite P.
    + intros r0. rewrite (eat_app _ _ _ He). rewrite !nontriv_app, (nontriv_triv _ T), !map_app. cbn [app map]. destruct p as [pk px]. unfold nontriv at 1. cbn [filter]. rewrite !P. cbn [negb map app fst].
      rewrite !fkinds_cons. cbn [pkinds app]. intros Z. injection Z as -> Z. assert (E1 : nontriv [(k, px)] = [(k, px)]) by (unfold nontriv; cbn [filter]; now rewrite P). unfold nontriv in *. cbn [filter] in *. rewrite ?P. cbn [negb map fst app]. f_equal. exact (H4 _ Z).
  - apply noerrs_cons in HN as [N1 N2]. apply noerr_node in N1. assert (T : forallb triv tr = true) by (pose proof (eat_triv _ _ _ He) as X; destruct rest; [apply X|apply X]).
    pose proof (eat_eat _ _ _ He) as S0. change (settled rest) in S0. pose proof (Dress_used _ _ _ _ Ha) as U1. pose proof (Dress_used _ _ _ _ Hb) as U2.
    pose proof (eat_app _ _ _ He) as Er.
    assert (KS : forall r, map fst (nontriv rt) = fkinds (PNode k fs :: gs) ++ r ->
      map fst (nontriv rest) = fkinds fs ++ (fkinds gs ++ r) /\ map fst (nontriv (dr_left a)) = fkinds gs ++ r).
    { intros r0 Z. rewrite fkinds_cons, pkinds_node, <- app_assoc in Z. rewrite Er, nontriv_app, (nontriv_triv _ T) in Z. cbn [app] in Z. split; [exact Z|]. exact (Dress_kinds _ _ _ _ _ Ha Z). }
    apply repl_app in HR as [(p' & -> & HR)|(q' & -> & HR)].
    + apply repl_app in HR as [(p'' & -> & HR)|(q' & -> & HR)]; [exfalso; exact (repl_toks _ _ _ _ _ HR)|].
      apply repl_one in HR as [(E & ->)|(k0 & cs & cs' & E & -> & HR)].
      * assert (k = KBlock) by congruence. subst k. exists fs, (PNode KBlock b' :: gs), ((tr ++ rtb) ++ dr_used b). split; [|split; [|split]].
        { exact (sw_here fs b' [] gs). }
        { pose proof (settled_head _ (dr_left a) HS HNe) as C0. pose proof (Dress_used _ _ _ _ HB) as U0. rewrite HL, app_nil_r in U0.
          pose proof (Dress_more (dr_left a) _ _ _ _ (Dress_pos _ _ _ _ HB HNb (pos + blen (texts tr))) (or_intror (or_introl HE))) as M. unfold dr_more in M. rewrite HL in M. cbn [app] in M.
          pose proof (D_node KBlock b' gs pos _ tr _ _ b (eat_settled _ _ T C0) M (Dress_pos _ _ _ _ Hb N2 _)) as G. cbn [dr_green dr_errs dr_used dr_left] in G.
          rewrite <- U0, (Dress_noerrs _ _ _ _ HB HNb), (Dress_noerrs _ _ _ _ Hb N2) in G. rewrite <- !app_assoc in *. rewrite <- U2. exact G. }
        { rewrite Er. intros Z. apply settled_triv in Z; [|exact T]. subst tr. cbn [app]. rewrite <- app_assoc. apply settled_head; assumption. }
        { intros r0 Z. destruct (KS _ Z) as [Z1 Z2]. rewrite !nontriv_app, (nontriv_triv _ T), fkinds_cons, pkinds_node. cbn [app]. rewrite map_app. f_equal; [exact HKb|exact (Dress_used_kinds _ _ _ _ _ Hb Z2)]. }
      * assert (k0 = k) by congruence. assert (cs = dr_green a) by congruence. subst k0 cs. destruct (IHa N1 _ HR) as (b0 & F1 & used1 & H1 & H2 & H3 & H4).
        exists b0, (PNode k F1 :: gs), ((tr ++ used1) ++ dr_used b). split; [|split; [|split]].
        { exact (sw_in b0 b' [] k fs F1 gs H1). }
        { pose proof (D_node k F1 gs pos _ tr _ _ b (eat_settled _ _ T (H3 S0)) H2 (Dress_pos _ _ _ _ Hb N2 _)) as G. cbn [dr_green dr_errs dr_used dr_left] in G.
          rewrite (Dress_noerrs _ _ _ _ Hb N2) in G. rewrite <- !app_assoc in *. rewrite <- U2. exact G. }
        { rewrite Er. intros Z. apply settled_triv in Z; [|exact T]. subst tr. cbn [app]. rewrite <- app_assoc, <- U2. exact (H3 S0). }
        { intros r0 Z. destruct (KS _ Z) as [Z1 Z2]. rewrite !nontriv_app, (nontriv_triv _ T), fkinds_cons, pkinds_node. cbn [app]. rewrite map_app. f_equal; [exact (H4 _ Z1)|exact (Dress_used_kinds _ _ _ _ _ Hb Z2)]. }
    + destruct (IHb N2 _ HR) as (b0 & G' & used' & H1 & H2 & H3 & H4). exists b0, (PNode k fs :: G'), ((tr ++ dr_used a) ++ used'). 
      assert (C0 : settled (dr_used a ++ used' ++ dr_left b)) by (rewrite U1 in S0; exact (settled_app _ _ _ S0 H3)).
      split; [|split; [|split]].
      * exact (swap_mono_r _ _ [PNode k fs] _ _ H1).
      * pose proof (D_node k fs G' pos _ tr _ _ _ (eat_settled _ _ T C0) (Dress_suffix _ _ _ _ Ha N1 _ H3) (Dress_pos _ _ _ _ H2 (swap_noerrs _ _ _ _ H1 N2 HNb) _)) as G.
        unfold dr_with in G. cbn [dr_green dr_errs dr_used dr_left] in G. rewrite (Dress_noerrs _ _ _ _ Ha N1) in G. rewrite <- !app_assoc in *. exact G.
      * rewrite Er. intros Z. apply settled_triv in Z; [|exact T]. subst tr. cbn [app]. rewrite <- app_assoc. exact C0.
      * intros r0 Z. destruct (KS _ Z) as [Z1 Z2]. rewrite !nontriv_app, (nontriv_triv _ T), fkinds_cons, pkinds_node. cbn [app]. rewrite map_app. f_equal; [exact (Dress_used_kinds _ _ _ _ _ Ha Z1)|exact (H4 _ Z2)].
Qed.
