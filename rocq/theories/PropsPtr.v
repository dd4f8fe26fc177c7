(** PropsPtr.v — C31: syntax node pointers. *)
From Verif Require Import Base SyntaxKind Lexer LexSpec LexerDirect Parser Grammar Tree TreeSink Ast Validation ParserTree SinkProofs
  GrammarSpec ParserTotal ParseSpec ParseProofs DressProofs ValidProofs PropsParser Ptr.

(** ** The walk reaches every non-empty node *)
Fixpoint chain_in (r : range) (off : nat) (cs : list green) : list elem :=
  match cs with
  | [] => []
  | c :: cs' => if is_gnode c && contains_range (el_range (mkElem off c)) r then ptr_chain r off c
                else chain_in r (off + green_len c) cs'
  end.
Lemma ptr_chain_node r off k cs : ptr_chain r off (GNode k cs) = mkElem off (GNode k cs) :: chain_in r off cs.
Proof. cbn [ptr_chain]. f_equal. revert off. induction cs as [|c cs IH]; intros off; [reflexivity|]. cbn. rewrite IH. reflexivity. Qed.

Lemma green_ind' (P : green -> Prop) : (forall k t, P (GTok k t)) -> (forall k cs, Forall P cs -> P (GNode k cs)) -> forall g, P g.
Proof.
  intros HT HN. fix IH 1. intros [k cs|k t]; [|apply HT]. apply HN. induction cs as [|c cs IHc]; constructor; auto.
Qed.

Lemma glen_cons c cs : glen (c :: cs) = green_len c + glen cs.
Proof. unfold glen, green_len. cbn [flat_map]. apply blen_app. Qed.
Lemma green_len_node k cs : green_len (GNode k cs) = glen cs.
Proof. reflexivity. Qed.

Lemma desc_range : forall g off e, In e (descendants_at off g) -> off <= el_off e /\ el_off e + green_len (el_green e) <= off + green_len g.
Proof.
  refine (green_ind' _ _ _); [intros k t off e []|]. intros k cs F off e. rewrite descendants_node, green_len_node. intros [<-|H].
  { cbn [el_off el_green]. rewrite green_len_node. lia. }
  revert off H. induction F as [|c cs Hc _ IH]; intros off H; [destruct H|]. rewrite glen_cons. cbn [descs] in H. apply in_app_or in H as [H|H].
  - apply Hc in H. lia.
  - apply IH in H. lia.
Qed.

(** ** No node has a descendant of its own kind and extent *)
Definition rank (k : kind) : nat :=
  match k with
  | KError => 0
  | KSourceFile => 8
  | KBlock => 7
  | KAssignStmt | KLocalAssignStmt | KLocalFunctionDefStmt | KFunctionDefStmt | KForStmt | KIfStmt | KReturnStmt | KWhileStmt
  | KExprStmt | KBreakStmt | KRepeatUntilStmt | KLabelStmt | KGotoStmt | KDoStmt => 6
  | KForContent | KFunctionDefContent | KTableContent | KElseBranch | KElseIfBranch => 5
  | KFunctionMethod | KFunctionStatic | KNumericFor | KGenericFor | KKeyValue | KPositionalValue | KParamList => 4
  | KIndexPath | KTableKey | KMultivalExpr | KMultiName | KCallArgs => 3
  | _ => 2
  end.
Definition tok_in (f : forest) : bool := existsb (fun t => match t with PTok _ => true | _ => false end) f.
Definition tops (b : nat) (f : forest) : bool :=
  forallb (fun t => match t with PNode k _ => rank k <? b | PErrN _ _ => 0 <? b | _ => true end) f.
(** Children of a node: either there is a token among them, or all child nodes have smaller rank, or
    the first and the rest have tokens. *)
Definition LC (k : kind) (f : forest) : Prop :=
  tok_in f = true \/ tops (rank k) f = true \/ exists t g, f = t :: g /\ pkinds t <> [] /\ fkinds g <> [].

Lemma tops_app b x y : tops b (x ++ y) = tops b x && tops b y.
Proof. apply forallb_app. Qed.
Lemma tok_in_app x y : tok_in (x ++ y) = tok_in x || tok_in y.
Proof. apply existsb_app. Qed.
Lemma tops_mono b c f : b <= c -> tops b f = true -> tops c f = true.
Proof.
  intros L. unfold tops. rewrite !forallb_forall. intros H x Hx. specialize (H x Hx). destruct x; auto; apply Nat.ltb_lt; apply Nat.ltb_lt in H; lia.
Qed.
Lemma tops_toks b ks : tops b (map PTok ks) = true.
Proof. induction ks; auto. Qed.
Lemma tops_req s k f b : req s k f -> tops b f = true.
Proof. intros [->|[_ [e ->]]]; reflexivity. Qed.
Lemma tops_is_err s f b : 0 < b -> is_err s f -> tops b f = true.
Proof. intros L (_ & e & [->|(ks & ->)]); [reflexivity|]. destruct b; [lia|reflexivity]. Qed.
Lemma tops_junk j : Forall junk j -> tops 6 j = true.
Proof. induction 1 as [|t j [(ks & e & ->)|(s & _ & ->)] _ IH]; auto; exact IH. Qed.
Lemma tops_opt s x b : 0 < b -> x = [] \/ is_err s x -> tops b x = true.
Proof. intros L [->|H]; [reflexivity|eapply tops_is_err; eauto]. Qed.
Lemma tops_sc sc b : sc = [] \/ sc = [PTok KSemicolon] -> tops b sc = true.
Proof. intros [->| ->]; reflexivity. Qed.

(** Bound on the ranks of the nodes a nonterminal derives at top level. *)
Definition bound (n : nt) : nat :=
  match n with
  | NSource => 9 | NBlock => 8 | NStmts | NStmt => 7
  | NElse | NFunName => 6
  | NFields => 6 | NField => 6
  | NFor | NParamList => 5
  | NMulti | NCallArgs | NParams => 4
  | _ => 3
  end.
Definition full (n : nt) : bool := match n with NPost _ | NCallArgs | NIndex => true | _ => false end.

Lemma LC_toks k ks : LC k (map PTok ks).
Proof. destruct ks; [right; left; reflexivity|left; reflexivity]. Qed.
Lemma every_LC_is_err s f : is_err s f -> every LC f.
Proof. intros (_ & e & [->|(ks & ->)]); [constructor|]. apply every_errn. split; [apply LC_toks|apply every_toks]. Qed.
Lemma every_LC_junk j : Forall junk j -> every LC j.
Proof.
  induction 1 as [|t j Ht _ IH]; [constructor|]. apply every_cons. split; [|exact IH]. destruct Ht as [(ks & e & ->)|(s & _ & ->)].
  - apply every_errn. split; [apply LC_toks|apply every_toks].
  - apply every_node. split; [left; reflexivity|constructor].
Qed.
Lemma every_LC_opt s x : x = [] \/ is_err s x -> every LC x.
Proof. intros [->|H]; [constructor|eapply every_LC_is_err; eauto]. Qed.
Ltac ev2 :=
  match goal with
  | H : every _ ?f |- every _ ?f => exact H
  | |- every _ (_ ++ _) => apply every_app; split
  | |- every _ [] => apply every_nil
  | |- every _ [PTok _] => apply every_tok
  | |- every _ [PNode _ _] => apply every_node; split
  | |- every _ (_ :: _) => apply every_cons; split
  | H : req _ _ ?f |- every _ ?f => exact (every_req _ _ _ _ H)
  | H : is_err _ ?f |- every _ ?f => exact (every_LC_is_err _ _ H)
  | H : Forall junk ?f |- every _ ?f => exact (every_LC_junk _ H)
  | H : ?sc = [] \/ ?sc = [PTok KSemicolon] |- every _ ?sc => exact (every_sc _ _ H)
  | H : ?sc = [] \/ is_err _ ?sc |- every _ ?sc => exact (every_LC_opt _ _ H)
  end.
Ltac tp1 :=
  match goal with
  | |- true = true => reflexivity
  | |- _ && _ = true => apply andb_true_iff; split
  | |- tops _ (_ ++ _) = true => rewrite tops_app; apply andb_true_iff; split
  | |- tops _ [_] = true => reflexivity
  | |- tops ?b (?x :: ?y :: ?f) = true => change (tops b (x :: y :: f)) with (tops b [x] && tops b (y :: f))
  | |- tops ?b (?x :: ?f) = true => is_var f; change (tops b (x :: f)) with (tops b [x] && tops b f)
  | |- tops ?b (?x :: ?f ++ ?g) = true => change (tops b (x :: f ++ g)) with (tops b [x] && tops b (f ++ g))
  | H : tops ?b ?f = true |- tops ?c ?f = true => refine (tops_mono _ _ _ _ H); cbn [rank]; lia
  | H : req _ _ ?f |- tops _ ?f = true => exact (tops_req _ _ _ _ H)
  | H : is_err _ ?f |- tops _ ?f = true => refine (tops_is_err _ _ _ _ H); cbn [rank]; lia
  | H : Forall junk ?f |- tops _ ?f = true => exact (tops_junk _ H)
  | H : ?sc = [] \/ ?sc = [PTok KSemicolon] |- tops _ ?sc = true => exact (tops_sc _ _ H)
  | H : ?sc = [] \/ is_err _ ?sc |- tops _ ?sc = true => refine (tops_opt _ _ _ _ H); cbn [rank]; lia
  end.
Ltac lc := solve
  [ left; rewrite ?tok_in_app; cbn; rewrite ?orb_true_r; reflexivity
  | right; left; repeat (tp1 || reflexivity) ].

Lemma Tree_LC s n f : Tree s n f -> every LC f /\ tops (bound n) f = true /\ (full n = true -> fkinds f <> []).
Proof.
  induction 1; repeat match goal with H : _ /\ _ |- _ => destruct H end; cbn [bound full] in *;
    (split; [repeat ev2; try lc|split; [repeat (tp1 || reflexivity)|try discriminate]]).
  - right; right. exists t, a. split; [reflexivity|]. unfold fkinds in *. cbn [flat_map] in *. rewrite app_nil_r in *. auto.
  - intros _ E. rewrite fkinds_node1, fkinds_cons in E. apply app_eq_nil in E as [_ E]. now apply H3.
  - intros _ E. rewrite fkinds_node1, !fkinds_cons in E. apply app_eq_nil in E as [_ E]. discriminate.
  - intros _ E. rewrite fkinds_node1, !fkinds_cons in E. apply app_eq_nil in E as [_ E]. discriminate.
  - right; right. exists t, i. split; [reflexivity|]. unfold fkinds in *. cbn [flat_map] in *. rewrite app_nil_r in *. auto.
  - intros _ E. rewrite fkinds_node1, fkinds_cons in E. apply app_eq_nil in E as [_ E]. now apply H3.
  - intros _ E. rewrite fkinds_node1, !fkinds_cons in E. apply app_eq_nil in E as [_ E]. discriminate.
Qed.

Lemma fkinds_erase : forall f, fkinds (flat_map erase f) = fkinds f.
Proof.
  set (P1 := fun t => fkinds (erase t) = pkinds t). set (PF := fun f => fkinds (flat_map erase f) = fkinds f).
  apply (forest_ind' P1 PF); unfold P1, PF; try reflexivity.
  - intros fs e IH. cbn [erase]. rewrite fkinds_node1. exact IH.
  - intros k fs IH. cbn [erase]. rewrite fkinds_node1. exact IH.
  - intros t fs H1 HF. cbn [flat_map]. rewrite fkinds_app, fkinds_cons, H1, HF. reflexivity.
Qed.
Lemma LC_erase k f : LC k f -> LC k (flat_map erase f).
Proof.
  intros [H|[H|(t & g & -> & Ht & Hg)]].
  - left. induction f as [|t f IH]; [discriminate|]. cbn [flat_map]. rewrite tok_in_app. cbn [tok_in existsb] in H. apply orb_true_iff in H as [H|H].
    + destruct t; try discriminate. reflexivity.
    + rewrite (IH H). apply orb_true_r.
  - right; left. induction f as [|t f IH]; [reflexivity|]. cbn [flat_map]. rewrite tops_app. cbn [tops forallb] in H. apply andb_true_iff in H as [H1 H].
    rewrite (IH H), andb_true_r. destruct t; cbn [erase tops forallb]; rewrite ?andb_true_r; auto.
  - right; right. destruct t as [k0|e|fs e|k0 fs]; cbn [pkinds] in Ht; try (now elim Ht).
    + exists (PTok k0), (flat_map erase g). split; [reflexivity|]. rewrite fkinds_erase. split; [discriminate|exact Hg].
    + exists (PNode KError (flat_map erase fs)), (flat_map erase g). split; [reflexivity|]. rewrite fkinds_erase. split; [|exact Hg].
      cbn [pkinds]. change (fkinds (flat_map erase fs) <> []). now rewrite fkinds_erase.
    + exists (PNode k0 (flat_map erase fs)), (flat_map erase g). split; [reflexivity|]. rewrite fkinds_erase. split; [|exact Hg].
      cbn [pkinds]. change (fkinds (flat_map erase fs) <> []). now rewrite fkinds_erase.
Qed.
Lemma every_LC_erase : forall f, every LC f -> every LC (flat_map erase f).
Proof.
  set (P1 := fun t => every LC [t] -> every LC (erase t)). set (PF := fun f => every LC f -> every LC (flat_map erase f)).
  apply (forest_ind' P1 PF); unfold P1, PF; try (intros; exact (Forall_nil _)).
  - intros fs e IH H. apply every_errn in H as [H1 H]. cbn [erase]. apply every_node. split; [now apply LC_erase|auto].
  - intros k fs IH H. apply every_node in H as [H1 H]. cbn [erase]. apply every_node. split; [now apply LC_erase|auto].
  - intros t fs H1 HF H. apply every_cons in H as [Ha Hb]. cbn [flat_map]. apply every_app. auto.
Qed.

(** ** On green trees *)
Definition solid (g : green) : Prop := Forall (fun x => snd x <> @nil char) (green_leaves g).
Lemma solid_in k cs c : solid (GNode k cs) -> In c cs -> solid c.
Proof.
  unfold solid. cbn [green_leaves]. intros H Hin. apply in_split in Hin as (a & b & ->). rewrite flat_map_app in H. cbn [flat_map] in H.
  rewrite !Forall_app in H. tauto.
Qed.
Lemma texts_nil l : Forall (fun x : kind * text => snd x <> @nil char) l -> blen (texts l) = 0 -> l = [].
Proof.
  destruct l as [|[k x] l]; [reflexivity|]. intros H E. inversion H; subst. cbn [snd] in *. unfold texts in E. cbn [flat_map snd] in E. rewrite blen_app in E.
  destruct x as [|c x]; [congruence|]. exfalso. change (blen (c :: x)) with (utf8_len c + blen x) in E. pose proof (utf8_len_pos c). lia.
Qed.
Lemma skel_kinds : forall g, green_leaves g = [] -> fkinds (skel g) = [].
Proof.
  refine (green_ind' _ _ _); [intros k t; discriminate|]. intros k cs F. cbn [green_leaves skel]. rewrite fkinds_node1.
  induction F as [|c cs Hc _ IH]; [reflexivity|]. cbn [flat_map]. intros E. apply app_eq_nil in E as [E1 E2]. rewrite fkinds_app, (Hc E1), (IH E2). reflexivity.
Qed.
Lemma skels_kinds cs : leaves cs = [] -> fkinds (flat_map skel cs) = [].
Proof.
  induction cs as [|c cs IH]; [reflexivity|]. unfold leaves. cbn [flat_map]. intros E. apply app_eq_nil in E as [E1 E2].
  rewrite fkinds_app, (skel_kinds _ E1). exact (IH E2).
Qed.
Lemma descs_split cs : forall off e, In e (descs off cs) -> exists a c b, cs = a ++ c :: b /\ In e (descendants_at (off + glen a) c).
Proof.
  induction cs as [|c cs IH]; intros off e H; [destruct H|]. cbn [descs] in H. apply in_app_or in H as [H|H].
  - exists [], c, cs. split; [reflexivity|]. unfold glen. cbn. rewrite Nat.add_0_r. exact H.
  - destruct (IH _ _ H) as (a & d & b & -> & Hd). exists (c :: a), d, b. split; [reflexivity|]. rewrite glen_cons, Nat.add_assoc. exact Hd.
Qed.
Lemma solids cs : forall k, solid (GNode k cs) -> glen cs = 0 -> leaves cs = [].
Proof. intros k H E. apply texts_nil; [exact H|]. rewrite <- glen_leaves. exact E. Qed.
Lemma solid_part k a c b : solid (GNode k (a ++ c :: b)) -> solid (GNode k a) /\ solid c /\ solid (GNode k b).
Proof. unfold solid. cbn [green_leaves]. rewrite flat_map_app. cbn [flat_map]. rewrite !Forall_app. tauto. Qed.

Lemma child_rank k a kc cc b : LC k (flat_map skel (a ++ GNode kc cc :: b)) -> fkinds (flat_map skel a) = [] -> fkinds (flat_map skel b) = [] ->
  rank kc < rank k.
Proof.
  rewrite flat_map_app. cbn [flat_map skel app]. set (A := flat_map skel a). set (B := flat_map skel b). intros H HA HB.
  assert (T : forall f, fkinds f = [] -> tok_in f = false).
  { induction f as [|t f IH]; [reflexivity|]. rewrite fkinds_cons. intros E. apply app_eq_nil in E as [E1 E2]. cbn [tok_in existsb].
    destruct t; [discriminate| | |]; exact (IH E2). }
  destruct H as [H|[H|(t & g & E & Ht & Hg)]].
  - rewrite tok_in_app in H. rewrite (T _ HA) in H. cbn [tok_in existsb orb] in H. pose proof (T _ HB) as X. unfold tok_in in X. rewrite X in H. discriminate.
  - rewrite tops_app in H. cbn [tops forallb] in H. apply andb_true_iff in H as [_ H]. apply andb_true_iff in H as [H _]. now apply Nat.ltb_lt.
  - destruct A as [|x A].
    + cbn [app] in E. injection E as <- <-. contradiction.
    + cbn [app] in E. injection E as <- _. rewrite fkinds_cons in HA. apply app_eq_nil in HA as [HA _]. contradiction.
Qed.

Lemma desc_rank : forall g off e, every LC (skel g) -> solid g -> In e (descendants_at off g) -> 0 < green_len g ->
  el_range e = el_range (mkElem off g) -> e = mkElem off g \/ rank (el_kind e) < rank (green_kind g).
Proof.
  refine (green_ind' _ _ _); [intros k t off e _ _ []|]. intros k cs F off e HL HS. rewrite descendants_node. intros [<-|Hin] Hl HR; [now left|right].
  destruct (descs_split _ _ _ Hin) as (a & c & b & -> & Hc). pose proof (desc_range _ _ _ Hc) as R.
  unfold el_range in HR. cbn [el_off el_green] in HR. injection HR as HR1 HR2. rewrite green_len_node, glen_app, glen_cons in *.
  assert (Ea : glen a = 0) by lia. assert (Eb : glen b = 0) by lia.
  destruct (solid_part _ _ _ _ HS) as (Sa & Sc & Sb).
  cbn [skel] in HL. apply every_node in HL as [HL HE].
  destruct c as [kc cc|]; [|destruct Hc].
  assert (RC : rank kc < rank k). { eapply child_rank; [exact HL| |]; apply skels_kinds; eapply solids; eauto. }
  apply Forall_app in F as [_ F]. pose proof (Forall_inv F) as Fc.
  destruct (Fc (off + glen a) e) as [->|D].
  - rewrite flat_map_app in HE. cbn [flat_map] in HE. apply every_app in HE as [_ HE]. apply every_app in HE as [HE _]. exact HE.
  - exact Sc.
  - exact Hc.
  - lia.
  - unfold el_range. cbn [el_off el_green]. f_equal; lia.
  - exact RC.
  - cbn [green_kind] in *. lia.
Qed.

Definition ptr_hit (p : node_ptr) (e : elem) : bool := range_eqb (el_range e) (np_range p) && kind_eqb (el_kind e) (np_kind p).
Lemma chain_find : forall g off e, every LC (skel g) -> solid g -> In e (descendants_at off g) -> 0 < green_len (el_green e) ->
  find (ptr_hit (ptr_new e)) (ptr_chain (el_range e) off g) = Some e.
Proof.
  refine (green_ind' _ _ _); [intros k t off e _ _ []|]. intros k cs F off e HL HS Hin Hl. rewrite ptr_chain_node. cbn [find].
  destruct (ptr_hit (ptr_new e) (mkElem off (GNode k cs))) eqn:Hh.
  { unfold ptr_hit in Hh. apply andb_true_iff in Hh as [H1 H2]. unfold range_eqb in H1. apply andb_true_iff in H1 as [H1 H3]. apply Nat.eqb_eq in H1, H3.
    cbn [ptr_new np_range np_kind] in *. apply kind_eqb_eq in H2.
    destruct (desc_rank _ _ _ HL HS Hin) as [->|D]; [| |reflexivity|].
    - unfold el_range in H1, H3. cbn [r_start r_end el_off el_green] in H1, H3. lia.
    - unfold el_range in *. cbn [r_start r_end el_off el_green] in *. f_equal; lia.
    - unfold el_kind in D, H2. cbn [el_green] in H2. rewrite <- H2 in D. lia. }
  rewrite descendants_node in Hin. destruct Hin as [<-|Hin].
  { exfalso. unfold ptr_hit, range_eqb in Hh. cbn [ptr_new np_range np_kind] in Hh. rewrite !Nat.eqb_refl, kind_eqb_refl in Hh. discriminate. }
  cbn [skel] in HL. apply every_node in HL as [_ HE]. clear Hh. revert off Hin. induction F as [|c cs Hc _ IH]; intros off H; [destruct H|].
  cbn [flat_map] in HE. apply every_app in HE as [HE1 HE2]. destruct (solid_part _ [] c cs HS) as (_ & Sc & Sb).
  cbn [descs] in H. cbn [chain_in]. apply in_app_or in H as [H|H].
  - pose proof (desc_range _ _ _ H) as R. replace (is_gnode c) with true by (destruct c; [reflexivity|destruct H]). cbn [andb].
    replace (contains_range _ _) with true; [now apply Hc|]. symmetry. unfold contains_range, el_range. cbn [r_start r_end el_off el_green].
    apply andb_true_iff. split; apply Nat.leb_le; lia.
  - assert (R : off + green_len c <= el_off e).
    { clear -H. remember (off + green_len c) as o. clear Heqo. revert o H. induction cs as [|d cs IH]; intros o H; [destruct H|].
      cbn [descs] in H. apply in_app_or in H as [H|H]; [apply desc_range in H; lia|apply IH in H; lia]. }
    replace (contains_range _ _) with false; [rewrite andb_false_r; now apply IH|]. symmetry. unfold contains_range, el_range. cbn [r_start r_end el_off el_green].
    apply andb_false_iff. right. apply Nat.leb_gt. lia.
Qed.

Lemma parsed_LC t ls fs a : parsed t ls fs a -> every LC (skel (root_of a)).
Proof.
  intros H. rewrite (root_skel _ _ _ _ H). destruct (Tree_LC _ _ _ (pd_tree _ _ _ _ H)) as (A & B & _).
  apply every_node. split; [right; left; reflexivity|]. apply every_node. split; [|now apply every_LC_erase]. apply LC_erase. right; left. exact B.
Qed.
Lemma parsed_solid t ls fs a : parsed t ls fs a -> solid (root_of a).
Proof.
  intros H. unfold solid. rewrite (root_leaves _ _ _ _ H). eapply Forall_impl; [|exact (Lexed_ok _ _ (pd_lex _ _ _ _ H))].
  intros x Hx. exact (proj2 (proj2 Hx)).
Qed.

(** * C31 Pointers to non-empty nodes resolve to the node itself *)
Theorem C31_pointer_resolves_partial : forall t p e, source_file_parse t = Ok p -> In e (el_descendants (root_elem (pa_green p))) ->
  r_start (el_range e) < r_end (el_range e) -> ptr_to_node (ptr_new e) (pa_green p) = Ok e.
Proof.
  intros t p e H Hin Hr. destruct (source_file_inv _ _ H) as (ls & fs & a & v & Hp & _ & E & _). rewrite E in *.
  unfold ptr_to_node. cbn [ptr_new np_range np_kind].
  pose proof (chain_find _ 0 e (parsed_LC _ _ _ _ Hp) (parsed_solid _ _ _ _ Hp) Hin) as F. unfold el_range in Hr. cbn [r_start r_end] in Hr.
  specialize (F ltac:(lia)). unfold ptr_hit in F. cbn [ptr_new np_range np_kind] in F. rewrite F. reflexivity.
Qed.
Print Assumptions C31_pointer_resolves_partial.

(** The same for typed pointers: a pointer made from a node of a type resolves, with the cast. *)
Theorem C31_typed_pointer_resolves_partial : forall t p e can_cast, source_file_parse t = Ok p ->
  In e (el_descendants (root_elem (pa_green p))) -> r_start (el_range e) < r_end (el_range e) -> can_cast (el_kind e) = true ->
  ptr_cast can_cast (ptr_new e) = Some (ptr_new e) /\ ast_ptr_to_node can_cast (ptr_new e) (pa_green p) = Ok e.
Proof.
  intros t p e cc H Hin Hr Hc. unfold ptr_cast, ast_ptr_to_node. rewrite (C31_pointer_resolves_partial _ _ _ H Hin Hr).
  cbn [ptr_new np_kind rbind]. rewrite Hc. auto.
Qed.
Print Assumptions C31_typed_pointer_resolves_partial.

(** Distinct non-empty nodes have distinct pointers. *)
Theorem C31_pointers_distinct : forall t p e1 e2, source_file_parse t = Ok p ->
  In e1 (el_descendants (root_elem (pa_green p))) -> In e2 (el_descendants (root_elem (pa_green p))) ->
  r_start (el_range e1) < r_end (el_range e1) -> ptr_new e1 = ptr_new e2 -> e1 = e2.
Proof.
  intros t p e1 e2 H H1 H2 L E. pose proof (C31_pointer_resolves_partial _ _ _ H H1 L) as R1.
  assert (L2 : r_start (el_range e2) < r_end (el_range e2)). { replace (el_range e2) with (el_range e1) by exact (f_equal np_range E). exact L. }
  pose proof (C31_pointer_resolves_partial _ _ _ H H2 L2) as R2. rewrite E, R2 in R1. congruence.
Qed.
Print Assumptions C31_pointers_distinct.

Example C31_case : match source_file_parse (txt "local function foo(n) end") with
  | Ok p => match filter (fun e => kind_eqb (el_kind e) KLocalFunctionDefStmt) (el_descendants (root_elem (pa_green p))) with
            | [e] => r_start (el_range e) < r_end (el_range e) /\ ptr_to_node (ptr_new e) (pa_green p) = Ok e
            | _ => False end
  | _ => False end.
Proof. vm_compute. split; [repeat constructor|reflexivity]. Qed.

(** The pointer to the empty block of [function f()end] cannot be resolved: the walk enters the
    parameter list, whose range also contains the empty range. *)
Theorem C31_refuted : ~ (forall t p e, source_file_parse t = Ok p -> In e (el_descendants (root_elem (pa_green p))) ->
  ptr_to_node (ptr_new e) (pa_green p) = Ok e).
Proof.
  intros H. destruct (source_file_parse (txt "function f()end")) as [p| |] eqn:E; vm_compute in E; try discriminate. injection E as <-.
  specialize (H (txt "function f()end") _ (mkElem 12 (GNode KBlock [])) ltac:(vm_compute; reflexivity) ltac:(vm_compute; tauto)).
  vm_compute in H. discriminate.
Qed.
Print Assumptions C31_refuted.
