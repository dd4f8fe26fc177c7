(** PtrExact.v — C31: which pointers into an error-free file resolve. *)
From Verif Require Import Base SyntaxKind Lexer LexSpec LexerDirect Parser Grammar Tree TreeSink Ast Validation ParserTree SinkProofs
  GrammarSpec StrictTree ParserTotal ParseSpec ParseProofs DressProofs ValidProofs PropsParser Ptr PropsPtr PropsReparse.

(** ** Where empty nodes stand in an error-free tree *)
Definition full1 (t : ptree) : Prop := match t with PNode _ x => fkinds x <> [] | PErr _ => False | _ => True end.
Definition fulls (f : forest) : Prop := Forall full1 f.
(** The children of a node: all have tokens; or one child that may have none, after a token or a parameter list. *)
Definition LE (k : kind) (f : forest) : Prop :=
  fulls f
  \/ (exists a p y b, f = a ++ PNode KParamList p :: PNode KBlock y :: b /\ fulls a /\ fulls b /\ fkinds p <> [])
  \/ (exists a t k2 y b, f = a ++ PTok t :: PNode k2 y :: b /\ fulls a /\ fulls b /\ (k2 = KBlock \/ k2 = KMultiName /\ k = KParamList)).
Definition LP (k : kind) (f : forest) : Prop := k = KParamList -> Forall (fun s => fst s <> KBlock) (fsubs f).
Definition may_be_empty (n : nt) : bool := match n with NSource | NBlock | NStmts | NElse | NMultiTail | NFields | NNameTail | NParams | NPathTail => true | _ => false end.
Definition blocky (n : nt) : bool := match n with NSource | NBlock | NParams => true | _ => false end.
Definition blockless (n : nt) : bool := match n with NName | NNames | NNameTail | NParams => true | _ => false end.
Definition nob (f : forest) : Prop := Forall (fun s => fst s <> KBlock) (fsubs f).

Lemma fulls_app a b : fulls (a ++ b) <-> fulls a /\ fulls b.
Proof. apply Forall_app. Qed.
Lemma fulls_cons a b : fulls (a :: b) <-> full1 a /\ fulls b.
Proof. unfold fulls. rewrite Forall_cons_iff. tauto. Qed.
Lemma nob_app a b : nob (a ++ b) <-> nob a /\ nob b.
Proof. apply (every_app (fun k _ => k <> KBlock)). Qed.
Lemma nob_cons a b : nob (a :: b) <-> nob [a] /\ nob b.
Proof. apply (every_cons (fun k _ => k <> KBlock)). Qed.
Lemma nob_node k f : nob [PNode k f] <-> k <> KBlock /\ nob f.
Proof. apply (every_node (fun k _ => k <> KBlock)). Qed.
Lemma nob_tok k : nob [PTok k].
Proof. apply (every_tok (fun k _ => k <> KBlock)). Qed.
Lemma nob_nil : nob [].
Proof. constructor. Qed.

Lemma req_true k f : req true k f -> f = [PTok k].
Proof. intros [H|[H _]]; [exact H|discriminate]. Qed.
Lemma is_err_true f : is_err true f -> False.
Proof. intros [H _]. discriminate. Qed.
Lemma opt_true x : x = [] \/ is_err true x -> x = [].
Proof. intros [H|H]; [exact H|destruct (is_err_true _ H)]. Qed.

Definition TE (n : nt) (f : forest) : Prop :=
  n <> NSource -> every LE f /\ every LP f /\ (blocky n = false -> fulls f) /\ (may_be_empty n = false -> fkinds f <> []) /\
  (n = NBlock -> exists y, f = [PNode KBlock y]) /\ (blockless n = true -> nob f) /\
  (n = NParams -> fulls f \/ exists y b, f = PNode KMultiName y :: b /\ fulls b) /\
  (n = NParamList -> exists y, f = [PNode KParamList y] /\ fkinds y <> []).

Lemma LE_full k f : fulls f -> LE k f.
Proof. now left. Qed.
Lemma LE_after k a t k2 y b : k2 = KBlock \/ k2 = KMultiName /\ k = KParamList -> fulls a -> fulls b -> LE k (a ++ PTok t :: PNode k2 y :: b).
Proof. intros. right; right. exists a, t, k2, y, b. auto. Qed.
Lemma LE_params k a p y b : fulls a -> fulls b -> fkinds p <> [] -> LE k (a ++ PNode KParamList p :: PNode KBlock y :: b).
Proof. intros. right; left. exists a, p, y, b. auto. Qed.
Lemma fkinds_ne_l a b : fkinds a <> [] -> fkinds (a ++ b) <> [].
Proof. rewrite fkinds_app. intros H E. apply app_eq_nil in E as [E _]. auto. Qed.
Lemma fkinds_ne_r a b : fkinds b <> [] -> fkinds (a ++ b) <> [].
Proof. rewrite fkinds_app. intros H E. apply app_eq_nil in E as [_ E]. auto. Qed.
Lemma fkinds_ne_tok t b : fkinds (PTok t :: b) <> [].
Proof. rewrite fkinds_cons. discriminate. Qed.
Lemma fkinds_ne_hd t b : fkinds [t] <> [] -> fkinds (t :: b) <> [].
Proof. exact (fkinds_ne_l [t] b). Qed.
Lemma fkinds_ne_tl t b : fkinds b <> [] -> fkinds (t :: b) <> [].
Proof. exact (fkinds_ne_r [t] b). Qed.
Lemma fkinds_ne_node k f : fkinds f <> [] -> fkinds [PNode k f] <> [].
Proof. now rewrite fkinds_node1. Qed.
Lemma fulls_one t f : fulls (t :: f) -> full1 t.
Proof. intros H. now apply Forall_inv in H. Qed.
Ltac fk := solve [repeat first [assumption | apply fkinds_ne_tok | apply fkinds_ne_node; fk | apply fkinds_ne_l; fk | apply fkinds_ne_r; fk | apply fkinds_ne_hd; fk | apply fkinds_ne_tl; fk]].
Ltac fu := repeat first [assumption | match goal with H : fulls [?t] |- full1 ?t => exact (Forall_inv H) end | exact I | apply Forall_nil | apply fulls_app; split | apply fulls_cons; split | cbn [full1]; fk ].
Ltac nb := repeat first [assumption | apply nob_nil | apply nob_tok | apply nob_app; split | apply nob_node; split; [discriminate|] | apply nob_cons; split].
Ltac ev3 := repeat first [assumption | apply every_nil | apply every_tok | apply every_app; split | apply every_node; split | apply every_cons; split ].

Lemma Tree_TE n f : Tree true n f -> TE n f.
Proof.
  induction 1; unfold TE in *; intros NS; cbn [blocky may_be_empty blockless] in *; subst;
  repeat match goal with H : ?n <> NSource -> _ |- _ => specialize (H ltac:(discriminate)) end;
  repeat match goal with
  | H : req true _ _ |- _ => apply req_true in H; subst
  | H : is_err true _ |- _ => destruct (is_err_true _ H)
  | H : ?x = [] \/ is_err true ?x |- _ => apply opt_true in H; subst
  | H : _ /\ _ |- _ => destruct H
  | H : ?a = ?a -> _ |- _ => specialize (H eq_refl)
  | H : true = false |- _ => discriminate H
  | H : exists _, _ |- _ => destruct H; subst
  end; try discriminate.
  all: assert (SC : forall sc, sc = [] \/ sc = [PTok KSemicolon] -> fulls sc /\ every LE sc /\ every LP sc) by (intros ? [-> | ->]; repeat split; fu; ev3).
  all: repeat match goal with H : ?sc = [] \/ ?sc = [PTok KSemicolon] |- _ => apply SC in H as (?&?&?) end; clear SC.
  all: split; [ev3; try (apply LE_full; fu; fail)|split; [ev3; try (intros E; discriminate E)|split; [intros ?; try discriminate; fu|split;
    [intros ?; try discriminate; try fk|split; [intros ?; try discriminate; eauto; fail|split;
    [intros ?; try discriminate; nb|split; [intros ?; try discriminate; try (left; fu; fail)|intros ?; try discriminate; try (eexists; split; [reflexivity|fk])]]]]]]].
  - now elim NS.
  - apply (LE_after KIfStmt (PTok KIfKw :: c) KThenKw KBlock x (e ++ [PTok KEndKw])); fu. auto.
  - apply (LE_after KElseBranch [] KElseKw KBlock x []); fu. auto.
  - apply (LE_after KElseIfBranch (PTok KElseifKw :: c) KThenKw KBlock x e); fu. auto.
  - subst p. apply (LE_params KLocalFunctionDefStmt (PTok KLocalKw :: PTok KFunctionKw :: n) x0 x [PTok KEndKw]); fu.
  - apply (LE_after KRepeatUntilStmt [] KRepeatKw KBlock x (PTok KUntilKw :: e)); fu. auto.
  - subst p. apply (LE_params KFunctionDefStmt (PTok KFunctionKw :: n) x0 x [PTok KEndKw]); fu.
  - apply (LE_after KDoStmt [] KDoKw KBlock x [PTok KEndKw]); fu. auto.
  - apply (LE_after KWhileStmt (PTok KWhileKw :: c) KDoKw KBlock x [PTok KEndKw]); fu. auto.
  - apply (LE_after KForStmt [PTok KForKw; PNode KForContent c] KDoKw KBlock x [PTok KEndKw]); fu. auto.
  - match goal with H : fulls p \/ _ |- _ => destruct H as [H|(y & b & -> & Hb)] end; [apply LE_full; fu|].
    apply (LE_after KParamList [] KLParen KMultiName y (b ++ [PTok KRParen])); fu. auto.
  - intros _. nb.
  - right. exists [], [PTok KTripleDot]. split; [reflexivity|fu].
  - subst p. apply (LE_params KFunctionExpr [PTok KFunctionKw] x0 x [PTok KEndKw]); fu.
Qed.

(** ** On green trees *)
Lemma fulls_uniq u v : ~ full1 u -> forall A B A2 B2, A ++ u :: B = A2 ++ v :: B2 -> fulls A2 -> fulls B2 -> A = A2 /\ u = v /\ B = B2.
Proof.
  intros Nu. induction A as [|x A IH]; intros B [|y A2] B2 E F1 F2; cbn [app] in E.
  - injection E as -> ->. auto.
  - injection E as -> _. apply Forall_inv in F1. contradiction.
  - injection E as -> <-. exfalso. apply Forall_app in F2 as [_ F2]. apply Forall_inv in F2. contradiction.
  - injection E as -> E. apply Forall_inv_tail in F1. destruct (IH _ _ _ E F1 F2) as (-> & -> & ->). auto.
Qed.
(** What stands before an empty node. *)
Lemma before_empty k A kc y B : LE k (A ++ PNode kc y :: B) -> fkinds y = [] ->
  fulls A /\ fulls B /\ ((exists A' t, A = A' ++ [PTok t]) \/ (kc = KBlock /\ exists A' p, A = A' ++ [PNode KParamList p] /\ fkinds p <> [])).
Proof.
  intros H Hy. assert (N : ~ full1 (PNode kc y)) by (cbn; congruence).
  destruct H as [H|[(a & p & y2 & b & E & Fa & Fb & Hp)|(a & t & k2 & y2 & b & E & Fa & Fb & _)]].
  - apply Forall_app in H as [_ H]. apply Forall_inv in H. contradiction.
  - replace (a ++ PNode KParamList p :: PNode KBlock y2 :: b) with ((a ++ [PNode KParamList p]) ++ PNode KBlock y2 :: b) in E by (rewrite <- app_assoc; reflexivity).
    assert (Fa' : fulls (a ++ [PNode KParamList p])) by fu.
    destruct (fulls_uniq _ _ N _ _ _ _ E Fa' Fb) as (-> & E2 & ->). injection E2 as -> _. split; [exact Fa'|split; [exact Fb|right; split; [reflexivity|eauto]]].
  - replace (a ++ PTok t :: PNode k2 y2 :: b) with ((a ++ [PTok t]) ++ PNode k2 y2 :: b) in E by (rewrite <- app_assoc; reflexivity).
    assert (Fa' : fulls (a ++ [PTok t])) by fu.
    destruct (fulls_uniq _ _ N _ _ _ _ E Fa' Fb) as (-> & E2 & ->). split; [exact Fa'|split; [exact Fb|left; eauto]].
Qed.
Definition good (g : green) : Prop := every LE (skel g) /\ every LP (skel g) /\ solid g.
Lemma good_child k a c b : good (GNode k (a ++ c :: b)) -> good c.
Proof.
  intros (H1 & H2 & H3). cbn [skel] in *. apply every_node in H1 as [_ H1]. apply every_node in H2 as [_ H2].
  rewrite flat_map_app in H1, H2. cbn [flat_map] in H1, H2. apply every_app in H1 as [_ H1]. apply every_app in H1 as [H1 _].
  apply every_app in H2 as [_ H2]. apply every_app in H2 as [H2 _]. split; [exact H1|split; [exact H2|]]. now apply solid_part in H3.
Qed.
Lemma good_LE k cs : good (GNode k cs) -> LE k (flat_map skel cs).
Proof. intros (H & _). cbn [skel] in H. now apply every_node in H. Qed.
Lemma good_LP k cs : good (GNode k cs) -> LP k (flat_map skel cs).
Proof. intros (_ & H & _). cbn [skel] in H. now apply every_node in H. Qed.
Lemma good_solid g : good g -> solid g.
Proof. now intros (_ & _ & H). Qed.
Lemma empty_kinds k cs : solid (GNode k cs) -> green_len (GNode k cs) = 0 -> fkinds (flat_map skel cs) = [].
Proof. rewrite green_len_node. intros H E. apply skels_kinds. eapply solids; eauto. Qed.
Lemma tok_len k x : solid (GTok k x) -> 0 < green_len (GTok k x).
Proof.
  intros H. unfold solid in H. cbn [green_leaves] in H. apply Forall_inv in H. cbn [snd] in H. destruct x as [|c x]; [congruence|].
  change (green_len (GTok k (c :: x))) with (utf8_len c + blen x). pose proof (utf8_len_pos c). lia.
Qed.
Lemma kinds_len g : solid g -> fkinds (skel g) <> [] -> 0 < green_len g.
Proof.
  intros S H. destruct g as [k cs|k x]; [|now apply tok_len]. destruct (Nat.eq_dec (green_len (GNode k cs)) 0) as [E|E]; [|lia].
  exfalso. apply H. cbn [skel]. rewrite fkinds_node1. exact (empty_kinds _ _ S E).
Qed.
(** In a node whose children all have tokens, a child of length zero does not occur; nor at the head of any node. *)
Lemma full_pos k a c b : good (GNode k (a ++ c :: b)) -> fulls (skel c) -> 0 < green_len c.
Proof.
  intros G F. apply good_child, good_solid in G. destruct c as [kc cc|kc x]; [|now apply tok_len]. apply kinds_len; [exact G|].
  cbn [skel] in *. rewrite fkinds_node1. exact (Forall_inv F).
Qed.
Lemma head_pos k c b : good (GNode k (c :: b)) -> 0 < green_len c.
Proof.
  intros G. destruct (Nat.eq_dec (green_len c) 0) as [E|E]; [|lia]. exfalso. pose proof (good_LE _ _ G) as L.
  pose proof (good_solid _ (good_child k [] c b G)) as S. destruct c as [kc cc|kc x]; [|pose proof (tok_len _ _ S); lia].
  cbn [flat_map skel app] in L. destruct (before_empty _ [] _ _ _ L (empty_kinds _ _ S E)) as (_ & _ & [(A & t & X)|(_ & A & p & X & _)]); destruct A; discriminate.
Qed.
Lemma empty_nil k cs : good (GNode k cs) -> green_len (GNode k cs) = 0 -> cs = [].
Proof. intros G E. destruct cs as [|c cs]; [reflexivity|]. pose proof (head_pos _ _ _ G). rewrite green_len_node, glen_cons in E. lia. Qed.

Lemma lead : forall g off e, good g -> In e (descendants_at off g) -> green_len (el_green e) = 0 -> 0 < green_len g -> off < el_off e.
Proof.
  refine (green_ind' _ _ _); [intros k t off e _ []|]. intros k cs F off e G Hin He Hg. rewrite descendants_node in Hin. destruct Hin as [<-|Hin].
  { cbn [el_green] in He. lia. }
  destruct (descs_split _ _ _ Hin) as (a & c & b & -> & Hc). pose proof (desc_range _ _ _ Hc) as R. destruct a as [|x a].
  - cbn [app] in *. unfold glen in Hc. cbn in Hc. rewrite Nat.add_0_r in Hc. apply Forall_inv in F. apply (F _ _ (good_child k [] c b G) Hc He (head_pos _ _ _ G)).
  - cbn [app] in G. pose proof (head_pos _ _ _ G). rewrite glen_cons in R. lia.
Qed.

(** ** The walk to an empty node *)
Definition at_pt (o : nat) (r : range) : Prop := r_start r = o /\ r_end r = o.
Lemma chain_skip o r : at_pt o r -> forall a rest off, off + glen a < o -> chain_in r off (a ++ rest) = chain_in r (off + glen a) rest.
Proof.
  intros [R1 R2]. induction a as [|x a IH]; intros rest off L; [unfold glen; cbn; now rewrite Nat.add_0_r|]. rewrite glen_cons in *. cbn [app chain_in].
  replace (contains_range _ _) with false; [rewrite andb_false_r, IH by lia; f_equal; lia|]. symmetry. unfold contains_range, el_range. cbn [r_start r_end el_off el_green].
  rewrite R1, R2. apply andb_false_iff. right. apply Nat.leb_gt. lia.
Qed.
Lemma chain_skip_toks r : forall a rest off, Forall (fun x => is_gnode x = false) a ->
  chain_in r off (a ++ rest) = chain_in r (off + glen a) rest.
Proof.
  intros a rest off F. revert off. induction F as [|x a Hx _ IH]; intros off; [unfold glen; cbn; now rewrite Nat.add_0_r|]. cbn [app chain_in]. rewrite Hx. cbn [andb].
  rewrite IH, glen_cons. f_equal. lia.
Qed.
Lemma chain_enter o r : at_pt o r -> forall c rest off, is_gnode c = true -> off <= o -> o <= off + green_len c -> chain_in r off (c :: rest) = ptr_chain r off c.
Proof.
  intros [R1 R2] c rest off Hg L1 L2. cbn [chain_in]. rewrite Hg. replace (contains_range _ _) with true; [reflexivity|]. symmetry.
  unfold contains_range, el_range. cbn [r_start r_end el_off el_green]. rewrite R1, R2. apply andb_true_iff. split; apply Nat.leb_le; lia.
Qed.
Lemma no_hit e k off cs : green_len (el_green e) = 0 -> 0 < green_len (GNode k cs) -> ptr_hit (ptr_new e) (mkElem off (GNode k cs)) = false.
Proof.
  intros E L. unfold ptr_hit, range_eqb. cbn [ptr_new np_range np_kind]. unfold el_range at 1 2 3 4. cbn [r_start r_end el_off el_green].
  destruct (off =? el_off e) eqn:A; [|reflexivity]. apply Nat.eqb_eq in A. replace (off + green_len (GNode k cs) =? el_off e + green_len (el_green e)) with false; [reflexivity|].
  symmetry. apply Nat.eqb_neq. lia.
Qed.
Lemma self_hit e : ptr_hit (ptr_new e) e = true.
Proof. unfold ptr_hit, range_eqb. cbn [ptr_new np_range np_kind]. now rewrite !Nat.eqb_refl, kind_eqb_refl. Qed.

(** The last significant element before a point of a list of children. *)
Lemma skel_last : forall a F t, flat_map skel a = F ++ [t] -> exists a0 x tr, a = a0 ++ x :: tr /\ skel x = [t] /\ Forall (fun y => is_gnode y = false) tr.
Proof.
  induction a as [|y a IH] using rev_ind; intros F t E; [destruct F; discriminate|]. rewrite flat_map_app in E. cbn [flat_map] in E. rewrite app_nil_r in E.
  destruct y as [k cs|k x].
  - cbn [skel] in E. apply app_inj_tail in E as [_ <-]. exists a, (GNode k cs), []. auto.
  - destruct (is_trivia k) eqn:K.
    + cbn [skel] in E. rewrite K, app_nil_r in E. destruct (IH _ _ E) as (a0 & z & tr & -> & Hz & Ft). exists a0, z, (tr ++ [GTok k x]).
      rewrite <- app_assoc. split; [reflexivity|split; [exact Hz|apply Forall_app; auto]].
    + exists a, (GTok k x), []. split; [reflexivity|split; [|constructor]]. cbn [skel] in E |- *. rewrite K in E |- *. apply app_inj_tail in E as [_ <-]. reflexivity.
Qed.

(** The element right after a parameter list. *)
Definition after_in (off : nat) (g : green) (e : elem) : Prop :=
  exists o k a ps b, In (mkElem o (GNode k (a ++ GNode KParamList ps :: el_green e :: b))) (descendants_at off g) /\
    el_off e = o + glen a + green_len (GNode KParamList ps).

Lemma after_up k a c b off e : after_in (off + glen a) c e -> after_in off (GNode k (a ++ c :: b)) e.
Proof.
  intros (o & k2 & a2 & ps & b2 & Hin & Ho). exists o, k2, a2, ps, b2. split; [|exact Ho]. rewrite descendants_node. right.
  rewrite descs_app. apply in_or_app. right. cbn [descs]. apply in_or_app. now left.
Qed.

Lemma find_empty : forall k cs off e, good (GNode k cs) -> 0 < green_len (GNode k cs) -> In e (descs off cs) -> green_len (el_green e) = 0 ->
  find (ptr_hit (ptr_new e)) (ptr_chain (el_range e) off (GNode k cs)) = Some e \/ after_in off (GNode k cs) e.
Proof.
  enough (Q : forall g k cs, g = GNode k cs -> forall off e, good (GNode k cs) -> 0 < green_len (GNode k cs) -> In e (descs off cs) -> green_len (el_green e) = 0 ->
    find (ptr_hit (ptr_new e)) (ptr_chain (el_range e) off (GNode k cs)) = Some e \/ after_in off (GNode k cs) e) by eauto.
  refine (green_ind' _ _ _); [discriminate|]. intros k0 cs0 F k cs E0 off e G L Hin He. injection E0 as -> ->.
  assert (AP : at_pt (el_off e) (el_range e)). { unfold at_pt, el_range. cbn [r_start r_end]. lia. }
  rewrite ptr_chain_node. cbn [find]. rewrite (no_hit _ _ _ _ He L).
  destruct (descs_split _ _ _ Hin) as (a & c & b & -> & Hc). pose proof (desc_range _ _ _ Hc) as R. pose proof (good_child _ _ _ _ G) as Gc.
  apply Forall_app in F as [_ F]. apply Forall_inv in F. destruct c as [kc cc|kc x]; [|destruct Hc].
  destruct (Nat.eq_dec (green_len (GNode kc cc)) 0) as [E|E].
  - assert (Ec : cc = []) by (eapply empty_nil; eauto). subst cc. cbn in Hc. destruct Hc as [<-|[]]. cbn [el_off] in *.
    pose proof (good_LE _ _ G) as LE0. rewrite flat_map_app in LE0. cbn [flat_map skel app] in LE0.
    destruct (before_empty _ _ _ _ _ LE0 eq_refl) as (_ & _ & [(A & t & X)|(-> & A & p & X & _)]).
    + destruct (skel_last _ _ _ X) as (a0 & x & tr & -> & Hx & Ft). assert (Nx : is_gnode x = false) by (destruct x; [discriminate Hx|reflexivity]).
      left. rewrite <- app_assoc in G |- *. cbn [app] in G |- *.
      assert (Px : 0 < green_len x). { destruct x; [discriminate|]. apply tok_len. exact (good_solid _ (good_child _ _ _ _ G)). }
      pose proof (glen_app a0 (x :: tr)) as GE. rewrite glen_cons in GE. remember (off + glen (a0 ++ x :: tr)) as o eqn:Eo.
      remember (el_range (mkElem o (GNode kc []))) as r eqn:Er.
      rewrite (chain_skip _ _ AP) by lia. change (x :: tr ++ GNode kc [] :: b) with ((x :: tr) ++ GNode kc [] :: b).
      rewrite chain_skip_toks; [|constructor; auto]. rewrite glen_cons. replace (off + glen a0 + (green_len x + glen tr)) with o by lia.
      rewrite (chain_enter _ _ AP); [|reflexivity|lia..]. rewrite ptr_chain_node. cbn [find]. now rewrite self_hit.
    + destruct (skel_last _ _ _ X) as (a0 & x & tr & -> & Hx & Ft). destruct x as [kx ps|kx y]; [|cbn [skel] in Hx; destruct (is_trivia kx); discriminate].
      cbn [skel] in Hx. assert (kx = KParamList) by congruence. subst kx. clear Hx. destruct tr as [|w tr].
      * right. rewrite <- app_assoc. cbn [app el_green]. exists off, k, a0, ps, b. split; [rewrite descendants_node; now left|]. cbn [el_off]. rewrite glen_app, glen_cons.
        unfold glen at 2. cbn. lia.
      * left. pose proof (Forall_inv Ft) as Nw.
        assert (Pw : 0 < green_len w). { rewrite <- app_assoc in G. cbn [app] in G. destruct w; [discriminate|]. apply tok_len. apply good_solid.
          change (a0 ++ GNode KParamList ps :: GTok k0 t :: tr ++ GNode KBlock [] :: b) with (a0 ++ [GNode KParamList ps] ++ GTok k0 t :: tr ++ GNode KBlock [] :: b) in G.
          rewrite app_assoc in G. exact (good_child _ _ _ _ G). }
        replace ((a0 ++ GNode KParamList ps :: w :: tr) ++ GNode KBlock [] :: b) with ((a0 ++ [GNode KParamList ps]) ++ (w :: tr) ++ GNode KBlock [] :: b)
          by (rewrite <- !app_assoc; reflexivity).
        assert (GE : glen (a0 ++ GNode KParamList ps :: w :: tr) = glen (a0 ++ [GNode KParamList ps]) + glen (w :: tr))
          by (rewrite !glen_app, !glen_cons; change (glen []) with 0; lia).
        rewrite glen_cons in GE. remember (off + glen (a0 ++ GNode KParamList ps :: w :: tr)) as o eqn:Eo.
        remember (el_range (mkElem o (GNode KBlock []))) as r eqn:Er.
        rewrite (chain_skip _ _ AP) by lia. rewrite chain_skip_toks; [|exact Ft]. rewrite glen_cons.
        replace (off + glen (a0 ++ [GNode KParamList ps]) + (green_len w + glen tr)) with o by lia.
        rewrite (chain_enter _ _ AP); [|reflexivity|lia..]. rewrite ptr_chain_node. cbn [find]. now rewrite self_hit.
  - assert (Lc : off + glen a < el_off e). { apply (lead _ _ _ Gc Hc He). lia. }
    rewrite (chain_skip _ _ AP) by exact Lc. rewrite (chain_enter _ _ AP); [|reflexivity|lia..].
    rewrite descendants_node in Hc. destruct Hc as [<-|Hc]; [cbn [el_off] in Lc; lia|].
    destruct (F _ _ eq_refl _ e Gc ltac:(lia) Hc He) as [H|H]; [left; exact H|right; now apply after_up].
Qed.

Lemma chain_in_descs : forall g r off x, In x (ptr_chain r off g) -> is_gnode g = true -> In x (descendants_at off g).
Proof.
  refine (green_ind' _ _ _); [discriminate|]. intros k cs F r off x H _. rewrite ptr_chain_node in H. rewrite descendants_node. destruct H as [<-|H]; [now left|]. right.
  revert off H. induction F as [|c cs Hc _ IH]; intros off H; [destruct H|]. cbn [chain_in] in H. cbn [descs]. apply in_or_app.
  destruct (is_gnode c && contains_range (el_range (mkElem off c)) r) eqn:B; [left|right; now apply IH].
  apply andb_true_iff in B as [B _]. now apply Hc with r.
Qed.
Lemma desc_kind : forall g off x, In x (descendants_at off g) -> exists f, In (el_kind x, f) (fsubs (skel g)).
Proof.
  refine (green_ind' _ _ _); [intros k t off x []|]. intros k cs F off x H. rewrite descendants_node in H. unfold fsubs. cbn [skel flat_map subs app]. rewrite app_nil_r.
  destruct H as [<-|H]; [eexists; left; reflexivity|]. destruct (descs_split _ _ _ H) as (a & c & b & -> & Hc). apply Forall_app in F as [_ F]. apply Forall_inv in F.
  destruct (F _ _ Hc) as [f Hf]. exists f. right. rewrite flat_map_app. cbn [flat_map]. rewrite !flat_map_app. apply in_or_app. right. apply in_or_app. now left.
Qed.

Lemma find_after : forall g off e, good g -> after_in off g e -> green_len (el_green e) = 0 -> is_gnode (el_green e) = true ->
  el_kind e = KBlock /\ find (ptr_hit (ptr_new e)) (ptr_chain (el_range e) off g) = None.
Proof.
  refine (green_ind' _ _ _); [intros k t off e _ (? & ? & ? & ? & ? & [] & _)|]. intros k cs F off e G (o & k2 & a & ps & b & Hin & Ho) He Hn.
  assert (AP : at_pt (el_off e) (el_range e)). { unfold at_pt, el_range. cbn [r_start r_end]. lia. }
  assert (K : forall k2 a ps b, good (GNode k2 (a ++ GNode KParamList ps :: el_green e :: b)) -> el_kind e = KBlock /\ 0 < green_len (GNode KParamList ps)).
  { clear - He Hn. intros k2 a ps b G. pose proof (good_LE _ _ G) as L. destruct e as [oe [ke ce|]]; [|discriminate]. cbn [el_green] in *. unfold el_kind. cbn [el_green green_kind].
    rewrite flat_map_app in L. cbn [flat_map skel app] in L.
    replace (flat_map skel a ++ PNode KParamList (flat_map skel ps) :: PNode ke (flat_map skel ce) :: flat_map skel b)
      with ((flat_map skel a ++ [PNode KParamList (flat_map skel ps)]) ++ PNode ke (flat_map skel ce) :: flat_map skel b) in L by (rewrite <- app_assoc; reflexivity).
    assert (Gq : good (GNode KParamList ps)) by exact (good_child _ _ _ _ G).
    replace (a ++ GNode KParamList ps :: GNode ke ce :: b) with ((a ++ [GNode KParamList ps]) ++ GNode ke ce :: b) in G by (rewrite <- app_assoc; reflexivity).
    pose proof (good_solid _ (good_child _ _ _ _ G)) as S.
    destruct (before_empty _ _ _ _ _ L (empty_kinds _ _ S He)) as (_ & _ & [(A & t & X)|(-> & A & p & X & Hp)]); apply app_inj_tail in X as [_ X]; [discriminate|].
    split; [reflexivity|]. apply kinds_len; [exact (good_solid _ Gq)|]. cbn [skel]. rewrite fkinds_node1. congruence. }
  rewrite descendants_node in Hin. destruct Hin as [E|Hin].
  - injection E as <- <- ->. destruct (K _ _ _ _ G) as [KB P]. split; [exact KB|].
    assert (L : 0 < green_len (GNode k (a ++ GNode KParamList ps :: el_green e :: b))) by (rewrite green_len_node, glen_app, glen_cons; lia).
    rewrite ptr_chain_node. cbn [find]. rewrite (no_hit _ _ _ _ He L). rewrite (chain_skip _ _ AP) by lia. rewrite (chain_enter _ _ AP); [|reflexivity|lia..].
    destruct (find _ _) as [x|] eqn:Fx; [|reflexivity]. exfalso. apply find_some in Fx as [Hx Hh]. apply chain_in_descs in Hx; [|reflexivity].
    unfold ptr_hit in Hh. apply andb_true_iff in Hh as [_ Hk]. apply kind_eqb_eq in Hk. cbn [ptr_new np_kind] in Hk. rewrite KB in Hk.
    destruct (desc_kind _ _ _ Hx) as [f Hf]. cbn [skel] in Hf. unfold fsubs in Hf. cbn [flat_map subs app] in Hf. rewrite app_nil_r in Hf. rewrite Hk in Hf.
    destruct Hf as [Hf|Hf]; [discriminate|]. pose proof (good_LP _ _ (good_child _ _ _ _ G) eq_refl) as NB. unfold fsubs in NB. rewrite Forall_forall in NB. exact (NB _ Hf eq_refl).
  - destruct (descs_split _ _ _ Hin) as (a1 & c & b1 & -> & Hc). pose proof (good_child _ _ _ _ G) as Gc.
    apply Forall_app in F as [_ F]. apply Forall_inv in F. assert (Ac : after_in (off + glen a1) c e) by (exists o, k2, a, ps, b; auto).
    destruct (F _ e Gc Ac He Hn) as [KB FN]. split; [exact KB|].
    assert (G2 : good (GNode k2 (a ++ GNode KParamList ps :: el_green e :: b))).
    { clear - Gc Hc. revert Gc Hc. generalize (off + glen a1). generalize (GNode k2 (a ++ GNode KParamList ps :: el_green e :: b)). intros d off' Gc Hc.
      revert off' Gc Hc. revert c. refine (green_ind' _ _ _); [intros k t off' _ []|]. intros k cs F off' Gc Hc. rewrite descendants_node in Hc. destruct Hc as [E|Hc]; [congruence|].
      destruct (descs_split _ _ _ Hc) as (u & w & v & -> & Hd). apply Forall_app in F as [_ F]. apply Forall_inv in F. exact (F _ (good_child _ _ _ _ Gc) Hd). }
    destruct (K _ _ _ _ G2) as [_ P]. pose proof (desc_range _ _ _ Hc) as R. cbn [el_off el_green] in R. rewrite green_len_node, glen_app, !glen_cons in R.
    rewrite ptr_chain_node. cbn [find]. rewrite no_hit; [|exact He|rewrite green_len_node, glen_app, glen_cons; lia].
    rewrite (chain_skip _ _ AP) by lia. rewrite (chain_enter _ _ AP); [exact FN|destruct c; [reflexivity|destruct Hc]|lia..].
Qed.

(** ** Files without errors *)
Lemma clean_good t p : source_file_parse t = Ok p -> pa_errors p = [] ->
  exists cs, pa_green p = GNode KSourceFile [GNode KBlock cs] /\ good (GNode KBlock cs).
Proof.
  intros H E. destruct (source_file_inv _ _ H) as (ls & fs & a & v & P & _ & Eg & Ee). rewrite E in Ee. symmetry in Ee. apply app_eq_nil in Ee as [Ee _].
  apply app_eq_nil in Ee as [Ee _]. assert (Hn : noerrs fs = true). { apply fmsgs_nil. rewrite <- (pd_msgs _ _ _ _ P), Ee. reflexivity. }
  pose proof (Tree_strict _ _ (pd_tree _ _ _ _ P) Hn) as T. exists (dr_green a ++ map gtok (dr_left a)). split; [exact Eg|].
  pose proof (root_skel _ _ _ _ P) as RS. rewrite (erase_noerr _ Hn) in RS. unfold root_of in RS. cbn [skel flat_map] in RS. rewrite app_nil_r in RS.
  assert (RS' : flat_map skel (dr_green a ++ map gtok (dr_left a)) = fs) by congruence.
  destruct (Tree_TE _ _ (T_block true _ T) ltac:(discriminate)) as (A & B & _).
  split; [cbn [skel]; rewrite RS'; exact A|]. split; [cbn [skel]; rewrite RS'; exact B|].
  pose proof (parsed_solid _ _ _ _ P) as S. unfold root_of in S. exact (proj1 (proj2 (solid_part _ [] _ [] S))).
Qed.

(** In terms of the tree: the sibling right before [e] is a parameter list. *)
Definition right_after_params (root : green) (e : elem) : Prop :=
  exists d i q, In d (el_descendants (root_elem root)) /\
    nth_error (el_children_with_tokens d) i = Some q /\ nth_error (el_children_with_tokens d) (S i) = Some e /\ In q (el_children d) /\ el_kind q = KParamList.

Lemma place_mid cs : forall off a g b, cs = a ++ g :: b -> nth_error (place off cs) (length a) = Some (mkElem (off + glen a) g).
Proof.
  induction cs as [|c cs IH]; intros off a g b E; [destruct a; discriminate|]. destruct a as [|x a]; cbn [app] in E.
  - injection E as -> ->. cbn. unfold glen. cbn. now rewrite Nat.add_0_r.
  - injection E as -> ->. cbn [length place nth_error]. rewrite (IH _ _ _ _ eq_refl). now rewrite glen_cons, Nat.add_assoc.
Qed.
Lemma after_siblings off g e : after_in off g e <-> exists d i q, In d (descendants_at off g) /\
    nth_error (el_children_with_tokens d) i = Some q /\ nth_error (el_children_with_tokens d) (S i) = Some e /\ el_kind q = KParamList /\ is_gnode (el_green q) = true.
Proof.
  split.
  - intros (o & k & a & ps & b & Hin & Ho). exists (mkElem o (GNode k (a ++ GNode KParamList ps :: el_green e :: b))), (length a), (mkElem (o + glen a) (GNode KParamList ps)).
    split; [exact Hin|]. unfold el_children_with_tokens. cbn [el_green el_off]. split; [now apply place_mid with (el_green e :: b)|].
    split; [|split; reflexivity]. pose proof (place_mid (a ++ GNode KParamList ps :: el_green e :: b) o (a ++ [GNode KParamList ps]) (el_green e) b) as M.
    rewrite app_length in M. cbn [length] in M. rewrite Nat.add_1_r in M. rewrite M by (rewrite <- app_assoc; reflexivity).
    rewrite glen_app, glen_cons. change (glen []) with 0. destruct e as [oe ge]. cbn [el_off el_green] in *. do 2 f_equal. lia.
  - intros (d & i & q & Hin & Hq & He & Hk & Hn). destruct d as [o [k cs|k x]]; [|destruct i; discriminate]. unfold el_children_with_tokens in Hq, He. cbn [el_green el_off] in Hq, He.
    destruct (place_nth _ _ _ _ Hq) as (a & gq & b & -> & <- & ->). unfold el_kind in Hk. cbn [el_green] in *. destruct gq as [kg ps|]; [|discriminate]. cbn [green_kind] in Hk. subst kg.
    destruct (place_nth _ _ _ _ He) as (a2 & g2 & b2 & E2 & L2 & ->).
    assert (X : a2 = a ++ [GNode KParamList ps] /\ b = g2 :: b2).
    { replace (a ++ GNode KParamList ps :: b) with ((a ++ [GNode KParamList ps]) ++ b) in E2 by (rewrite <- app_assoc; reflexivity).
      apply app_len_inj in E2 as [-> ->]; [auto|]. rewrite app_length. cbn. lia. }
    destruct X as [-> ->]. exists o, k, a, ps, b2. cbn [el_green el_off]. split; [exact Hin|]. rewrite glen_app, glen_cons. change (glen []) with 0. lia.
Qed.

(** * C31 In a file without errors, exactly the pointers to empty bodies that touch the parameter list fail *)
Theorem C31_exact : forall t p e, source_file_parse t = Ok p -> pa_errors p = [] -> In e (el_descendants (root_elem (pa_green p))) ->
  (ptr_to_node (ptr_new e) (pa_green p) = Ok e <->
   ~ (el_kind e = KBlock /\ r_start (el_range e) = r_end (el_range e) /\ right_after_params (pa_green p) e)) /\
  (ptr_to_node (ptr_new e) (pa_green p) = Panic <->
   el_kind e = KBlock /\ r_start (el_range e) = r_end (el_range e) /\ right_after_params (pa_green p) e).
Proof.
  intros t p e H E Hin.
  assert (D : (ptr_to_node (ptr_new e) (pa_green p) = Ok e /\ ~ (el_kind e = KBlock /\ r_start (el_range e) = r_end (el_range e) /\ right_after_params (pa_green p) e)) \/
    (ptr_to_node (ptr_new e) (pa_green p) = Panic /\ (el_kind e = KBlock /\ r_start (el_range e) = r_end (el_range e) /\ right_after_params (pa_green p) e))).
  2:{ destruct D as [[D1 D2]|[D1 D2]]; (split; [split; intros X|split; intros X]); try assumption; try tauto; try (rewrite D1 in X; discriminate); contradiction. }
  destruct (Nat.eq_dec (green_len (el_green e)) 0) as [L|L].
  2:{ left. split; [|intros (_ & X & _); unfold el_range in X; cbn [r_start r_end] in X; lia].
      apply (C31_pointer_resolves_partial _ _ _ H Hin). unfold el_range. cbn [r_start r_end]. lia. }
  assert (RE : r_start (el_range e) = r_end (el_range e)) by (unfold el_range; cbn [r_start r_end]; lia).
  destruct (clean_good _ _ H E) as (cs & Eg & G). rewrite Eg in *. clear Eg.
  assert (AP : at_pt (el_off e) (el_range e)). { unfold at_pt, el_range. cbn [r_start r_end]. lia. }
  assert (GL : green_len (GNode KSourceFile [GNode KBlock cs]) = green_len (GNode KBlock cs)).
  { rewrite green_len_node, glen_cons. change (glen []) with 0. lia. }
  assert (NA : right_after_params (GNode KSourceFile [GNode KBlock cs]) e <-> after_in 0 (GNode KBlock cs) e).
  { split.
    - intros (d & i & q & Hd & Hq & He & Hc & Hk). unfold el_descendants, root_elem in Hd. cbn [el_off el_green] in Hd. rewrite descendants_node in Hd. cbn [descs] in Hd.
      rewrite app_nil_r in Hd. destruct Hd as [<-|Hd]; [unfold el_children_with_tokens in He; cbn [el_green el_off place] in He; destruct i; [discriminate|destruct i; discriminate]|].
      apply after_siblings. exists d, i, q. unfold el_children in Hc. apply filter_In in Hc as [_ Hc]. repeat split; auto.
    - intros A. apply after_siblings in A as (d & i & q & Hd & Hq & He & Hk & Hn). exists d, i, q. unfold el_descendants, root_elem. cbn [el_off el_green]. rewrite descendants_node. cbn [descs].
      rewrite app_nil_r. split; [now right|]. split; [exact Hq|split; [exact He|split; [|exact Hk]]]. unfold el_children. apply filter_In. split; [exact (nth_error_In _ _ Hq)|exact Hn]. }
  unfold el_descendants, root_elem in Hin. cbn [el_off el_green] in Hin. rewrite descendants_node in Hin. cbn [descs] in Hin. rewrite app_nil_r in Hin.
  unfold ptr_to_node. change (fun e0 => range_eqb _ _ && kind_eqb _ _) with (ptr_hit (ptr_new e)). cbn [ptr_new np_range]. rewrite ptr_chain_node. cbn [find].
  destruct Hin as [<-|Hin]. { rewrite self_hit. left. split; [reflexivity|]. intros (K & _). discriminate. }
  rewrite descendants_node in Hin. destruct Hin as [<-|Hin].
  { left. cbn [el_green el_off] in *. split.
    - replace (ptr_hit _ _) with false; [|symmetry; unfold ptr_hit; cbn [ptr_new np_kind]; apply andb_false_r].
      rewrite (chain_enter _ _ AP); [|reflexivity|lia..]. rewrite ptr_chain_node. cbn [find]. now rewrite self_hit.
    - intros (_ & _ & X). apply NA in X as (o & k & a & ps & b & Hd & Ho). cbn [el_green el_off] in *. assert (Ec : cs = []) by (eapply empty_nil; eauto). subst cs.
      cbn in Hd. destruct Hd as [Hd|[]]. injection Hd as _ _ Hd. destruct a; discriminate. }
  assert (LB : 0 < green_len (GNode KBlock cs)).
  { destruct (Nat.eq_dec (green_len (GNode KBlock cs)) 0) as [Z|Z]; [|lia]. assert (Ec : cs = []) by (eapply empty_nil; eauto). subst cs. destruct Hin. }
  rewrite (no_hit _ _ _ _ L) by lia.
  assert (Rg : 0 <= el_off e /\ el_off e <= green_len (GNode KBlock cs)).
  { destruct (descs_split _ _ _ Hin) as (a & c & b & -> & Hc). apply desc_range in Hc. rewrite green_len_node, glen_app, glen_cons. lia. }
  rewrite (chain_enter _ _ AP); [|reflexivity|lia..].
  assert (Hn : is_gnode (el_green e) = true).
  { destruct (descs_split _ _ _ Hin) as (a & c & b & -> & Hc). clear - Hc. revert Hc. generalize (0 + glen a). revert c. refine (green_ind' _ _ _); [intros k t n []|].
    intros k cs F n Hc. rewrite descendants_node in Hc. destruct Hc as [<-|Hc]; [reflexivity|]. destruct (descs_split _ _ _ Hc) as (u & w & v & -> & Hd).
    apply Forall_app in F as [_ F]. apply Forall_inv in F. exact (F _ Hd). }
  assert (AD : after_in 0 (GNode KBlock cs) e -> el_kind e = KBlock /\ find (ptr_hit (ptr_new e)) (ptr_chain (el_range e) 0 (GNode KBlock cs)) = None).
  { intros A. now apply find_after. }
  destruct (find_empty _ _ _ _ G LB Hin L) as [Fd|A].
  - left. rewrite Fd. split; [reflexivity|]. intros (_ & _ & X). apply NA in X. destruct (AD X) as [_ X2]. rewrite X2 in Fd. discriminate.
  - right. destruct (AD A) as [KB FN]. rewrite FN. split; [reflexivity|]. split; [exact KB|split; [exact RE|now apply NA]].
Qed.
Print Assumptions C31_exact.

(** The empty bodies of [f] and of the loop: only the first touches a parameter list. *)
Example C31_exact_case : match source_file_parse (txt "function f()end while x do end function g(...) end") with
  | Ok p => pa_errors p = [] /\ map (fun e => match ptr_to_node (ptr_new e) (pa_green p) with Ok e' => Some (el_kind e') | _ => None end)
      (filter (fun e => r_start (el_range e) =? r_end (el_range e)) (el_descendants (root_elem (pa_green p)))) = [None; Some KBlock; Some KMultiName; Some KBlock]
  | _ => False end.
Proof. vm_compute. split; reflexivity. Qed.
