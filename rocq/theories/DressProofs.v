(** DressProofs.v — facts about trees dressed with raw tokens. *)
From Verif Require Import Base SyntaxKind TokenSet Lexer LexSpec BindingPowers Parser Grammar
  Event EventProofs Tree TreeSink ParserTree SinkProofs GrammarSpec ParserTotal Ast ParseSpec ParseProofs.

(** Dressing as a relation, with one induction over forests. *)
Inductive Dress : forest -> nat -> list rtok -> dressed -> Prop :=
| D_nil pos rt : Dress [] pos rt (mkDr [] [] [] rt)
| D_tok k fs pos rt tr p rest b : eat rt = (tr, p :: rest) ->
    Dress fs (pos + blen (texts (tr ++ [p]))) rest b ->
    Dress (PTok k :: fs) pos rt
      (mkDr ((map gtok tr ++ [gtok p]) ++ dr_green b) (dr_errs b) ((tr ++ [p]) ++ dr_used b) (dr_left b))
| D_err e fs pos rt b : Dress fs pos rt b ->
    Dress (PErr e :: fs) pos rt
      (mkDr (dr_green b) (mkErr (perr_display e) (mkRange pos pos) :: dr_errs b) (dr_used b) (dr_left b))
| D_errn e fs gs pos rt tr rest a b : eat rt = (tr, rest) ->
    Dress fs (pos + blen (texts tr)) rest a ->
    Dress gs (pos + blen (texts (tr ++ dr_used a))) (dr_left a) b ->
    Dress (PErrN fs e :: gs) pos rt
      (mkDr ((map gtok tr ++ [GNode KError (dr_green a)]) ++ dr_green b)
            ((dr_errs a ++ [mkErr (perr_display e)
                (mkRange (pos + blen (texts tr)) (pos + blen (texts tr) + blen (texts (dr_used a))))]) ++ dr_errs b)
            ((tr ++ dr_used a) ++ dr_used b) (dr_left b))
| D_node k fs gs pos rt tr rest a b : eat rt = (tr, rest) ->
    Dress fs (pos + blen (texts tr)) rest a ->
    Dress gs (pos + blen (texts (tr ++ dr_used a))) (dr_left a) b ->
    Dress (PNode k fs :: gs) pos rt
      (mkDr ((map gtok tr ++ [GNode k (dr_green a)]) ++ dr_green b)
            (dr_errs a ++ dr_errs b)
            ((tr ++ dr_used a) ++ dr_used b) (dr_left b)).

Lemma dress_rel : forall fs pos rt a, dress_f fs pos rt = Some a -> Dress fs pos rt a.
Proof.
  set (P1 := fun t => forall fs pos rt a b, dress t pos rt = Some a ->
     Dress fs (pos + blen (texts (dr_used a))) (dr_left a) b ->
     Dress (t :: fs) pos rt (mkDr (dr_green a ++ dr_green b) (dr_errs a ++ dr_errs b)
                             (dr_used a ++ dr_used b) (dr_left b))).
  set (PF := fun fs => forall pos rt a, dress_f fs pos rt = Some a -> Dress fs pos rt a).
  apply (forest_ind' P1 PF); unfold P1, PF; clear.
  - intros k fs pos rt a b H Hb. cbn [dress] in H. destruct (eat rt) as [tr [|p rest]] eqn:He; [discriminate|].
    injection H as <-. cbn [dr_green dr_errs dr_used dr_left app] in *. exact (D_tok k _ _ _ _ _ _ _ He Hb).
  - intros e fs pos rt a b H Hb. cbn [dress] in H. injection H as <-. cbn [dr_green dr_errs dr_used dr_left app] in *.
    apply D_err. cbn in Hb. rewrite Nat.add_0_r in Hb. exact Hb.
  - intros f e IH fs pos rt a b H Hb. rewrite dress_errn in H. destruct (eat rt) as [tr rest] eqn:He. cbv zeta in H.
    destruct (dress_f f (pos + blen (texts tr)) rest) as [a'|] eqn:Hf; [|discriminate]. injection H as <-.
    cbn [dr_green dr_errs dr_used dr_left] in *. exact (D_errn e _ _ _ _ _ _ _ _ He (IH _ _ _ Hf) Hb).
  - intros k f IH fs pos rt a b H Hb. rewrite dress_node in H. destruct (eat rt) as [tr rest] eqn:He.
    destruct (dress_f f (pos + blen (texts tr)) rest) as [a'|] eqn:Hf; [|discriminate]. injection H as <-.
    cbn [dr_green dr_errs dr_used dr_left] in *. exact (D_node k _ _ _ _ _ _ _ _ He (IH _ _ _ Hf) Hb).
  - intros pos rt a H. injection H as <-. constructor.
  - intros t fs H1 HF pos rt a H. cbn [dress_f] in H. destruct (dress t pos rt) as [a1|] eqn:E1; [|discriminate].
    destruct (dress_f fs (pos + blen (texts (dr_used a1))) (dr_left a1)) as [b|] eqn:E2; [|discriminate].
    injection H as <-. exact (H1 _ _ _ _ _ E1 (HF _ _ _ E2)).
Qed.

Lemma Dress_used fs pos rt a : Dress fs pos rt a -> rt = dr_used a ++ dr_left a.
Proof.
  induction 1; cbn [dr_used dr_left] in *; auto.
  - rewrite (eat_app _ _ _ H). rewrite IHDress. now rewrite <- !app_assoc.
  - rewrite (eat_app _ _ _ H). rewrite IHDress1 at 1. rewrite IHDress2 at 1. now rewrite <- !app_assoc.
  - rewrite (eat_app _ _ _ H). rewrite IHDress1 at 1. rewrite IHDress2 at 1. now rewrite <- !app_assoc.
Qed.

Lemma Dress_leaves fs pos rt a : Dress fs pos rt a -> leaves (dr_green a) = dr_used a.
Proof.
  induction 1; cbn [dr_used dr_green] in *; auto; rewrite !leaves_app, leaves_gtok.
  - rewrite IHDress. destruct p; reflexivity.
  - rewrite IHDress2. do 2 f_equal. unfold leaves. cbn [flat_map green_leaves]. rewrite app_nil_r. exact IHDress1.
  - rewrite IHDress2. do 2 f_equal. unfold leaves. cbn [flat_map green_leaves]. rewrite app_nil_r. exact IHDress1.
Qed.

Lemma Dress_kinds fs pos rt a K : Dress fs pos rt a -> map fst (nontriv rt) = fkinds fs ++ K -> map fst (nontriv (dr_left a)) = K.
Proof.
  intros H. revert K. induction H; intros K; cbn [dr_left].
  - auto.
  - intros E. destruct (eat_nontriv _ _ _ H) as [E1 _]. destruct (eat_triv _ _ _ H) as [_ Ht]. rewrite E1 in E. cbn [nontriv filter] in E.
    rewrite Ht in E. cbn [negb map] in E. rewrite fkinds_cons in E. cbn [pkinds app] in E. apply IHDress. injection E as _ E. exact E.
  - intros E. apply IHDress. rewrite fkinds_cons in E. exact E.
  - intros E. destruct (eat_nontriv _ _ _ H) as [E1 _]. rewrite E1 in E. rewrite fkinds_cons in E.
    cbn [pkinds] in E. rewrite <- app_assoc in E. apply IHDress2. apply IHDress1. exact E.
  - intros E. destruct (eat_nontriv _ _ _ H) as [E1 _]. rewrite E1 in E. rewrite fkinds_cons in E.
    cbn [pkinds] in E. rewrite <- app_assoc in E. apply IHDress2. apply IHDress1. exact E.
Qed.

(** ** Skeletons *)
Fixpoint erase (t : ptree) : forest :=
  match t with
  | PTok k => [PTok k]
  | PErr _ => []
  | PErrN fs _ => [PNode KError (flat_map erase fs)]
  | PNode k fs => [PNode k (flat_map erase fs)]
  end.

Lemma skel_triv tr : forallb triv tr = true -> flat_map skel (map gtok tr) = [].
Proof.
  induction tr as [|[k x] tr IH]; [reflexivity|]. cbn [forallb map flat_map gtok skel fst]. intros H. apply andb_true_iff in H as [H1 H2].
  change (triv (k, x)) with (is_trivia k) in H1. rewrite H1. exact (IH H2).
Qed.

Lemma Dress_skel fs pos rt a K : Dress fs pos rt a -> map fst (nontriv rt) = fkinds fs ++ K ->
  flat_map skel (dr_green a) = flat_map erase fs.
Proof.
  intros H. revert K. induction H; intros K E; cbn [dr_green flat_map erase]; auto.
  - destruct (eat_nontriv _ _ _ H) as [E1 _]. destruct (eat_triv _ _ _ H) as [Ht Hp]. rewrite E1 in E. cbn [nontriv filter] in E.
    rewrite Hp in E. cbn [negb map] in E. rewrite fkinds_cons in E. cbn [pkinds app] in E. injection E as Ek E.
    rewrite !flat_map_app, (skel_triv _ Ht), (IHDress _ E). destruct p as [kp x]. cbn [fst] in Ek. subst kp.
    cbn [gtok flat_map skel fst snd]. change (triv (k, x)) with (is_trivia k) in Hp. rewrite Hp. reflexivity.
  - rewrite fkinds_cons in E. exact (IHDress _ E).
  - destruct (eat_nontriv _ _ _ H) as [E1 _]. destruct (eat_triv _ _ _ H) as [Ht _]. rewrite E1 in E. rewrite fkinds_cons in E.
    cbn [pkinds] in E. rewrite <- app_assoc in E. change (flat_map pkinds fs) with (fkinds fs) in E.
    rewrite !flat_map_app, (skel_triv _ Ht). cbn [flat_map skel app].
    rewrite (IHDress1 _ E), (IHDress2 _ (Dress_kinds _ _ _ _ _ H0 E)). reflexivity.
  - destruct (eat_nontriv _ _ _ H) as [E1 _]. destruct (eat_triv _ _ _ H) as [Ht _]. rewrite E1 in E. rewrite fkinds_cons in E.
    cbn [pkinds] in E. rewrite <- app_assoc in E. change (flat_map pkinds fs) with (fkinds fs) in E.
    rewrite !flat_map_app, (skel_triv _ Ht). cbn [flat_map skel app].
    rewrite (IHDress1 _ E), (IHDress2 _ (Dress_kinds _ _ _ _ _ H0 E)). reflexivity.
Qed.

(** ** Layout independence *)
Lemma strip_triv tr : forallb triv tr = true -> flat_map strip (map gtok tr) = [].
Proof.
  induction tr as [|[k x] tr IH]; [reflexivity|]. cbn [forallb map flat_map gtok strip fst]. intros H. apply andb_true_iff in H as [H1 H2].
  change (triv (k, x)) with (is_trivia k) in H1. rewrite H1. exact (IH H2).
Qed.

Lemma Dress_strip fs pos rt a : Dress fs pos rt a -> forall pos' rt' a', Dress fs pos' rt' a' -> nontriv rt = nontriv rt' ->
  flat_map strip (dr_green a) = flat_map strip (dr_green a') /\ nontriv (dr_left a) = nontriv (dr_left a') /\
  map e_msg (dr_errs a) = map e_msg (dr_errs a').
Proof.
  induction 1; intros pos' rt' a' H' E; inversion H'; subst; cbn [dr_green dr_left dr_errs] in *.
  - auto.
  - destruct (eat_nontriv _ _ _ H) as [E1 _]. destruct (eat_triv _ _ _ H) as [Ht Hp].
    match goal with G : eat rt' = _ |- _ => destruct (eat_nontriv _ _ _ G) as [E1' _]; destruct (eat_triv _ _ _ G) as [Ht' Hp'] end.
    rewrite E1, E1' in E. cbn [nontriv filter] in E. rewrite Hp, Hp' in E. cbn [negb] in E. injection E as <- E.
    match goal with G : Dress fs _ _ _ |- _ => destruct (IHDress _ _ _ G E) as (A & B & C) end.
    rewrite !flat_map_app, (strip_triv _ Ht), (strip_triv _ Ht'), A. auto.
  - match goal with G : Dress fs _ _ _ |- _ => destruct (IHDress _ _ _ G E) as (A & B & C) end. cbn [map]. rewrite C. auto.
  - destruct (eat_nontriv _ _ _ H) as [E1 _]. destruct (eat_triv _ _ _ H) as [Ht _].
    match goal with G : eat rt' = _ |- _ => destruct (eat_nontriv _ _ _ G) as [E1' _]; destruct (eat_triv _ _ _ G) as [Ht' _] end.
    rewrite E1, E1' in E.
    match goal with G : Dress fs _ _ _ |- _ => destruct (IHDress1 _ _ _ G E) as (A & B & C) end.
    match goal with G : Dress gs _ _ _ |- _ => destruct (IHDress2 _ _ _ G B) as (A2 & B2 & C2) end.
    rewrite !flat_map_app, (strip_triv _ Ht), (strip_triv _ Ht'), A2. cbn [flat_map strip]. rewrite A, !map_app, C, C2. auto.
  - destruct (eat_nontriv _ _ _ H) as [E1 _]. destruct (eat_triv _ _ _ H) as [Ht _].
    match goal with G : eat rt' = _ |- _ => destruct (eat_nontriv _ _ _ G) as [E1' _]; destruct (eat_triv _ _ _ G) as [Ht' _] end.
    rewrite E1, E1' in E.
    match goal with G : Dress fs _ _ _ |- _ => destruct (IHDress1 _ _ _ G E) as (A & B & C) end.
    match goal with G : Dress gs _ _ _ |- _ => destruct (IHDress2 _ _ _ G B) as (A2 & B2 & C2) end.
    rewrite !flat_map_app, (strip_triv _ Ht), (strip_triv _ Ht'), A2. cbn [flat_map strip]. rewrite A, !map_app, C, C2. auto.
Qed.

(** ** Error positions *)
Definition bnd (all : list rtok) (n : nat) : Prop := exists c r, all = c ++ r /\ n = blen (texts c).

Lemma bnd_at all c r : all = c ++ r -> bnd all (blen (texts c)).
Proof. intros ->. exists c, r. auto. Qed.

Lemma Dress_bnd fs pos rt a : Dress fs pos rt a -> forall all c, all = c ++ rt -> pos = blen (texts c) ->
  Forall (fun e => bnd all (r_start (e_range e)) /\ bnd all (r_end (e_range e)) /\ r_start (e_range e) <= r_end (e_range e)) (dr_errs a).
Proof.
  induction 1; intros all c Hall Hpos; cbn [dr_errs].
  - constructor.
  - apply (IHDress all (c ++ tr ++ [p])).
    + rewrite (eat_app _ _ _ H) in Hall. rewrite Hall, <- !app_assoc. reflexivity.
    + rewrite (texts_app c), blen_app. congruence.
  - constructor; [|exact (IHDress _ _ Hall Hpos)]. cbn [e_range r_start r_end]. subst pos.
    repeat split; auto; exact (bnd_at _ _ _ Hall).
  - pose proof (Dress_used _ _ _ _ H0) as Hu. pose proof (eat_app _ _ _ H) as Hr.
    assert (H1' : all = (c ++ tr) ++ rest) by (rewrite Hall, Hr, <- app_assoc; reflexivity).
    assert (H2' : all = (c ++ tr ++ dr_used a) ++ dr_left a) by (rewrite H1', Hu at 1; rewrite <- !app_assoc; reflexivity).
    apply Forall_app. split; [apply Forall_app; split|].
    + apply (IHDress1 _ _ H1'). rewrite texts_app, blen_app. congruence.
    + constructor; [|constructor]. cbn [e_range r_start r_end].
      assert (Ea : pos + blen (texts tr) = blen (texts (c ++ tr))) by (rewrite texts_app, blen_app; congruence).
      assert (Eb : pos + blen (texts tr) + blen (texts (dr_used a)) = blen (texts (c ++ tr ++ dr_used a))).
      { rewrite !texts_app, !blen_app. lia. }
      rewrite Eb, Ea. split; [exact (bnd_at _ _ _ H1')|]. split; [exact (bnd_at _ _ _ H2')|]. lia.
    + apply (IHDress2 _ _ H2'). rewrite (texts_app c), blen_app. congruence.
  - pose proof (Dress_used _ _ _ _ H0) as Hu. pose proof (eat_app _ _ _ H) as Hr.
    assert (H1' : all = (c ++ tr) ++ rest) by (rewrite Hall, Hr, <- app_assoc; reflexivity).
    assert (H2' : all = (c ++ tr ++ dr_used a) ++ dr_left a) by (rewrite H1', Hu at 1; rewrite <- !app_assoc; reflexivity).
    apply Forall_app. split.
    + apply (IHDress1 _ _ H1'). rewrite texts_app, blen_app. congruence.
    + apply (IHDress2 _ _ H2'). rewrite (texts_app c), blen_app. congruence.
Qed.

(** ** Descendants *)
Fixpoint descs (off : nat) (cs : list green) : list elem :=
  match cs with
  | [] => []
  | c :: cs' => descendants_at off c ++ descs (off + green_len c) cs'
  end.
Lemma descendants_node off k cs : descendants_at off (GNode k cs) = mkElem off (GNode k cs) :: descs off cs.
Proof.
  reflexivity.
Qed.

Definition glen (gs : list green) : nat := blen (flat_map green_text gs).
Lemma descs_app off a b : descs off (a ++ b) = descs off a ++ descs (off + glen a) b.
Proof.
  revert off. induction a as [|c a IH]; intros off; cbn [app descs].
  - unfold glen. cbn. now rewrite Nat.add_0_r.
  - rewrite IH, <- app_assoc. replace (off + glen (c :: a)) with (off + green_len c + glen a); [reflexivity|].
    unfold glen, green_len. cbn [flat_map]. rewrite blen_app. lia.
Qed.
Lemma descs_toks off l : descs off (map gtok l) = [].
Proof. revert off. induction l as [|p l IH]; intros off; [reflexivity|]. cbn [map descs gtok descendants_at app]. apply IH. Qed.

Lemma green_text_leaves g : green_text g = texts (green_leaves g).
Proof.
  revert g. fix IH 1. intros [k cs|k t]; cbn [green_text green_leaves].
  - induction cs as [|c cs IHc]; [reflexivity|]. cbn [flat_map]. rewrite (IH c), IHc. now rewrite texts_app.
  - unfold texts. cbn. now rewrite app_nil_r.
Qed.
Lemma green_texts_leaves gs : flat_map green_text gs = texts (leaves gs).
Proof.
  induction gs as [|g gs IH]; [reflexivity|]. cbn [flat_map]. rewrite IH, green_text_leaves.
  change (leaves (g :: gs)) with (green_leaves g ++ leaves gs). now rewrite texts_app.
Qed.
Lemma glen_leaves gs : glen gs = blen (texts (leaves gs)).
Proof. unfold glen. now rewrite green_texts_leaves. Qed.
Lemma glen_gtok tr : glen (map gtok tr) = blen (texts tr).
Proof. now rewrite glen_leaves, leaves_gtok. Qed.
Lemma glen_app a b : glen (a ++ b) = glen a + glen b.
Proof. unfold glen. now rewrite flat_map_app, blen_app. Qed.

Lemma Dress_glen fs pos rt a : Dress fs pos rt a -> glen (dr_green a) = blen (texts (dr_used a)).
Proof. intros H. now rewrite glen_leaves, (Dress_leaves _ _ _ _ H). Qed.

Lemma descs_node1 off tr k cs rest : descs off ((map gtok tr ++ [GNode k cs]) ++ rest) =
  (mkElem (off + blen (texts tr)) (GNode k cs) :: descs (off + blen (texts tr)) cs) ++
  descs (off + blen (texts tr) + glen cs) rest.
Proof.
  rewrite <- app_assoc, descs_app, descs_toks, glen_gtok. cbn [app]. cbn [descs]. rewrite descendants_node. reflexivity.
Qed.

(** Where a node of a dressed tree comes from. *)
Definition origin (all : list rtok) (f : forest) (e : elem) : Prop :=
  exists k fs c rt a K, In (k, fs) (fsubs f) /\ all = c ++ rt /\ el_off e = blen (texts c) /\
    Dress fs (blen (texts c)) rt a /\ el_green e = GNode k (dr_green a) /\ fst (eat rt) = [] /\
    map fst (nontriv rt) = fkinds fs ++ K.

Lemma origin_incl all f g e : (forall x, In x (fsubs f) -> In x (fsubs g)) -> origin all f e -> origin all g e.
Proof. intros Hi (k & fs & c & rt & a & K & H1 & H2). exists k, fs, c, rt, a, K. split; auto. Qed.

Lemma eat_idem l tr rest : eat l = (tr, rest) -> fst (eat rest) = [].
Proof.
  intros H. apply eat_triv in H as [_ H]. destruct rest as [|p rest]; [reflexivity|]. cbn [eat]. rewrite H. reflexivity.
Qed.

Lemma Dress_desc f pos rt a : Dress f pos rt a -> forall all c K, all = c ++ rt -> pos = blen (texts c) ->
  map fst (nontriv rt) = fkinds f ++ K -> forall e, In e (descs pos (dr_green a)) -> origin all f e.
Proof.
  induction 1; intros all c K Hall Hpos E x Hx; cbn [dr_green] in Hx.
  - destruct Hx.
  - replace ((map gtok tr ++ [gtok p]) ++ dr_green b) with (map gtok (tr ++ [p]) ++ dr_green b) in Hx by (rewrite map_app; reflexivity).
    rewrite descs_app, descs_toks, glen_gtok in Hx. cbn [app] in Hx.
    destruct (eat_nontriv _ _ _ H) as [E1 _]. destruct (eat_triv _ _ _ H) as [Ht Hp]. rewrite E1 in E. cbn [nontriv filter] in E.
    rewrite Hp in E. cbn [negb map] in E. rewrite fkinds_cons in E. cbn [pkinds app] in E. injection E as Ek E.
    eapply origin_incl; [|eapply (IHDress all (c ++ tr ++ [p]) K); eauto].
    + intros y Hy. exact Hy.
    + rewrite (eat_app _ _ _ H) in Hall. rewrite Hall, <- !app_assoc. reflexivity.
    + rewrite (texts_app c), blen_app. congruence.
  - eapply origin_incl; [|eapply (IHDress all c K); eauto]. auto.
  - rewrite descs_node1 in Hx. rewrite (Dress_glen _ _ _ _ H0) in Hx.
    pose proof (Dress_used _ _ _ _ H0) as Hu. pose proof (eat_app _ _ _ H) as Hr.
    assert (H1' : all = (c ++ tr) ++ rest) by (rewrite Hall, Hr, <- app_assoc; reflexivity).
    assert (H2' : all = (c ++ tr ++ dr_used a) ++ dr_left a) by (rewrite H1', Hu at 1; rewrite <- !app_assoc; reflexivity).
    assert (Ea : pos + blen (texts tr) = blen (texts (c ++ tr))) by (rewrite texts_app, blen_app; congruence).
    assert (Eb : pos + blen (texts tr) + blen (texts (dr_used a)) = blen (texts (c ++ tr ++ dr_used a))).
    { rewrite !texts_app, !blen_app. lia. }
    destruct (eat_nontriv _ _ _ H) as [E1 _]. rewrite E1 in E. rewrite fkinds_cons in E.
    cbn [pkinds] in E. rewrite <- app_assoc in E. change (flat_map pkinds fs) with (fkinds fs) in E.
    apply in_app_iff in Hx as [[<-|Hx]|Hx].
    + exists KError, fs, (c ++ tr), rest, a, (fkinds gs ++ K). rewrite <- Ea.
      split; [left; reflexivity|]. repeat split; auto. exact (eat_idem _ _ _ H).
    + eapply origin_incl; [|eapply (IHDress1 all (c ++ tr)); eauto].
      intros y Hy. right. apply in_app_iff. left. exact Hy.
    + eapply origin_incl; [|eapply (IHDress2 all (c ++ tr ++ dr_used a) K); eauto].
      * intros y Hy. right. apply in_app_iff. right. exact Hy.
      * rewrite (texts_app c), blen_app. congruence.
      * exact (Dress_kinds _ _ _ _ _ H0 E).
      * rewrite texts_app, blen_app, Nat.add_assoc. exact Hx.
  - rewrite descs_node1 in Hx. rewrite (Dress_glen _ _ _ _ H0) in Hx.
    pose proof (Dress_used _ _ _ _ H0) as Hu. pose proof (eat_app _ _ _ H) as Hr.
    assert (H1' : all = (c ++ tr) ++ rest) by (rewrite Hall, Hr, <- app_assoc; reflexivity).
    assert (H2' : all = (c ++ tr ++ dr_used a) ++ dr_left a) by (rewrite H1', Hu at 1; rewrite <- !app_assoc; reflexivity).
    assert (Ea : pos + blen (texts tr) = blen (texts (c ++ tr))) by (rewrite texts_app, blen_app; congruence).
    assert (Eb : pos + blen (texts tr) + blen (texts (dr_used a)) = blen (texts (c ++ tr ++ dr_used a))).
    { rewrite !texts_app, !blen_app. lia. }
    destruct (eat_nontriv _ _ _ H) as [E1 _]. rewrite E1 in E. rewrite fkinds_cons in E.
    cbn [pkinds] in E. rewrite <- app_assoc in E. change (flat_map pkinds fs) with (fkinds fs) in E.
    apply in_app_iff in Hx as [[<-|Hx]|Hx].
    + exists k, fs, (c ++ tr), rest, a, (fkinds gs ++ K). rewrite <- Ea.
      split; [left; reflexivity|]. repeat split; auto. exact (eat_idem _ _ _ H).
    + eapply origin_incl; [|eapply (IHDress1 all (c ++ tr)); eauto].
      intros y Hy. right. apply in_app_iff. left. exact Hy.
    + eapply origin_incl; [|eapply (IHDress2 all (c ++ tr ++ dr_used a) K); eauto].
      * intros y Hy. right. apply in_app_iff. right. exact Hy.
      * rewrite (texts_app c), blen_app. congruence.
      * exact (Dress_kinds _ _ _ _ _ H0 E).
      * rewrite texts_app, blen_app, Nat.add_assoc. exact Hx.
Qed.

(** ** Error nodes and reports *)
Fixpoint plain (t : ptree) : bool :=
  match t with
  | PTok _ | PErr _ => true
  | PErrN fs _ => forallb plain fs
  | PNode k fs => negb (kind_eqb k KError) && forallb plain fs
  end.
Definition plains (f : forest) : Prop := forallb plain f = true.
Lemma plains_app a b : plains (a ++ b) <-> plains a /\ plains b.
Proof. unfold plains. rewrite forallb_app. apply andb_true_iff. Qed.
Lemma plains_cons t f : plains (t :: f) <-> plain t = true /\ plains f.
Proof. unfold plains. cbn [forallb]. apply andb_true_iff. Qed.
Lemma plain_node k fs : k <> KError -> plains fs -> plain (PNode k fs) = true.
Proof. intros Hk H. cbn [plain]. unfold plains in H. rewrite H, andb_true_r. apply kind_eqb_neq in Hk. now rewrite Hk. Qed.
Lemma plains_toks ks : plains (map PTok ks).
Proof. induction ks; [reflexivity|]. apply plains_cons. split; auto. Qed.
Lemma plains_req s k f : req s k f -> plains f.
Proof. intros [->|[_ [e ->]]]; reflexivity. Qed.
Lemma plains_is_err s f : is_err s f -> plains f.
Proof. intros (_ & e & [->|(ks & ->)]); [reflexivity|]. apply plains_cons. split; [apply (plains_toks ks)|reflexivity]. Qed.
Lemma plains_opt s x : x = [] \/ is_err s x -> plains x.
Proof. intros [->|H]; [reflexivity|now apply plains_is_err in H]. Qed.
Lemma plains_sc sc : sc = [] \/ sc = [PTok KSemicolon] -> plains sc.
Proof. intros [->| ->]; reflexivity. Qed.
Lemma plains_junk j : Forall junk j -> plains j.
Proof.
  induction 1 as [|t j Ht _ IH]; [reflexivity|]. apply plains_cons. split; [|exact IH].
  destruct Ht as [(ks & e & ->)|(s & Hs & ->)]; [exact (plains_toks ks)|reflexivity].
Qed.
Lemma Tree_plain s n f : Tree s n f -> plains f.
Proof.
  induction 1; repeat match goal with
  | H : plains ?f |- plains ?f => exact H
  | |- plains (_ ++ _) => apply plains_app; split
  | |- plains [] => reflexivity
  | |- plains (_ :: _) => apply plains_cons; split
  | |- plain (PTok _) = true => reflexivity
  | |- plain (PNode _ _) = true => apply plain_node; [discriminate|]
  | H : plains [?t] |- plain ?t = true => apply plains_cons in H as [H _]; exact H
  | H : req _ _ ?f |- plains ?f => exact (plains_req _ _ _ H)
  | H : is_err _ ?f |- plains ?f => exact (plains_is_err _ _ H)
  | H : Forall junk ?f |- plains ?f => exact (plains_junk _ H)
  | H : ?sc = [] \/ ?sc = [PTok KSemicolon] |- plains ?sc => exact (plains_sc _ H)
  | H : ?sc = [] \/ is_err _ ?sc |- plains ?sc => exact (plains_opt _ _ H)
  end.
Qed.

Lemma errors_match_app a b x y : errors_match a x -> errors_match b y -> errors_match (a ++ b) (x ++ y).
Proof. induction 1; intros Hb; cbn [app]; auto using errors_match. Qed.

Definition errs_only (l : list elem) : list elem := filter (fun e => kind_eqb (el_kind e) KError) l.
Lemma errs_only_app a b : errs_only (a ++ b) = errs_only a ++ errs_only b.
Proof. unfold errs_only. now rewrite filter_app. Qed.

(** Dressing a run of tokens gives tokens only, and no errors. *)
Lemma Dress_toks ks : forall pos rt a, Dress (map PTok ks) pos rt a -> dr_errs a = [] /\ dr_green a = map gtok (dr_used a).
Proof.
  induction ks as [|k ks IH]; intros pos rt a H; inversion H; subst; cbn [dr_errs dr_green dr_used]; [auto|].
  destruct (IH _ _ _ H6) as [A B]. rewrite A, B, !map_app. auto.
Qed.

Lemma Dress_errors f pos rt a : Dress f pos rt a -> every local f -> plains f ->
  errors_match (errs_only (descs pos (dr_green a))) (dr_errs a).
Proof.
  induction 1; intros HL HP; cbn [dr_green dr_errs].
  - constructor.
  - replace ((map gtok tr ++ [gtok p]) ++ dr_green b) with (map gtok (tr ++ [p]) ++ dr_green b) by (rewrite map_app; reflexivity).
    rewrite descs_app, descs_toks, glen_gtok. cbn [app]. apply every_cons in HL as [_ HL]. apply plains_cons in HP as [_ HP]. exact (IHDress HL HP).
  - apply em_point. apply every_cons in HL as [_ HL]. apply plains_cons in HP as [_ HP]. exact (IHDress HL HP).
  - apply plains_cons in HP as [HP1 HP2]. apply every_cons in HL as [HL1 HL2]. apply every_errn in HL1 as [HL1 _]. destruct HL1 as (_ & HE & _).
    destruct (HE eq_refl) as [ks ->]. destruct (Dress_toks _ _ _ _ H0) as [A B].
    rewrite descs_node1. rewrite (Dress_glen _ _ _ _ H0). cbn [app errs_only filter el_kind el_green green_kind].
    rewrite kind_eqb_refl. rewrite A at 1. cbn [app]. rewrite B at 2. rewrite descs_toks. cbn [app].
    replace (blen (texts (dr_used a))) with (green_len (GNode KError (dr_green a))) at 2.
    + apply (em_node (mkElem (pos + blen (texts tr)) (GNode KError (dr_green a)))).
      specialize (IHDress2 HL2 HP2). rewrite texts_app, blen_app, Nat.add_assoc in IHDress2. exact IHDress2.
    + exact (Dress_glen _ _ _ _ H0).
  - apply plains_cons in HP as [HP1 HP2]. apply every_cons in HL as [HL1 HL2]. apply every_node in HL1 as [HK HL1].
    rewrite descs_node1. rewrite (Dress_glen _ _ _ _ H0). rewrite errs_only_app. apply errors_match_app.
    + cbn [errs_only filter el_kind el_green green_kind]. cbn [plain] in HP1. apply andb_true_iff in HP1 as [HP0 HP1].
      destruct (kind_eqb k KError) eqn:Ek; [discriminate HP0|]. exact (IHDress1 HL1 HP1).
    + specialize (IHDress2 HL2 HP2). rewrite texts_app, blen_app, Nat.add_assoc in IHDress2. exact IHDress2.
Qed.
