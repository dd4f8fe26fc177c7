(** PropsHir.v — C32, C33: the AST id map and the item tree. Nodes are identified by their path of child
    indices ([elem_at], Reparse.v). *)
From Coq Require Import Permutation.
From Verif Require Import Base SyntaxKind TokenSet Lexer LexSpec LexerDirect LexerProofs BindingPowers Parser Grammar
  Event EventProofs Tree TreeSink ParserTree ParserRefine SinkProofs GrammarSpec ParserTotal ParserTotal2 Ast ParseSpec ParseProofs DressProofs
  Validation ValidProofs PropsParser TextEdit Ptr PropsPtr Reparse PropsReparse Hir.

Lemma NoDup_app_intro {A} (a b : list A) : NoDup a -> NoDup b -> (forall x, In x a -> In x b -> False) -> NoDup (a ++ b).
Proof.
  induction 1 as [|x a Hx Ha IH]; intros Hb H; [exact Hb|]. cbn [app]. constructor.
  - intros Hi. apply in_app_iff in Hi as [Hi|Hi]; [exact (Hx Hi)|exact (H x (or_introl eq_refl) Hi)].
  - apply IH; [exact Hb|]. intros y H1 H2. exact (H y (or_intror H1) H2).
Qed.

(** ** The traversal *)
Fixpoint lnodes (g : green) {struct g} : list nat -> nat -> list lnode := fun p off =>
  match g with
  | GTok _ _ => []
  | GNode _ cs =>
    (p, mkElem off g) ::
    (fix go (i : nat) (off : nat) (cs : list green) : list lnode :=
       match cs with
       | [] => []
       | c :: cs' => lnodes c (p ++ [i]) off ++ go (S i) (off + green_len c) cs'
       end) 0 off cs
  end.
Fixpoint lforest (p : list nat) (i : nat) (off : nat) (cs : list green) : list lnode :=
  match cs with
  | [] => []
  | c :: cs' => lnodes c (p ++ [i]) off ++ lforest p (S i) (off + green_len c) cs'
  end.
Lemma lnodes_node k cs p off : lnodes (GNode k cs) p off = (p, mkElem off (GNode k cs)) :: lforest p 0 off cs.
Proof.
  cbn [lnodes]. f_equal. set (i := 0). clearbody i. revert off i. induction cs as [|c cs IH]; intros off i; [reflexivity|]. cbn [lforest]. f_equal. apply IH.
Qed.
Definition lnodes_of (n : lnode) : list lnode := lnodes (el_green (snd n)) (fst n) (el_off (snd n)).

Fixpoint wforest (f : elem -> bool) (p : list nat) (i : nat) (off : nat) (cs : list green) : list lnode * list lnode :=
  match cs with
  | [] => ([], [])
  | c :: cs' =>
    let a := walk f c (p ++ [i]) off in
    let b := wforest f p (S i) (off + green_len c) cs' in
    (fst a ++ fst b, snd a ++ snd b)
  end.
Lemma walk_node_eq f k cs p off : walk f (GNode k cs) p off =
  if f (mkElem off (GNode k cs)) then ([(p, mkElem off (GNode k cs))], lchildren (p, mkElem off (GNode k cs)))
  else ((p, mkElem off (GNode k cs)) :: fst (wforest f p 0 off cs), snd (wforest f p 0 off cs)).
Proof.
  cbn [walk]. destruct (f _); [reflexivity|].
  assert (E : forall cs i off, (fix go (i : nat) (off : nat) (cs : list green) : list lnode * list lnode :=
                    match cs with
                    | [] => ([], [])
                    | c :: cs' =>
                      let a := walk f c (p ++ [i]) off in
                      let b := go (S i) (off + green_len c) cs' in
                      (fst a ++ fst b, snd a ++ snd b)
                    end) i off cs = wforest f p i off cs).
  { clear. induction cs as [|c cs IH]; intros i off; [reflexivity|]. cbn [wforest]. cbv zeta. rewrite <- IH. reflexivity. }
  rewrite E. reflexivity.
Qed.

Lemma lchildren_nodes p off k cs : flat_map lnodes_of (lchildren (p, mkElem off (GNode k cs))) = lforest p 0 off cs.
Proof.
  unfold lchildren, el_children_with_tokens. cbn [fst snd el_green el_off]. set (i := 0). clearbody i. revert off i.
  induction cs as [|c cs IH]; intros off i; [reflexivity|]. cbn [place number filter snd el_green lforest].
  destruct c as [k' cs'|k' x]; cbn [is_gnode].
  - cbn [flat_map]. unfold lnodes_of at 1. cbn [fst snd el_green el_off]. f_equal. apply IH.
  - change (lnodes (GTok k' x) (p ++ [i]) off) with (@nil lnode). cbn [app]. apply IH.
Qed.

Lemma perm4 {A} (a b c d x y : list A) : Permutation (a ++ b) x -> Permutation (c ++ d) y -> Permutation ((a ++ c) ++ b ++ d) (x ++ y).
Proof.
  intros H1 H2. rewrite <- H1, <- H2. rewrite <- !app_assoc. apply Permutation_app_head. rewrite !app_assoc. apply Permutation_app_tail. apply Permutation_app_comm.
Qed.
Lemma walk_perm f : forall g p off, Permutation (fst (walk f g p off) ++ flat_map lnodes_of (snd (walk f g p off))) (lnodes g p off).
Proof.
  refine (green_ind' _ _ _).
  - intros k t p off. reflexivity.
  - intros k cs F p off. rewrite walk_node_eq, lnodes_node. destruct (f _).
    + cbn [fst snd app]. rewrite lchildren_nodes. reflexivity.
    + cbn [fst snd app]. apply perm_skip. generalize 0. revert off. induction F as [|c cs Hc F IH]; intros off i; [reflexivity|].
      cbn [wforest lforest]. cbv zeta. cbn [fst snd]. rewrite flat_map_app. apply perm4; [apply Hc|apply IH].
Qed.
Lemma walk_first f g p off : is_gnode g = true -> exists l, fst (walk f g p off) = (p, mkElem off g) :: l.
Proof. destruct g as [k cs|]; [|discriminate]. intros _. rewrite walk_node_eq. destruct (f _); cbn [fst]; eauto. Qed.
Lemma walk_queue f : forall g p off, Forall (fun n => is_gnode (el_green (snd n)) = true) (snd (walk f g p off)).
Proof.
  refine (green_ind' _ _ _).
  - intros k t p off. exact (Forall_nil _).
  - intros k cs F p off. rewrite walk_node_eq. destruct (f _); cbn [snd].
    + unfold lchildren. apply Forall_forall. intros n H. apply filter_In in H as [_ H]. exact H.
    + generalize 0. revert off. induction F as [|c cs Hc F IH]; intros off i; [exact (Forall_nil _)|]. cbn [wforest]. cbv zeta. cbn [snd].
      apply Forall_app. split; [apply Hc|apply IH].
Qed.
Lemma flat_map_flat {A B C} (f : B -> list C) (g : A -> list B) l : flat_map f (flat_map g l) = flat_map (fun x => flat_map f (g x)) l.
Proof. induction l as [|x l IH]; [reflexivity|]. cbn [flat_map]. now rewrite flat_map_app, IH. Qed.
Lemma layer_perm f layer : Permutation (flat_map (fun n => fst (walk_node f n)) layer ++ flat_map lnodes_of (flat_map (fun n => snd (walk_node f n)) layer))
  (flat_map lnodes_of layer).
Proof.
  induction layer as [|n layer IH]; [reflexivity|]. cbn [flat_map]. rewrite flat_map_app. apply perm4; [apply walk_perm|exact IH].
Qed.
Lemma bdfs_loop_total f : forall fuel layer, Forall (fun n => is_gnode (el_green (snd n)) = true) layer -> length (flat_map lnodes_of layer) < fuel ->
  exists l, bdfs_loop fuel f layer = Ok l /\ Permutation l (flat_map lnodes_of layer).
Proof.
  induction fuel as [|fuel IH]; intros layer F H; [lia|]. destruct layer as [|n layer]; [exists []; split; [reflexivity|apply perm_nil]|].
  cbn [bdfs_loop]. set (next := flat_map (fun n => snd (walk_node f n)) (n :: layer)).
  pose proof (layer_perm f (n :: layer)) as HP. fold next in HP.
  destruct (IH next) as (l & Hl & Pl).
  - apply Forall_forall. intros x Hx. apply in_flat_map in Hx as (m & _ & Hx). pose proof (walk_queue f (el_green (snd m)) (fst m) (el_off (snd m))) as Q.
    rewrite Forall_forall in Q. exact (Q _ Hx).
  - pose proof (Permutation_length HP) as HL. rewrite app_length in HL. destruct (walk_first f _ (fst n) (el_off (snd n)) (Forall_inv F)) as (l & E).
    assert (1 <= length (flat_map (fun n => fst (walk_node f n)) (n :: layer))).
    { cbn [flat_map]. unfold walk_node at 1. rewrite E. cbn [app length]. lia. }
    lia.
  - rewrite Hl. cbn [rbind]. eexists. split; [reflexivity|]. rewrite Pl. exact HP.
Qed.

(** Order. *)
Fixpoint ordd (P : lnode -> Prop) (D l : list lnode) : Prop :=
  match l with
  | [] => True
  | x :: l' => (P x \/ exists y, In y D /\ In x (lchildren y)) /\ ordd P (D ++ [x]) l'
  end.
Lemma ordd_app P : forall a D b, ordd P D (a ++ b) <-> ordd P D a /\ ordd P (D ++ a) b.
Proof.
  induction a as [|x a IH]; intros D b; cbn [app ordd]; [rewrite app_nil_r; tauto|]. rewrite IH, <- app_assoc. cbn [app]. tauto.
Qed.
Lemma ordd_mono (P Q : lnode -> Prop) : forall l D E, (forall x, P x -> Q x \/ exists y, In y E /\ In x (lchildren y)) -> incl D E -> ordd P D l -> ordd Q E l.
Proof.
  induction l as [|x l IH]; intros D E H HI; cbn [ordd]; [auto|]. intros [A B]. split.
  - destruct A as [A|(y & A1 & A2)]; [exact (H _ A)|right; exists y; auto].
  - refine (IH _ _ _ _ B).
    + intros z Hz. destruct (H z Hz) as [Hq|(y & Y1 & Y2)]; [auto|right]. exists y. split; [apply in_or_app; auto|exact Y2].
    + intros z Hz. apply in_app_iff in Hz as [Hz|Hz]; apply in_or_app; auto.
Qed.
Lemma walk_ord f : forall g p off, ordd (fun x => x = (p, mkElem off g)) [] (fst (walk f g p off)) /\
  Forall (fun x => exists y, In y (fst (walk f g p off)) /\ In x (lchildren y)) (snd (walk f g p off)).
Proof.
  refine (green_ind' _ _ _).
  - intros k t p off. cbn. split; [exact Logic.I|exact (Forall_nil _)].
  - intros k cs F p off. rewrite walk_node_eq. destruct (f _); cbn [fst snd].
    + split; [cbn; auto|]. apply Forall_forall. intros x Hx. exists (p, mkElem off (GNode k cs)). split; [now left|exact Hx].
    + cbn [ordd app]. set (e := mkElem off (GNode k cs)).
      assert (HC : forall i off' cs', (forall j c, nth_error (number i p (place off' cs')) j = Some c -> is_gnode (el_green (snd c)) = true -> In c (lchildren (p, e))) ->
        Forall (fun g => forall p off, ordd (fun x => x = (p, mkElem off g)) [] (fst (walk f g p off)) /\
          Forall (fun x => exists y, In y (fst (walk f g p off)) /\ In x (lchildren y)) (snd (walk f g p off))) cs' ->
        forall D, In (p, e) D ->
        ordd (fun x => x = (p, e)) D (fst (wforest f p i off' cs')) /\
        Forall (fun x => exists y, In y ((p, e) :: fst (wforest f p i off' cs')) /\ In x (lchildren y)) (snd (wforest f p i off' cs'))).
      { clear. intros i off' cs'. revert i off'. induction cs' as [|c cs' IH]; intros i off' HN F D HD; cbn [wforest]; cbv zeta; cbn [fst snd].
        - split; [exact Logic.I|exact (Forall_nil _)].
        - pose proof (Forall_inv F (p ++ [i]) off') as [O1 Q1].
          destruct (IH (S i) (off' + green_len c) (fun j c0 Hj => HN (S j) c0 Hj) (Forall_inv_tail F) (D ++ fst (walk f c (p ++ [i]) off'))) as [O2 Q2].
          { apply in_or_app. auto. }
          split.
          + apply ordd_app. split; [|exact O2]. destruct (is_gnode c) eqn:G.
            * refine (ordd_mono _ _ _ _ _ _ _ O1); [|intros z []]. intros x ->. right. exists (p, e). split; [exact HD|].
              exact (HN 0 (p ++ [i], mkElem off' c) eq_refl G).
            * destruct c; [discriminate|]. exact Logic.I.
          + apply Forall_app. split; [refine (Forall_impl _ _ Q1)|refine (Forall_impl _ _ Q2)]; intros x (y & Y1 & Y2); exists y; (split; [|exact Y2]).
            * right. apply in_or_app. auto.
            * destruct Y1 as [Y1|Y1]; [left; exact Y1|right; apply in_or_app; auto]. }
      destruct (HC 0 off cs) with (D := [(p, e)]) as [A B].
      * intros j c Hj G. unfold lchildren. apply filter_In. split; [|exact G]. unfold e, el_children_with_tokens. cbn [fst snd el_green el_off].
        exact (nth_error_In _ _ Hj).
      * exact F.
      * now left.
      * split; [split; [left; reflexivity|exact A]|exact B].
Qed.
Lemma layer_ord f P : forall layer D, Forall (fun n => P n \/ exists y, In y D /\ In n (lchildren y)) layer ->
  ordd P D (flat_map (fun n => fst (walk_node f n)) layer).
Proof.
  induction layer as [|n layer IH]; intros D F; cbn [flat_map]; [exact Logic.I|]. apply ordd_app. split.
  - destruct (walk_ord f (el_green (snd n)) (fst n) (el_off (snd n))) as [O _]. refine (ordd_mono _ _ _ _ _ _ _ O); [|intros z []].
    intros x ->. pose proof (Forall_inv F) as Fn. destruct n as [q [o g]]. exact Fn.
  - apply IH. refine (Forall_impl _ _ (Forall_inv_tail F)). intros m [H|(y & H1 & H2)]; [auto|right; exists y; split; [apply in_or_app; auto|exact H2]].
Qed.
Lemma bdfs_loop_ord f P : forall fuel layer D l, Forall (fun n => P n \/ exists y, In y D /\ In n (lchildren y)) layer ->
  bdfs_loop fuel f layer = Ok l -> ordd P D l.
Proof.
  induction fuel as [|fuel IH]; intros layer D l F H; [discriminate|]. cbn [bdfs_loop] in H. destruct layer as [|n layer]; [injection H as <-; exact Logic.I|].
  apply rbind_ok in H as (l' & Hl & H). apply (f_equal (fun r => match r with Ok x => x | _ => [] end)) in H. cbv beta iota in H. subst l.
  apply ordd_app. split; [exact (layer_ord f P _ _ F)|].
  refine (IH _ _ _ _ Hl). apply Forall_forall. intros x Hx. apply in_flat_map in Hx as (m & Hm & Hx). right.
  destruct (walk_ord f (el_green (snd m)) (fst m) (el_off (snd m))) as [_ Q]. rewrite Forall_forall in Q. destruct (Q _ Hx) as (y & Y1 & Y2).
  exists y. split; [|exact Y2]. apply in_or_app. right. apply in_flat_map. exists m. auto.
Qed.

(** Paths. *)
Lemma lforest_in : forall cs, Forall (fun g => forall p off q n, In (q, n) (lnodes g p off) <->
     exists s, q = p ++ s /\ elem_at s (mkElem off g) = Some n /\ is_gnode (el_green n) = true) cs ->
  forall p i off q n, In (q, n) (lforest p i off cs) <->
    exists j s c, q = p ++ (i + j) :: s /\ nth_error (place off cs) j = Some c /\ elem_at s c = Some n /\ is_gnode (el_green n) = true.
Proof.
  induction 1 as [|g cs Hg F IH]; intros p i off q n; cbn [lforest place].
  - split; [intros []|]. intros (j & s & c & _ & H & _). destruct j; discriminate.
  - rewrite in_app_iff, Hg, IH. split.
    + intros [(s & -> & H1 & H2)|(j & s & c & -> & H1 & H2)].
      * exists 0, s, (mkElem off g). rewrite Nat.add_0_r, <- app_assoc. auto.
      * exists (S j), s, c. replace (i + S j) with (S i + j) by lia. auto.
    + intros (j & s & c & -> & H1 & H2 & H3). destruct j as [|j].
      * left. injection H1 as <-. exists s. rewrite Nat.add_0_r, <- app_assoc. auto.
      * right. exists j, s, c. replace (S i + j) with (i + S j) by lia. auto.
Qed.
Lemma lnodes_in : forall g p off q n, In (q, n) (lnodes g p off) <->
  exists s, q = p ++ s /\ elem_at s (mkElem off g) = Some n /\ is_gnode (el_green n) = true.
Proof.
  refine (green_ind' _ _ _).
  - intros k t p off q n. split; [intros []|]. intros (s & _ & H1 & H2). destruct s as [|i s]; cbn in H1.
    + injection H1 as <-. discriminate.
    + destruct i; discriminate.
  - intros k cs F p off q n. rewrite lnodes_node. cbn [In]. rewrite (lforest_in _ F). split.
    + intros [H|(j & s & c & -> & H1 & H2 & H3)].
      * injection H as <- <-. exists []. rewrite app_nil_r. auto.
      * exists (j :: s). split; [reflexivity|]. cbn [elem_at]. unfold el_children_with_tokens. cbn [el_green el_off]. rewrite H1. auto.
    + intros (s & -> & H1 & H2). destruct s as [|j s]; cbn [elem_at] in H1.
      * left. injection H1 as <-. rewrite app_nil_r. reflexivity.
      * right. unfold el_children_with_tokens in H1. cbn [el_green el_off] in H1. destruct (nth_error (place off cs) j) as [c|] eqn:E; [|discriminate]. exists j, s, c. auto.
Qed.
Lemma lnodes_nodup : forall g p off, NoDup (map fst (lnodes g p off)).
Proof.
  refine (green_ind' _ _ _).
  - intros. constructor.
  - intros k cs F p off. rewrite lnodes_node. cbn [map fst]. constructor.
    + intros H. apply in_map_iff in H as ([q n] & E & H). cbn [fst] in E. subst q. apply lforest_in in H as (j & s & c & E & _).
      * rewrite <- (app_nil_r p) in E at 1. apply app_inv_head in E. discriminate.
      * apply Forall_forall. intros; apply lnodes_in.
    + generalize 0. revert off. induction F as [|c cs Hc F IH]; intros off i; [constructor|]. cbn [lforest]. rewrite map_app. apply NoDup_app_intro.
      * apply Hc.
      * apply IH.
      * intros x H1 H2. apply in_map_iff in H1 as ([q n] & E & H1). cbn [fst] in E. subst q. apply lnodes_in in H1 as (s & -> & _).
        apply in_map_iff in H2 as ([q n2] & E & H2). cbn [fst] in E. subst q. apply lforest_in in H2 as (j & s2 & c2 & E & _).
        -- rewrite <- app_assoc in E. apply app_inv_head in E. injection E as E _. lia.
        -- apply Forall_forall. intros; apply lnodes_in.
Qed.
Lemma lnodes_descs : forall g p off, map snd (lnodes g p off) = descendants_at off g.
Proof.
  refine (green_ind' _ _ _); [reflexivity|]. intros k cs F p off. rewrite lnodes_node, descendants_node. cbn [map snd]. f_equal.
  generalize 0. revert off. induction F as [|c cs Hc F IH]; intros off i; [reflexivity|]. cbn [lforest descs]. rewrite map_app, Hc, IH. reflexivity.
Qed.
Lemma lchildren_path x y : In x (lchildren y) -> exists i, fst x = fst y ++ [i].
Proof.
  unfold lchildren. intros H. apply filter_In in H as [H _]. revert H. generalize 0. induction (el_children_with_tokens (snd y)) as [|c cs IH]; intros i H; [destruct H|].
  cbn [number] in H. destruct H as [<-|H]; [exists i; reflexivity|exact (IH _ H)].
Qed.

(** * C32 The traversal *)
(** For every [f]: the traversal ends, calls [f] on every node exactly once, and on a node after its parent. *)
Theorem C32_traversal : forall f e, is_gnode (el_green e) = true -> exists l, bdfs f e = Ok l /\
  NoDup (map fst l) /\
  (forall p n, In (p, n) l <-> elem_at p e = Some n /\ is_gnode (el_green n) = true) /\
  (forall l1 p i n l2, l = l1 ++ (p ++ [i], n) :: l2 -> In p (map fst l1)).
Proof.
  intros f e G. unfold bdfs.
  destruct (bdfs_loop_total f (S (length (el_descendants e))) [([], e)]) as (l & Hl & HP).
  - constructor; [exact G|constructor].
  - cbn [flat_map]. rewrite app_nil_r. unfold lnodes_of. cbn [fst snd]. pose proof (f_equal (@length _) (lnodes_descs (el_green e) [] (el_off e))) as L. rewrite map_length in L. unfold el_descendants. rewrite <- L. apply Nat.lt_succ_diag_r.
  - exists l. split; [exact Hl|]. cbn [flat_map] in HP. rewrite app_nil_r in HP. unfold lnodes_of in HP. cbn [fst snd] in HP. split; [|split].
    + refine (Permutation_NoDup _ (lnodes_nodup (el_green e) [] (el_off e))). apply Permutation_map, Permutation_sym, HP.
    + intros p n. split.
      * intros H. apply (Permutation_in _ HP) in H. apply lnodes_in in H as (s & -> & H). cbn [app]. destruct e. exact H.
      * intros H. apply (Permutation_in _ (Permutation_sym HP)). apply lnodes_in. exists p. split; [reflexivity|]. destruct e. exact H.
    + intros l1 p i n l2 ->.
      assert (O : ordd (fun x => x = ([], e)) [] (l1 ++ (p ++ [i], n) :: l2)).
      { refine (bdfs_loop_ord f _ _ _ _ _ _ Hl). constructor; [left; reflexivity|constructor]. }
      apply ordd_app in O as [_ [[O|(y & Y1 & Y2)] _]].
      * injection O as O _. destruct p; discriminate.
      * apply lchildren_path in Y2 as (j & Y2). cbn [fst] in Y2. apply app_inj_tail in Y2 as [-> _]. cbn [app] in Y1. exact (in_map fst _ _ Y1).
Qed.
Print Assumptions C32_traversal.

(** The traversal the id map uses, on a file with a nested function: the outer items come before the inner ones. *)
Example C32_traversal_case :
  match source_file_parse (txt "local function f(a) local x = 1 end local y") with
  | Ok p => match bdfs has_ast_id (root_elem (pa_green p)) with
            | Ok l => map (fun n => el_kind (snd n)) (filter (fun n => has_ast_id (snd n)) l)
                      = [KBlock; KLocalFunctionDefStmt; KLocalAssignStmt; KBlock; KLocalAssignStmt]
            | _ => False end
  | _ => False end.
Proof. vm_compute. reflexivity. Qed.

(** ** Ids *)
Lemma desc_trans : forall g off e n, In e (descendants_at off g) -> In n (el_descendants e) -> In n (descendants_at off g).
Proof.
  refine (green_ind' _ _ _); [intros k t off e n []|]. intros k cs F off e n. rewrite descendants_node. intros [<-|H] Hn.
  { unfold el_descendants in Hn. cbn [el_off el_green] in Hn. rewrite descendants_node in Hn. exact Hn. }
  right. revert off H. induction F as [|c cs Hc _ IH]; intros off H; [destruct H|]. cbn [descs] in *. apply in_app_or in H as [H|H]; apply in_or_app.
  - left. exact (Hc _ _ _ H Hn).
  - right. exact (IH _ H).
Qed.
Lemma desc_gnode : forall g off e, In e (descendants_at off g) -> is_gnode (el_green e) = true.
Proof.
  refine (green_ind' _ _ _); [intros k t off e []|]. intros k cs F off e. rewrite descendants_node. intros [<-|H]; [reflexivity|].
  revert off H. induction F as [|c cs Hc _ IH]; intros off H; [destruct H|]. cbn [descs] in *. apply in_app_or in H as [H|H]; eauto.
Qed.
Lemma desc_path e n : In n (el_descendants e) <-> exists p, elem_at p e = Some n /\ is_gnode (el_green n) = true.
Proof.
  unfold el_descendants. rewrite <- (lnodes_descs (el_green e) [] (el_off e)), in_map_iff. split.
  - intros ([q m] & <- & H). apply lnodes_in in H as (s & -> & H). exists s. destruct e. exact H.
  - intros (p & H). exists (p, n). split; [reflexivity|]. apply lnodes_in. exists p. destruct e. auto.
Qed.

(** Statement items start with a keyword. *)
Definition starts (k : kind) (fs : forest) : Prop := stmt_item_can_cast k = true -> exists x f, fs = PTok x :: f.
Lemma starts_toks ks : every starts (map PTok ks).
Proof. apply every_toks. Qed.
Lemma starts_err s f : is_err s f -> every starts f.
Proof. intros (_ & e & [->|(ks & ->)]); [constructor|]. apply every_errn. split; [discriminate|apply every_toks]. Qed.
Lemma starts_junk j : Forall junk j -> every starts j.
Proof.
  induction 1 as [|t j Ht _ IH]; [constructor|]. apply every_cons. split; [|exact IH]. destruct Ht as [(ks & e & ->)|(s & Hs & ->)].
  - apply every_errn. split; [discriminate|apply every_toks].
  - apply every_node. split; [discriminate|constructor].
Qed.
Lemma starts_opt s x : x = [] \/ is_err s x -> every starts x.
Proof. intros [->|H]; [constructor|exact (starts_err _ _ H)]. Qed.
Lemma Tree_starts s n f : Tree s n f -> every starts f.
Proof.
  induction 1;
  repeat match goal with
  | H : every _ ?f |- every _ ?f => exact H
  | |- every _ (_ ++ _) => apply every_app; split
  | |- every _ [] => apply every_nil
  | |- every _ [PTok _] => apply every_tok
  | |- every _ [PNode _ _] => apply every_node; split
  | |- every _ (_ :: _) => apply every_cons; split
  | H : req _ _ ?f |- every _ ?f => exact (every_req _ _ _ _ H)
  | H : is_err _ ?f |- every _ ?f => exact (starts_err _ _ H)
  | H : Forall junk ?f |- every _ ?f => exact (starts_junk _ H)
  | H : ?sc = [] \/ ?sc = [PTok KSemicolon] |- every _ ?sc => exact (every_sc _ _ H)
  | H : ?sc = [] \/ is_err _ ?sc |- every _ ?sc => exact (starts_opt _ _ H)
  | |- starts _ _ => unfold starts; first [discriminate | intros _; eexists; eexists; reflexivity]
  end.
Qed.
Lemma item_first t p e : source_file_parse t = Ok p -> In e (el_descendants (root_elem (pa_green p))) -> stmt_item_can_cast (el_kind e) = true ->
  exists k x cs, el_green e = GNode (el_kind e) (GTok k x :: cs) /\ x <> [].
Proof.
  intros H Hin Hk. destruct (source_file_inv _ _ H) as (ls & fs & a & v & Hp & _ & E & _). rewrite E in Hin. rewrite root_descs in Hin.
  destruct Hin as [<-|[<-|Hin]]; try discriminate Hk.
  destruct (parsed_origin _ _ _ _ _ Hp Hin) as (k & f & c & rt & b & K & Hs & Hall & Ho & HD & Hg & He & HK).
  assert (Ek : el_kind e = k) by (unfold el_kind; now rewrite Hg). rewrite Ek in *.
  destruct (every_in _ _ _ _ (Tree_starts _ _ _ (pd_tree _ _ _ _ Hp)) Hs Hk) as (x & f' & ->).
  inversion HD; subst. match goal with A : eat rt = (?tr, ?p0 :: ?r) |- _ => rewrite A in He; cbn [fst] in He; subst tr; pose proof (eat_app _ _ _ A) as Ert end.
  cbn [app] in Ert. subst rt. destruct p0 as [kx x0]. exists kx, x0, (dr_green b0). split; [exact Hg|].
  pose proof (Lexed_ok _ _ (pd_lex _ _ _ _ Hp)) as F. rewrite Hall in F. apply Forall_app in F as [_ F]. destruct (Forall_inv F) as (_ & _ & N). exact N.
Qed.

(** Every local, local function and function statement has a range that is not empty. *)
Theorem C32_items_not_empty : forall t p e, source_file_parse t = Ok p -> In e (el_descendants (root_elem (pa_green p))) ->
  stmt_item_can_cast (el_kind e) = true -> r_start (el_range e) < r_end (el_range e).
Proof.
  intros t p e H Hin Hk. destruct (item_first _ _ _ H Hin Hk) as (k & x & cs & G & N). unfold el_range. cbn [r_start r_end]. rewrite G.
  unfold green_len. cbn [green_text flat_map]. rewrite blen_app. destruct x as [|c x]; [congruence|]. rewrite blen_cons. pose proof (utf8_len_pos c). lia.
Qed.
Print Assumptions C32_items_not_empty.

Lemma ptr_eqb_eq a b : ptr_eqb a b = true <-> a = b.
Proof.
  unfold ptr_eqb, range_eqb. destruct a as [[a1 a2] ka], b as [[b1 b2] kb]. cbn [np_range np_kind r_start r_end].
  rewrite !andb_true_iff, !Nat.eqb_eq, kind_eqb_eq. split; [intros [[-> ->] ->]; reflexivity|intros [= -> -> ->]; auto].
Qed.
Lemma find_ptr_ok p : forall m i, In p m -> exists j, find_ptr i p m = Ok (i + j) /\ nth_error m j = Some p.
Proof.
  induction m as [|q m IH]; intros i H; [destruct H|]. cbn [find_ptr]. destruct (ptr_eqb q p) eqn:E.
  - apply ptr_eqb_eq in E as ->. exists 0. rewrite Nat.add_0_r. auto.
  - destruct H as [->|H]; [rewrite (proj2 (ptr_eqb_eq p p) eq_refl) in E; discriminate|].
    destruct (IH (S i) H) as (j & H1 & H2). exists (S j). replace (i + S j) with (S i + j) by lia. auto.
Qed.

(** The id map of a node [e] that has a parent (the whole file's block, say): it is built without panic, its ids are those of the items and
    blocks below [e]; each item has an id, from which the item is found again, and different items have different ids. *)
Theorem C32_ids_partial : forall t p e, source_file_parse t = Ok p -> In e (el_descendants (root_elem (pa_green p))) ->
  exists m, from_source true e = Ok m /\
    (forall id q, nth_error m id = Some q -> exists n, In n (el_descendants e) /\ q = ptr_new n /\ (stmt_item_can_cast (el_kind n) = true \/ el_kind n = KBlock)) /\
    (forall n, In n (el_descendants e) -> stmt_item_can_cast (el_kind n) = true ->
       exists id, ast_id m n = Ok id /\
         (forall cast, cast (el_kind n) = true -> exists q, ast_get cast m id = Ok q /\ ast_ptr_to_node cast q (pa_green p) = Ok n) /\
         (forall n', In n' (el_descendants e) -> ast_id m n' = Ok id -> n' = n)).
Proof.
  intros t p e Hp He. pose proof (desc_gnode _ _ _ He) as G. destruct (C32_traversal has_ast_id e G) as (l & Hl & _ & Hin & _).
  unfold from_source. rewrite Hl. cbn [rbind]. eexists. split; [reflexivity|]. set (m := map _ _).
  assert (Hm : forall n, In n (el_descendants e) -> has_ast_id n = true -> In (ptr_new n) m).
  { intros n Hn Hh. apply desc_path in Hn as (q & Hq). unfold m. apply in_map_iff. exists (q, n). split; [reflexivity|]. apply filter_In. split; [now apply Hin|exact Hh]. }
  split.
  - intros id q Hq. apply nth_error_In in Hq. apply in_map_iff in Hq as ([q0 n] & <- & Hq). apply filter_In in Hq as [Hq Hh]. apply Hin in Hq.
    exists n. split; [apply desc_path; eauto|]. split; [reflexivity|]. unfold has_ast_id in Hh. cbn [snd] in Hh. apply orb_true_iff in Hh as [Hh|Hh]; [auto|right; now apply kind_eqb_eq].
  - intros n Hn Hk. assert (Hr : In n (el_descendants (root_elem (pa_green p)))) by exact (desc_trans _ _ _ _ He Hn).
    pose proof (C32_items_not_empty _ _ _ Hp Hr Hk) as Hne.
    destruct (find_ptr_ok (ptr_new n) m 0) as (id & H1 & H2). { apply Hm; [exact Hn|]. unfold has_ast_id. now rewrite Hk. }
    exists id. split; [exact H1|]. split.
    + intros cast Hc. destruct (C31_typed_pointer_resolves_partial _ _ _ cast Hp Hr Hne Hc) as [A B]. exists (ptr_new n). split; [|exact B].
      unfold ast_get, runwrap. rewrite H2. cbn [rbind]. rewrite A. reflexivity.
    + intros n' Hn' H'. assert (Hr' : In n' (el_descendants (root_elem (pa_green p)))) by exact (desc_trans _ _ _ _ He Hn').
      assert (E : ptr_new n' = ptr_new n).
      { unfold ast_id in H'. clear - H' H2. assert (forall m i id, find_ptr i (ptr_new n') m = Ok id -> exists j, id = i + j /\ nth_error m j = Some (ptr_new n')) as F.
        { clear. induction m as [|q m IH]; intros i id H; [discriminate|]. cbn [find_ptr] in H. destruct (ptr_eqb q (ptr_new n')) eqn:E.
          - apply ptr_eqb_eq in E as ->. injection H as <-. exists 0. rewrite Nat.add_0_r. auto.
          - destruct (IH _ _ H) as (j & -> & Hj). exists (S j). split; [lia|exact Hj]. }
        destruct (F _ _ _ H') as (j & -> & Hj). cbn [Nat.add] in H2. congruence. }
      symmetry. exact (C31_pointers_distinct _ _ _ _ Hp Hr Hr' Hne (eq_sym E)).
Qed.
Print Assumptions C32_ids_partial.

(** But the query runs [from_source] on the root, which has no parent: it panics for every file without errors, and gives an empty map for the others. *)
Theorem C32_refuted : forall t p, source_file_parse t = Ok p ->
  ast_id_map_query p = match pa_errors p with [] => Panic | _ => Ok [] end.
Proof. intros t p _. unfold ast_id_map_query, from_source. destruct (pa_errors p); reflexivity. Qed.
Print Assumptions C32_refuted.
Example C32_refuted_case : match source_file_parse (txt "local x = 1") with Ok p => ast_id_map_query p = Panic | _ => False end.
Proof. vm_compute. reflexivity. Qed.

(** * C33 The item tree *)
Lemma root_stmt_items t p : source_file_parse t = Ok p -> stmt_items (root_elem (pa_green p)) = [] /\ green_kind (pa_green p) = KSourceFile.
Proof.
  intros H. destruct (source_file_inv _ _ H) as (ls & fs & a & v & _ & _ & -> & _). split; reflexivity.
Qed.
(** The item tree of a file is never anything but empty: items are searched among the children of the root, whose only child is a block; and for a
    file without errors the query panics. *)
Theorem C33_refuted : forall t p, source_file_parse t = Ok p ->
  file_item_tree p = match pa_errors p with [] => Panic | _ => Ok tree_empty end.
Proof.
  intros t p H. unfold file_item_tree. rewrite (C32_refuted _ _ H). destruct (root_stmt_items _ _ H) as [E1 E2].
  destruct (pa_errors p); [reflexivity|]. cbn [rbind]. rewrite E2. cbn [kind_eqb]. unfold lower_module_items. rewrite E1. reflexivity.
Qed.
Print Assumptions C33_refuted.
Example C33_refuted_case : match source_file_parse (txt "local x = 1 local y ="), source_file_parse (txt "local x = 1") with
  | Ok p, Ok q => file_item_tree p = Ok tree_empty /\ file_item_tree q = Panic | _, _ => False end.
Proof. vm_compute. auto. Qed.
(** The body of a module is never lowered. *)
Theorem C33_bodies_panic : forall p, module_body p = Panic.
Proof. intros p. unfold module_body, ast_id_map_query, from_source. destruct (pa_errors p); reflexivity. Qed.
Print Assumptions C33_bodies_panic.

(** What lowering one statement gives. The names of a multi-name, read off the tree: the first token of each of its name nodes. *)
Definition names_in (g : green) : list text :=
  match g with
  | GNode _ cs => flat_map (fun c => match c with GNode KName (GTok _ w :: _) => [w] | _ => [] end) cs
  | GTok _ _ => []
  end.
(** Name nodes of a parsed tree hold one token. *)
Lemma lower_names t p e : source_file_parse t = Ok p -> In e (el_descendants (root_elem (pa_green p))) ->
  lower_multi_name e = Ok (names_in (el_green e)).
Proof.
  intros H Hin. unfold lower_multi_name, ast_children, el_children, el_children_with_tokens. pose proof (desc_gnode _ _ _ Hin) as G.
  destruct e as [off g]. cbn [el_green el_off] in *. destruct g as [k cs|]; [|discriminate]. cbn [names_in].
  assert (HN : forall e', In e' (descs off cs) -> el_kind e' = KName -> exists x, el_green e' = GNode KName [GTok KIdent x]).
  { intros e' He' Hk. assert (Hd : In e' (el_descendants (root_elem (pa_green p)))).
    { refine (desc_trans _ _ _ _ Hin _). unfold el_descendants. cbn [el_off el_green]. rewrite descendants_node. right. exact He'. }
    destruct (source_file_inv _ _ H) as (ls & fs & a & v & Hp & _ & E & _). rewrite E in Hd.
    destruct (parsed_name _ _ _ _ _ Hp Hd Hk) as (x & _ & _ & -> & _). eauto. }
  clear H Hin G. revert off HN. induction cs as [|c cs IH]; intros off HN; [reflexivity|].
  cbn [place filter el_green flat_map]. destruct c as [kc cc|kc x]; cbn [is_gnode].
  - cbn [filter el_kind el_green green_kind]. unfold el_kind at 1. cbn [el_green green_kind]. unfold is_kind at 1. destruct (kind_eqb kc KName) eqn:E.
    + apply kind_eqb_eq in E as ->. cbn [mapr].
      destruct (HN (mkElem off (GNode KName cc))) as (x & Hx); [cbn [descs]; apply in_or_app; left; rewrite descendants_node; now left|reflexivity|].
      cbn [el_green] in Hx. injection Hx as ->. unfold name_text at 1. cbn [el_green rbind]. rewrite IH; [reflexivity|].
      intros e' He' Hk. apply HN; [cbn [descs]; apply in_or_app; auto|exact Hk].
    + replace (match kc with KName => _ | _ => _ end) with (@nil text) by (destruct kc; try reflexivity; discriminate). cbn [app].
      apply IH. intros e' He' Hk. apply HN; [cbn [descs]; apply in_or_app; auto|exact Hk].
  - cbn [app]. apply IH. intros e' He' Hk. apply HN; [cbn [descs app descendants_at]; exact He'|exact Hk].
Qed.

Definition tops (fs : forest) : list kind := flat_map (fun t => match t with PNode k _ => [k] | PErrN _ _ => [KError] | _ => [] end) fs.
Lemma tops_app a b : tops (a ++ b) = tops a ++ tops b.
Proof. apply flat_map_app. Qed.
Lemma Dress_tops fs pos rt a : Dress fs pos rt a -> map green_kind (filter is_gnode (dr_green a)) = tops fs.
Proof.
  assert (T : forall tr, filter is_gnode (map gtok tr) = []) by (induction tr; auto).
  induction 1; cbn [dr_green]; rewrite ?filter_app, ?T; cbn [filter is_gnode gtok app map green_kind]; auto.
  - rewrite IHDress2. reflexivity.
  - rewrite IHDress2. reflexivity.
Qed.
Lemma req_tops s k f : req s k f -> tops f = [].
Proof. intros [->|[_ [e ->]]]; reflexivity. Qed.
(** The child nodes of a local statement and of a function statement. *)
Definition item_tops (k : kind) (fs : forest) : Prop :=
  (k = KLocalAssignStmt -> In KMultiName (tops fs)) /\
  (k = KFunctionDefStmt -> tops fs = [KFunctionDefContent; KParamList; KBlock]).
Lemma item_tops_other k fs : k <> KLocalAssignStmt -> k <> KFunctionDefStmt -> item_tops k fs.
Proof. intros A B. split; intros E; congruence. Qed.
Lemma tops_toks ks : every item_tops (map PTok ks).
Proof. apply every_toks. Qed.
Lemma tops_err s f : is_err s f -> every item_tops f.
Proof. intros (_ & e & [->|(ks & ->)]); [constructor|]. apply every_errn. split; [apply item_tops_other; discriminate|apply every_toks]. Qed.
Lemma tops_junk j : Forall junk j -> every item_tops j.
Proof.
  induction 1 as [|t j Ht _ IH]; [constructor|]. apply every_cons. split; [|exact IH]. destruct Ht as [(ks & e & ->)|(s & Hs & ->)].
  - apply every_errn. split; [apply item_tops_other; discriminate|apply every_toks].
  - apply every_node. split; [apply item_tops_other; discriminate|constructor].
Qed.
Lemma tops_opt s x : x = [] \/ is_err s x -> every item_tops x.
Proof. intros [->|H]; [constructor|exact (tops_err _ _ H)]. Qed.
Lemma Tree_tops s n f : Tree s n f -> every item_tops f.
Proof.
  induction 1;
  repeat match goal with
  | H : every _ ?f |- every _ ?f => exact H
  | |- every _ (_ ++ _) => apply every_app; split
  | |- every _ [] => apply every_nil
  | |- every _ [PTok _] => apply every_tok
  | |- every _ [PNode _ _] => apply every_node; split
  | |- every _ (_ :: _) => apply every_cons; split
  | H : req _ _ ?f |- every _ ?f => exact (every_req _ _ _ _ H)
  | H : is_err _ ?f |- every _ ?f => exact (tops_err _ _ H)
  | H : Forall junk ?f |- every _ ?f => exact (tops_junk _ H)
  | H : ?sc = [] \/ ?sc = [PTok KSemicolon] |- every _ ?sc => exact (every_sc _ _ H)
  | H : ?sc = [] \/ is_err _ ?sc |- every _ ?sc => exact (tops_opt _ _ H)
  | |- item_tops _ _ => first [apply item_tops_other; discriminate]
  end.
  - split; [intros _; cbn; auto|discriminate].
  - split; [intros _; cbn; auto|discriminate].
  - split; [discriminate|intros _]. change (PTok KFunctionKw :: n ++ p ++ b ++ en) with ([PTok KFunctionKw] ++ n ++ p ++ b ++ en).
    rewrite !tops_app, (req_tops _ _ _ H2), app_nil_r. inversion H; subst; inversion H0; subst; inversion H1; subst; reflexivity.
Qed.
Lemma item_children t p e : source_file_parse t = Ok p -> In e (el_descendants (root_elem (pa_green p))) -> stmt_item_can_cast (el_kind e) = true ->
  exists fs, item_tops (el_kind e) fs /\ map el_kind (el_children e) = tops fs.
Proof.
  intros H Hin Hk. destruct (source_file_inv _ _ H) as (ls & fs & a & v & Hp & _ & E & _). rewrite E in Hin. rewrite root_descs in Hin.
  destruct Hin as [<-|[<-|Hin]]; try discriminate Hk.
  destruct (parsed_origin _ _ _ _ _ Hp Hin) as (k & f & c & rt & b & K & Hs & Hall & Ho & HD & Hg & He & HK).
  assert (Ek : el_kind e = k) by (unfold el_kind; now rewrite Hg). rewrite Ek in *. exists f.
  split; [exact (every_in _ _ _ _ (Tree_tops _ _ _ (pd_tree _ _ _ _ Hp)) Hs)|].
  rewrite <- (Dress_tops _ _ _ _ HD). unfold el_children, el_children_with_tokens. rewrite Hg. generalize (el_off e). clear.
  induction (dr_green b) as [|g gs IH]; intros off; [reflexivity|]. cbn [place filter el_green]. destruct (is_gnode g); [|apply IH]. cbn [map]. f_equal. apply IH.
Qed.
Lemma children_descs off cs : incl (filter (fun c => is_gnode (el_green c)) (place off cs)) (descs off cs).
Proof.
  revert off. induction cs as [|c cs IH]; intros off x H; [destruct H|]. cbn [place filter el_green descs] in *. apply in_or_app.
  destruct c as [k cc|k y]; cbn [is_gnode] in H; [|right; exact (IH _ _ H)]. destruct H as [<-|H]; [left; rewrite descendants_node; now left|right; exact (IH _ _ H)].
Qed.
Lemma el_children_desc e n : In n (el_children e) -> In n (el_descendants e).
Proof.
  unfold el_children, el_children_with_tokens, el_descendants. destruct e as [off g]. cbn [el_green el_off]. destruct g as [k cs|]; [|intros []].
  intros H. rewrite descendants_node. right. exact (children_descs _ _ _ H).
Qed.

(** A local statement is lowered to an item with its names and its id; it never panics if it has an id. *)
Theorem C33_local_partial : forall t p e m id s, source_file_parse t = Ok p -> In e (el_descendants (root_elem (pa_green p))) ->
  el_kind e = KLocalAssignStmt -> ast_id m e = Ok id ->
  exists mn, In mn (el_children e) /\ el_kind mn = KMultiName /\
    lower_mod_item m e s = Ok (Some (MLocalAssign (length (it_assigns s))),
      mkTree (it_top s) (it_assigns s ++ [mkLA (names_in (el_green mn)) id]) (it_locals s) (it_funs s)).
Proof.
  intros t p e m id s H Hin Hk Hid. destruct (item_children _ _ _ H Hin) as (fs & [HT _] & HC); [now rewrite Hk|]. specialize (HT Hk).
  unfold lower_mod_item. rewrite Hk. unfold lower_local_assign, ast_child, ast_children.
  destruct (filter (fun c => is_kind KMultiName (el_kind c)) (el_children e)) as [|mn l] eqn:E.
  - exfalso. rewrite <- HC in HT. apply in_map_iff in HT as (x & Hx & Hi). assert (In x []) as []. rewrite <- E. apply filter_In. split; [exact Hi|]. unfold is_kind. now rewrite Hx.
  - assert (HI : In mn (el_children e) /\ is_kind KMultiName (el_kind mn) = true). { apply (proj1 (filter_In (fun c => is_kind KMultiName (el_kind c)) mn (el_children e))). rewrite E. now left. }
    destruct HI as [HI HK]. apply kind_eqb_eq in HK. exists mn. split; [exact HI|]. split; [exact HK|]. cbn [hd_error].
    rewrite (lower_names _ _ _ H (desc_trans _ _ _ _ Hin (el_children_desc _ _ HI))). cbn [rbind]. rewrite Hid. reflexivity.
Qed.
Print Assumptions C33_local_partial.

(** A function statement is never lowered: its content is looked for among its children, where the wrapper node hides it. *)
Theorem C33_functions_refuted : forall t p e m s, source_file_parse t = Ok p -> In e (el_descendants (root_elem (pa_green p))) ->
  el_kind e = KFunctionDefStmt -> lower_mod_item m e s = Ok (None, s).
Proof.
  intros t p e m s H Hin Hk. destruct (item_children _ _ _ H Hin) as (fs & [_ HT] & HC); [now rewrite Hk|]. specialize (HT Hk). rewrite HT in HC.
  unfold lower_mod_item. rewrite Hk. unfold lower_function, ast_child, ast_children.
  destruct (el_children e) as [|a [|b [|c [|]]]]; try discriminate. cbn [map] in HC. injection HC as A B C. cbn [filter]. rewrite A, B, C. reflexivity.
Qed.
Print Assumptions C33_functions_refuted.
Example C33_local_case : match source_file_parse (txt "local a, b = 1") with
  | Ok p => match from_source true (mkElem 0 (match pa_green p with GNode _ [b] => b | g => g end)) with
            | Ok m => lower_items m (filter (fun e => stmt_item_can_cast (el_kind e)) (el_descendants (root_elem (pa_green p)))) tree_empty
                      = Ok ([MLocalAssign 0], mkTree [] [mkLA [txt "a"; txt "b"] 1] [] [])
            | _ => False end
  | _ => False end.
Proof. vm_compute. reflexivity. Qed.

(** ** The items of a list of statements *)
(** The first child node of a kind, and whether a token of a kind is a child. *)
Definition sub_of (k : kind) (g : green) : option green :=
  match g with GNode _ cs => find (fun c => is_gnode c && kind_eqb (green_kind c) k) cs | GTok _ _ => None end.
Definition has_tok (k : kind) (g : green) : bool :=
  match g with GNode _ cs => existsb (fun c => negb (is_gnode c) && kind_eqb (green_kind c) k) cs | GTok _ _ => false end.
(** An item, with the data the arenas hold for it. *)
Inductive item :=
| ILocal (names : list text) (id : nat)
| ILocalFunction (name : text) (params : list text) (vararg : bool) (id : nat)
| IFunction (path : list text) (name : text) (method : bool) (id : nat).
Definition item_of (s : item_tree) (i : mod_item) : option item :=
  match i with
  | MLocalAssign n => option_map (fun a => ILocal (la_names a) (la_id a)) (nth_error (it_assigns s) n)
  | MLocalFunction n => option_map (fun a => ILocalFunction (lf_name a) (pl_names (lf_params a)) (pl_vararg (lf_params a)) (lf_id a)) (nth_error (it_locals s) n)
  | MFunction n => option_map (fun a => IFunction (fi_path a) (fi_name a) (fi_method a) (fi_id a)) (nth_error (it_funs s) n)
  end.
(** What a statement should give, and gives: a local statement its names; a local function its name, its
    parameters and whether it takes more — but nothing if it has no parameter list to show, because it is written
    [()]; a function statement nothing. *)
Definition item_wanted (g : green) (id : nat) : list item :=
  match green_kind g with
  | KLocalAssignStmt => match sub_of KMultiName g with Some m => [ILocal (names_in m) id] | None => [] end
  | KLocalFunctionDefStmt =>
    match sub_of KName g, sub_of KParamList g with
    | Some (GNode _ [GTok _ n]), Some pl =>
      match sub_of KMultiName pl with Some m => [ILocalFunction n (names_in m) (has_tok KTripleDot pl) id] | None => [] end
    | _, _ => []
    end
  | _ => []
  end.

Lemma child_sub k e : match ast_child (is_kind k) e with
  | Some c => In c (el_children e) /\ el_kind c = k /\ sub_of k (el_green e) = Some (el_green c)
  | None => sub_of k (el_green e) = None end.
Proof.
  unfold ast_child, ast_children, el_children, el_children_with_tokens, sub_of. destruct e as [off g]. cbn [el_green el_off]. destruct g as [k0 cs|k0 x]; [|reflexivity].
  revert off. induction cs as [|c cs IH]; intros off; [reflexivity|]. cbn [place filter el_green find]. destruct (is_gnode c) eqn:G; cbn [andb].
  - cbn [filter]. unfold is_kind at 1, el_kind at 1. cbn [el_green]. destruct (kind_eqb (green_kind c) k) eqn:E.
    + cbn [hd_error]. split; [now left|]. split; [now apply kind_eqb_eq|reflexivity].
    + specialize (IH (off + green_len c)). destruct (hd_error _) as [d|]; [|exact IH]. destruct IH as (A & B & C). split; [now right|auto].
  - exact (IH (off + green_len c)).
Qed.
Lemma tok_has k e : match ast_token k e with Some _ => true | None => false end = has_tok k (el_green e).
Proof.
  unfold ast_token, el_children_with_tokens, has_tok. destruct e as [off g]. cbn [el_green el_off]. destruct g as [k0 cs|k0 x]; [|reflexivity].
  revert off. induction cs as [|c cs IH]; intros off; [reflexivity|]. cbn [place filter existsb]. cbn [el_green]. destruct (is_gnode c) eqn:G; cbn [negb andb orb filter].
  - apply IH.
  - unfold el_kind at 1. cbn [el_green]. destruct (kind_eqb (green_kind c) k); cbn [orb]; [reflexivity|apply IH].
Qed.

Lemma lower_one t p e m id s : source_file_parse t = Ok p -> In e (el_descendants (root_elem (pa_green p))) ->
  stmt_item_can_cast (el_kind e) = true -> ast_id m e = Ok id ->
  exists o s', lower_mod_item m e s = Ok (o, s') /\ map (item_of s') (match o with Some i => [i] | None => [] end) = map Some (item_wanted (el_green e) id) /\
    forall i x, item_of s i = Some x -> item_of s' i = Some x.
Proof.
  intros H Hin Hk Hid. assert (K : el_kind e = KLocalAssignStmt \/ el_kind e = KLocalFunctionDefStmt \/ el_kind e = KFunctionDefStmt).
  { destruct (el_kind e); try discriminate Hk; auto. }
  assert (Grow : forall {A} (l l' : list A) n x, nth_error l n = Some x -> nth_error (l ++ l') n = Some x).
  { intros A l l' n x E. rewrite nth_error_app1; [exact E|]. apply nth_error_Some. congruence. }
  assert (Last : forall {A} (l : list A) x, nth_error (l ++ [x]) (length l) = Some x).
  { intros A l x. rewrite nth_error_app2, Nat.sub_diag; [reflexivity|lia]. }
  destruct K as [K|[K|K]].
  - unfold lower_mod_item, item_wanted. rewrite K. unfold el_kind in K. rewrite K. unfold lower_local_assign.
    pose proof (child_sub KMultiName e) as CS. destruct (ast_child (is_kind KMultiName) e) as [mn|].
    + destruct CS as (HI & _ & ->). rewrite (lower_names _ _ _ H (desc_trans _ _ _ _ Hin (el_children_desc _ _ HI))). cbn [rbind]. rewrite Hid.
      eexists _, _. split; [reflexivity|]. split; [cbn [map item_of it_assigns]; rewrite Last; reflexivity|].
      intros [n|n|n] x; cbn [item_of it_assigns it_locals it_funs]; auto. destruct (nth_error (it_assigns s) n) eqn:E; [|discriminate]. rewrite (Grow _ _ _ _ _ E). auto.
    + rewrite CS. eexists _, _. split; [reflexivity|]. split; [reflexivity|auto].
  - unfold lower_mod_item, item_wanted. rewrite K. unfold el_kind in K. rewrite K. unfold lower_local_function.
    pose proof (child_sub KName e) as CN. destruct (ast_child (is_kind KName) e) as [nm|].
    2:{ rewrite CN. eexists _, _. split; [reflexivity|]. split; [reflexivity|auto]. }
    destruct CN as (HN & KN & ->).
    destruct (source_file_inv _ _ H) as (ls & fs & a & v & Hp & _ & E & _).
    assert (Hd : In nm (el_descendants (root_elem (root_of a)))) by (rewrite <- E; exact (desc_trans _ _ _ _ Hin (el_children_desc _ _ HN))).
    destruct (parsed_name _ _ _ _ _ Hp Hd KN) as (x & _ & _ & EN & _). unfold name_text. rewrite EN. cbn [rbind].
    pose proof (child_sub KParamList e) as CP. destruct (ast_child (is_kind KParamList) e) as [pl|].
    2:{ rewrite CP. eexists _, _. split; [reflexivity|]. split; [reflexivity|auto]. }
    destruct CP as (HP & KP & ->). unfold lower_params.
    pose proof (child_sub KMultiName pl) as CS. destruct (ast_child (is_kind KMultiName) pl) as [mn|].
    2:{ rewrite CS. eexists _, _. split; [reflexivity|]. split; [reflexivity|auto]. }
    destruct CS as (HI & _ & ->).
    rewrite (lower_names _ _ _ H (desc_trans _ _ _ _ (desc_trans _ _ _ _ Hin (el_children_desc _ _ HP)) (el_children_desc _ _ HI))). cbn [rbind]. rewrite Hid, tok_has.
    eexists _, _. split; [reflexivity|]. split; [cbn [map item_of it_locals]; rewrite Last; reflexivity|].
    intros [n|n|n] y; cbn [item_of it_assigns it_locals it_funs]; auto. destruct (nth_error (it_locals s) n) eqn:En; [|discriminate]. rewrite (Grow _ _ _ _ _ En). auto.
  - rewrite (C33_functions_refuted _ _ _ m s H Hin K). unfold item_wanted. unfold el_kind in K. rewrite K. eexists _, _. split; [reflexivity|]. split; [reflexivity|auto].
Qed.

(** Lowering any list of the file's item statements gives their items, in order, whatever the arenas held before. *)
Theorem C33_items_partial : forall t p m es ids s, source_file_parse t = Ok p -> incl es (el_descendants (root_elem (pa_green p))) ->
  Forall (fun e => stmt_item_can_cast (el_kind e) = true) es -> Forall2 (fun e id => ast_id m e = Ok id) es ids ->
  exists l s', lower_items m es s = Ok (l, s') /\
    map (item_of s') l = map Some (flat_map (fun ei => item_wanted (el_green (fst ei)) (snd ei)) (combine es ids)) /\
    forall i x, item_of s i = Some x -> item_of s' i = Some x.
Proof.
  intros t p m es ids s H HI HK HF. revert s HI HK. induction HF as [|e id es ids He HF IH]; intros s HI HK.
  - exists [], s. split; [reflexivity|]. split; [reflexivity|auto].
  - inversion HK as [|? ? K1 K2]; subst. destruct (lower_one _ _ e m id s H (HI _ (or_introl eq_refl)) K1 He) as (o & s1 & L1 & M1 & G1).
    destruct (IH s1 (fun x Hx => HI x (or_intror Hx)) K2) as (l & s' & L2 & M2 & G2).
    cbn [lower_items]. rewrite L1. cbn [rbind]. rewrite L2. cbn [rbind]. eexists _, _. split; [reflexivity|]. split.
    + cbn [combine flat_map fst snd]. rewrite map_app, <- M2, <- M1. destruct o as [i|]; [|reflexivity]. cbn [map app]. f_equal.
      cbn [map] in M1. destruct (item_wanted (el_green e) id) as [|x [|]]; try discriminate. cbn [map] in M1. injection M1 as M1. rewrite M1. exact (G2 _ _ M1).
    + intros i x Hx. exact (G2 _ _ (G1 _ _ Hx)).
Qed.
Print Assumptions C33_items_partial.
Example C33_items_case : match source_file_parse (txt "local a, b = 1 local function f(x, ...) end function g() end local function h() end local c") with
  | Ok p => match from_source true (mkElem 0 (match pa_green p with GNode _ (b :: _) => b | g => g end)) with
            | Ok m => match lower_items m (filter (fun e => stmt_item_can_cast (el_kind e)) (el_descendants (root_elem (pa_green p)))) tree_empty with
              | Ok (l, s) => map (item_of s) l = map Some [ILocal [txt "a"; txt "b"] 1; ILocalFunction (txt "f") [txt "x"] true 2; ILocal [txt "c"] 5]
              | _ => False end
            | _ => False end
  | _ => False end.
Proof. vm_compute. reflexivity. Qed.
(** A local function without parameters is not lowered. *)
Theorem C33_no_params_refuted : exists t p e m id, source_file_parse t = Ok p /\ pa_errors p = [] /\ In e (el_descendants (root_elem (pa_green p))) /\
  el_kind e = KLocalFunctionDefStmt /\ ast_id m e = Ok id /\ green_text (el_green e) = txt "local function f() end" /\ forall s, lower_mod_item m e s = Ok (None, s).
Proof.
  destruct (source_file_parse (txt "local function f() end")) as [p| |] eqn:H; [|vm_compute in H; discriminate..].
  exists (txt "local function f() end"), p. vm_compute in H. injection H as <-.
  match goal with |- context [el_descendants (root_elem (pa_green ?q))] => exists (nth 2 (el_descendants (root_elem (pa_green q))) (root_elem (pa_green q))) end.
  match goal with |- context [In ?e _] => exists [ptr_new e], 0 end.
  split; [reflexivity|]. split; [reflexivity|]. split; [vm_compute; auto|]. split; [reflexivity|]. split; [reflexivity|]. split; [reflexivity|]. intros s. reflexivity.
Qed.
Print Assumptions C33_no_params_refuted.

(** Blocks have ids too; the id of a block that is not empty gives it back. *)
Theorem C32_block_ids_partial : forall t p e, source_file_parse t = Ok p -> In e (el_descendants (root_elem (pa_green p))) ->
  exists m, from_source true e = Ok m /\
    forall n, In n (el_descendants e) -> el_kind n = KBlock -> exists id, ast_id m n = Ok id /\
      (r_start (el_range n) < r_end (el_range n) ->
        (exists q, ast_get (is_kind KBlock) m id = Ok q /\ ast_ptr_to_node (is_kind KBlock) q (pa_green p) = Ok n) /\
        (forall n', In n' (el_descendants e) -> ast_id m n' = Ok id -> n' = n)).
Proof.
  intros t p e Hp He. pose proof (desc_gnode _ _ _ He) as G. destruct (C32_traversal has_ast_id e G) as (l & Hl & _ & Hin & _).
  unfold from_source. rewrite Hl. cbn [rbind]. eexists. split; [reflexivity|]. set (m := map _ _).
  intros n Hn Hk. assert (Hr : In n (el_descendants (root_elem (pa_green p)))) by exact (desc_trans _ _ _ _ He Hn).
  destruct (find_ptr_ok (ptr_new n) m 0) as (id & H1 & H2).
  { apply desc_path in Hn as (q & Hq). unfold m. apply in_map_iff. exists (q, n). split; [reflexivity|]. apply filter_In. split; [now apply Hin|].
    unfold has_ast_id. cbn [snd]. rewrite Hk. reflexivity. }
  exists id. split; [exact H1|]. intros Hne. split.
  - destruct (C31_typed_pointer_resolves_partial _ _ _ (is_kind KBlock) Hp Hr Hne) as [A B]. { rewrite Hk. reflexivity. }
    exists (ptr_new n). split; [|exact B]. unfold ast_get, runwrap. rewrite H2. cbn [rbind]. rewrite A. reflexivity.
  - intros n' Hn' H'. assert (Hr' : In n' (el_descendants (root_elem (pa_green p)))) by exact (desc_trans _ _ _ _ He Hn').
    assert (E : ptr_new n' = ptr_new n).
    { unfold ast_id in H'. clear - H' H2. assert (forall m i id, find_ptr i (ptr_new n') m = Ok id -> exists j, id = i + j /\ nth_error m j = Some (ptr_new n')) as F.
      { clear. induction m as [|q m IH]; intros i id H; [discriminate|]. cbn [find_ptr] in H. destruct (ptr_eqb q (ptr_new n')) eqn:E.
        - apply ptr_eqb_eq in E as ->. injection H as <-. exists 0. rewrite Nat.add_0_r. auto.
        - destruct (IH _ _ H) as (j & -> & Hj). exists (S j). split; [lia|exact Hj]. }
      destruct (F _ _ _ H') as (j & -> & Hj). cbn [Nat.add] in H2. congruence. }
    symmetry. exact (C31_pointers_distinct _ _ _ _ Hp Hr Hr' Hne (eq_sym E)).
Qed.
Print Assumptions C32_block_ids_partial.
