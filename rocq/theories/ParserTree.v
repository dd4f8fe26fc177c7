(** ParserTree.v — a second implementation of the parser operations, which builds the tree
    directly, and the proof that the event-based parser of parser.rs computes an event encoding
    of exactly that tree. *)
From Verif Require Import Base SyntaxKind TokenSet Lexer BindingPowers Parser Grammar.

(** Trees over the non-trivia tokens, with errors in place. *)
Inductive ptree :=
| PTok (k : kind)
| PErr (e : perr)
| PErrN (fs : list ptree) (e : perr)
| PNode (k : kind) (fs : list ptree).
Definition forest := list ptree.

Record tstate := mkDS { ds_rem : list kind; ds_for : forest }.
Definition D (A : Type) : Type := tstate -> res (A * tstate).

Definition tr_ret {A} (a : A) : D A := fun st => Ok (a, st).
Definition tr_bind {A B} (m : D A) (f : A -> D B) : D B :=
  fun st => rbind (m st) (fun r => f (fst r) (snd r)).
Definition tr_panic {A} : D A := fun _ => Panic.
Definition tr_out {A} : D A := fun _ => OutOfFuel.
Definition tr_nth (n : nat) : D kind := fun st => Ok (nth n (ds_rem st) KEof, st).
Definition tr_adv : D unit :=
  fun st => match ds_rem st with
            | k :: r => if kind_eqb k KEof then Panic
                        else Ok (tt, mkDS r (ds_for st ++ [PTok k]))
            | [] => Panic
            end.
Definition tr_error (e : perr) : D unit :=
  fun st => Ok (tt, mkDS (ds_rem st) (ds_for st ++ [PErr e])).
Definition tr_node (body : D kind) : D nat :=
  fun st => let? (k, st') := body (mkDS (ds_rem st) []) in
            Ok (length (ds_for st), mkDS (ds_rem st') (ds_for st ++ [PNode k (ds_for st')])).
Definition tr_pre (i : nat) (body : D kind) : D nat :=
  fun st =>
    match skipn i (ds_for st) with
    | PNode kt ft :: pre =>
      let? (k, st') := body (mkDS (ds_rem st) []) in
      Ok (i, mkDS (ds_rem st')
               (firstn i (ds_for st) ++ [PNode k (PNode kt ft :: pre ++ ds_for st')]))
    | _ => Panic
    end.
Definition tr_err_node (body : D perr) : D unit :=
  fun st => let? (e, st') := body (mkDS (ds_rem st) []) in
            Ok (tt, mkDS (ds_rem st') (ds_for st ++ [PErrN (ds_for st') e])).

Definition tree_ops : ops :=
  {| M := D; mark := nat; ret := @tr_ret; bind := @tr_bind; panic := @tr_panic; out := @tr_out;
     p_nth := tr_nth; p_adv := tr_adv; p_push_error := tr_error;
     node_by := tr_node; pre_node_by := tr_pre; err_node := tr_err_node |}.

(** ** Encoding of trees as event lists *)

(** [EncX fp t ev j]: [ev] encodes the node [t], its own start event is at [j] and carries the
    forward parent [fp]. *)
Inductive EncX : option nat -> ptree -> list event -> nat -> Prop :=
| EX_node fp k fs ev :
    EncF fs ev -> EncX fp (PNode k fs) (EStart k fp :: ev ++ [EFinish]) 0
| EX_pre fp k t pre post evt j evp evq :
    EncX (Some (length evt + length evp - j)) t evt j ->
    EncF pre evp -> EncF post evq ->
    EncX fp (PNode k (t :: pre ++ post))
         (evt ++ evp ++ EStart k fp :: evq ++ [EFinish]) (length evt + length evp)
with Enc1 : ptree -> list event -> Prop :=
| E_tok k : Enc1 (PTok k) [EToken]
| E_err e : Enc1 (PErr e) [EError e]
| E_errn fs e ev : EncF fs ev -> Enc1 (PErrN fs e) (EStartError :: ev ++ [EFinishError e])
| E_node t ev j : EncX None t ev j -> Enc1 t ev
with EncF : list ptree -> list event -> Prop :=
| EF_nil : EncF [] []
| EF_cons t f ev ev' : Enc1 t ev -> EncF f ev' -> EncF (t :: f) (ev ++ ev').

Scheme EncX_mind := Minimality for EncX Sort Prop
  with Enc1_mind := Minimality for Enc1 Sort Prop
  with EncF_mind := Minimality for EncF Sort Prop.
Combined Scheme Enc_mutind from EncX_mind, Enc1_mind, EncF_mind.

Lemma EncF_app f1 f2 e1 e2 : EncF f1 e1 -> EncF f2 e2 -> EncF (f1 ++ f2) (e1 ++ e2).
Proof.
  intros H1 H2. induction H1 as [|t f ev ev' Ht Hf IH]; [exact H2|].
  simpl. rewrite <- app_assoc. now constructor.
Qed.

Lemma EncF_one t ev : Enc1 t ev -> EncF [t] ev.
Proof. intros H. rewrite <- (app_nil_r ev). constructor; [exact H|constructor]. Qed.

Lemma EncF_split f1 f2 ev : EncF (f1 ++ f2) ev ->
  exists e1 e2, ev = e1 ++ e2 /\ EncF f1 e1 /\ EncF f2 e2.
Proof.
  revert ev; induction f1 as [|t f1 IH]; intros ev H; simpl in H.
  - exists [], ev. repeat split; [constructor|exact H].
  - inversion H as [|? ? a b Ha Hb]; subst. destruct (IH _ Hb) as (e1 & e2 & -> & H1 & H2).
    exists (a ++ e1), e2. rewrite app_assoc. repeat split; [now constructor|exact H2].
Qed.

Lemma list_set_app {A} (a b : list A) (x y : A) n :
  n = length a -> list_set (a ++ x :: b) n y = a ++ y :: b.
Proof. intros ->. induction a as [|z a IH]; simpl; [reflexivity|now rewrite IH]. Qed.

Lemma list_set_app_l {A} (a b : list A) n y :
  n < length a -> list_set (a ++ b) n y = list_set a n y ++ b.
Proof.
  revert n; induction a as [|z a IH]; simpl; intros n H; [lia|].
  destruct n; [reflexivity|]. simpl. rewrite IH by lia. reflexivity.
Qed.

Lemma list_set_app_r {A} (a b : list A) n y :
  list_set (a ++ b) (length a + n) y = a ++ list_set b n y.
Proof. induction a as [|z a IH]; simpl; [reflexivity|now rewrite IH]. Qed.

Lemma list_set_length {A} (l : list A) n y : length (list_set l n y) = length l.
Proof. revert n; induction l as [|x l IH]; intros [|n]; simpl; auto. Qed.

Lemma nth_error_mid {A} (a b : list A) x n :
  n = length a -> nth_error (a ++ x :: b) n = Some x.
Proof. intros ->. rewrite nth_error_app2 by lia. now rewrite Nat.sub_diag. Qed.

(** Setting the forward parent of an encoded node. *)
Lemma EncX_set fp fp' t ev j : EncX fp t ev j ->
  exists k, nth_error ev j = Some (EStart k fp) /\ j < length ev /\
            EncX fp' t (list_set ev j (EStart k fp')) j.
Proof.
  intros H; inversion H as [? k fs e He | ? k t' pre post evt j' evp evq Ht Hp Hq]; subst.
  - exists k. simpl. split; [reflexivity|]. split; [lia|]. apply EX_node; exact He.
  - exists k. rewrite app_assoc. split; [|split].
    + apply nth_error_mid. now rewrite app_length.
    + rewrite !app_length. simpl. lia.
    + rewrite list_set_app by (now rewrite app_length). rewrite <- app_assoc. eapply EX_pre; eassumption.
Qed.

(** ** Relating the two implementations *)

Definition SrcRel (s : token_source) (rem : list kind) : Prop :=
  ts_curr s = mk_token (ts_pos s) (ts_pairs s) /\
  rem = map (fun p => t_kind (fst p)) (skipn (ts_pos s) (ts_pairs s)).

Definition Rel (E : list event) (st : pstate) (ds : tstate) : Prop :=
  SrcRel (p_src st) (ds_rem ds) /\
  exists ev, p_events st = E ++ ev /\ EncF (ds_for ds) ev.

(** A completed marker and the index of its tree. *)
Definition MR (E : list event) (st : pstate) (ds : tstate) (c : cmark) (i : nat) : Prop :=
  exists f0 k ft f1 ev0 evt j ev1,
    ds_for ds = f0 ++ PNode k ft :: f1 /\ length f0 = i /\
    p_events st = E ++ ev0 ++ evt ++ ev1 /\
    EncF f0 ev0 /\ EncX None (PNode k ft) evt j /\ EncF f1 ev1 /\
    c_start c = length E + length ev0 + j.

Definition vrel (A B : Type) := list event -> pstate -> tstate -> A -> B -> Prop.
Definition eqR {A} : vrel A A := fun _ _ _ a b => a = b.
Definition optR {A B} (R : vrel A B) : vrel (option A) (option B) :=
  fun E st ds a b => match a, b with
                     | Some x, Some y => R E st ds x y
                     | None, None => True
                     | _, _ => False
                     end.
Definition pairR {A B C} (R : vrel A B) : vrel (A * C) (B * C) :=
  fun E st ds a b => R E st ds (fst a) (fst b) /\ snd a = snd b.
Definition prel := list event -> pstate -> tstate -> Prop.
Definition anyP : prel := fun _ _ _ => True.
Definition mP (c : cmark) (i : nat) : prel := fun E st ds => MR E st ds c i.

Definition Rg {A B} (Pre : prel) (AR : vrel A B) (m : P A) (d : D B) : Prop :=
  forall E st ds, Rel E st ds -> Pre E st ds ->
    match d ds with
    | Ok (b, ds') => exists a st', m st = Ok (a, st') /\ Rel E st' ds' /\ AR E st' ds' a b
    | Panic => m st = Panic
    | OutOfFuel => m st = OutOfFuel
    end.

Notation EO := event_ops.
Notation TO := tree_ops.

Lemma Rg_weaken {A B} (Pre : prel) (AR : vrel A B) m d : Rg anyP AR m d -> Rg Pre AR m d.
Proof. intros H E st ds HR HP. apply H; [exact HR|exact I]. Qed.

Lemma Rg_ret {A B} (Pre : prel) (AR : vrel A B) (a : A) (b : B) :
  (forall E st ds, Pre E st ds -> AR E st ds a b) ->
  Rg Pre AR (@ret EO A a) (@ret TO B b).
Proof. intros H E st ds HR HP. simpl. exists a, st. auto. Qed.

Lemma Rg_ret_eq {A} Pre (a : A) : Rg Pre eqR (@ret EO A a) (@ret TO A a).
Proof. apply Rg_ret. reflexivity. Qed.

Lemma Rg_panic {A B} Pre (AR : vrel A B) : Rg Pre AR (@panic EO A) (@panic TO B).
Proof. intros E st ds HR HP. reflexivity. Qed.
Lemma Rg_out {A B} Pre (AR : vrel A B) : Rg Pre AR (@out EO A) (@out TO B).
Proof. intros E st ds HR HP. reflexivity. Qed.

Lemma Rg_bind {A B A' B'} Pre (AR : vrel A B) (BR : vrel A' B')
  (m : P A) (d : D B) (k : A -> P A') (k' : B -> D B') :
  Rg Pre AR m d ->
  (forall a b, Rg (fun E st ds => AR E st ds a b) BR (k a) (k' b)) ->
  Rg Pre BR (@bind EO A A' m k) (@bind TO B B' d k').
Proof.
  intros Hm Hk E st ds HR HP. specialize (Hm E st ds HR HP).
  cbn [bind EO TO event_ops tree_ops]. unfold pbind, tr_bind.
  destruct (d ds) as [[b ds']| |]; cbn [rbind fst snd].
  - destruct Hm as (a & st' & -> & HR' & Ha). cbn [rbind fst snd]. apply Hk; assumption.
  - now rewrite Hm.
  - now rewrite Hm.
Qed.

Lemma Rg_bind_eq {C A' B'} Pre (BR : vrel A' B')
  (m : P C) (d : D C) (k : C -> P A') (k' : C -> D B') :
  Rg Pre eqR m d ->
  (forall a, Rg anyP BR (k a) (k' a)) ->
  Rg Pre BR (@bind EO C A' m k) (@bind TO C B' d k').
Proof.
  intros Hm Hk. eapply Rg_bind; [exact Hm|].
  intros a b E st ds HR Hab. unfold eqR in Hab. subst b. apply Hk; [exact HR|exact I].
Qed.

(** The result of the first computation is dropped. *)
Lemma Rg_bind_drop {A B A' B'} Pre (AR : vrel A B) (BR : vrel A' B')
  (m : P A) (d : D B) (k : P A') (k' : D B') :
  Rg Pre AR m d -> Rg anyP BR k k' ->
  Rg Pre BR (@bind EO A A' m (fun _ => k)) (@bind TO B B' d (fun _ => k')).
Proof. intros Hm Hk. eapply Rg_bind; [exact Hm|]. intros a b. now apply Rg_weaken. Qed.

Lemma src_nth s rem n : SrcRel s rem -> t_kind (ts_lookahead s n) = nth n rem KEof.
Proof.
  intros [_ ->]. unfold ts_lookahead, mk_token.
  generalize (ts_pairs s) as l; intros l. generalize (ts_pos s) as p; intros p.
  revert l; induction p as [|p IH]; intros l.
  - simpl. revert n; induction l as [|[x y] l IHl]; intros [|n]; simpl; auto.
  - destruct l as [|x l]; simpl.
    + destruct n; reflexivity.
    + apply IH.
Qed.

(** Reading keeps everything. *)
Lemma Rg_nth {A B} Pre (BR : vrel A B) n (k : kind -> P A) (k' : kind -> D B) :
  (forall x, Rg Pre BR (k x) (k' x)) ->
  Rg Pre BR (@bind EO kind A (@p_nth EO n) k) (@bind TO kind B (@p_nth TO n) k').
Proof.
  intros Hk E st ds HR HP. cbn [bind p_nth EO TO event_ops tree_ops].
  unfold pbind, tr_bind, ev_nth, tr_nth. cbn [rbind fst snd].
  destruct HR as [Hs He]. rewrite (src_nth _ _ n Hs). apply Hk; [split; assumption|exact HP].
Qed.

Lemma Rg_nth1 Pre n : Rg Pre eqR (@p_nth EO n) (@p_nth TO n).
Proof.
  intros E st ds HR HP. cbn. unfold ev_nth. eexists _, st. split; [reflexivity|].
  split; [exact HR|]. destruct HR as [Hs He]. apply (src_nth _ _ n Hs).
Qed.

Lemma Rg_at {A B} Pre (BR : vrel A B) a (k : bool -> P A) (k' : bool -> D B) :
  (forall x, Rg Pre BR (k x) (k' x)) ->
  Rg Pre BR (@bind EO bool A (@p_at EO a) k) (@bind TO bool B (@p_at TO a) k').
Proof.
  intros Hk E st ds HR HP. unfold p_at, p_current. cbn [bind p_nth ret EO TO event_ops tree_ops].
  unfold pbind, tr_bind, ev_nth, tr_nth, pret, tr_ret. cbn [rbind fst snd].
  destruct HR as [Hs He]. rewrite (src_nth _ _ 0 Hs). apply Hk; [split; assumption|exact HP].
Qed.

Lemma Rg_at1 Pre a : Rg Pre eqR (@p_at EO a) (@p_at TO a).
Proof. unfold p_at. apply Rg_nth. intros x. apply Rg_ret_eq. Qed.

Lemma src_bump s rem :
  SrcRel s rem ->
  match rem with
  | k :: r => if kind_eqb k KEof then ts_bump s = (None, s)
              else exists o s', ts_bump s = (Some o, s') /\ SrcRel s' r
  | [] => ts_bump s = (None, s)
  end.
Proof.
  intros [Hc Hr]. pose proof (src_nth s rem 0 (conj Hc Hr)) as H0.
  unfold ts_lookahead in H0. rewrite Nat.add_0_r, <- Hc in H0.
  unfold ts_bump. rewrite H0.
  destruct rem as [|k r]; [reflexivity|]. cbn [nth].
  destruct (kind_eqb k KEof); [reflexivity|].
  eexists _, _. split; [reflexivity|]. split; [reflexivity|]. cbn [ts_pos ts_pairs].
  revert Hr. generalize (ts_pairs s) as l. generalize (ts_pos s) as p.
  induction p as [|p IH]; intros l.
  - destruct l as [|x l]; simpl; [discriminate|]. now intros [= _ ->].
  - destruct l as [|x l]; simpl; [discriminate|]. apply IH.
Qed.

Lemma Rg_adv_gen (Pre : prel) (Q : vrel unit unit) :
  (forall E st ds s' r k, Rel E st ds -> Pre E st ds ->
     ds_rem ds = k :: r ->
     Q E (mkP s' (p_events st ++ [EToken])) (mkDS r (ds_for ds ++ [PTok k])) tt tt) ->
  Rg Pre Q (@p_adv EO) (@p_adv TO).
Proof.
  intros HQ E st ds HR HP. pose proof HR as [Hs (ev & He & Hf)].
  cbn [p_adv EO TO event_ops tree_ops]. unfold p_advance_expect, p_advance, push_event, pbind, tr_adv.
  cbn [rbind fst snd p_src p_events]. pose proof (src_bump _ _ Hs) as Hb.
  destruct (ds_rem ds) as [|k r] eqn:Er.
  - rewrite Hb. reflexivity.
  - destruct (kind_eqb k KEof).
    + rewrite Hb. reflexivity.
    + destruct Hb as (o & s' & -> & Hs'). cbn [rbind option_map fst snd].
      eexists tt, _. split; [reflexivity|]. split; [split; [exact Hs'|]|].
      * exists (ev ++ [EToken]). cbn [p_events ds_for]. rewrite He, app_assoc.
        split; [reflexivity|]. apply EncF_app; [exact Hf|]. apply EncF_one. constructor.
      * eapply HQ; eauto.
Qed.

Lemma Rg_adv Pre : Rg Pre eqR (@p_adv EO) (@p_adv TO).
Proof. apply Rg_adv_gen. reflexivity. Qed.

Lemma Rg_adv_mark c i : Rg (mP c i) (fun E st ds _ _ => MR E st ds c i) (@p_adv EO) (@p_adv TO).
Proof.
  apply Rg_adv_gen. intros E st ds s' r k HR HM Hr.
  destruct HM as (f0 & kk & ft & f1 & ev0 & evt & j & ev1 & Hf & Hl & He & H0 & Ht & H1 & Hc).
  exists f0, kk, ft, (f1 ++ [PTok k]), ev0, evt, j, (ev1 ++ [EToken]).
  cbn [ds_for p_events]. rewrite Hf, He. rewrite <- !app_assoc. repeat split; auto.
  apply EncF_app; [exact H1|]. apply EncF_one. constructor.
Qed.

Lemma Rg_error Pre e : Rg Pre eqR (@p_push_error EO e) (@p_push_error TO e).
Proof.
  intros E st ds [Hs (ev & He & Hf)] _. cbn. unfold push_event.
  eexists tt, _. split; [reflexivity|]. split; [|reflexivity]. split; [exact Hs|].
  exists (ev ++ [EError e]). cbn [p_events ds_for]. rewrite He, app_assoc. split; [reflexivity|].
  apply EncF_app; [exact Hf|]. apply EncF_one. constructor.
Qed.

Lemma Rg_node_by Pre (body : P kind) (body' : D kind) :
  Rg anyP eqR body body' ->
  Rg Pre MR (@node_by EO body) (@node_by TO body').
Proof.
  intros Hb E st ds [Hs (ev & He & Hf)] _.
  cbn [node_by EO TO event_ops tree_ops]. unfold ev_node_by, tr_node, p_start, pbind.
  cbn [rbind fst snd].
  specialize (Hb (E ++ ev ++ [tombstone]) (mkP (p_src st) (p_events st ++ [tombstone]))
                 (mkDS (ds_rem ds) [])).
  destruct (body' (mkDS (ds_rem ds) [])) as [[k ds']| |]; cbn [rbind].
  - destruct Hb as (a & st' & -> & [Hs' (ev' & He' & Hf')] & Ha); [|exact I|].
    { split; [exact Hs|]. exists []. cbn [p_events ds_for]. rewrite app_nil_r, He, app_assoc.
      split; [reflexivity|constructor]. }
    unfold eqR in Ha; subst a.
    cbn [rbind fst snd]. unfold m_complete. rewrite He'.
    replace ((E ++ ev ++ [tombstone]) ++ ev') with ((E ++ ev) ++ tombstone :: ev')
      by (rewrite <- !app_assoc; reflexivity).
    rewrite He. rewrite (nth_error_mid _ _ _ _ eq_refl). unfold tombstone at 1.
    rewrite list_set_app by reflexivity.
    eexists _, _. split; [reflexivity|].
    assert (HX : EncX None (PNode k (ds_for ds')) (EStart k None :: ev' ++ [EFinish]) 0)
      by (constructor; exact Hf').
    split.
    + split; [exact Hs'|]. exists (ev ++ EStart k None :: ev' ++ [EFinish]).
      cbn [p_events ds_for]. rewrite <- !app_assoc. split; [reflexivity|].
      apply EncF_app; [exact Hf|]. apply EncF_one. econstructor. exact HX.
    + exists (ds_for ds), k, (ds_for ds'), [], ev, (EStart k None :: ev' ++ [EFinish]), 0, [].
      cbn [p_events ds_for c_start]. rewrite <- !app_assoc, app_nil_r.
      repeat split; auto; [constructor|]. rewrite app_length; lia.
  - rewrite Hb; [reflexivity| |exact I].
    split; [exact Hs|]. exists []. cbn [p_events ds_for]. rewrite app_nil_r, He, app_assoc.
    split; [reflexivity|constructor].
  - rewrite Hb; [reflexivity| |exact I].
    split; [exact Hs|]. exists []. cbn [p_events ds_for]. rewrite app_nil_r, He, app_assoc.
    split; [reflexivity|constructor].
Qed.

Lemma Rg_err_node Pre (body : P perr) (body' : D perr) :
  Rg anyP eqR body body' ->
  Rg Pre eqR (@err_node EO body) (@err_node TO body').
Proof.
  intros Hb E st ds [Hs (ev & He & Hf)] _.
  cbn [err_node EO TO event_ops tree_ops]. unfold ev_err_node, tr_err_node, p_start_error, pbind.
  cbn [rbind fst snd].
  specialize (Hb (E ++ ev ++ [EStartError]) (mkP (p_src st) (p_events st ++ [EStartError]))
                 (mkDS (ds_rem ds) [])).
  assert (HR0 : Rel (E ++ ev ++ [EStartError]) (mkP (p_src st) (p_events st ++ [EStartError]))
                    (mkDS (ds_rem ds) [])).
  { split; [exact Hs|]. exists []. cbn [p_events ds_for]. rewrite app_nil_r, He, app_assoc.
    split; [reflexivity|constructor]. }
  specialize (Hb HR0 I).
  destruct (body' (mkDS (ds_rem ds) [])) as [[e ds']| |]; cbn [rbind].
  - destruct Hb as (a & st' & -> & [Hs' (ev' & He' & Hf')] & Ha).
    unfold eqR in Ha; subst a.
    cbn [rbind fst snd]. unfold m_complete_error. rewrite He'.
    replace ((E ++ ev ++ [EStartError]) ++ ev') with ((E ++ ev) ++ EStartError :: ev')
      by (rewrite <- !app_assoc; reflexivity).
    rewrite He. rewrite (nth_error_mid _ _ _ _ eq_refl).
    eexists _, _. split; [reflexivity|]. split; [|reflexivity].
    split; [exact Hs'|]. exists (ev ++ EStartError :: ev' ++ [EFinishError e]).
    cbn [p_events ds_for]. rewrite <- !app_assoc. split; [reflexivity|].
    apply EncF_app; [exact Hf|]. apply EncF_one. now constructor.
  - rewrite Hb; reflexivity.
  - rewrite Hb; reflexivity.
Qed.

Lemma Rg_pre_node_by c i (body : P kind) (body' : D kind) :
  Rg anyP eqR body body' ->
  Rg (mP c i) MR (@pre_node_by EO c body) (@pre_node_by TO i body').
Proof.
  intros Hb E st ds [Hs _] HM.
  destruct HM as (f0 & kt & ft & f1 & ev0 & evt & j & ev1 & Hf & Hl & He & H0 & Ht & H1 & Hc).
  cbn [pre_node_by EO TO event_ops tree_ops]. unfold ev_pre_node_by, tr_pre, c_precede, pbind.
  rewrite Hf. rewrite skipn_app, firstn_app, Hl, Nat.sub_diag.
  rewrite (skipn_all2 f0) by lia. rewrite (firstn_all2 f0) by lia. cbn [skipn firstn app].
  rewrite app_nil_r.
  destruct (EncX_set None (Some (length evt + length ev1 - j)) _ _ _ Ht) as (k0 & Hn & Hj & Hset).
  assert (Hev : (p_events st ++ [tombstone]) =
                ((E ++ ev0) ++ evt ++ ev1 ++ [tombstone]))
    by (rewrite He, <- !app_assoc; reflexivity).
  rewrite Hev.
  assert (Hcs : c_start c = length (E ++ ev0) + j) by (rewrite Hc, app_length; lia).
  rewrite Hcs. rewrite nth_error_app2 by lia.
  replace (length (E ++ ev0) + j - length (E ++ ev0)) with j by lia.
  rewrite nth_error_app1 by lia. rewrite Hn.
  assert (Hlen : length (p_events st) = length (E ++ ev0) + length evt + length ev1)
    by (rewrite He, !app_length; lia).
  rewrite Hlen.
  destruct (Nat.ltb_spec (length (E ++ ev0) + length evt + length ev1) (length (E ++ ev0) + j));
    [lia|].
  replace (length (E ++ ev0) + length evt + length ev1 - (length (E ++ ev0) + j))
    with (length evt + length ev1 - j) by lia.
  rewrite list_set_app_r, list_set_app_l by lia.
  set (evt' := list_set evt j (EStart k0 (Some (length evt + length ev1 - j)))) in *.
  assert (Hlt : length evt' = length evt) by apply list_set_length.
  cbn [rbind fst snd].
  specialize (Hb ((E ++ ev0) ++ evt' ++ ev1 ++ [tombstone])
                 (mkP (p_src st) ((E ++ ev0) ++ evt' ++ ev1 ++ [tombstone]))
                 (mkDS (ds_rem ds) [])).
  assert (HR0 : Rel ((E ++ ev0) ++ evt' ++ ev1 ++ [tombstone])
                 (mkP (p_src st) ((E ++ ev0) ++ evt' ++ ev1 ++ [tombstone]))
                 (mkDS (ds_rem ds) [])).
  { split; [exact Hs|]. exists []. cbn [p_events ds_for]. rewrite app_nil_r.
    split; [reflexivity|constructor]. }
  specialize (Hb HR0 I).
  destruct (body' (mkDS (ds_rem ds) [])) as [[k ds']| |]; cbn [rbind].
  - destruct Hb as (a & st' & -> & [Hs' (ev' & He' & Hf')] & Ha).
    unfold eqR in Ha; subst a. cbn [rbind fst snd]. unfold m_complete. rewrite He'.
    replace (((E ++ ev0) ++ evt' ++ ev1 ++ [tombstone]) ++ ev')
      with (((E ++ ev0) ++ evt' ++ ev1) ++ tombstone :: ev')
      by (rewrite <- !app_assoc; reflexivity).
    assert (Hp : length (E ++ ev0) + length evt + length ev1 = length ((E ++ ev0) ++ evt' ++ ev1))
      by (rewrite !app_length; lia).
    rewrite Hp. rewrite (nth_error_mid _ _ _ _ eq_refl). unfold tombstone at 1.
    rewrite list_set_app by reflexivity.
    assert (HX : EncX None (PNode k (PNode kt ft :: f1 ++ ds_for ds'))
                   (evt' ++ ev1 ++ EStart k None :: ev' ++ [EFinish]) (length evt' + length ev1)).
    { eapply EX_pre; [|exact H1|exact Hf']. rewrite Hlt. exact Hset. }
    eexists _, _. split; [reflexivity|]. split.
    + split; [exact Hs'|]. exists (ev0 ++ evt' ++ ev1 ++ EStart k None :: ev' ++ [EFinish]).
      cbn [p_events ds_for]. rewrite <- !app_assoc. split; [reflexivity|].
      apply EncF_app; [exact H0|]. apply EncF_one. econstructor. exact HX.
    + exists f0, k, (PNode kt ft :: f1 ++ ds_for ds'), [], ev0,
        (evt' ++ ev1 ++ EStart k None :: ev' ++ [EFinish]), (length evt' + length ev1), [].
      cbn [p_events ds_for c_start]. rewrite <- !app_assoc, app_nil_r.
      repeat split; auto; [constructor|].
      rewrite !app_length; lia.
  - rewrite Hb; reflexivity.
  - rewrite Hb; reflexivity.
Qed.
