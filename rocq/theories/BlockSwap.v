(** BlockSwap.v — replacing one block of a tree by another: the tree stays derivable and well grouped (used by C35). *)
From Verif Require Import Base SyntaxKind TokenSet Parser ParserTree GrammarSpec StrictTree ValidSpec Grouping GroupProofs LuaRun LuaComplete TreeComplete SinkProofs DocConverse.

(** [f'] is [f] with the children [b] of one block replaced by [b']. *)
Inductive swap (b b' : forest) : forest -> forest -> Prop :=
| sw_here x y : swap b b' (x ++ PNode KBlock b :: y) (x ++ PNode KBlock b' :: y)
| sw_in x K fs fs' y : swap b b' fs fs' -> swap b b' (x ++ PNode K fs :: y) (x ++ PNode K fs' :: y).

Lemma split_mid {A} (x : list A) t y p q : x ++ t :: y = p ++ q ->
  (exists m, p = x ++ t :: m /\ y = m ++ q) \/ (exists m, x = p ++ m /\ q = m ++ t :: y).
Proof.
  revert p. induction x as [|a x IH]; intros p E.
  - destruct p as [|c p]; cbn in E; [right; exists []; auto|]. injection E as <- ->. left. exists p. auto.
  - destruct p as [|c p]; cbn in E; [right; exists (a :: x); auto|]. injection E as <- E. destruct (IH _ E) as [(m & -> & ->)|(m & -> & ->)]; [left|right]; exists m; auto.
Qed.
Lemma swap_app b b' p q f' : swap b b' (p ++ q) f' ->
  (exists p', f' = p' ++ q /\ swap b b' p p') \/ (exists q', f' = p ++ q' /\ swap b b' q q').
Proof.
  intros H. inversion H as [x y E1 E2|x K fs fs' y HS E1 E2]; subst; destruct (split_mid _ _ _ _ _ E1) as [(m & -> & ->)|(m & -> & ->)].
  - left. exists (x ++ PNode KBlock b' :: m). split; [now rewrite <- app_assoc|constructor].
  - right. exists (m ++ PNode KBlock b' :: y). split; [now rewrite <- app_assoc|constructor].
  - left. exists (x ++ PNode K fs' :: m). split; [now rewrite <- app_assoc|now constructor].
  - right. exists (m ++ PNode K fs' :: y). split; [now rewrite <- app_assoc|now constructor].
Qed.
Lemma swap_nil b b' f' : swap b b' [] f' -> False.
Proof. intros H. inversion H as [x y E|x K fs fs' y HS E]; destruct x; discriminate E. Qed.
Lemma swap_one b b' t f' : swap b b' [t] f' -> exists K fs fs', t = PNode K fs /\ f' = [PNode K fs'] /\
  ((K = KBlock /\ fs = b /\ fs' = b') \/ swap b b' fs fs').
Proof.
  assert (U : forall x u y, x ++ u :: y = [t] -> x = [] /\ u = t /\ y = []).
  { intros [|a x] u y E; [cbn in E; injection E as -> ->; auto|]. cbn in E. injection E as _ E. destruct x; discriminate. }
  intros H. inversion H as [x y E1 E2|x K fs fs' y HS E1 E2]; destruct (U _ _ _ E1) as (-> & <- & ->).
  - exists KBlock, b, b'. split; [reflexivity|]. split; [reflexivity|]. left. auto.
  - exists K, fs, fs'. split; [reflexivity|]. split; [reflexivity|]. right. exact HS.
Qed.
Lemma swap_cons b b' t q f' : swap b b' (t :: q) f' ->
  (exists p', f' = p' ++ q /\ swap b b' [t] p') \/ (exists q', f' = t :: q' /\ swap b b' q q').
Proof. exact (swap_app b b' [t] q f'). Qed.
Lemma swap_tok b b' k f' : swap b b' [PTok k] f' -> False.
Proof. intros H. destruct (swap_one _ _ _ _ H) as (K & fs & fs' & E & _). discriminate. Qed.
Lemma swap_node b b' K fs f' : swap b b' [PNode K fs] f' -> exists fs', f' = [PNode K fs'] /\ ((K = KBlock /\ fs = b /\ fs' = b') \/ swap b b' fs fs').
Proof. intros H. destruct (swap_one _ _ _ _ H) as (K0 & fs0 & fs' & E & -> & H'). injection E as <- <-. eauto. Qed.

(** The tree stays derivable. *)
Ltac sw1 :=
  match goal with
  | H : swap _ _ [] _ |- _ => exfalso; exact (swap_nil _ _ _ H)
  | H : swap _ _ [PTok _] _ |- _ => exfalso; exact (swap_tok _ _ _ _ H)
  | H : swap _ _ [PNode _ _] _ |- _ => apply swap_node in H as (? & -> & [(? & ? & ?)|H]); [try discriminate|]
  | H : swap _ _ (_ ++ _) _ |- _ => apply swap_app in H as [(? & -> & H)|(? & -> & H)]
  | H : swap _ _ (_ :: ?r) _ |- _ => lazymatch r with [] => fail | _ => apply swap_cons in H as [(? & -> & H)|(? & -> & H)] end
  end.
Ltac prep := noerr0; repeat match goal with H0 : ?x = [] \/ is_err true ?x |- _ => destruct H0 as [->|H0]; [|exfalso; exact (is_err_true _ H0)]
  | H0 : ?sc = [] \/ ?sc = [PTok KSemicolon] |- _ => destruct H0; subst sc end.

Lemma swap_single b b' t f' : swap b b' [t] f' -> exists t', f' = [t'] /\ swap b b' [t] [t'].
Proof. intros H. destruct (swap_one _ _ _ _ H) as (K & fs & fs' & _ & -> & _). eauto. Qed.
Lemma swap_tree b b' : Tree true NStmts b' -> forall n f, Tree true n f -> forall f', swap b b' f f' -> Tree true n f'.
Proof.
  intros HB n f H. induction H; intros f' HS; prep.
  all: repeat sw1.
  all: try match goal with HS : swap _ _ [?t] ?x |- _ => is_var x; apply swap_single in HS as (? & -> & HS) end.
  all: try (match goal with IH : forall f', swap _ _ ?f f' -> Tree true _ f', HS : swap _ _ ?f _ |- _ => specialize (IH _ HS) end).
  all: try (match goal with IH : Tree true NStmt ?f |- context [?f ++ _] => pose proof (tree_tok _ _ IH eq_refl) end).
  all: subst.
  all: try (econstructor; first [eassumption|left; reflexivity|right; reflexivity|auto]; fail).
  all: try (cbn [app]; econstructor; first [eassumption|left; reflexivity|right; reflexivity|auto]; fail).
  - apply (T_for_gen true x [PTok KInKw] e); [assumption|now left|assumption].
  - apply (T_field_index true x0 [PTok KEq] e); [assumption|now left|assumption].
Qed.

(** Where blocks stand: after a token or a parameter list, before a closing keyword. *)
Definition closers : list kind := [KEndKw; KElseKw; KElseifKw; KUntilKw].
(** What stands before a block: nothing that follows it can be part of it. *)
Definition before (t : ptree) : Prop := (forall k, extends t k = false) /\ forall k k', well_grouped [t] k -> well_grouped [t] k'.
Inductive inner (b b' : forest) : kind -> forest -> forest -> Prop :=
| in_here nx x t y : before t -> toks t <> [] -> In (next y nx) closers ->
    inner b b' nx (x ++ t :: PNode KBlock b :: y) (x ++ t :: PNode KBlock b' :: y)
| in_in nx x K fs fs' y : inner b b' (next y nx) fs fs' -> inner b b' nx (x ++ PNode K fs :: y) (x ++ PNode K fs' :: y).
Lemma inner_l b b' nx p p' q : inner b b' (next q nx) p p' -> inner b b' nx (p ++ q) (p' ++ q).
Proof.
  intros H. inversion H as [nx0 x t y A B C|nx0 x K fs fs' y HI]; subst; rewrite <- !app_assoc; cbn [app]; constructor; auto; now rewrite next_app.
Qed.
Lemma inner_r b b' nx p q q' : inner b b' nx q q' -> inner b b' nx (p ++ q) (p ++ q').
Proof. intros H. inversion H as [nx0 x t y A B C|nx0 x K fs fs' y HI]; subst; rewrite !app_assoc; constructor; auto. Qed.
Lemma inner_c b b' nx t q q' : inner b b' nx q q' -> inner b b' nx (t :: q) (t :: q').
Proof. exact (inner_r b b' nx [t] q q'). Qed.
Lemma inner_n b b' nx K fs fs' : inner b b' nx fs fs' -> inner b b' nx [PNode K fs] [PNode K fs'].
Proof. intros H. exact (in_in b b' nx [] K fs fs' [] H). Qed.

Definition Inner (b b' : forest) (n : nt) (f f' : forest) : Prop :=
  match n with
  | NSource => True
  | NBlock => exists fs fs', f = [PNode KBlock fs] /\ f' = [PNode KBlock fs'] /\ ((fs = b /\ fs' = b') \/ forall nx, inner b b' nx fs fs')
  | NElse => forall nx, In nx closers -> inner b b' nx f f'
  | _ => forall nx, inner b b' nx f f'
  end.
(** A block replaced in one of the places where blocks stand. *)
Lemma block_place b b' nx x t y f f' : Inner b b' NBlock f f' -> before t -> toks t <> [] -> In (next y nx) closers ->
  inner b b' nx (x ++ t :: f ++ y) (x ++ t :: f' ++ y).
Proof.
  intros (fs & fs' & -> & -> & [(-> & ->)|H]) A B C; cbn [app]; [now constructor|].
  apply inner_r, inner_c. exact (in_in b b' nx [] KBlock fs fs' y (H _)).
Qed.
Lemma next_else' e nx : Tree true NElse e -> In nx closers -> In (next e nx) closers.
Proof.
  intros H Hn. destruct (Tree_first _ _ H) as [->|(K & fs & k & l & -> & HW & Hk)]; [exact Hn|]. unfold next. rewrite HW. cbn [hd].
  destruct Hk as [<-|[<-|[]]]; cbn; tauto.
Qed.
Lemma before_tok k : before (PTok k).
Proof. split; [reflexivity|]. intros. apply wg_tok. Qed.
Lemma param_list_node p : Tree true NParamList p -> exists ps, p = [PNode KParamList (PTok KLParen :: ps)] /\ before (PNode KParamList (PTok KLParen :: ps)).
Proof.
  intros H. inversion H; subst; noerr0. match goal with H0 : Tree true NParams ?x |- _ => rename x into ps end.
  exists (ps ++ [PTok KRParen]). split; [reflexivity|]. split; [intros k; now apply extends_plain|]. intros k k' HW. apply wg_node in HW as [_ HW]. apply wg_node. split; [apply grouped_leaf; reflexivity|].
  change (PTok KLParen :: ps ++ [PTok KRParen]) with (([PTok KLParen] ++ ps) ++ [PTok KRParen]) in *. apply wg_app in HW as [HW _]. apply wg_app. split; [exact HW|apply wg_tok].
Qed.
Ltac inn1 :=
  match goal with
  | |- inner _ _ _ [PNode _ _] [PNode _ _] => apply inner_n
  | |- inner _ _ _ (?p ++ ?q) (?p ++ ?q') => apply inner_r
  | |- inner _ _ _ (?p ++ ?q) (_ ++ ?q) => apply inner_l
  | |- inner _ _ _ (?t :: ?q) (?t :: ?q') => apply inner_c
  | |- inner _ _ _ (?t :: ?q) ([?t'] ++ ?q) => apply (inner_l _ _ _ [t] [t'] q)
  end.
Lemma swap_inner b b' : forall n f, Tree true n f -> forall f', swap b b' f f' -> Inner b b' n f f'.
Proof.
  intros n f H. induction H; intros f' HS; prep.
  all: repeat sw1.
  all: try match goal with HS : swap _ _ [?t] ?x |- _ => is_var x; apply swap_single in HS as (? & -> & HS) end.
  all: try (match goal with IH : forall f', swap _ _ ?f f' -> Inner _ _ _ _ f', HS : swap _ _ ?f _ |- _ => specialize (IH _ HS) end).
  all: try exact Logic.I.
  all: cbn [Inner] in *; try (intros nx; repeat inn1; first [eassumption|match goal with H : forall nx, inner _ _ nx ?f ?f' |- inner _ _ _ ?f ?f' => apply H end]; fail).
  - match goal with H : Tree true NStmts _ |- _ => idtac end. subst. do 2 eexists. split; [reflexivity|]. split; [reflexivity|]. now left.
  - do 2 eexists. split; [reflexivity|]. split; [reflexivity|]. right. assumption.
  - intros nx. apply inner_n, inner_c, inner_r. apply (block_place b b' nx [] (PTok KThenKw) (e ++ [PTok KEndKw]) b0 x); [assumption|first [apply before_tok|assumption]|discriminate|].
    rewrite next_app. apply next_else'; [assumption|]. cbn; tauto.
  - intros nx. apply inner_n, inner_c, inner_r, inner_r, inner_r, inner_l. apply IHTree3. cbn; tauto.
  - intros nx Hn. apply inner_n. rewrite <- (app_nil_r b0), <- (app_nil_r x0). apply (block_place b b' nx [] (PTok KElseKw) [] b0 x0); [assumption|first [apply before_tok|assumption]|discriminate|exact Hn].
  - intros nx Hn. apply inner_n, inner_c, inner_l. apply IHTree1.
  - intros nx Hn. apply inner_n, inner_c, inner_r. apply (block_place b b' nx [] (PTok KThenKw) e b0 x); [assumption|first [apply before_tok|assumption]|discriminate|].
    apply next_else'; assumption.
  - intros nx Hn. apply inner_n, inner_c, inner_r, inner_r, inner_r. now apply IHTree3.
  - intros nx. apply inner_n, inner_c, inner_c, inner_r. destruct (param_list_node _ H1) as (ps & -> & Hps).
    apply (block_place b b' nx [] (PNode KParamList (PTok KLParen :: ps)) [PTok KEndKw] b0 x0); [assumption|first [apply before_tok|assumption]|discriminate|cbn; tauto].
  - intros nx. apply inner_n. apply (block_place b b' nx [] (PTok KRepeatKw) (PTok KUntilKw :: e) b0 x); [assumption|first [apply before_tok|assumption]|discriminate|cbn; tauto].
  - intros nx. apply inner_n, inner_c, inner_r. destruct (param_list_node _ H0) as (ps & -> & Hps).
    apply (block_place b b' nx [] (PNode KParamList (PTok KLParen :: ps)) [PTok KEndKw] b0 x); [assumption|first [apply before_tok|assumption]|discriminate|cbn; tauto].
  - intros nx. apply inner_n. apply (block_place b b' nx [] (PTok KDoKw) [PTok KEndKw] b0 x); [assumption|first [apply before_tok|assumption]|discriminate|cbn; tauto].
  - intros nx. apply inner_n, inner_c, inner_r. apply (block_place b b' nx [] (PTok KDoKw) [PTok KEndKw] b0 x); [assumption|first [apply before_tok|assumption]|discriminate|cbn; tauto].
  - intros nx. apply inner_n, inner_c, inner_r. apply (block_place b b' nx [] (PTok KDoKw) [PTok KEndKw] b0 x); [assumption|first [apply before_tok|assumption]|discriminate|cbn; tauto].
  - intros nx. apply inner_n, inner_c. destruct (param_list_node _ H) as (ps & -> & Hps).
    apply (block_place b b' nx [] (PNode KParamList (PTok KLParen :: ps)) [PTok KEndKw] b0 x0); [assumption|first [apply before_tok|assumption]|discriminate|cbn; tauto].
Qed.

(** Grouping is kept. *)
Lemma inner_first b b' nx f f' : inner b b' nx f f' -> forall nx1 nx2, next f nx1 = next f' nx2 /\ flat_map toks f' <> [].
Proof.
  induction 1 as [nx x t y A B C|nx x K fs fs' y HI IH]; intros nx1 nx2.
  - rewrite !next_app. unfold next. rewrite flat_map_app. cbn [flat_map]. destruct (flat_map toks x) as [|k r]; cbn [hd app]; [|split; [reflexivity|discriminate]].
    destruct (toks t) as [|k r]; [contradiction|]. cbn [hd app]. split; [reflexivity|discriminate].
  - rewrite !next_app. unfold next. rewrite flat_map_app. cbn [flat_map toks]. destruct (flat_map toks x) as [|k r]; cbn [hd app]; [|split; [reflexivity|discriminate]].
    unfold next in IH. destruct (IH KEof KEof) as [A B]. destruct (IH KEndKw KEof) as [A' _].
    destruct (flat_map toks fs') as [|k' r']; [contradiction|]. destruct (flat_map toks fs) as [|k r]; cbn [hd app] in *; [congruence|]. split; [exact A|discriminate].
Qed.
Definition sim (t t' : ptree) : Prop :=
  t = t' \/ exists K fs fs', t = PNode K fs /\ t' = PNode K fs' /\ (forall k, extends t k = extends t' k) /\ forall m, spine m t = spine m t'.
Lemma sim_refl l : Forall2 sim l l.
Proof. induction l; constructor; [now left|assumption]. Qed.
Lemma sim_exp t t' : sim t t' -> is_exp t = is_exp t' /\ (forall k, extends t k = extends t' k) /\ (forall m, spine m t = spine m t').
Proof. intros [->|(K & fs & fs' & -> & -> & A & B)]; auto. Qed.
Lemma sim_tok t t' : sim t t' -> match t, t' with PTok k, PTok k' => k = k' | PTok _, _ | _, PTok _ => False | _, _ => True end.
Proof. intros [->|(K & fs & fs' & -> & -> & _)]; [destruct t'; auto|exact Logic.I]. Qed.
Lemma sim_node K fs fs' : Forall2 sim fs fs' -> sim (PNode K fs) (PNode K fs').
Proof.
  intros H. right. exists K, fs, fs'. split; [reflexivity|]. split; [reflexivity|].
  inversion H as [|a a' l l' Ha Hl]; subst; [auto|]. destruct (sim_exp _ _ Ha) as (Xa & Ea & Sa).
  inversion Hl as [|c c' l2 l2' Hc Hl2]; subst; [pose proof (sim_tok _ _ Ha); split; intros; destruct a, a'; try contradiction; subst; auto|].
  destruct (sim_exp _ _ Hc) as (Xc & Ec & Sc). pose proof (sim_tok _ _ Ha) as Ta. pose proof (sim_tok _ _ Hc) as Tc.
  split.
  - intros k. cbn [extends]. destruct (kind_eqb K KInfixExpr); [|destruct (kind_eqb K KPrefixExpr)]; [| |reflexivity].
    + inversion Hl2 as [|d d' l3 l3' Hd Hl3]; subst; [destruct c, c'; reflexivity || contradiction|]. destruct (sim_exp _ _ Hd) as (Xd & Ed & Sd).
      inversion Hl3; subst; destruct c, c'; try contradiction; try reflexivity. subst. now rewrite Xd, Ed.
    + inversion Hl2; subst; destruct a, a'; try contradiction; try reflexivity. subst. now rewrite Xc, Ec.
  - intros m. cbn [spine]. destruct c, c'; try contradiction; try reflexivity. subst. destruct (kind_eqb K KInfixExpr); [|reflexivity]. now rewrite Sa.
Qed.
Lemma inner_sim b b' nx f f' : inner b b' nx f f' -> Forall2 sim f f'.
Proof.
  induction 1 as [nx x t y A B C|nx x K fs fs' y HI IH]; apply Forall2_app; try apply sim_refl.
  - constructor; [now left|]. constructor; [|apply sim_refl]. right. exists KBlock, b, b'. split; [reflexivity|]. split; [reflexivity|]. split.
    + intros k. now rewrite !extends_plain.
    + intros m. assert (E : forall f, spine m (PNode KBlock f) = true) by (intros [|? [|[] ?]]; reflexivity). now rewrite !E.
  - constructor; [now apply sim_node|apply sim_refl].
Qed.
Lemma inner_closed b b' nx f f' : inner b b' nx f f' -> closed f nx -> closed f' nx.
Proof.
  intros H. inversion H as [nx0 x t y A B C|nx0 x K fs fs' y HI]; subst; intros HC; apply closed_app in HC as [C1 C2]; apply closed_app; split.
  - assert (E : forall g g', next (t :: g) nx = next (t :: g') nx) by (intros g g'; unfold next; cbn [flat_map]; destruct (toks t); [contradiction|reflexivity]).
    rewrite (E _ (PNode KBlock b :: y)). exact C1.
  - cbn [closed] in *. destruct C2 as (_ & _ & C2). split; [apply (proj1 A)|]. split; [now apply extends_plain|exact C2].
  - assert (E : next (PNode K fs' :: y) nx = next (PNode K fs :: y) nx).
    { symmetry. exact (proj1 (inner_first _ _ _ _ _ (in_in b b' nx [] K fs fs' y HI) nx nx)). }
    rewrite E. exact C1.
  - cbn [closed] in *. destruct C2 as [C2 C3]. split; [|exact C3]. destruct (sim_exp _ _ (sim_node K _ _ (inner_sim _ _ _ _ _ HI))) as (_ & Ee & _). now rewrite <- Ee.
Qed.

Lemma inner_grouped b b' nx K f f' : inner b b' nx f f' -> grouped K f nx -> grouped K f' nx.
Proof.
  intros H (G1 & G2 & G3 & G4 & G5). pose proof (inner_sim _ _ _ _ _ H) as HS. split; [|split; [|split; [|split]]].
  - intros HK. exact (inner_closed _ _ _ _ _ H (G1 HK)).
  - intros HK l o r ->. inversion HS as [|l0 ? f1 ? S1 HS1]; subst. inversion HS1 as [|o0 ? f2 ? S2 HS2]; subst. inversion HS2 as [|r0 ? f3 ? S3 HS3]; subst. inversion HS3; subst.
    pose proof (sim_tok _ _ S2) as T2. destruct o0; try contradiction. subst. destruct (sim_exp _ _ S3) as (_ & _ & E). rewrite <- E. exact (G2 eq_refl _ _ _ eq_refl).
  - intros HK o r ->. inversion HS as [|o0 ? f2 ? S2 HS2]; subst. inversion HS2 as [|r0 ? f3 ? S3 HS3]; subst. inversion HS3; subst.
    pose proof (sim_tok _ _ S2) as T2. destruct o0; try contradiction. subst. destruct (sim_exp _ _ S3) as (_ & _ & E). rewrite <- E. exact (G3 eq_refl _ _ eq_refl).
  - intros HK ->. inversion HS as [|o0 ? f2 ? S2 HS2]; subst. inversion HS2; subst. pose proof (sim_tok _ _ S2) as T2. destruct o0; try contradiction. subst. exact (G4 eq_refl eq_refl).
  - intros HK. destruct (inner_first _ _ _ _ _ H nx nx) as [<- _]. exact (G5 HK).
Qed.
Lemma inner_wg b b' nx f f' : inner b b' nx f f' -> (forall k, In k closers -> well_grouped b' k) -> well_grouped f nx -> well_grouped f' nx.
Proof.
  intros H HB. induction H as [nx x t y A B C|nx x K fs fs' y HI IH]; intros HW; apply wg_app in HW as [W1 W2]; apply wg_app; split.
  - assert (E : forall g g', next (t :: g) nx = next (t :: g') nx) by (intros g g'; unfold next; cbn [flat_map]; destruct (toks t); [contradiction|reflexivity]).
    rewrite (E _ (PNode KBlock b :: y)). exact W1.
  - apply wg_cons in W2 as [W2 W3]. apply wg_cons in W3 as [W3 W4]. apply wg_cons. split.
    + apply (proj2 A) with (1 := W2).
    + apply wg_cons. split; [|exact W4]. apply wg_node. split; [apply grouped_leaf; reflexivity|apply HB; exact C].
  - pose proof (proj1 (inner_first _ _ _ _ _ (in_in b b' nx [] K fs fs' y HI) nx nx)) as E. cbn [app] in E. rewrite <- E. exact W1.
  - apply wg_cons in W2 as [W2 W3]. apply wg_node in W2 as [G2 W2]. apply wg_cons. split; [|exact W3]. apply wg_node. split; [exact (inner_grouped _ _ _ _ _ _ HI G2)|exact (IH W2)].
Qed.

(** At the end of a block nothing can be extended: all that may follow it are alike. *)
Definition enders : list kind := KEof :: closers.
Lemma enders_extends t k k' : In k enders -> In k' enders -> extends t k = extends t k'.
Proof.
  intros H H'. assert (L : left_power k = 0 /\ left_power k' = 0) by (split; [clear H'; cbn in H; intuition subst; reflexivity|clear H; cbn in H'; intuition subst; reflexivity]). destruct L as [L L'].
  assert (M : forall l, l = [KLBracket; KDot] \/ l = [KLParen; KLBrace; KStr; KColon; KLBracket; KDot] -> among k l = false /\ among k' l = false).
  { intros l Hl. split; [clear H'; cbn in H; intuition subst; reflexivity|clear H; cbn in H'; intuition subst; reflexivity]. }
  destruct (M _ (or_introl eq_refl)) as [M1 M2]. destruct (M _ (or_intror eq_refl)) as [M3 M4]. clear M.
  induction t as [k0|e|fs e|K fs F] using ptree_ind2; try reflexivity. cbn [extends]. rewrite L, L', M1, M2, M3, M4.
  destruct (kind_eqb K KInfixExpr); [|destruct (kind_eqb K KPrefixExpr); [|reflexivity]].
  - destruct fs as [|? [|[o| | |] [|r [|]]]]; try reflexivity. inversion F as [|? ? _ F1]; subst. inversion F1 as [|? ? _ F2]; subst. inversion F2 as [|? ? F3 _]; subst. now rewrite F3.
  - destruct fs as [|[o| | |] [|r [|]]]; try reflexivity. inversion F as [|? ? _ F1]; subst. inversion F1 as [|? ? F2 _]; subst. now rewrite F2.
Qed.
Lemma next_enders f k k' : In k enders -> In k' enders -> next f k = next f k' \/ (In (next f k) enders /\ In (next f k') enders).
Proof. unfold next. destruct (flat_map toks f); cbn [hd]; auto. Qed.
Lemma enders_closed f k k' : In k enders -> In k' enders -> closed f k -> closed f k'.
Proof.
  intros H H'. induction f as [|t f IH]; [auto|]. cbn [closed]. intros [A B]. split; [|auto].
  destruct (next_enders f k k' H H') as [<-|[X Y]]; [exact A|]. now rewrite <- (enders_extends t _ _ X Y).
Qed.
Lemma enders_grouped K f k k' : In k enders -> In k' enders -> grouped K f k -> grouped K f k'.
Proof.
  intros H H' (G1 & G2 & G3 & G4 & G5). split; [|split; [|split; [|split]]]; auto.
  - intros HK. exact (enders_closed _ _ _ H H' (G1 HK)).
  - intros _ _. cbn in H'. intuition subst; reflexivity.
  - intros HK. specialize (G5 HK). destruct (next_enders f k k' H H') as [<-|[X Y]]; [exact G5|]. exfalso. revert G5 X. clear. intros [<-|[<-|[]]] X; cbn in X; intuition discriminate.
Qed.
Lemma enders_wg f k k' : In k enders -> In k' enders -> well_grouped f k -> well_grouped f k'.
Proof.
  revert k k'. set (P1 := fun t => forall k k', In k enders -> In k' enders -> well_grouped [t] k -> well_grouped [t] k').
  set (PF := fun f => forall k k', In k enders -> In k' enders -> well_grouped f k -> well_grouped f k'). change (PF f).
  apply (forest_ind' P1 PF); unfold P1, PF; clear.
  - intros. apply wg_tok.
  - intros. constructor.
  - intros. constructor.
  - intros K fs IH k k' H H' HW. apply wg_node in HW as [G HW]. apply wg_node. split; [exact (enders_grouped _ _ _ _ H H' G)|exact (IH _ _ H H' HW)].
  - intros. constructor.
  - intros t fs IH1 IH2 k k' H H' HW. apply wg_cons in HW as [A B]. apply wg_cons. split; [|exact (IH2 _ _ H H' B)].
    destruct (next_enders fs k k' H H') as [<-|[X Y]]; [exact A|exact (IH1 _ _ X Y A)].
Qed.

(** The block of a file, or one inside it, is replaced by one that can stand alone. *)
Theorem swap_reading fs b b' f' : Tree true NSource [PNode KSourceFile [PNode KBlock fs]] -> well_grouped [PNode KSourceFile [PNode KBlock fs]] KEof ->
  Tree true NStmts b' -> well_grouped b' KEof -> swap b b' fs f' ->
  Tree true NSource [PNode KSourceFile [PNode KBlock f']] /\ well_grouped [PNode KSourceFile [PNode KBlock f']] KEof.
Proof.
  intros HT HW HB HG HS. assert (HF : Tree true NStmts fs) by (inversion HT; subst; match goal with H0 : Tree true NBlock _ |- _ => inversion H0; assumption end).
  split.
  - apply T_source, T_block. exact (swap_tree _ _ HB _ _ HF _ HS).
  - apply wg_node in HW as [_ HW]. apply wg_node in HW as [_ HW]. apply wg_node. split; [apply grouped_leaf; reflexivity|]. apply wg_node. split; [apply grouped_leaf; reflexivity|].
    apply (inner_wg b b' KEof fs f'); [exact (swap_inner b b' NStmts fs HF f' HS KEof)| |exact HW].
    intros k Hk. apply (enders_wg b' KEof k); [now left|now right|exact HG].
Qed.
