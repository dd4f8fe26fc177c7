(** ContProofs.v — what a grammar function has read without an error can be completed: there are tokens after which the
    function, run on what it read followed by them, ends without an error just there. *)
From Coq Require Import ZArith.
From Verif Require Import Base SyntaxKind TokenSet Lexer BindingPowers Parser Grammar ParserTree FirstProofs.

(** Not cut between the dot and the colon of [function a.:]. *)
Definition good (u : list kind) : Prop := forall p, u <> p ++ [KDot; KColon].
Lemma good_app p u : good (p ++ u) -> good u.
Proof. intros H q ->. apply (H (p ++ q)). apply app_assoc. Qed.
(** Without the end-of-file token. *)
Definition ne (w : list kind) : bool := forallb (fun k => negb (kind_eqb k KEof)) w.
Lemma ne_app w1 w2 : ne w1 = true -> ne w2 = true -> ne (w1 ++ w2) = true.
Proof. intros H1 H2. unfold ne in *. now rewrite forallb_app, H1, H2. Qed.
Ltac nes := solve [reflexivity | assumption | apply ne_app; first [assumption|reflexivity]].
(** [cpl q c S m]: a run of [m] that starts at a token in [q] and is clean up to the end of [u], and no further, can be
    completed: with at most [8 * length u + c] more tokens [w], every run over [u ++ w] before a token in [S] is clean and consumes just them. *)
Definition cpl (q : kind -> bool) (c : Z) (S : kind -> bool) {A} (m : D A) : Prop := forall u x F a r1 F1,
  u <> [] -> good u -> clean (fl F) -> q (hd0 u) = true -> m (mkDS (u ++ x) F) = Ok (a, mkDS r1 F1) -> cp (fl F1) = length (fl F) + length u ->
  exists w, (Z.of_nat (length w) <= 8 * Z.of_nat (length u) + c)%Z /\ ne w = true /\
    forall z a' r2 F2, S (hd0 z) = true -> m (mkDS (u ++ w ++ z) F) = Ok (a', mkDS r2 F2) -> r2 = z /\ clean (fl F2).
(** [m] reads just [w] without an error. *)
Definition dfl (S : kind -> bool) {A} (m : D A) (w : list kind) : Prop := forall z F a r F1,
  S (hd0 z) = true -> clean (fl F) -> m (mkDS (w ++ z) F) = Ok (a, mkDS r F1) -> r = z /\ clean (fl F1).
Definition sub (S S' : kind -> bool) : Prop := forall k, S k = true -> S' k = true.
(** A clean run consumes [e] tokens at least. *)
Definition takes (q : kind -> bool) (e : nat) {A} (m : D A) : Prop := forall r F a r1 F1, clean (fl F) -> q (hd0 r) = true -> m (mkDS r F) = Ok (a, mkDS r1 F1) ->
  clean (fl F1) -> e + length (fl F) <= length (fl F1).
Lemma hd0_app (u x : list kind) : u <> [] -> hd0 (u ++ x) = hd0 u.
Proof. destruct u; [congruence|reflexivity]. Qed.
Lemma snoc_ex (u : list kind) : u <> [] -> exists v k, u = v ++ [k].
Proof. intros H. destruct (exists_last H) as (v & k & ->). eauto. Qed.
Lemma app_split (u x p s : list kind) : u ++ x = p ++ s -> length p < length u -> exists u2, u2 <> [] /\ u = p ++ u2 /\ s = u2 ++ x.
Proof.
  revert u. induction p as [|k p IH]; intros u H L.
  - exists u. split; [destruct u; [cbn in L; lia|discriminate]|]. cbn in H. auto.
  - destruct u as [|k' u]; [cbn in L; lia|]. cbn [app] in H. assert (k' = k) by congruence. assert (E : u ++ x = p ++ s) by congruence. subst k'. destruct (IH u E) as (u2 & N & -> & ->); [cbn in L; lia|]. exists u2. auto.
Qed.
Lemma takes0 q {A} (m : D A) : ext m -> takes q 0 m.
Proof. intros X r F a r1 F1 C Q E C1. destruct (X _ _ _ _ _ E) as (g & -> & _). rewrite app_length. lia. Qed.
Lemma cpl_bind_e q c c1 c2 e S S1 w2 {A B} (m : D A) (f : A -> D B) :
  tw q m -> cpl q c1 S1 m -> takes q e m -> (forall a, ext (f a)) -> (forall a, cpl any c2 S (f a)) -> (forall a, dfl S (f a) w2) -> (forall z, S (hd0 z) = true -> S1 (hd0 (w2 ++ z)) = true) ->
  ne w2 = true -> (c1 + Z.of_nat (length w2) <= c)%Z -> (c2 - 8 * Z.of_nat e <= c)%Z -> cpl q c S (@bind TO A B m f).
Proof.
  intros [X T] K1 TK XF K2 DF HS NE2 B1 B2 u x F b r F1 N G C Q E L. cbn [bind tree_ops] in *. unfold tr_bind in *.
  destruct (m (mkDS (u ++ x) F)) as [[a1 [s1 G1]]| |] eqn:M1; cbn [rbind fst snd] in E; try discriminate E.
  destruct (X _ _ _ _ _ M1) as (g1 & Eg1 & L1). destruct (XF _ _ _ _ _ _ E) as (h1 & Eh1 & _).
  assert (V1 : cp (fl G1) = length (fl F) + length u -> exists w, (Z.of_nat (length w) <= 8 * Z.of_nat (length u) + c)%Z /\ ne w = true /\ forall z a' r2 F2, S (hd0 z) = true ->
    rbind (m (mkDS (u ++ w ++ z) F)) (fun r0 => f (fst r0) (snd r0)) = Ok (a', mkDS r2 F2) -> r2 = z /\ clean (fl F2)).
  { intros LC. destruct (K1 _ _ _ _ _ _ N G C Q M1 LC) as (w1 & W1 & NW1 & R). exists (w1 ++ w2). split; [rewrite app_length; lia|]. split; [nes|]. intros z a' r2 F2 Sz E2. rewrite <- app_assoc in E2.
    destruct (m (mkDS (u ++ w1 ++ w2 ++ z) F)) as [[a2 [s2 G2]]| |] eqn:M2; cbn [rbind fst snd] in E2; try discriminate E2.
    destruct (R _ _ _ _ (HS _ Sz) M2) as [-> C2]. exact (DF _ _ _ _ _ _ Sz C2 E2). }
  destruct (clean_or (fl G1)) as [C1|D1].
  2:{ apply V1. rewrite <- L, Eh1. symmetry. now apply cp_app_dirty. }
  destruct (Nat.eq_dec (cp (fl G1)) (length (fl F) + length u)) as [LC|LC]; [exact (V1 LC)|].
  pose proof (cp_mono (fl G1) h1) as MO. rewrite <- Eh1, L in MO. pose proof C1 as Cg. rewrite Eg1 in Cg. apply clean_app in Cg as [_ Cg]. specialize (L1 Cg).
  assert (LG : length (fl G1) = length (fl F) + length g1) by (rewrite Eg1; apply app_length).
  assert (C1' : cp (fl G1) = length (fl G1)) by exact C1. rewrite C1' in *.
  destruct (app_split _ _ _ _ L1) as (u2 & N2 & Eu & ->); [rewrite clean_lead by exact Cg; lia|].
  assert (Lu : length u = length g1 + length u2) by (rewrite Eu, app_length, clean_lead by exact Cg; reflexivity).
  destruct (K2 a1 u2 x G1 b r F1 N2) as (w & W & NW & R); [rewrite Eu in G; exact (good_app _ _ G)|exact C1|reflexivity|exact E|lia|].
  exists w. split; [|split; [nes|]].
  - pose proof (TK _ _ _ _ _ C (eq_trans (f_equal q (hd0_app _ _ N)) Q) M1 C1). lia.
  - intros z a' r2 F2 Sz E2. destruct (m (mkDS (u ++ w ++ z) F)) as [[a2 [s2 G2]]| |] eqn:M2; cbn [rbind fst snd] in E2; try discriminate E2.
    destruct (snoc_ex _ N) as (v & k & Ev). assert (Q' : q (hd0 (v ++ [k])) = true) by now rewrite <- Ev.
    assert (A1 : forall t : list kind, u ++ t = v ++ k :: t) by (intros t; rewrite Ev, <- app_assoc; reflexivity).
    rewrite A1 in M1, M2. destruct (T _ _ _ _ _ _ _ _ _ _ _ C Q' M1 M2) as [(v' & <- & <- & Es & ->)|[[D1 _]|LL]].
    + assert (U2 : u2 = v' ++ [k]). { apply (app_inv_tail x). rewrite Es, <- app_assoc. reflexivity. }
      assert (E3 : f a1 (mkDS (u2 ++ w ++ z) G1) = Ok (a', mkDS r2 F2)) by (rewrite U2, <- app_assoc; exact E2). exact (R _ _ _ _ Sz E3).
    + destruct (clean_not _ C1 D1).
    + rewrite Ev, app_length in *. cbn [length] in *. lia.
Qed.
Lemma cpl_bind q c c1 c2 S S1 w2 {A B} (m : D A) (f : A -> D B) :
  tw q m -> cpl q c1 S1 m -> (forall a, ext (f a)) -> (forall a, cpl any c2 S (f a)) -> (forall a, dfl S (f a) w2) -> (forall z, S (hd0 z) = true -> S1 (hd0 (w2 ++ z)) = true) ->
  ne w2 = true -> (c1 + Z.of_nat (length w2) <= c)%Z -> (c2 <= c)%Z -> cpl q c S (@bind TO A B m f).
Proof. intros T K1 XF K2 DF HS NE2 B1 B2. apply (cpl_bind_e q c c1 c2 0 S S1 w2); auto; [apply takes0, T|lia]. Qed.
Lemma cpl_any q c S {A} (m : D A) : cpl any c S m -> cpl q c S m.
Proof. intros H u x F a r1 F1 N G C _. exact (H u x F a r1 F1 N G C eq_refl). Qed.
Lemma cpl_weak q c c' S {A} (m : D A) : (c <= c')%Z -> cpl q c S m -> cpl q c' S m.
Proof. intros L H u x F a r1 F1 N G C Q E EL. destruct (H _ _ _ _ _ _ N G C Q E EL) as (w & W & NW & R). exists w. split; [lia|split; [nes|exact R]]. Qed.
Lemma cpl_sub q c S S' {A} (m : D A) : sub S S' -> cpl q c S' m -> cpl q c S m.
Proof. intros L H u x F a r1 F1 N G C Q E EL. destruct (H _ _ _ _ _ _ N G C Q E EL) as (w & W & NW & R). exists w. split; [exact W|]. split; [nes|]. intros z a' r2 F2 Sz. apply R, L, Sz. Qed.
Lemma dfl_sub S S' w {A} (m : D A) : sub S S' -> dfl S' m w -> dfl S m w.
Proof. intros L H z F a r F1 Sz. exact (H _ _ _ _ _ (L _ Sz)). Qed.
(** A run that meets an error before it consumes anything. *)
Definition stuck (q : kind -> bool) {A} (m : D A) : Prop := forall r F a r1 F1, clean (fl F) -> q (hd0 r) = true -> m (mkDS r F) = Ok (a, mkDS r1 F1) -> cp (fl F1) = length (fl F).
Lemma cpl_stuck q c S {A} (m : D A) : stuck q m -> cpl q c S m.
Proof. intros H u x F a r1 F1 N G C Q E L. rewrite <- (hd0_app u x N) in Q. pose proof (H _ _ _ _ _ C Q E). destruct u; [congruence|]. cbn [length] in L. lia. Qed.
Lemma cpl_ret q c S {A} (a : A) : cpl q c S (@ret TO A a).
Proof. apply cpl_stuck. intros r F b r1 F1 C Q E. cbn [ret tree_ops] in E. unfold tr_ret in E. injection E as _ <- <-. exact C. Qed.
Lemma cpl_out q c S {A} : cpl q c S (@out TO A).
Proof. apply cpl_stuck. intros r F b r1 F1 C Q E. discriminate E. Qed.
Lemma cpl_panic q c S {A} : cpl q c S (@panic TO A).
Proof. apply cpl_stuck. intros r F b r1 F1 C Q E. discriminate E. Qed.
Lemma stuck_none F : clean (fl F) -> cp (fl F ++ [None]) = length (fl F).
Proof. intros C. rewrite cp_app_clean by exact C. cbn. lia. Qed.
Lemma stuck_error q e : stuck q (@p_push_error TO e).
Proof. intros r F a r1 F1 C _ E. cbn [p_push_error tree_ops] in E. unfold tr_error in E. cbn [ds_rem ds_for] in E. injection E as _ <- <-. rewrite fl_app. now apply stuck_none. Qed.
Lemma stuck_err_node q (m : D perr) : stuck q (@err_node TO m).
Proof.
  intros r F a r1 F1 C _ E. cbn [err_node tree_ops] in *. unfold tr_err_node in *. cbn [ds_rem ds_for] in *. destruct (m (mkDS r [])) as [[k [r2 F2]]| |]; cbn [rbind] in E; try discriminate E.
  cbn [ds_rem ds_for] in E. injection E as <- <- <-. rewrite fl_app. now apply stuck_none.
Qed.
(** Tests of the next token only. *)
Definition hdet {A} (g : kind -> A) (m : D A) : Prop := forall r F, m (mkDS r F) = Ok (g (hd0 r), mkDS r F).
Lemma hdet_current : hdet (fun k => k) (@p_current TO).
Proof. intros r F. reflexivity. Qed.
Lemma hdet_at a : hdet (pacc_test a) (@p_at TO a).
Proof. intros r F. reflexivity. Qed.
Lemma hdet_not_at a : hdet (fun k => negb (pacc_test a k)) (b <- @p_at TO a ;; @ret TO _ (negb b)).
Proof. intros r F. reflexivity. Qed.
Lemma bind_det {A B} (g : kind -> A) (m : D A) (f : A -> D B) r F : hdet g m -> @bind TO A B m f (mkDS r F) = f (g (hd0 r)) (mkDS r F).
Proof. intros H. cbn [bind tree_ops]. unfold tr_bind. rewrite H. reflexivity. Qed.
Lemma cpl_det q c S {A B} (g : kind -> A) (m : D A) (f : A -> D B) : hdet g m -> (forall k, q k = true -> cpl (kind_eqb k) c S (f (g k))) -> cpl q c S (@bind TO A B m f).
Proof.
  intros H K u x F a r1 F1 N G C Q E L. rewrite (bind_det g), hd0_app in E by assumption. destruct (K _ Q _ _ _ _ _ _ N G C (kind_eqb_refl _) E L) as (w & W & NW & R). exists w. split; [exact W|]. split; [nes|].
  intros z a' r2 F2 Sz E2. rewrite (bind_det g), hd0_app in E2 by assumption. exact (R _ _ _ _ Sz E2).
Qed.
Lemma stuck_det q {A B} (g : kind -> A) (m : D A) (f : A -> D B) : hdet g m -> (forall k, q k = true -> stuck (kind_eqb k) (f (g k))) -> stuck q (@bind TO A B m f).
Proof. intros H K r F a r1 F1 C Q E. rewrite (bind_det g) in E by assumption. exact (K _ Q _ _ _ _ _ C (kind_eqb_refl _) E). Qed.
Lemma stuck_recover q m s : stuck q (@p_err_recover TO m s).
Proof.
  unfold p_err_recover. apply (stuck_det q _ _ _ hdet_current). intros k _. destruct (kind_eqb k KEndKw); [apply stuck_error|]. apply (stuck_det _ _ _ _ (hdet_at _)). intros k' _.
  destruct (pacc_test (PSet s) k'); [apply stuck_error|apply stuck_err_node].
Qed.
Lemma cpl_node_by q c S (m : D kind) : cpl q c S m -> cpl q c S (@node_by TO m).
Proof.
  intros H u x F a r1 F1 N G C Q E L. cbn [node_by tree_ops] in *. unfold tr_node in *. cbn [ds_rem ds_for] in *. destruct (m (mkDS (u ++ x) [])) as [[k [s1 G1]]| |] eqn:M1; cbn [rbind] in E; try discriminate E.
  cbn [ds_rem ds_for] in E. injection E as <- <- <-. rewrite fl_node, cp_app_clean in L by exact C. destruct (H _ _ _ _ _ _ N G clean_nil Q M1) as (w & W & NW & R); [cbn [fl flat_map length]; lia|]. exists w. split; [exact W|]. split; [nes|].
  intros z a' r2 F2 Sz E2. destruct (m (mkDS (u ++ w ++ z) [])) as [[k2 [s2 G2]]| |] eqn:M2; cbn [rbind] in E2; try discriminate E2. cbn [ds_rem ds_for] in E2. injection E2 as <- <- <-.
  destruct (R _ _ _ _ Sz M2) as [-> C2]. split; [reflexivity|]. rewrite fl_node. now apply clean_app.
Qed.
Lemma cpl_pre_by q c S i (m : D kind) : cpl q c S m -> cpl q c S (@pre_node_by TO i m).
Proof.
  intros H u x F a r1 F1 N G C Q E L. cbn [pre_node_by tree_ops] in *. unfold tr_pre in *. cbn [ds_rem ds_for] in *. destruct (skipn i F) as [|[| | |kt ft] pre] eqn:SK; try discriminate E.
  destruct (m (mkDS (u ++ x) [])) as [[k [s1 G1]]| |] eqn:M1; cbn [rbind] in E; try discriminate E.
  cbn [ds_rem ds_for] in E. injection E as <- <- <-. rewrite (fl_pre _ _ _ _ _ _ _ SK), cp_app_clean in L by exact C. destruct (H _ _ _ _ _ _ N G clean_nil Q M1) as (w & W & NW & R); [cbn [fl flat_map length]; lia|]. exists w. split; [exact W|]. split; [nes|].
  intros z a' r2 F2 Sz E2. destruct (m (mkDS (u ++ w ++ z) [])) as [[k2 [s2 G2]]| |] eqn:M2; cbn [rbind] in E2; try discriminate E2. cbn [ds_rem ds_for] in E2. injection E2 as <- <- <-.
  destruct (R _ _ _ _ Sz M2) as [-> C2]. split; [reflexivity|]. rewrite (fl_pre _ _ _ _ _ _ _ SK). now apply clean_app.
Qed.
Lemma takes_node_by q e (m : D kind) : takes q e m -> takes q e (@node_by TO m).
Proof.
  intros H r F a r1 F1 C Q E C1. cbn [node_by tree_ops] in *. unfold tr_node in *. cbn [ds_rem ds_for] in *. destruct (m (mkDS r [])) as [[k [s1 G1]]| |] eqn:M1; cbn [rbind] in E; try discriminate E.
  cbn [ds_rem ds_for] in E. injection E as <- <- <-. rewrite fl_node in *. apply clean_app in C1 as [_ C1]. pose proof (H _ _ _ _ _ clean_nil Q M1 C1) as X. cbn [fl flat_map length] in X. rewrite app_length. lia.
Qed.
Lemma takes_bind q e {A B} (m : D A) (f : A -> D B) : takes q e m -> (forall a, ext (f a)) -> takes q e (@bind TO A B m f).
Proof.
  intros H X r F a r1 F1 C Q E C1. cbn [bind tree_ops] in *. unfold tr_bind in *. destruct (m (mkDS r F)) as [[b [s1 G1]]| |] eqn:M1; cbn [rbind fst snd] in E; try discriminate E.
  destruct (X _ _ _ _ _ _ E) as (g & Eg & _). rewrite Eg in *. apply clean_app in C1 as [C1 _]. pose proof (H _ _ _ _ _ C Q M1 C1). rewrite app_length. lia.
Qed.
Lemma takes_node q e {A} k (m : D A) : takes q e m -> takes q e (@node TO A k m).
Proof. intros H. unfold node. apply takes_node_by, takes_bind; [exact H|]. intros a. apply ext_ret. Qed.
Lemma takes_node_ q e {A} k (m : D A) : takes q e m -> takes q e (@node_ TO A k m).
Proof. intros H. unfold node_. apply takes_bind; [now apply takes_node|]. intros a. apply ext_ret. Qed.
Lemma takes_det q e {A B} (g : kind -> A) (m : D A) (f : A -> D B) : hdet g m -> (forall k, q k = true -> takes (kind_eqb k) e (f (g k))) -> takes q e (@bind TO A B m f).
Proof. intros H K r F a r1 F1 C Q E C1. rewrite (bind_det g) in E by assumption. exact (K _ Q _ _ _ _ _ C (kind_eqb_refl _) E C1). Qed.
Lemma takes_stuck q e {A} (m : D A) : fails q m -> takes q e m.
Proof. intros H r F a r1 F1 C Q E C1. destruct (clean_not _ C1 (H _ _ _ _ _ Q E)). Qed.
Lemma takes_bump q a : takes q 1 (@p_bump TO a).
Proof. intros r F u r1 F1 C Q E C1. destruct (bump_inv _ _ _ _ _ _ E) as (k & -> & -> & _). rewrite fl_app, app_length. cbn. lia. Qed.
Lemma cpl_bump q a : cpl q (-8) any (@p_bump TO a).
Proof.
  intros u x F b r1 F1 N G C Q E L. destruct (bump_inv _ _ _ _ _ _ E) as (k & Er & -> & T & _). rewrite fl_app, cp_app_clean in L by exact C. cbn in L. destruct u as [|k' [|k'' u]]; cbn [length] in L; try lia.
  exists []. split; [cbn; lia|]. split; [nes|]. intros z a' r2 F2 _ E2. destruct (bump_inv _ _ _ _ _ _ E2) as (k2 & Er2 & -> & _). cbn [app] in Er2. split; [congruence|]. rewrite fl_app. apply clean_app. split; [exact C|reflexivity].
Qed.
Lemma dfl_bump S a k : dfl S (@p_bump TO a) [k].
Proof. intros z F b r F1 _ C E. destruct (bump_inv _ _ _ _ _ _ E) as (k2 & Er2 & -> & _). cbn [app] in Er2. split; [congruence|]. rewrite fl_app. apply clean_app. split; [exact C|reflexivity]. Qed.
Lemma cpl_ret_after q c S {A B} (m : D A) (f : A -> B) : cpl q c S m -> cpl q c S (@bind TO A B m (fun a => @ret TO B (f a))).
Proof.
  intros H u x F a r1 F1 N G C Q E L. cbn [bind ret tree_ops] in *. unfold tr_bind, tr_ret in *. destruct (m (mkDS (u ++ x) F)) as [[b [s1 G1]]| |] eqn:M1; cbn [rbind fst snd] in E; try discriminate E. injection E as <- <- <-.
  destruct (H _ _ _ _ _ _ N G C Q M1 L) as (w & W & NW & R). exists w. split; [exact W|]. split; [nes|]. intros z a' r2 F2 Sz E2. destruct (m (mkDS (u ++ w ++ z) F)) as [[b2 [s2 G2]]| |] eqn:M2; cbn [rbind fst snd] in E2; try discriminate E2. injection E2 as <- <- <-.
  exact (R _ _ _ _ Sz M2).
Qed.
Lemma cpl_node q c S {A} k (m : D A) : cpl q c S m -> cpl q c S (@node TO A k m).
Proof. intros H. unfold node. apply cpl_node_by, (cpl_ret_after q c S m (fun _ => k)). exact H. Qed.
Lemma cpl_node_ q c S {A} k (m : D A) : cpl q c S m -> cpl q c S (@node_ TO A k m).
Proof. intros H. unfold node_. apply (cpl_ret_after q c S (@node TO A k m) (fun _ => tt)). now apply cpl_node. Qed.
Lemma cpl_pre q c S {A} i k (m : D A) : cpl q c S m -> cpl q c S (@pre_node TO A i k m).
Proof. intros H. unfold pre_node. apply cpl_pre_by, (cpl_ret_after q c S m (fun _ => k)). exact H. Qed.
(** ** Reading a given word *)
Lemma dfl_ret S {A} (a : A) : dfl S (@ret TO A a) [].
Proof. intros z F b r F1 _ C E. cbn [ret tree_ops] in E. unfold tr_ret in E. injection E as _ <- <-. auto. Qed.
Lemma dfl_out S w {A} : dfl S (@out TO A) w.
Proof. intros z F b r F1 _ C E. discriminate E. Qed.
Lemma dfl_panic S w {A} : dfl S (@panic TO A) w.
Proof. intros z F b r F1 _ C E. discriminate E. Qed.
Lemma dfl_bind S S1 w1 w2 {A B} (m : D A) (f : A -> D B) : dfl S1 m w1 -> (forall a, dfl S (f a) w2) -> (forall z, S (hd0 z) = true -> S1 (hd0 (w2 ++ z)) = true) -> dfl S (@bind TO A B m f) (w1 ++ w2).
Proof.
  intros H1 H2 HS z F b r F1 Sz C E. cbn [bind tree_ops] in E. unfold tr_bind in E. rewrite <- app_assoc in E. destruct (m (mkDS (w1 ++ w2 ++ z) F)) as [[a [s1 G1]]| |] eqn:M1; cbn [rbind fst snd] in E; try discriminate E.
  destruct (H1 _ _ _ _ _ (HS _ Sz) C M1) as [-> C1]. exact (H2 _ _ _ _ _ _ Sz C1 E).
Qed.
Lemma dfl_det_cons S k w {A B} (g : kind -> A) (m : D A) (f : A -> D B) : hdet g m -> dfl S (f (g k)) (k :: w) -> dfl S (@bind TO A B m f) (k :: w).
Proof. intros H K z F a r F1 Sz C E. rewrite (bind_det g) in E by assumption. exact (K _ _ _ _ _ Sz C E). Qed.
Lemma dfl_det_nil S {A B} (g : kind -> A) (m : D A) (f : A -> D B) : hdet g m -> (forall k, S k = true -> dfl (kind_eqb k) (f (g k)) []) -> dfl S (@bind TO A B m f) [].
Proof. intros H K z F a r F1 Sz C E. rewrite (bind_det g) in E by assumption. exact (K _ Sz _ _ _ _ _ (kind_eqb_refl _) C E). Qed.
Lemma dfl_node_by S w (m : D kind) : dfl S m w -> dfl S (@node_by TO m) w.
Proof.
  intros H z F a r F1 Sz C E. cbn [node_by tree_ops] in *. unfold tr_node in *. cbn [ds_rem ds_for] in *. destruct (m (mkDS (w ++ z) [])) as [[k [s1 G1]]| |] eqn:M1; cbn [rbind] in E; try discriminate E.
  cbn [ds_rem ds_for] in E. injection E as <- <- <-. destruct (H _ _ _ _ _ Sz clean_nil M1) as [-> C1]. split; [reflexivity|]. rewrite fl_node. now apply clean_app.
Qed.
Lemma dfl_pre_by S i w (m : D kind) : dfl S m w -> dfl S (@pre_node_by TO i m) w.
Proof.
  intros H z F a r F1 Sz C E. cbn [pre_node_by tree_ops] in *. unfold tr_pre in *. cbn [ds_rem ds_for] in *. destruct (skipn i F) as [|[| | |kt ft] pre] eqn:SK; try discriminate E.
  destruct (m (mkDS (w ++ z) [])) as [[k [s1 G1]]| |] eqn:M1; cbn [rbind] in E; try discriminate E.
  cbn [ds_rem ds_for] in E. injection E as <- <- <-. destruct (H _ _ _ _ _ Sz clean_nil M1) as [-> C1]. split; [reflexivity|]. rewrite (fl_pre _ _ _ _ _ _ _ SK). now apply clean_app.
Qed.
Lemma dfl_ret_after S w {A B} (m : D A) (f : A -> B) : dfl S m w -> dfl S (@bind TO A B m (fun a => @ret TO B (f a))) w.
Proof. intros H. rewrite <- (app_nil_r w). apply (dfl_bind S S); [exact H|intros a; apply dfl_ret|auto]. Qed.
Lemma dfl_node S w {A} k (m : D A) : dfl S m w -> dfl S (@node TO A k m) w.
Proof. intros H. unfold node. apply dfl_node_by, (dfl_ret_after S w m (fun _ => k)). exact H. Qed.
Lemma dfl_node_ S w {A} k (m : D A) : dfl S m w -> dfl S (@node_ TO A k m) w.
Proof. intros H. unfold node_. apply (dfl_ret_after S w (@node TO A k m) (fun _ => tt)). now apply dfl_node. Qed.
Lemma dfl_pre S w {A} i k (m : D A) : dfl S m w -> dfl S (@pre_node TO A i k m) w.
Proof. intros H. unfold pre_node. apply dfl_pre_by, (dfl_ret_after S w m (fun _ => k)). exact H. Qed.
(** ** Expecting and accepting a token *)
Lemma expect_inv K r F b r1 F1 : @p_expect TO K (mkDS r F) = Ok (b, mkDS r1 F1) -> (r = K :: r1 /\ F1 = F ++ [PTok K]) \/ (hd0 r <> K /\ r1 = r /\ exists e, F1 = F ++ [PErr e]).
Proof.
  intros E. unfold p_expect in E. rewrite (bind_det _ _ _ _ _ hdet_current) in E. destruct (kind_eqb (hd0 r) K) eqn:EK.
  - left. cbn [bind tree_ops] in E. unfold tr_bind in E. destruct (@p_bump TO PAny (mkDS r F)) as [[u [s1 G1]]| |] eqn:M; cbn [rbind fst snd] in E; try discriminate E. cbn [ret tree_ops] in E. unfold tr_ret in E. injection E as _ <- <-.
    destruct (bump_inv _ _ _ _ _ _ M) as (k & -> & -> & _). apply kind_eqb_eq in EK. cbn [hd0 nth] in EK. subst k. auto.
  - right. apply kind_eqb_neq in EK. cbn [bind ret p_push_error tree_ops] in E. unfold tr_bind, tr_ret, tr_error in E. cbn [rbind fst snd ds_rem ds_for] in E. injection E as _ <- <-. eauto.
Qed.
Lemma clean_snoc F k : clean (fl F) -> clean (fl (F ++ [PTok k])).
Proof. intros C. rewrite fl_app. apply clean_app. split; [exact C|reflexivity]. Qed.
Lemma cpl_expect q K : cpl q (-8) any (@p_expect TO K).
Proof.
  intros u x F b r1 F1 N G C Q E L. destruct (expect_inv _ _ _ _ _ _ E) as [[Er ->]|(_ & _ & e & ->)]; rewrite fl_app, cp_app_clean in L by exact C; cbn in L; destruct u as [|k' [|k'' u]]; cbn [length] in L; try lia; try congruence.
  exists []. split; [cbn; lia|]. split; [nes|]. cbn [app] in *. assert (k' = K) by congruence. subst k'. intros z a' r2 F2 _ E2. destruct (expect_inv _ _ _ _ _ _ E2) as [[Er2 ->]|(NK & _)]; [|destruct (NK eq_refl)]. split; [congruence|]. now apply clean_snoc.
Qed.
Lemma takes_expect q K : takes q 1 (@p_expect TO K).
Proof.
  intros r F b r1 F1 C _ E C1. destruct (expect_inv _ _ _ _ _ _ E) as [[Er ->]|(_ & _ & e & ->)]; rewrite fl_app in *; [rewrite app_length; cbn; lia|]. apply clean_app in C1 as [_ C1]. discriminate C1.
Qed.
Lemma dfl_expect S K : dfl S (@p_expect TO K) [K].
Proof. intros z F b r F1 _ C E. destruct (expect_inv _ _ _ _ _ _ E) as [[Er ->]|(NK & _)]; [|destruct (NK eq_refl)]. cbn [app] in Er. split; [congruence|]. now apply clean_snoc. Qed.
Lemma accept_inv a r F b r1 F1 : @p_accept TO a (mkDS r F) = Ok (b, mkDS r1 F1) -> (pacc_test a (hd0 r) = true /\ b = true /\ exists k, r = k :: r1 /\ F1 = F ++ [PTok k]) \/ (pacc_test a (hd0 r) = false /\ b = false /\ r1 = r /\ F1 = F).
Proof.
  intros E. unfold p_accept in E. rewrite (bind_det _ _ _ _ _ (hdet_at a)) in E. destruct (pacc_test a (hd0 r)).
  - left. cbn [bind ret p_adv tree_ops] in E. unfold tr_bind, tr_ret, tr_adv in E. cbn [ds_rem ds_for] in E. destruct r as [|k r]; [discriminate E|]. destruct (kind_eqb k KEof); [discriminate E|]. cbn [rbind fst snd] in E. injection E as <- <- <-. split; [reflexivity|]. split; [reflexivity|]. exists k. auto.
  - right. cbn [ret tree_ops] in E. unfold tr_ret in E. injection E as <- <- <-. auto.
Qed.
Lemma cpl_accept q c S a w2 {B} (f : bool -> D B) : cpl any (c + 8) S (f true) -> dfl S (f true) w2 -> ne w2 = true -> (Z.of_nat (length w2) <= 8 + c)%Z -> cpl any c S (f false) -> cpl q c S (@bind TO _ B (@p_accept TO a) f).
Proof.
  intros KT DT NE2 LW KF u x F b r1 F1 N G C Q E L. cbn [bind tree_ops] in *. unfold tr_bind in *. destruct (@p_accept TO a (mkDS (u ++ x) F)) as [[b1 [s1 G1]]| |] eqn:M1; cbn [rbind fst snd] in E; try discriminate E.
  destruct (accept_inv _ _ _ _ _ _ M1) as [(T & -> & k & Er & ->)|(T & -> & -> & ->)]; rewrite hd0_app in T by exact N.
  - destruct u as [|k' u]; [congruence|]. cbn [app] in Er. assert (k' = k) by congruence. assert (Es : s1 = u ++ x) by congruence. subst k' s1. clear Er. destruct u as [|k' u].
    + exists w2. split; [cbn [length]; lia|]. split; [nes|]. intros z a' r2 F2 Sz E2. destruct (@p_accept TO a (mkDS ([k] ++ w2 ++ z) F)) as [[b2 [s2 G2]]| |] eqn:M2; cbn [rbind fst snd] in E2; try discriminate E2.
      destruct (accept_inv _ _ _ _ _ _ M2) as [(_ & -> & k2 & Er2 & ->)|(T2 & _)]; [|cbn [app hd0 nth] in *; congruence]. cbn [app] in Er2. assert (s2 = w2 ++ z) by congruence. subst s2. exact (DT _ _ _ _ _ Sz (clean_snoc _ _ C) E2).
    + assert (N' : k' :: u <> []) by discriminate. destruct (KT _ _ _ _ _ _ N' (good_app [k] _ G) (clean_snoc _ k C) eq_refl E) as (w & W & NW & R). { rewrite L, fl_app, app_length. cbn. lia. }
      exists w. split; [cbn [length] in *; lia|]. split; [nes|]. intros z a' r2 F2 Sz E2. destruct (@p_accept TO a (mkDS ((k :: k' :: u) ++ w ++ z) F)) as [[b2 [s2 G2]]| |] eqn:M2; cbn [rbind fst snd] in E2; try discriminate E2.
      destruct (accept_inv _ _ _ _ _ _ M2) as [(_ & -> & k2 & Er2 & ->)|(T2 & _)]; [|cbn [app hd0 nth] in *; congruence]. cbn [app] in Er2. assert (s2 = (k' :: u) ++ w ++ z) by (cbn [app]; congruence). assert (k2 = k) by congruence. subst s2 k2. exact (R _ _ _ _ Sz E2).
  - destruct (KF _ _ _ _ _ _ N G C eq_refl E L) as (w & W & NW & R). exists w. split; [exact W|]. split; [nes|]. intros z a' r2 F2 Sz E2. destruct (@p_accept TO a (mkDS (u ++ w ++ z) F)) as [[b2 [s2 G2]]| |] eqn:M2; cbn [rbind fst snd] in E2; try discriminate E2.
    destruct (accept_inv _ _ _ _ _ _ M2) as [(T2 & _)|(_ & -> & -> & ->)]; [rewrite hd0_app in T2 by exact N; congruence|]. exact (R _ _ _ _ Sz E2).
Qed.
Lemma dfl_accept_nil S a {B} (f : bool -> D B) : (forall k, S k = true -> pacc_test a k = false) -> dfl S (f false) [] -> dfl S (@bind TO _ B (@p_accept TO a) f) [].
Proof.
  intros HN H z F b r F1 Sz C E. cbn [bind tree_ops] in E. unfold tr_bind in E. destruct (@p_accept TO a (mkDS ([] ++ z) F)) as [[b2 [s2 G2]]| |] eqn:M2; cbn [rbind fst snd] in E; try discriminate E.
  destruct (accept_inv _ _ _ _ _ _ M2) as [(T2 & _)|(_ & -> & -> & ->)]; [cbn [app] in T2; rewrite (HN _ Sz) in T2; discriminate T2|]. exact (H _ _ _ _ _ Sz C E).
Qed.
Lemma cpl_guard q c S a {B} (f : unit -> D B) : cpl q c S (f tt) -> cpl q c S (@bind TO _ B (@bind TO _ _ (@p_at TO a) (fun b => @passert TO b)) f).
Proof.
  intros H.
  assert (G : forall r F, @bind TO _ B (@bind TO _ _ (@p_at TO a) (fun b => @passert TO b)) f (mkDS r F) = if pacc_test a (hd0 r) then f tt (mkDS r F) else Panic).
  { intros r F. cbn [bind tree_ops]. unfold tr_bind at 1. change (tr_bind (@p_at TO a) (fun b => @passert TO b) (mkDS r F)) with (@bind TO _ _ (@p_at TO a) (fun b => @passert TO b) (mkDS r F)). rewrite (bind_det _ _ _ _ _ (hdet_at a)). now destruct (pacc_test a (hd0 r)). }
  intros u x F b r1 F1 N Gd C Q E L. rewrite G in E. destruct (pacc_test a (hd0 (u ++ x))); [|discriminate E]. destruct (H _ _ _ _ _ _ N Gd C Q E L) as (w & W & NW & R). exists w. split; [exact W|]. split; [nes|].
  intros z a' r2 F2 Sz E2. rewrite G in E2. destruct (pacc_test a (hd0 (u ++ w ++ z))); [|discriminate E2]. exact (R _ _ _ _ Sz E2).
Qed.
Lemma dfl_guard S w a {B} (f : unit -> D B) : dfl S (f tt) w -> dfl S (@bind TO _ B (@bind TO _ _ (@p_at TO a) (fun b => @passert TO b)) f) w.
Proof.
  intros H z F b r F1 Sz C E. cbn [bind tree_ops] in E. unfold tr_bind at 1 in E. change (tr_bind (@p_at TO a) (fun b => @passert TO b) (mkDS (w ++ z) F)) with (@bind TO _ _ (@p_at TO a) (fun b => @passert TO b) (mkDS (w ++ z) F)) in E.
  rewrite (bind_det _ _ _ _ _ (hdet_at a)) in E. destruct (pacc_test a (hd0 (w ++ z))); [|discriminate E]. exact (H _ _ _ _ _ Sz C E).
Qed.
(** ** Looking one further *)
Lemma peek_run {B} (f : kind -> D B) r F : @bind TO _ B (@p_nth TO 1) f (mkDS r F) = f (nth 1 r KEof) (mkDS r F).
Proof. reflexivity. Qed.
Lemma cpl_peek q c S w {B} (f : kind -> D B) : (forall k, cpl q c S (f k)) -> (forall k, q k = true -> (exists k1 x F a r1 F1, clean (fl F) /\ f k1 (mkDS (k :: x) F) = Ok (a, mkDS r1 F1) /\ cp (fl F1) = length (fl F) + 1) -> dfl S (@bind TO _ B (@p_nth TO 1) f) (k :: w)) -> ne w = true -> (Z.of_nat (length w) <= 8 + c)%Z -> cpl q c S (@bind TO _ B (@p_nth TO 1) f).
Proof.
  intros H H1 NE2 LW u x F b r1 F1 N G C Q E L. rewrite peek_run in E. destruct u as [|k [|k2 u]]; [congruence| |].
  - exists w. split; [cbn [length]; lia|]. split; [nes|]. intros z a' r2 F2 Sz E2. refine (H1 k Q _ _ _ _ _ _ Sz C E2). exists (nth 1 ([k] ++ x) KEof), x, F, b, r1, F1. split; [exact C|]. split; [exact E|]. rewrite L. reflexivity.
  - cbn [app nth] in E. destruct (H k2 _ _ _ _ _ _ N G C Q E L) as (w' & W & NW & R). exists w'. split; [exact W|]. split; [nes|]. intros z a' r2 F2 Sz E2. rewrite peek_run in E2. cbn [app nth] in E2. exact (R _ _ _ _ Sz E2).
Qed.
(** ** Loops *)
(** The body of a loop leaves it at once. *)
Definition nos (S : kind -> bool) (b : D bool) : Prop := forall z F a r F1, S (hd0 z) = true -> b (mkDS z F) = Ok (a, mkDS r F1) -> a = false /\ r = z /\ F1 = F.
Lemma dfl_loop S b : nos S b -> forall n, dfl S (@p_loop TO n b) [].
Proof.
  intros H [|n]; cbn [p_loop]; [apply dfl_out|]. intros z F a r F1 Sz C E. cbn [bind tree_ops] in E. unfold tr_bind in E. cbn [app] in E. destruct (b (mkDS z F)) as [[b1 [s1 G1]]| |] eqn:M1; cbn [rbind fst snd] in E; try discriminate E.
  destruct (H _ _ _ _ _ Sz M1) as (-> & -> & ->). cbn [ret tree_ops] in E. unfold tr_ret in E. injection E as _ <- <-. auto.
Qed.
Lemma cpl_loop c S b : T1 b -> cpl any c S b -> nos S b -> forall n, cpl any c S (@p_loop TO n b).
Proof.
  intros T K H. induction n as [|n IH]; cbn [p_loop]; [apply cpl_out|]. apply (cpl_bind any c c c S S []); auto.
  - intros [|]; [apply (tw_loop b T n)|apply ext_ret].
  - intros [|]; [exact IH|apply cpl_ret].
  - intros [|]; [now apply dfl_loop|apply dfl_ret].
  - cbn. lia.
  - lia.
Qed.
Lemma nos_det S {A} (g : kind -> A) (m : D A) (f : A -> D bool) : hdet g m -> (forall k, S k = true -> nos (kind_eqb k) (f (g k))) -> nos S (@bind TO _ _ m f).
Proof. intros H K z F a r F1 Sz E. rewrite (bind_det g) in E by assumption. exact (K _ Sz _ _ _ _ _ (kind_eqb_refl _) E). Qed.
Lemma nos_ret S : nos S (@ret TO _ false).
Proof. intros z F a r F1 Sz E. cbn [ret tree_ops] in E. unfold tr_ret in E. injection E as <- <- <-. auto. Qed.
Lemma cpl_while c S (g : kind -> bool) cond (b : D unit) n : hdet g cond -> T1 cond -> T1 b -> cpl any c S b -> (forall k, S k = true -> g k = false) -> cpl any c S (@p_while TO n cond b).
Proof.
  intros Hg Tc Tb K H. unfold p_while. apply cpl_loop.
  - apply tw_bind; [exact Tc|]. intros [|]; [|apply tw_ret]. apply tw_bind; [exact Tb|]. intros a. apply tw_ret.
  - apply (cpl_det any c S g); [exact Hg|]. intros k _. destruct (g k); [|apply cpl_ret]. apply cpl_any, (cpl_ret_after any c S b (fun _ => true)). exact K.
  - apply (nos_det S g); [exact Hg|]. intros k Sk. rewrite (H _ Sk). apply nos_ret.
Qed.
Lemma dfl_while S (g : kind -> bool) cond (b : D unit) n : hdet g cond -> (forall k, S k = true -> g k = false) -> dfl S (@p_while TO n cond b) [].
Proof. intros Hg H. unfold p_while. apply dfl_loop, (nos_det S g); [exact Hg|]. intros k Sk. rewrite (H _ Sk). apply nos_ret. Qed.
