(** SaysFname.v — the name of a function (statements.rs:249-295): what it consumes and where its first error is,
    as a function of the tokens; from it the facts SaysGrammar.v needs. *)
From Coq Require Import String.
From Verif Require Import Base SyntaxKind TokenSet Lexer BindingPowers Parser Grammar ParserTree EventProofs SinkProofs FirstProofs ContProofs ContGrammar ContOpen SaysProofs SaysNames SaysGrammar.

(** An error that promises a name. *)
Definition bad (F : forest) : Prop := exists m, fe (fx F) = Some (PMsg m) /\ promise (PMsg m) = Some KIdent.
(** The tokens consumed before the first error, and whether there is none. *)
Definition outc (r : list kind) (F : forest) (g : list kind * bool) (r1 : list kind) (F1 : forest) : Prop :=
  exists y, r = fst g ++ y /\ if snd g then r1 = y /\ clean (fl F1) /\ length (fl F1) = length (fl F) + length (fst g) else cp (fl F1) = length (fl F) + length (fst g) /\ bad F1.
Definition sp {A} (m : D A) (g : list kind -> list kind * bool) : Prop := forall r F a r1 F1, clean (fl F) -> m (mkDS r F) = Ok (a, mkDS r1 F1) -> outc r F (g r) r1 F1.
Lemma bad_dirty F : bad F -> dirty (fl F).
Proof. intros (m & E & _). destruct (clean_or (fl F)) as [C|D]; [|exact D]. apply clean_fe in C. congruence. Qed.
Lemma outc_more r F u r1 F1 r2 F2 G : outc r F (u, false) r1 F1 -> fx F2 = fx F1 ++ G -> outc r F (u, false) r2 F2.
Proof.
  intros (y & E & L & B) X. exists y. cbn [fst snd] in *. split; [exact E|]. split.
  - rewrite fl_fx, X, map_app, <- fl_fx, cp_app_dirty by (now apply bad_dirty). exact L.
  - destruct B as (m & E1 & E2). exists m. split; [|exact E2]. rewrite X. now apply fe_app_some.
Qed.
Lemma outc_skip p r F F1 u b r2 F2 : outc r F1 (u, b) r2 F2 -> length (fl F1) = length (fl F) + length p -> outc (p ++ r) F (p ++ u, b) r2 F2.
Proof.
  intros (y & E & H) L. exists y. cbn [fst snd] in *. split; [rewrite E; apply app_assoc|]. rewrite app_length. destruct b.
  - destruct H as (H1 & H2 & H3). repeat split; [exact H1|exact H2|lia].
  - destruct H as (H1 & H2). split; [lia|exact H2].
Qed.
Lemma sp_map {A B} (m : D A) (f : A -> B) g : sp m g -> sp (@bind TO A B m (fun a => @ret TO B (f a))) g.
Proof.
  intros H r F b r1 F1 C E. cbn [bind ret tree_ops] in E. unfold tr_bind, tr_ret in E. destruct (m (mkDS r F)) as [[a1 [s1 G1]]| |] eqn:M; cbn [rbind fst snd] in E; try discriminate E. injection E as _ <- <-. exact (H _ _ _ _ _ C M).
Qed.
Lemma outc_nest r F H g r1 G1 : clean (fl F) -> outc r [] g r1 G1 -> fl H = fl F ++ fl G1 -> (fe (fx H) = fe (fx G1)) -> outc r F g r1 H.
Proof.
  intros C (y & E & K) L X. exists y. split; [exact E|]. rewrite L. destruct (snd g).
  - destruct K as (K1 & K2 & K3). split; [exact K1|]. split; [now apply clean_app|]. rewrite app_length, K3. reflexivity.
  - destruct K as (K1 & K2). split; [rewrite cp_app_clean by exact C; rewrite K1; reflexivity|]. unfold bad in *. now rewrite X.
Qed.
Lemma sp_node_by (m : D kind) g : sp m g -> sp (@node_by TO m) g.
Proof.
  intros H r F a r1 F1 C E. cbn [node_by tree_ops] in *. unfold tr_node in *. cbn [ds_rem ds_for] in *. destruct (m (mkDS r [])) as [[k [s1 G1]]| |] eqn:M1; cbn [rbind] in E; try discriminate E.
  cbn [ds_rem ds_for] in E. injection E as _ <- <-. apply (outc_nest _ _ _ _ _ G1); [exact C|exact (H _ _ _ _ _ clean_nil M1)|apply fl_node|].
  rewrite fx_app, fe_app_none by (now apply clean_fe). unfold fx at 1. cbn [flat_map fx1]. now rewrite app_nil_r.
Qed.
Lemma sp_pre_by i (m : D kind) g : sp m g -> sp (@pre_node_by TO i m) g.
Proof.
  intros H r F a r1 F1 C E. cbn [pre_node_by tree_ops] in *. unfold tr_pre in *. cbn [ds_rem ds_for] in *. destruct (skipn i F) as [|[| | |kt ft] pre] eqn:SK; try discriminate E.
  destruct (m (mkDS r [])) as [[k [s1 G1]]| |] eqn:M1; cbn [rbind] in E; try discriminate E.
  cbn [ds_rem ds_for] in E. injection E as _ <- <-. apply (outc_nest _ _ _ _ _ G1); [exact C|exact (H _ _ _ _ _ clean_nil M1)|now apply fl_pre|].
  rewrite (fx_pre _ _ _ _ _ _ _ SK), fe_app_none by (now apply clean_fe). reflexivity.
Qed.
(** ** A name *)
Definition id1 (r : list kind) : list kind * bool := if kind_eqb (hd0 r) KIdent then ([KIdent], true) else ([], false).
Lemma hd0_ident r : kind_eqb (hd0 r) KIdent = true -> exists t, r = KIdent :: t.
Proof. intros H. apply kind_eqb_eq in H. destruct r as [|k r]; [discriminate H|]. cbn in H. subst k. now exists r. Qed.
Lemma sp_id {A} (m : D A) (err : D A) msg : ext m -> dfl any m [KIdent] -> (forall r F, kind_eqb (hd0 r) KIdent = false -> m (mkDS r F) = err (mkDS r F)) -> errs msg err -> promise (PMsg msg) = Some KIdent -> sp m id1.
Proof.
  intros X Df EE ER P r F a r1 F1 C E. unfold id1. destruct (kind_eqb (hd0 r) KIdent) eqn:EK.
  - destruct (hd0_ident _ EK) as (t & ->). destruct (Df t F _ _ _ eq_refl C E) as [-> C1]. exists t. split; [reflexivity|]. cbn [fst snd]. split; [reflexivity|]. split; [exact C1|]. exact (exact_len m [KIdent] t _ _ _ X E C1).
  - rewrite EE in E by exact EK. destruct (ER _ _ _ _ _ E) as (t & -> & ET). exists r. split; [reflexivity|]. cbn [fst snd length]. assert (FX : fx (F ++ [t]) = fx F ++ [inr (PMsg msg)]) by (rewrite fx_app; unfold fx at 2; cbn [flat_map]; now rewrite app_nil_r, ET). split.
    + rewrite fl_fx, FX, map_app, <- fl_fx, cp_app_clean by exact C. cbn. lia.
    + exists msg. split; [|exact P]. rewrite FX, fe_app_none by (now apply clean_fe). reflexivity.
Qed.
Lemma sp_name_r s : sp (@name_r TO s) id1.
Proof.
  apply (sp_id _ (@p_err_recover TO "expected a name" s) "expected a name"); [exts|apply dfl_name_r| |apply errs_recover|reflexivity].
  intros r F H. unfold name_r. rewrite (bind_det _ _ _ _ _ (hdet_at _)). cbn [pacc_test]. now rewrite H.
Qed.
Lemma sp_name_ref_r s : sp (@name_ref_r TO s) id1.
Proof.
  apply (sp_id _ (@p_err_recover TO "expected a name referencer" s) "expected a name referencer"); [exts|apply dfl_name_ref_r| |apply errs_recover|reflexivity].
  intros r F H. unfold name_ref_r. rewrite (bind_det _ _ _ _ _ (hdet_at _)). cbn [pacc_test]. now rewrite H.
Qed.
(** ** The path *)
Fixpoint gl (s : list kind) : list kind * bool :=
  match s with
  | [] => ([], true)
  | k :: t => if kind_eqb k KDot then if kind_eqb (nth 1 t KEof) KLParen then ([KDot], true) else
      match t with
      | [] => ([KDot], false)
      | k2 :: t' => if kind_eqb k2 KIdent then (KDot :: KIdent :: fst (gl t'), snd (gl t')) else ([KDot], false)
      end
    else ([], true)
  end.
Lemma kp_path_loop n : kp (@p_loop TO n path_body).
Proof. unfold path_body, path_step. kps. Qed.
Lemma gl_step t : kind_eqb (nth 1 t KEof) KLParen = false -> gl (KDot :: t) = if kind_eqb (hd0 t) KIdent then (KDot :: KIdent :: fst (gl (tl t)), snd (gl (tl t))) else ([KDot], false).
Proof. intros H. cbn [gl]. rewrite H. destruct t as [|k t]; reflexivity. Qed.
Lemma sp_loop : forall n, sp (@p_loop TO n path_body) gl.
Proof.
  induction n as [|n IH]; intros r F a r1 F1 C E; cbn [p_loop] in E; [discriminate E|]. cbn [bind tree_ops] in E. unfold tr_bind at 1 in E.
  destruct (path_body (mkDS r F)) as [[b [s1 G1]]| |] eqn:M; cbn [rbind fst snd] in E; try discriminate E. unfold path_body in M. rewrite (bind_det _ _ _ _ _ (hdet_at _)) in M. cbn [pacc_test] in M.
  destruct (kind_eqb (hd0 r) KColon) eqn:EC.
  { cbn [ret tree_ops] in M. unfold tr_ret in M. injection M as <- <- <-. cbn [ret tree_ops] in E. unfold tr_ret in E. injection E as _ <- <-. apply kind_eqb_eq in EC. exists r. destruct r as [|k r]; [discriminate EC|]. cbn in EC. subst k. cbn. repeat split; [exact C|lia]. }
  rewrite (bind_det _ _ _ _ _ (hdet_at _)) in M. cbn [pacc_test] in M. destruct (kind_eqb (hd0 r) KDot) eqn:ED.
  2:{ cbn [ret tree_ops] in M. unfold tr_ret in M. injection M as <- <- <-. cbn [ret tree_ops] in E. unfold tr_ret in E. injection E as _ <- <-. exists r. assert (GE : gl r = ([], true)) by (destruct r as [|k r]; [reflexivity|cbn in ED; cbn [gl]; now rewrite ED]). rewrite GE. cbn. repeat split; [exact C|lia]. }
  apply kind_eqb_eq in ED. cbn [bind tree_ops] in M. unfold tr_bind at 1 in M. destruct (@p_bump TO (PKind KDot) (mkDS r F)) as [[t0 [s2 G2]]| |] eqn:MB; cbn [rbind fst snd] in M; try discriminate M.
  destruct (bump_inv _ _ _ _ _ _ MB) as (k & -> & -> & _). cbn in ED. subst k. pose proof (clean_snoc _ KDot C) as C'. assert (LF : length (fl (F ++ [PTok KDot])) = length (fl F) + 1) by (rewrite fl_app, app_length; reflexivity).
  unfold path_step in M. rewrite peek_run in M. destruct (kind_eqb (nth 1 s2 KEof) KLParen) eqn:EP.
  { cbn [ret tree_ops] in M. unfold tr_ret in M. injection M as <- <- <-. cbn [ret tree_ops] in E. unfold tr_ret in E. injection E as _ <- <-. exists s2. assert (GE : gl (KDot :: s2) = ([KDot], true)) by (cbn [gl]; now rewrite EP). rewrite GE. cbn [fst snd]. repeat split; [exact C'|exact LF]. }
  cbn [bind ret tree_ops] in M. unfold tr_bind, tr_ret in M. destruct (@name_ref_r TO path_rec (mkDS s2 (F ++ [PTok KDot]))) as [[t1 [s3 G3]]| |] eqn:MN; cbn [rbind fst snd] in M; try discriminate M. injection M as <- <- <-.
  pose proof (sp_name_ref_r path_rec _ _ _ _ _ C' MN) as SN. unfold id1 in SN. rewrite gl_step by exact EP. destruct (kind_eqb (hd0 s2) KIdent) eqn:EI.
  - destruct (hd0_ident _ EI) as (t & ->). destruct SN as (y & Ey & K1 & K2 & K3). cbn in Ey. injection Ey as Ey. subst y s3. cbn [tl]. change (KDot :: KIdent :: t) with ([KDot; KIdent] ++ t). change (KDot :: KIdent :: fst (gl t)) with ([KDot; KIdent] ++ fst (gl t)).
    apply (outc_skip _ _ _ G3); [rewrite <- surjective_pairing; exact (IH _ _ _ _ _ K2 E)|cbn [fst length] in K3; cbn [length]; lia].
  - destruct (kp_path_loop n _ _ _ _ _ E) as (G & EG & _). apply (outc_more _ _ _ s3 G3 _ _ G); [|exact EG]. change (KDot :: s2) with ([KDot] ++ s2). change [KDot] with ([KDot] ++ @nil kind) at 2. apply (outc_skip _ _ _ (F ++ [PTok KDot])); [exact SN|cbn [length]; exact LF].
Qed.
(** [g1], then [g2] on the rest. *)
Definition cat (g1 g2 : list kind -> list kind * bool) (s : list kind) : list kind * bool :=
  if snd (g1 s) then (fst (g1 s) ++ fst (g2 (skipn (length (fst (g1 s))) s)), snd (g2 (skipn (length (fst (g1 s))) s))) else (fst (g1 s), false).
Lemma sp_bind {A B} (m : D A) (f : A -> D B) g1 g2 : sp m g1 -> (forall a, sp (f a) g2) -> (forall a, kp (f a)) -> sp (@bind TO A B m f) (cat g1 g2).
Proof.
  intros H1 H2 K r F b r1 F1 C E. cbn [bind tree_ops] in E. unfold tr_bind in E. destruct (m (mkDS r F)) as [[a [s1 G1]]| |] eqn:M; cbn [rbind fst snd] in E; try discriminate E.
  pose proof (H1 _ _ _ _ _ C M) as (y & Ey & R). unfold cat. destruct (snd (g1 r)) eqn:ES.
  - destruct R as (-> & C1 & L). assert (SK : skipn (length (fst (g1 r))) r = y). { rewrite Ey at 2. rewrite skipn_app, Nat.sub_diag, skipn_all. reflexivity. }
    rewrite SK. rewrite Ey at 1. apply (outc_skip _ _ _ G1); [rewrite <- surjective_pairing; exact (H2 a _ _ _ _ _ C1 E)|exact L].
  - destruct (K _ _ _ _ _ _ E) as (G & EG & _). apply (outc_more _ _ _ s1 G1 _ _ G); [|exact EG]. exists y. split; [exact Ey|exact R].
Qed.
Definition gpath (s : list kind) : list kind * bool := cat id1 gl s.
Lemma sp_path n : sp (@index_path TO n) gpath.
Proof. rewrite path_eq. unfold node. apply sp_node_by, (sp_map _ (fun _ => KIndexPath)), sp_bind; [apply sp_name_ref_r|intros _; apply sp_loop|intros _; apply kp_path_loop]. Qed.
(** ** The end of the name *)
Definition gt (s : list kind) : list kind * bool := if kind_eqb (hd0 s) KColon then (KColon :: fst (id1 (tl s)), snd (id1 (tl s))) else id1 s.
Lemma sp_tail c : sp (fname_tail c) gt.
Proof.
  unfold fname_tail. apply (sp_map _ (fun _ => tt)), sp_pre_by. intros r F a r1 F1 C E. rewrite (bind_det _ _ _ _ _ (hdet_at _)) in E. cbn [pacc_test] in E. unfold gt. destruct (kind_eqb (hd0 r) KColon) eqn:EC.
  - cbn [bind tree_ops] in E. unfold tr_bind at 1 in E. destruct (@p_bump TO (PKind KColon) (mkDS r F)) as [[t0 [s2 G2]]| |] eqn:MB; cbn [rbind fst snd] in E; try discriminate E.
    destruct (bump_inv _ _ _ _ _ _ MB) as (k & -> & -> & _). apply kind_eqb_eq in EC. cbn in EC. subst k. cbn [tl]. change (KColon :: s2) with ([KColon] ++ s2). change (KColon :: fst (id1 s2)) with ([KColon] ++ fst (id1 s2)).
    apply (outc_skip _ _ _ (F ++ [PTok KColon])); [rewrite <- surjective_pairing|rewrite fl_app, app_length; reflexivity]. refine (sp_map _ (fun _ => KFunctionMethod) _ (sp_name_r fname_rec) _ _ _ _ _ (clean_snoc _ KColon C) E).
  - refine (sp_map _ (fun _ => KFunctionStatic) _ (sp_name_r fname_rec) _ _ _ _ _ C E).
Qed.
Definition gname (s : list kind) : list kind * bool := cat gpath gt s.
Lemma kp_tail c : kp (fname_tail c).
Proof. unfold fname_tail. kps. Qed.
Lemma sp_fname n : sp (fname_path n) gname.
Proof. unfold fname_path. apply sp_bind; [apply sp_path|apply sp_tail|apply kp_tail]. Qed.
(** ** The whole name, token by token *)
Fixpoint fnr (s : list kind) : list kind * bool :=
  match s with
  | [] => ([], false)
  | k :: t => if kind_eqb k KColon then (KColon :: fst (id1 t), snd (id1 t))
    else if kind_eqb k KDot then
      if kind_eqb (nth 1 t KEof) KLParen then if kind_eqb (hd0 t) KColon then ([KDot; KColon], false) else (KDot :: fst (id1 t), snd (id1 t))
      else match t with
        | [] => ([KDot], false)
        | k2 :: t' => if kind_eqb k2 KIdent then (KDot :: KIdent :: fst (fnr t'), snd (fnr t')) else ([KDot], false)
        end
    else id1 s
  end.
Lemma fnr_ok s : cat gl gt s = fnr s.
Proof.
  assert (W : forall m s, length s <= m -> cat gl gt s = fnr s); [|exact (W _ s (le_n _))]. clear s. induction m as [|m IH]; intros s L.
  - destruct s; [reflexivity|cbn [length] in L; lia].
  - destruct s as [|k t]; [reflexivity|]. cbn [length] in L. destruct (kind_eqb k KColon) eqn:EC.
    { apply kind_eqb_eq in EC. subst k. reflexivity. }
    destruct (kind_eqb k KDot) eqn:ED.
    2:{ unfold cat. cbn [gl fnr]. rewrite EC, ED. cbn [fst snd length skipn app]. unfold gt. cbn [hd0 nth]. rewrite EC. now rewrite <- surjective_pairing. }
    apply kind_eqb_eq in ED. subst k. cbn [fnr]. cbn [kind_eqb]. destruct (kind_eqb (nth 1 t KEof) KLParen) eqn:EP.
    + assert (GE : gl (KDot :: t) = ([KDot], true)) by (cbn [gl]; now rewrite EP). unfold cat. rewrite GE. cbn [fst snd length skipn app]. unfold gt. destruct (kind_eqb (hd0 t) KColon) eqn:E2; [|reflexivity].
      destruct t as [|k1 [|k2 t]]; [discriminate E2|discriminate EP|]. cbn [nth] in EP. apply kind_eqb_eq in EP. subst k2. reflexivity.
    + unfold cat. rewrite (gl_step t EP). destruct t as [|k2 t]; [reflexivity|]. cbn [hd0 nth tl]. destruct (kind_eqb k2 KIdent) eqn:EI; [|reflexivity]. cbn [length] in L. rewrite <- (IH t) by lia. unfold cat. cbn [fst snd]. destruct (snd (gl t)); reflexivity.
Qed.
Lemma gname_eq s : gname s = if kind_eqb (hd0 s) KIdent then (KIdent :: fst (fnr (tl s)), snd (fnr (tl s))) else ([], false).
Proof.
  unfold gname, gpath. destruct (kind_eqb (hd0 s) KIdent) eqn:E.
  - destruct (hd0_ident _ E) as (t & ->). cbn [tl]. rewrite <- fnr_ok. unfold cat. unfold id1. cbn [hd0 nth kind_eqb fst snd length skipn app]. cbn. destruct (snd (gl t)); reflexivity.
  - unfold cat, id1. rewrite E. reflexivity.
Qed.
Lemma fnr_pre : forall m s, length s <= m -> exists y, s = fst (fnr s) ++ y.
Proof.
  assert (ID : forall t, exists y, t = fst (id1 t) ++ y). { intros t. unfold id1. destruct (kind_eqb (hd0 t) KIdent) eqn:E; [|exists t; reflexivity]. destruct (hd0_ident _ E) as (t' & ->). exists t'. reflexivity. }
  induction m as [|m IH]; intros s L; [destruct s; [exists []; reflexivity|cbn [length] in L; lia]|]. destruct s as [|k t]; [exists []; reflexivity|]. cbn [length] in L. cbn [fnr].
  destruct (kind_eqb k KColon) eqn:EC; [apply kind_eqb_eq in EC; subst k; destruct (ID t) as (y & Ey); exists y; cbn [fst app]; congruence|].
  destruct (kind_eqb k KDot) eqn:ED; [|apply ID]. apply kind_eqb_eq in ED. subst k. destruct (kind_eqb (nth 1 t KEof) KLParen).
  - destruct (kind_eqb (hd0 t) KColon) eqn:E2; [|destruct (ID t) as (y & Ey); exists y; cbn [fst app]; congruence]. destruct t as [|k t]; [discriminate E2|]. apply kind_eqb_eq in E2. cbn in E2. subst k. exists t. reflexivity.
  - destruct t as [|k t]; [exists []; reflexivity|]. destruct (kind_eqb k KIdent) eqn:EI; [|exists (k :: t); reflexivity]. apply kind_eqb_eq in EI. subst k. cbn [length] in L. destruct (IH t) as (y & Ey); [lia|]. exists y. cbn [fst app]. congruence.
Qed.
Lemma ident_first (t : list kind) : kind_eqb (hd0 t) KIdent = true -> exists t', t = KIdent :: t'.
Proof. apply hd0_ident. Qed.
Lemma snd_id t : snd (id1 t) = kind_eqb (hd0 t) KIdent.
Proof. unfold id1. destruct (kind_eqb (hd0 t) KIdent); reflexivity. Qed.
Lemma fnr_dot w : kind_eqb (nth 1 (KIdent :: w) KEof) KLParen = false -> fnr (KDot :: KIdent :: w) = (KDot :: KIdent :: fst (fnr w), snd (fnr w)).
Proof. intros H. cbn [fnr]. cbn [kind_eqb]. now rewrite H. Qed.
(** A missing name, when it is there, is consumed. *)
Lemma fnr_says : forall m s z, length s <= m -> snd (fnr s) = false -> (forall p, fst (fnr s) <> p ++ [KDot; KColon]) -> length (fst (fnr s)) < length (fst (fnr (fst (fnr s) ++ KIdent :: z))).
Proof.
  induction m as [|m IH]; intros s z L B G; [destruct s; [cbn; lia|cbn [length] in L; lia]|]. destruct s as [|k t]; [cbn; lia|]. cbn [length] in L. cbn [fnr] in B, G |- *.
  destruct (kind_eqb k KColon) eqn:EC.
  { cbn [snd] in B. rewrite snd_id in B. assert (E1 : id1 t = ([], false)) by (unfold id1; now rewrite B). rewrite E1. cbn. lia. }
  destruct (kind_eqb k KDot) eqn:ED.
  2:{ rewrite snd_id in B. assert (E1 : id1 (k :: t) = ([], false)) by (unfold id1; now rewrite B). rewrite E1. cbn. lia. }
  apply kind_eqb_eq in ED. subst k. assert (D1 : 1 < length (fst (fnr ([KDot] ++ KIdent :: z)))).
  { cbn [app fnr]. cbn [kind_eqb]. destruct (kind_eqb (nth 1 (KIdent :: z) KEof) KLParen); cbn; lia. }
  destruct (kind_eqb (nth 1 t KEof) KLParen) eqn:EP.
  - destruct (kind_eqb (hd0 t) KColon) eqn:E2; [destruct (G []); reflexivity|]. cbn [snd] in B. rewrite snd_id in B. assert (E1 : id1 t = ([], false)) by (unfold id1; now rewrite B). rewrite E1. exact D1.
  - destruct t as [|k t]; [exact D1|]. destruct (kind_eqb k KIdent) eqn:EI; [|exact D1]. cbn [snd] in B. cbn [fst] in G. cbn [length] in L.
    assert (IH' : length (fst (fnr t)) < length (fst (fnr (fst (fnr t) ++ KIdent :: z)))) by (apply IH; [lia|exact B|intros p Hp; apply (G (KDot :: KIdent :: p)); cbn [app]; now rewrite Hp]).
    cbn [fst app]. cbn [nth] in EP. assert (EN : kind_eqb (nth 1 (KIdent :: fst (fnr t) ++ KIdent :: z) KEof) KLParen = false).
    { cbn [nth]. destruct (fnr_pre m t) as (y & Ey); [lia|]. destruct (fst (fnr t)) as [|k0 u] eqn:EF; [reflexivity|]. cbn [app nth]. rewrite Ey in EP. exact EP. }
    change (length (KDot :: KIdent :: fst (fnr t)) < length (fst (fnr (KDot :: KIdent :: (fst (fnr t) ++ KIdent :: z))))). rewrite (fnr_dot _ EN). change (S (S (length (fst (fnr t)))) < S (S (length (fst (fnr (fst (fnr t) ++ KIdent :: z)))))). lia.
Qed.
(** A complete name before a parenthesis is one before every parenthesis. *)
Lemma fnr_some s : snd (fnr s) = true -> fst (fnr s) <> [].
Proof.
  assert (ID : forall t, snd (id1 t) = true -> fst (id1 t) <> []) by (intros t; unfold id1; destruct (kind_eqb (hd0 t) KIdent); intros H; discriminate).
  destruct s as [|k t]; [discriminate|]. cbn [fnr]. destruct (kind_eqb k KColon); [discriminate|]. destruct (kind_eqb k KDot); [|apply ID]. destruct (kind_eqb _ KLParen); [destruct (kind_eqb (hd0 t) KColon); discriminate|]. destruct t as [|k2 t]; [discriminate|]. destruct (kind_eqb k2 KIdent); discriminate.
Qed.
Lemma fnr_halts : forall m s z, length s <= m -> snd (fnr s) = true -> hd0 z = KLParen -> fnr (fst (fnr s) ++ z) = (fst (fnr s), true).
Proof.
  induction m as [|m IH]; intros s z L B Z; [destruct s; [discriminate B|cbn [length] in L; lia]|]. destruct s as [|k t]; [discriminate B|]. cbn [length] in L. cbn [fnr] in B |- *.
  destruct (kind_eqb k KColon) eqn:EC.
  { cbn [snd] in B. rewrite snd_id in B. assert (E1 : id1 t = ([KIdent], true)) by (unfold id1; now rewrite B). rewrite E1. reflexivity. }
  destruct (kind_eqb k KDot) eqn:ED.
  2:{ rewrite snd_id in B. assert (E1 : id1 (k :: t) = ([KIdent], true)) by (unfold id1; now rewrite B). rewrite E1. reflexivity. }
  apply kind_eqb_eq in ED. subst k. destruct (kind_eqb (nth 1 t KEof) KLParen) eqn:EP.
  - destruct (kind_eqb (hd0 t) KColon) eqn:E2; [discriminate B|]. cbn [snd] in B. rewrite snd_id in B. assert (E1 : id1 t = ([KIdent], true)) by (unfold id1; now rewrite B). rewrite E1. cbn [fst app fnr]. cbn [kind_eqb].
    replace (kind_eqb (nth 1 (KIdent :: z) KEof) KLParen) with true by (cbn [nth]; unfold hd0 in Z; now rewrite Z). reflexivity.
  - destruct t as [|k t]; [discriminate B|]. destruct (kind_eqb k KIdent) eqn:EI; [|discriminate B]. cbn [snd] in B. cbn [length] in L. pose proof (IH t z ltac:(lia) B Z) as IH'. cbn [nth] in EP.
    assert (EN : kind_eqb (nth 1 (KIdent :: fst (fnr t) ++ z) KEof) KLParen = false).
    { cbn [nth]. destruct (fnr_pre m t) as (y & Ey); [lia|]. pose proof (fnr_some t B) as NN. destruct (fst (fnr t)) as [|k0 u] eqn:EF; [congruence|]. cbn [app nth]. rewrite Ey in EP. exact EP. }
    change (fnr (KDot :: KIdent :: (fst (fnr t) ++ z)) = (KDot :: KIdent :: fst (fnr t), true)). rewrite (fnr_dot _ EN), IH'. reflexivity.
Qed.
(** ** The facts SaysGrammar.v needs *)
Lemma cp_clean_len l : clean l -> cp l = length l.
Proof. intros H. exact H. Qed.
Lemma sp_low {A} (m : D A) g r F a r1 F1 : sp m g -> clean (fl F) -> m (mkDS r F) = Ok (a, mkDS r1 F1) -> length (fl F) + length (fst (g r)) = cp (fl F1).
Proof. intros H C E. destruct (H _ _ _ _ _ C E) as (y & _ & R). destruct (snd (g r)); [destruct R as (_ & R1 & R2); apply cp_clean_len in R1; lia|destruct R as (R1 & _); lia]. Qed.
Lemma gname_ident r : fst (gname r) <> [] -> exists t, r = KIdent :: t /\ fst (gname r) = KIdent :: fst (fnr t) /\ snd (gname r) = snd (fnr t).
Proof.
  rewrite gname_eq. destruct (kind_eqb (hd0 r) KIdent) eqn:E; [|intros H; destruct (H eq_refl)]. destruct (hd0_ident _ E) as (t & ->). intros _. exists t. split; [reflexivity|]. cbn [tl fst snd]. split; reflexivity.
Qed.
Lemma gname_some r : snd (gname r) = true -> fst (gname r) <> [].
Proof. rewrite gname_eq. destruct (kind_eqb (hd0 r) KIdent); intros H; discriminate. Qed.
Lemma path_promise n r F a r1 F1 e K : clean (fl F) -> fname_path n (mkDS r F) = Ok (a, mkDS r1 F1) -> fe (fx F1) = Some e -> promise e = Some K -> K = KIdent /\ snd (gname r) = false /\ exists m, e = PMsg m.
Proof.
  intros C E Fe P. destruct (sp_fname n _ _ _ _ _ C E) as (y & _ & R). destruct (snd (gname r)).
  - exfalso. destruct R as (_ & R & _). apply clean_fe in R. congruence.
  - destruct R as (_ & m & E1 & E2). assert (e = PMsg m) by congruence. subst e. split; [congruence|]. split; [reflexivity|]. now exists m.
Qed.
Lemma s_path n : says any (one KIdent) (fname_path n).
Proof.
  intros r F a r1 F1 e K C _ E Fe P. destruct (path_promise n _ _ _ _ _ _ _ C E Fe P) as (-> & ES & m & ->). pose proof (sp_low _ _ _ _ _ _ _ (sp_fname n) C E) as L.
  destruct (sp_fname n _ _ _ _ _ C E) as (y & Ey & _). exists (fst (gname r)), y. split; [exact Ey|]. split; [lia|]. split; [intros k c H; discriminate H|]. split; [reflexivity|].
  intros N G z a' r2 F2 M2. pose proof (sp_low _ _ _ _ _ _ _ (sp_fname n) C M2) as L2. destruct (gname_ident _ N) as (t & Et & E1 & E2). rewrite E1 in *. rewrite E2 in ES.
  rewrite gname_eq in L2. cbn [app hd0 nth tl kind_eqb fst length] in L2. pose proof (fnr_says (length t) t z (le_n _) ES) as L3.
  change (hd0 (KIdent :: fst (fnr t) ++ KIdent :: z)) with KIdent in L2. rewrite kind_eqb_refl in L2. cbn [fst length] in L2.
  assert (L4 : length (fst (fnr t)) < length (fst (fnr (fst (fnr t) ++ KIdent :: z)))) by (apply L3; intros p Hp; apply (G (KIdent :: p)); rewrite Hp; reflexivity). cbn [length]. lia.
Qed.
Lemma h_path n : halts any (one KLParen) (fname_path n).
Proof.
  intros u x F a F1 _ N G C _ E C1 z a' r2 F2 Sz E2. destruct (sp_fname n _ _ _ _ _ C E) as (y & Ey & R). destruct (snd (gname (u ++ x))) eqn:ES.
  2:{ exfalso. destruct R as (_ & R). exact (clean_not _ C1 (bad_dirty _ R)). }
  destruct R as (Ex & _ & _). subst y. apply app_inv_tail in Ey. pose proof N as N'. rewrite Ey in N'. destruct (gname_ident _ N') as (t & Et & E3 & E4). rewrite E4 in ES. rewrite E3 in Ey.
  assert (GZ : gname (u ++ z) = (u, true)).
  { rewrite gname_eq, Ey. change (hd0 ((KIdent :: fst (fnr t)) ++ z)) with KIdent. rewrite kind_eqb_refl. cbn [app tl]. rewrite (fnr_halts (length t) t z (le_n _) ES); [reflexivity|]. apply kind_eqb_eq in Sz. symmetry. exact Sz. }
  destruct (sp_fname n _ _ _ _ _ C E2) as (y & Ey2 & R2). rewrite GZ in Ey2, R2. cbn [fst snd] in Ey2, R2. destruct R2 as (-> & C2 & _). apply app_inv_head in Ey2. split; [congruence|exact C2].
Qed.
Lemma tk_path n : takes any 1 (fname_path n).
Proof.
  intros r F a r1 F1 C _ E C1. destruct (sp_fname n _ _ _ _ _ C E) as (y & _ & R). destruct (snd (gname r)) eqn:ES.
  - destruct R as (_ & _ & R). pose proof (gname_some _ ES). destruct (fst (gname r)); [congruence|cbn [length] in R; lia].
  - exfalso. destruct R as (_ & R). exact (clean_not _ C1 (bad_dirty _ R)).
Qed.
Definition content_rec : token_set := ts_union (ts_new [KLParen]) (ts_union (ts_new [KLParen]) STMT_RECOVERY).
Definition choice (n : nat) (b : bool) : D unit := @bind TO _ _ (@p_nth TO 1) (fun n0 => if b && kind_eqb n0 KLParen then @name_r TO content_rec else fname_path n).
Lemma content_eq' n : @function_def_content TO n = @node_ TO _ KFunctionDefContent (@bind TO _ _ (@p_at TO (PKind KIdent)) (choice n)).
Proof. exact (FirstProofs.content_eq n). Qed.
Lemma good1 k : good [k].
Proof. intros [|? [|? p]] H; discriminate H. Qed.
Lemma one_token (u y r : list kind) k : r = u ++ y -> length u = 1 -> hd0 r = k -> u = [k].
Proof. intros -> L H. destruct u as [|k' [|? u]]; try discriminate L. cbn in H. congruence. Qed.
Lemma says_1 {A} (m : D A) S k K r F a r1 F1 e z a' r2 F2 : says any S m -> clean (fl F) -> hd0 r = k -> m (mkDS r F) = Ok (a, mkDS r1 F1) -> fe (fx F1) = Some e -> promise e = Some K -> cp (fl F1) = length (fl F) + 1 ->
  m (mkDS (k :: K :: z) F) = Ok (a', mkDS r2 F2) -> length (fl F) + 1 < cp (fl F2).
Proof.
  intros H C Hk E Fe P L M2. destruct (H _ _ _ _ _ _ _ C eq_refl E Fe P) as (u & y & Er & E2 & _ & _ & E5). assert (LU : length u = 1) by lia. pose proof (one_token _ _ _ _ Er LU Hk). subst u.
  exact (E5 (@cons_nn _ k []) (good1 k) z _ _ _ M2).
Qed.
Theorem s_fname n : says any (one KIdent) (@function_def_content TO n).
Proof.
  rewrite content_eq'. apply s_nodef, (s_det any _ _ _ _ (hdet_at _)). intros k _. destruct (pacc_test (PKind KIdent) k) eqn:EK; unfold choice; apply s_peek.
  - intros k'. destruct (true && kind_eqb k' KLParen); [apply s_name_r|apply s_any, s_path].
  - intros k0 K Hk r F a r1 F1 e C Hr E Fe P L z a' r2 F2 M2. apply kind_eqb_eq in Hk. assert (k = KIdent) by (apply kind_eqb_eq; exact EK). assert (k0 = KIdent) by congruence. assert (Hr' : hd0 r = KIdent) by congruence. clear Hr. rename Hr' into Hr. clear Hk EK. subst k k0. cbn [andb] in *. destruct (kind_eqb (nth 1 r KEof) KLParen).
    + exfalso. destruct r as [|k r]; [discriminate Hr|]. cbn in Hr. subst k. destruct (dfl_name_r any content_rec r F _ _ _ eq_refl C E) as [_ C1]. apply clean_fe in C1. congruence.
    + destruct (path_promise n _ _ _ _ _ _ _ C E Fe P) as (-> & _). exact (says_1 _ _ _ _ _ _ _ _ _ _ _ _ _ _ (s_path n) C Hr E Fe P L M2).
  - intros k'. cbn [andb]. apply s_any, s_path.
  - intros k0 K Hk r F a r1 F1 e C Hr E Fe P L z a' r2 F2 M2. cbn [andb] in *. exact (says_1 _ _ _ _ _ _ _ _ _ _ _ _ _ _ (s_path n) C Hr E Fe P L M2).
Qed.
Theorem h_fname n : halts any (one KLParen) (@function_def_content TO n).
Proof.
  rewrite content_eq'. apply h_node_, (h_det _ any _ _ _ _ (hdet_at _)). intros k _. destruct (pacc_test (PKind KIdent) k) eqn:EK; unfold choice; apply h_peek.
  - intros k'. destruct (true && kind_eqb k' KLParen); [apply h_name_r|apply h_any, h_path].
  - intros k0 Hk x F a F1 C E C1 z a' r2 F2 Sz E2. apply kind_eqb_eq in Hk. subst k0. assert (k = KIdent) by (apply kind_eqb_eq; exact EK). subst k. apply kind_eqb_eq in Sz. rewrite <- Sz in E2. exact (dfl_name_r any content_rec z F _ _ _ eq_refl C E2).
  - intros k'. cbn [andb]. apply h_any, h_path.
  - intros k0 Hk x F a F1 C E C1 z a' r2 F2 Sz E2. cbn [andb] in *. exact (h_path n [k0] x F a F1 eq_refl (@cons_nn _ k0 []) (good1 k0) C eq_refl E C1 z _ _ _ Sz E2).
Qed.
Theorem e_fname n : eats (one KIdent) (@function_def_content TO n).
Proof.
  rewrite content_eq'. apply FirstProofs.eats_node_. apply FirstProofs.eats_at. unfold choice. apply eats_peek. intros k. destruct (_ && _); [apply eats_name_r|]. unfold fname_path. apply FirstProofs.eats_bind; [apply eats_path|intros c; exact (proj1 (tw_fname_tail c))].
Qed.
Theorem tk_fname n : takes any 1 (@function_def_content TO n).
Proof.
  rewrite content_eq'. apply takes_node_. apply (takes_skip 1); [exts| |].
  - intros b. apply ext_bind; [apply ext_nth|]. intros k. destruct (_ && _); [exts|exact (proj1 (tw_fname_path n))].
  - intros b. unfold choice. apply takes_peek. intros k. destruct (_ && _); [apply takes_name_r|apply tk_path].
Qed.
(** ** The grammar *)
Theorem says_knot : forall n, (kp (@stmt_f TO n) /\ says any none (@stmt_f TO n) /\ halts any S0 (@stmt_f TO n)) /\
  forall b, kp (@expr_f TO n b) /\ says any none (@expr_f TO n b) /\ takes any 1 (@expr_f TO n b) /\ (0 < b -> halts any S0 (@expr_f TO n b)).
Proof.
  assert (EK : forall n b, eats (kind_eqb KIdent) (@expr_f TO n b)).
  { induction n as [|n IH]; intros b; cbn [expr_f]; [apply eats_out|]. destruct (tw_knot n) as [IS IE]. now apply eats_expr_bp. }
  induction n as [|n [(KS & SS & HLS) CE]]; cbn [stmt_f expr_f].
  - split; [split; [apply kp_out|split; [apply s_out|apply h_out]]|]. intros b. split; [apply kp_out|]. split; [apply s_out|]. split; [apply takes_out|intros _; apply h_out].
  - destruct (tw_knot n) as [IS IE]. destruct (cpl_knot n) as [_ CK].
    assert (DE : forall b, 0 < b -> dfl S0 (@expr_f TO n b) [KIdent]) by (intros b P; apply (CK b P)).
    assert (KE : forall b, kp (@expr_f TO n b)) by (intros b; apply (CE b)).
    assert (SE : forall b, says any none (@expr_f TO n b)) by (intros b; apply (CE b)).
    assert (TE : forall b, takes any 1 (@expr_f TO n b)) by (intros b; apply (CE b)).
    assert (HLE : forall b, 0 < b -> halts any S0 (@expr_f TO n b)) by (intros b; apply (CE b)).
    pose proof (s_fname n) as FS. pose proof (h_fname n) as FH. pose proof (e_fname n) as FE. pose proof (tk_fname n) as FT. specialize (EK n).
    split; [split; [|split]|].
    + apply k_stmt; auto.
    + apply s_stmt; auto.
    + apply h_stmt; auto.
    + intros b. split; [apply k_expr_bp; auto|]. split; [apply s_expr_bp; auto|]. split; [apply tk_expr_bp; auto|]. intros P. apply h_expr_bp; auto.
Qed.
Theorem says_program n : says any none (@root_f TO n).
Proof. unfold root_f. destruct (says_knot n) as [(KS & SS & HLS) _]. apply s_root; auto; apply tw_knot. Qed.
Print Assumptions says_program.
