(** SaysProofs.v — what the first error of a run says could have come: a run over the same tokens followed by that token
    gets past it. The rules for the building blocks of the grammar functions. *)
From Coq Require Import String.
From Verif Require Import Base SyntaxKind TokenSet Lexer BindingPowers Parser Grammar ParserTree EventProofs SinkProofs FirstProofs ContProofs ContGrammar.

(** The token that a message says was expected. *)
Definition promise (e : perr) : option kind :=
  match e with
  | PExpected k _ => Some k
  | PMsg m => if (String.eqb m "expected a name" || String.eqb m "expected a name referencer" || String.eqb m "Expected an identifier")%bool then Some KIdent
      else if String.eqb m "Expected call arguments" then Some KLParen else None
  end.
(** Tokens and errors in order. *)
Fixpoint fx1 (t : ptree) : list (kind + perr) :=
  match t with PTok k => [inl k] | PErr e => [inr e] | PErrN _ e => [inr e] | PNode _ fs => flat_map fx1 fs end.
Definition fx (f : forest) : list (kind + perr) := flat_map fx1 f.
Definition unx (x : kind + perr) : option kind := match x with inl k => Some k | inr _ => None end.
Lemma fl_fx f : fl f = map unx (fx f).
Proof.
  set (P1 := fun t => fl1 t = map unx (fx1 t)). set (PF := fun f => fl f = map unx (fx f)). change (PF f). apply (forest_ind' P1 PF); unfold P1, PF; try reflexivity.
  - intros k fs IH. exact IH.
  - intros t fs H1 H2. change (fl (t :: fs)) with (fl1 t ++ fl fs). change (fx (t :: fs)) with (fx1 t ++ fx fs). now rewrite map_app, H1, H2.
Qed.
Lemma fx_app a b : fx (a ++ b) = fx a ++ fx b.
Proof. apply flat_map_app. Qed.
Fixpoint fe (l : list (kind + perr)) : option perr := match l with [] => None | inr e :: _ => Some e | inl _ :: l' => fe l' end.
Lemma fe_clean l : clean (map unx l) <-> fe l = None.
Proof. unfold clean. induction l as [|[k|e] l IH]; cbn [map unx fe cp length]; [tauto| |split; intros H; discriminate H]. rewrite <- IH. split; intros H; [injection H as H; exact H|now rewrite H]. Qed.
Lemma fe_app_none a b : fe a = None -> fe (a ++ b) = fe b.
Proof. induction a as [|[k|e] a IH]; cbn [app fe]; [reflexivity|exact IH|discriminate]. Qed.
Lemma fe_app_some a b e : fe a = Some e -> fe (a ++ b) = Some e.
Proof. induction a as [|[k|e'] a IH]; cbn [app fe]; [discriminate|exact IH|auto]. Qed.
Lemma clean_fe F : clean (fl F) <-> fe (fx F) = None.
Proof. rewrite fl_fx. apply fe_clean. Qed.

(** ** The errors before are kept *)
(** What a message is: one of these, or "Expected X, got Y". *)
Definition vocabulary : list string := ["expected a name"; "expected a name referencer"; "Nothing can be after a vararg"; "Failed to find comma or closing bracket"; "Expected an expression"; "Expected call arguments";
  "Expected an identifier"; "Semicolons can only be used after statements"; "A literal cannot be the start of a statement"; "Unmatched end token"; "Expected a statement"]%string.
Definition askable (k : kind) : bool := negb (kind_eqb k KColon || kind_eqb k KEof).
Definition said (e : perr) : bool := match e with PExpected k c => askable k && negb (kind_eqb k c) | PMsg m => existsb (String.eqb m) vocabulary end.
Definition fair (x : kind + perr) : Prop := match x with inl _ => True | inr e => said e = true end.
(** All tokens, those in error nodes too, and the errors in order, that of an error node before its tokens; each error is
    one of the known ones, and what was found is what comes. *)
Fixpoint fy1 (t : ptree) : list (kind + perr) :=
  match t with PTok k => [inl k] | PErr e => [inr e] | PErrN fs e => inr e :: flat_map fy1 fs | PNode _ fs => flat_map fy1 fs end.
Definition fy (f : forest) : list (kind + perr) := flat_map fy1 f.
Lemma fy_app a b : fy (a ++ b) = fy a ++ fy b.
Proof. apply flat_map_app. Qed.
Fixpoint tk (l : list (kind + perr)) : list kind := match l with [] => [] | inl k :: l' => k :: tk l' | inr _ :: l' => tk l' end.
Lemma tk_app a b : tk (a ++ b) = tk a ++ tk b.
Proof. induction a as [|[k|e] a IH]; cbn [app tk]; congruence. Qed.
Definition got_is (e : perr) (r : list kind) : Prop := said e = true /\ match e with PExpected _ c => c = hd0 r | PMsg _ => True end.
Fixpoint okT (l : list (kind + perr)) (r : list kind) : Prop := match l with [] => True | inl _ :: l' => okT l' r | inr e :: l' => got_is e (tk l' ++ r) /\ okT l' r end.
Lemma okT_app a b r : okT a (tk b ++ r) -> okT b r -> okT (a ++ b) r.
Proof. induction a as [|[k|e] a IH]; cbn [app okT]; auto. intros [H1 H2] H3. rewrite tk_app, <- app_assoc. auto. Qed.
Definition found (F : forest) (r : list kind) (F1 : forest) (r1 : list kind) : Prop := exists T, fy F1 = fy F ++ T /\ r = tk T ++ r1 /\ okT T r1.
Lemma found_refl F r : found F r F r.
Proof. exists []. rewrite app_nil_r. cbn. auto. Qed.
Lemma found_trans F r F1 r1 F2 r2 : found F r F1 r1 -> found F1 r1 F2 r2 -> found F r F2 r2.
Proof. intros (T1 & E1 & R1 & O1) (T2 & E2 & R2 & O2). exists (T1 ++ T2). split; [now rewrite E2, E1, app_assoc|]. split; [now rewrite R1, R2, tk_app, app_assoc|]. apply okT_app; [rewrite <- R2; exact O1|exact O2]. Qed.
Lemma found_tok F k r : found F (k :: r) (F ++ [PTok k]) r.
Proof. exists [inl k]. rewrite fy_app. cbn. auto. Qed.
Lemma found_err F e r : got_is e r -> found F r (F ++ [PErr e]) r.
Proof. intros H. exists [inr e]. rewrite fy_app. cbn. auto. Qed.
Lemma found_nest F r f r1 H : found [] r f r1 -> fy H = fy F ++ fy f -> found F r H r1.
Proof. intros (T & E & R & O) X. exists T. cbn [fy flat_map app] in E. rewrite X, E. auto. Qed.
Definition kp {A} (m : D A) : Prop := forall r F a r1 F1, m (mkDS r F) = Ok (a, mkDS r1 F1) -> exists G, fx F1 = fx F ++ G /\ Forall fair G /\ found F r F1 r1.
Definition gives (m : D perr) : Prop := forall s e s1, m s = Ok (e, s1) -> exists t, e = PMsg t /\ said e = true.
Lemma gives_ret t : said (PMsg t) = true -> gives (@ret TO _ (PMsg t)).
Proof. intros H s e1 s1 E. cbn [ret tree_ops] in E. unfold tr_ret in E. injection E as <- _. eauto. Qed.
Lemma gives_bind {A} (m : D A) (f : A -> D perr) : (forall a, gives (f a)) -> gives (@bind TO _ _ m f).
Proof. intros H s e s1 E. cbn [bind tree_ops] in E. unfold tr_bind in E. destruct (m s) as [[a s2]| |]; cbn [rbind fst snd] in E; try discriminate E. exact (H _ _ _ _ E). Qed.
Lemma kp_ret {A} (a : A) : kp (@ret TO A a).
Proof. intros r F b r1 F1 E. cbn [ret tree_ops] in E. unfold tr_ret in E. injection E as _ <- <-. exists []. rewrite app_nil_r. auto using found_refl. Qed.
Lemma kp_out {A} : kp (@out TO A).
Proof. intros r F b r1 F1 E. discriminate E. Qed.
Lemma kp_panic {A} : kp (@panic TO A).
Proof. intros r F b r1 F1 E. discriminate E. Qed.
Lemma kp_nth n : kp (@p_nth TO n).
Proof. intros r F b r1 F1 E. cbn [p_nth tree_ops] in E. unfold tr_nth in E. injection E as _ <- <-. exists []. rewrite app_nil_r. auto using found_refl. Qed.
Lemma kp_adv : kp (@p_adv TO).
Proof. intros r F b r1 F1 E. cbn [p_adv tree_ops] in *. unfold tr_adv in *. cbn [ds_rem ds_for] in *. destruct r as [|k r]; [discriminate E|]. destruct (kind_eqb k KEof); [discriminate E|]. injection E as _ <- <-. rewrite fx_app. eexists. split; [reflexivity|]. split; [repeat constructor|apply found_tok]. Qed.
Lemma kp_error m : said (PMsg m) = true -> kp (@p_push_error TO (PMsg m)).
Proof. intros SD r F b r1 F1 E. cbn [p_push_error tree_ops] in *. unfold tr_error in *. cbn [ds_rem ds_for] in *. injection E as _ <- <-. rewrite fx_app. eexists. split; [reflexivity|]. split; [repeat constructor; exact SD|]. apply found_err. split; [exact SD|exact I]. Qed.
Lemma kp_bind {A B} (m : D A) (f : A -> D B) : kp m -> (forall a, kp (f a)) -> kp (@bind TO A B m f).
Proof.
  intros H1 H2 r F b r2 F2 H. cbn [bind tree_ops] in *. unfold tr_bind in *. destruct (m (mkDS r F)) as [[a [r1 F1]]| |] eqn:E; cbn [rbind fst snd] in H; try discriminate H.
  destruct (H1 _ _ _ _ _ E) as (G1 & E1 & K1 & U1). destruct (H2 _ _ _ _ _ _ H) as (G2 & E2 & K2 & U2). exists (G1 ++ G2). split; [now rewrite E2, E1, app_assoc|]. split; [apply Forall_app; auto|exact (found_trans _ _ _ _ _ _ U1 U2)].
Qed.
Lemma kp_node_by (m : D kind) : kp m -> kp (@node_by TO m).
Proof.
  intros KM r F a r1 F1 E. cbn [node_by tree_ops] in *. unfold tr_node in *. cbn [ds_rem ds_for] in *. destruct (m (mkDS r [])) as [[k [r2 F2]]| |] eqn:M; cbn [rbind] in E; try discriminate E. cbn [ds_rem ds_for] in E. injection E as _ <- <-. rewrite fx_app. destruct (KM _ _ _ _ _ M) as (G & EG & FG & UG).
  eexists. split; [reflexivity|]. split; [|apply (found_nest _ _ F2); [exact UG|rewrite fy_app; f_equal; unfold fy; cbn [flat_map fy1]; now rewrite app_nil_r]]. unfold fx. cbn [flat_map fx1]. rewrite app_nil_r. change (flat_map fx1 F2) with (fx F2). rewrite EG. exact FG.
Qed.
Lemma fx_pre F i kt ft pre k f : skipn i F = PNode kt ft :: pre -> fx (firstn i F ++ [PNode k (PNode kt ft :: pre ++ f)]) = fx F ++ fx f.
Proof.
  intros E. rewrite <- (firstn_skipn i F) at 2. rewrite E, !fx_app, <- app_assoc. f_equal. unfold fx. cbn [flat_map fx1]. rewrite app_nil_r, flat_map_app, <- app_assoc. reflexivity.
Qed.
Lemma fy_pre F i kt ft pre k f : skipn i F = PNode kt ft :: pre -> fy (firstn i F ++ [PNode k (PNode kt ft :: pre ++ f)]) = fy F ++ fy f.
Proof.
  intros E. rewrite <- (firstn_skipn i F) at 2. rewrite E, !fy_app, <- app_assoc. f_equal. unfold fy. cbn [flat_map fy1]. rewrite app_nil_r, flat_map_app, <- app_assoc. reflexivity.
Qed.
Lemma kp_pre_by i (m : D kind) : kp m -> kp (@pre_node_by TO i m).
Proof.
  intros KM r F a r1 F1 E. cbn [pre_node_by tree_ops] in *. unfold tr_pre in *. cbn [ds_rem ds_for] in *. destruct (skipn i F) as [|[| | |kt ft] pre] eqn:SK; try discriminate E.
  destruct (m (mkDS r [])) as [[k [r2 F2]]| |] eqn:M; cbn [rbind] in E; try discriminate E. cbn [ds_rem ds_for] in E. injection E as _ <- <-. rewrite (fx_pre _ _ _ _ _ _ _ SK). destruct (KM _ _ _ _ _ M) as (G & EG & FG & UG). rewrite EG. cbn [fx flat_map app]. eexists. split; [reflexivity|]. split; [exact FG|]. apply (found_nest _ _ F2); [exact UG|exact (fy_pre _ _ _ _ _ _ _ SK)].
Qed.
Lemma kp_err_node (m : D perr) : gives m -> kp m -> kp (@err_node TO m).
Proof.
  intros KM KK r F a r1 F1 E. cbn [err_node tree_ops] in *. unfold tr_err_node in *. cbn [ds_rem ds_for] in *. destruct (m (mkDS r [])) as [[k [r2 F2]]| |] eqn:M; cbn [rbind] in E; try discriminate E. cbn [ds_rem ds_for] in E. injection E as _ <- <-. rewrite fx_app. destruct (KM _ _ _ M) as (t & -> & SD). destruct (KK _ _ _ _ _ M) as (_ & _ & _ & T & ET & RT & OT). eexists. split; [reflexivity|]. split; [repeat constructor; exact SD|].
  exists (inr (PMsg t) :: T). cbn [fy flat_map app] in ET. split; [rewrite fy_app; f_equal; unfold fy; cbn [flat_map fy1]; rewrite app_nil_r; f_equal; exact ET|]. split; [exact RT|]. split; [split; [exact SD|exact I]|exact OT].
Qed.
Lemma kp_node {A} k (m : D A) : kp m -> kp (@node TO A k m).
Proof. intros H. unfold node. apply kp_node_by, kp_bind; [exact H|intros a; apply kp_ret]. Qed.
Lemma kp_node_ {A} k (m : D A) : kp m -> kp (@node_ TO A k m).
Proof. intros H. unfold node_. apply kp_bind; [now apply kp_node|intros a; apply kp_ret]. Qed.
Lemma kp_pre {A} i k (m : D A) : kp m -> kp (@pre_node TO A i k m).
Proof. intros H. unfold pre_node. apply kp_pre_by, kp_bind; [exact H|intros a; apply kp_ret]. Qed.
Lemma kp_loop (b : D bool) n : kp b -> kp (@p_loop TO n b).
Proof. intros H. induction n as [|n IH]; cbn [p_loop]; [apply kp_out|]. apply kp_bind; [exact H|]. intros [|]; [exact IH|apply kp_ret]. Qed.
Lemma kp_passert b : kp (@passert TO b).
Proof. unfold passert. destruct b; [apply kp_ret|apply kp_panic]. Qed.
Lemma kp_expect K : askable K = true -> kp (@p_expect TO K).
Proof.
  intros SK r F a r1 F1 E. unfold p_expect in E. rewrite (bind_det _ _ _ _ _ hdet_current) in E. destruct (kind_eqb (hd0 r) K) eqn:EK.
  - cbn [bind tree_ops] in E. unfold tr_bind in E. destruct (@p_bump TO PAny (mkDS r F)) as [[u [s1 G1]]| |] eqn:M; cbn [rbind fst snd] in E; try discriminate E. cbn [ret tree_ops] in E. unfold tr_ret in E. injection E as _ <- <-.
    destruct (bump_inv _ _ _ _ _ _ M) as (k & -> & -> & _). rewrite fx_app. eexists. split; [reflexivity|]. split; [repeat constructor|apply found_tok].
  - cbn [bind ret p_push_error tree_ops] in E. unfold tr_bind, tr_ret, tr_error in E. cbn [rbind fst snd ds_rem ds_for] in E. injection E as _ <- <-. rewrite fx_app. eexists. split; [reflexivity|]. assert (NE : kind_eqb K (hd0 r) = false) by (apply kind_eqb_neq; intros ->; rewrite kind_eqb_refl in EK; discriminate EK).
    assert (SD : said (PExpected K (hd0 r)) = true) by (cbn [said]; now rewrite SK, NE). split; [repeat constructor; exact SD|]. apply found_err. split; [exact SD|reflexivity].
Qed.
Create HintDb kp.
#[export] Hint Resolve kp_passert : kp.
Ltac kp1 := first
  [ lazymatch goal with
    | |- kp (@ret _ _ _) => apply kp_ret
    | |- kp (@panic _ _) => apply kp_panic
    | |- kp (@out _ _) => apply kp_out
    | |- kp (@p_nth _ _) => apply kp_nth
    | |- kp (@p_adv _) => apply kp_adv
    | |- kp (@p_push_error _ _) => apply kp_error; first [reflexivity|assumption]
    | |- kp (@bind _ _ _ _ _) => apply kp_bind; [|intros ?]
    | |- kp (@node_ _ _ _ _) => apply kp_node_
    | |- kp (@node _ _ _ _) => apply kp_node
    | |- kp (@pre_node _ _ _ _ _) => apply kp_pre
    | |- kp (@pre_node_by _ _ _) => apply kp_pre_by
    | |- kp (@node_by _ _) => apply kp_node_by
    | |- kp (@err_node _ _) => apply kp_err_node
    | |- gives (@bind _ _ _ _ _) => apply gives_bind; intros ?
    | |- gives (@ret _ _ _) => apply gives_ret; first [reflexivity|assumption]
    | |- kp (@p_loop _ _ _) => apply kp_loop
    | |- kp (if ?b then _ else _) => destruct b
    | |- kp (match ?o with Some _ => _ | None => _ end) => destruct o
    | |- kp (let (_, _) := ?o in _) => destruct o
    end
  | solve [auto 3 with kp nocore]
  | lazymatch goal with
    | |- kp (@p_current _) => unfold p_current
    | |- kp (@p_at _ _) => unfold p_at
    | |- kp (@p_accept _ _) => unfold p_accept
    | |- kp (@p_bump _ _) => unfold p_bump
    | |- kp (@p_bump_ts _ _) => unfold p_bump_ts
    | |- kp (@p_expect _ _) => apply kp_expect; first [reflexivity|assumption]
    | |- kp (@p_error _ _) => unfold p_error
    | |- kp (@p_err_recover _ _ _) => unfold p_err_recover
    | |- kp (@p_err_and_bump _ _) => unfold p_err_and_bump
    | |- kp (@p_err_until _ _ _ _) => unfold p_err_until; cbv zeta
    | |- kp (@p_while _ _ _ _) => unfold p_while
    | |- kp (@name_r _ _) => unfold name_r, name_unchecked
    | |- kp (@name_ref_r _ _) => unfold name_ref_r, name_ref_unchecked
    | |- kp (@name_ref _) => unfold name_ref
    | |- kp (@name _) => unfold name
    | |- kp (@name_unchecked _) => unfold name_unchecked
    | |- kp (@name_ref_unchecked _) => unfold name_ref_unchecked
    | |- kp (@label_delim _) => unfold label_delim
    | |- kp (@multi_name_r _ _ _ _) => unfold multi_name_r; cbv zeta
    | |- kp (@param_list _ _) => unfold param_list
    | |- kp (@function_def_content _ _) => unfold function_def_content; cbv zeta
    | |- kp (@index_path _ _) => unfold index_path; cbv zeta
    end ].
Ltac kps := repeat kp1.

(** ** A run that ended well before one token ends well before another *)
Section Halt.
(** Of the tokens that may follow the first run. *)
Variable pa : kind -> bool.
Definition hlt (q S : kind -> bool) {A} (m : D A) : Prop := forall u x F a F1, pa (hd0 x) = true -> u <> [] -> good u -> clean (fl F) -> q (hd0 u) = true -> m (mkDS (u ++ x) F) = Ok (a, mkDS x F1) -> clean (fl F1) ->
  forall z a' r2 F2, S (hd0 z) = true -> m (mkDS (u ++ z) F) = Ok (a', mkDS r2 F2) -> r2 = z /\ clean (fl F2).
Definition none : kind -> bool := fun _ => false.
Lemma h_none q {A} (m : D A) : hlt q none m.
Proof. intros u x F a F1 _ _ _ _ _ _ _ z a' r2 F2 H. discriminate H. Qed.
Lemma h_any q S {A} (m : D A) : hlt any S m -> hlt q S m.
Proof. intros H u x F a F1 PX N G C _. exact (H u x F a F1 PX N G C eq_refl). Qed.
Lemma h_sub q S S' {A} (m : D A) : sub S S' -> hlt q S' m -> hlt q S m.
Proof. intros H K u x F a F1 PX N G C Q E C1 z a' r2 F2 Sz. exact (K _ _ _ _ _ PX N G C Q E C1 _ _ _ _ (H _ Sz)). Qed.
Lemma eats_none {A} (m : D A) : eats none m.
Proof. intros r F a r1 F1 _ H. discriminate H. Qed.
Lemma exact_len {A} (m : D A) u x F a F1 : ext m -> m (mkDS (u ++ x) F) = Ok (a, mkDS x F1) -> clean (fl F1) -> length (fl F1) = length (fl F) + length u.
Proof.
  intros X E C. destruct (X _ _ _ _ _ E) as (g & Eg & L). rewrite Eg in *. apply clean_app in C as [_ C]. specialize (L C). apply app_inv_tail in L. rewrite app_length, L, clean_lead by exact C. reflexivity.
Qed.
Lemma cons_nn {A} (k : A) u : k :: u <> [].
Proof. discriminate. Qed.
(** What one run left, and what the other run left. *)
Lemma h_split q {A} (m : D A) u2 g1 x z F a1 G1 a2 s2 G2 : tw q m -> clean (fl F) -> u2 <> [] -> q (hd0 (lead g1 ++ u2)) = true -> m (mkDS ((lead g1 ++ u2) ++ x) F) = Ok (a1, mkDS (u2 ++ x) G1) -> clean (fl G1) ->
  m (mkDS ((lead g1 ++ u2) ++ z) F) = Ok (a2, mkDS s2 G2) -> a2 = a1 /\ G2 = G1 /\ s2 = u2 ++ z.
Proof.
  intros [X T] C N Q M1 C1 M2. destruct (X _ _ _ _ _ M1) as (h1 & Eh1 & L1). pose proof C1 as Ch. rewrite Eh1 in Ch. apply clean_app in Ch as [_ Ch]. specialize (L1 Ch).
  assert (LQ : lead g1 = lead h1) by (rewrite app_assoc in L1; apply app_inv_tail in L1; exact (app_inv_tail _ _ _ L1)).
  destruct (snoc_ex _ N) as (v & k & ->). assert (A1 : forall t : list kind, (lead g1 ++ v ++ [k]) ++ t = (lead g1 ++ v) ++ k :: t) by (intros t; rewrite <- !app_assoc; reflexivity).
  rewrite A1 in M1, M2. rewrite app_assoc in Q. destruct (T _ _ _ _ _ _ _ _ _ _ _ C Q M1 M2) as [(v' & <- & <- & Es & ->)|[[D1 _]|LL]].
  - split; [reflexivity|]. split; [reflexivity|]. assert (v = v') by (rewrite <- app_assoc in Es; cbn [app] in Es; exact (app_inv_tail _ _ _ Es)). subst v'. rewrite <- app_assoc. reflexivity.
  - destruct (clean_not _ C1 D1).
  - exfalso. rewrite Eh1, cp_app_clean in LL by exact C. assert (cp h1 = length h1) by exact Ch.
    assert (LH : length (lead g1) = length h1) by (rewrite LQ; apply clean_lead, Ch). rewrite app_length in LL. lia.
Qed.
(** The first of two steps: what it consumed of what both consume. *)
Lemma h_parts {A B} (m : D A) (f : A -> D B) u x F b F1 : ext m -> (forall a, ext (f a)) -> clean (fl F) -> @bind TO A B m f (mkDS (u ++ x) F) = Ok (b, mkDS x F1) -> clean (fl F1) ->
  exists a1 G1 g1 u2, u = lead g1 ++ u2 /\ fl G1 = fl F ++ g1 /\ clean (fl G1) /\ m (mkDS (u ++ x) F) = Ok (a1, mkDS (u2 ++ x) G1) /\ f a1 (mkDS (u2 ++ x) G1) = Ok (b, mkDS x F1).
Proof.
  intros X1 X2 C E C1. cbn [bind tree_ops] in *. unfold tr_bind in *. destruct (m (mkDS (u ++ x) F)) as [[a1 [s1 G1]]| |] eqn:M1; cbn [rbind fst snd] in E; try discriminate E.
  destruct (X1 _ _ _ _ _ M1) as (g1 & Eg1 & L1). destruct (X2 _ _ _ _ _ _ E) as (h1 & Eh1 & L2). pose proof C1 as Cs. rewrite Eh1 in Cs. apply clean_app in Cs as [CG Ch]. pose proof CG as Cg. rewrite Eg1 in Cg. apply clean_app in Cg as [_ Cg].
  specialize (L1 Cg). specialize (L2 Ch). subst s1. exists a1, G1, g1, (lead h1). split; [rewrite app_assoc in L1; exact (app_inv_tail _ _ _ L1)|]. auto.
Qed.
Lemma h_bind q S S1 {A B} (m : D A) (f : A -> D B) : tw q m -> (forall a, ext (f a)) -> hlt q S1 m -> (forall a, hlt any S (f a)) -> (forall a, dfl S (f a) []) -> sub S S1 -> hlt q S (@bind TO A B m f).
Proof.
  intros T XF H1 H2 DF SS u x F b F1 PX N G C Q E C1 z b' r2 F2 Sz E2. destruct (h_parts _ _ _ _ _ _ _ (proj1 T) XF C E C1) as (a1 & G1 & g1 & u2 & -> & Eg & CG & M1 & E1).
  cbn [bind tree_ops] in E2. unfold tr_bind in E2. destruct (m (mkDS ((lead g1 ++ u2) ++ z) F)) as [[a2 [s2 G2]]| |] eqn:M2; cbn [rbind fst snd] in E2; try discriminate E2.
  destruct u2 as [|k u2].
  - cbn [app] in M1. destruct (H1 _ _ _ _ _ PX N G C Q M1 CG _ _ _ _ (SS _ Sz) M2) as [-> C2]. exact (DF _ _ _ _ _ _ Sz C2 E2).
  - destruct (h_split q m (k :: u2) g1 _ _ _ _ _ _ _ _ T C (@cons_nn _ k u2) Q M1 CG M2) as (-> & -> & ->).
    exact (H2 a1 (k :: u2) _ _ _ _ PX (@cons_nn _ k u2) (good_app _ _ G) CG eq_refl E1 C1 _ _ _ _ Sz E2).
Qed.
(** The second step consumes something. *)
Lemma h_last q S {A B} (m : D A) (f : A -> D B) : tw q m -> (forall a, ext (f a)) -> (forall a, takes any 1 (f a)) -> (forall a, hlt any S (f a)) -> hlt q S (@bind TO A B m f).
Proof.
  intros T XF TK H2 u x F b F1 PX N G C Q E C1 z b' r2 F2 Sz E2. destruct (h_parts _ _ _ _ _ _ _ (proj1 T) XF C E C1) as (a1 & G1 & g1 & u2 & -> & Eg & CG & M1 & E1).
  cbn [bind tree_ops] in E2. unfold tr_bind in E2. destruct (m (mkDS ((lead g1 ++ u2) ++ z) F)) as [[a2 [s2 G2]]| |] eqn:M2; cbn [rbind fst snd] in E2; try discriminate E2.
  assert (N2 : u2 <> []).
  { intros ->. pose proof (TK a1 _ _ _ _ _ CG eq_refl E1 C1) as L. cbn [app] in E1. pose proof (exact_len (f a1) [] x _ _ _ (XF a1) E1 C1) as L2. cbn [length] in L2. lia. }
  destruct (h_split q m u2 g1 _ _ _ _ _ _ _ _ T C N2 Q M1 CG M2) as (-> & -> & ->). exact (H2 a1 _ _ _ _ _ PX N2 (good_app _ _ G) CG eq_refl E1 C1 _ _ _ _ Sz E2).
Qed.
Lemma takes_last q {A B} (m : D A) (f : A -> D B) : ext m -> (forall a, ext (f a)) -> (forall a, takes any 1 (f a)) -> takes q 1 (@bind TO A B m f).
Proof.
  intros X XF TK r F b r1 F1 C Q E C1. cbn [bind tree_ops] in *. unfold tr_bind in *. destruct (m (mkDS r F)) as [[a1 [s1 G1]]| |] eqn:M1; cbn [rbind fst snd] in E; try discriminate E.
  destruct (X _ _ _ _ _ M1) as (g1 & Eg1 & _). destruct (XF _ _ _ _ _ _ E) as (h1 & Eh1 & _). pose proof C1 as CG. rewrite Eh1 in CG. apply clean_app in CG as [CG _].
  pose proof (TK a1 _ _ _ _ _ CG eq_refl E C1). rewrite Eg1, app_length in *. lia.
Qed.
Lemma h_ret q S {A} (a : A) : hlt q S (@ret TO A a).
Proof. intros u x F b F1 PX N _ _ _ E. cbn [ret tree_ops] in E. unfold tr_ret in E. injection E as _ E _. destruct (N (app_inv_tail x u [] E)). Qed.
Lemma h_out q S {A} : hlt q S (@out TO A).
Proof. intros u x F b F1 _ _ _ _ _ E. discriminate E. Qed.
Lemma h_panic q S {A} : hlt q S (@panic TO A).
Proof. intros u x F b F1 _ _ _ _ _ E. discriminate E. Qed.
Lemma h_stuck q S {A} (m : D A) : ext m -> stuck q m -> hlt q S m.
Proof.
  intros X H u x F b F1 PX N _ C Q E C1. exfalso. pose proof (H _ _ _ _ _ C (eq_trans (f_equal q (hd0_app _ _ N)) Q) E) as L. pose proof (exact_len m _ _ _ _ _ X E C1) as L2. assert (cp (fl F1) = length (fl F1)) by exact C1. destruct u; [congruence|cbn [length] in L2; lia].
Qed.
Lemma h_det q S {A B} (g : kind -> A) (m : D A) (f : A -> D B) : hdet g m -> (forall k, q k = true -> hlt (kind_eqb k) S (f (g k))) -> hlt q S (@bind TO A B m f).
Proof.
  intros H K u x F a F1 PX N G C Q E C1 z a' r2 F2 Sz E2. rewrite (bind_det g), hd0_app in E, E2 by assumption. exact (K _ Q _ _ _ _ _ PX N G C (kind_eqb_refl _) E C1 _ _ _ _ Sz E2).
Qed.
Lemma h_bump q S a : hlt q S (@p_bump TO a).
Proof.
  intros u x F b F1 PX N G C Q E C1 z b' r2 F2 Sz E2. destruct (bump_inv _ _ _ _ _ _ E) as (k & Er & -> & _). assert (u = [k]) by (apply (app_inv_tail x); exact Er). subst u.
  destruct (bump_inv _ _ _ _ _ _ E2) as (k2 & Er2 & -> & _). cbn [app] in Er2. assert (k = k2) by congruence. subst k2. split; [congruence|exact C1].
Qed.
Lemma h_expect q S K : hlt q S (@p_expect TO K).
Proof.
  intros u x F b F1 PX N G C Q E C1 z b' r2 F2 Sz E2. destruct (expect_inv _ _ _ _ _ _ E) as [[Er ->]|(_ & _ & e & ->)]; [|rewrite fl_app in C1; apply clean_app in C1 as [_ C1]; discriminate C1].
  assert (u = [K]) by (apply (app_inv_tail x); exact Er). subst u. destruct (expect_inv _ _ _ _ _ _ E2) as [[Er2 ->]|(NK & _)]; [|destruct (NK eq_refl)]. cbn [app] in Er2. split; [congruence|exact C1].
Qed.
Lemma h_node_by q S (m : D kind) : hlt q S m -> hlt q S (@node_by TO m).
Proof.
  intros H u x F a F1 PX N G C Q E C1 z a' r2 F2 Sz E2. cbn [node_by tree_ops] in *. unfold tr_node in *. cbn [ds_rem ds_for] in *. destruct (m (mkDS (u ++ x) [])) as [[k [s1 G1]]| |] eqn:M1; cbn [rbind] in E; try discriminate E.
  cbn [ds_rem ds_for] in E. injection E as _ -> <-. rewrite fl_node in C1. apply clean_app in C1 as [_ C1].
  destruct (m (mkDS (u ++ z) [])) as [[k2 [s2 G2]]| |] eqn:M2; cbn [rbind] in E2; try discriminate E2. cbn [ds_rem ds_for] in E2. injection E2 as _ <- <-.
  destruct (H _ _ _ _ _ PX N G clean_nil Q M1 C1 _ _ _ _ Sz M2) as [-> C2]. split; [reflexivity|]. rewrite fl_node. now apply clean_app.
Qed.
Lemma h_pre_by q S i (m : D kind) : hlt q S m -> hlt q S (@pre_node_by TO i m).
Proof.
  intros H u x F a F1 PX N G C Q E C1 z a' r2 F2 Sz E2. cbn [pre_node_by tree_ops] in *. unfold tr_pre in *. cbn [ds_rem ds_for] in *. destruct (skipn i F) as [|[| | |kt ft] pre] eqn:SK; try discriminate E.
  destruct (m (mkDS (u ++ x) [])) as [[k [s1 G1]]| |] eqn:M1; cbn [rbind] in E; try discriminate E.
  cbn [ds_rem ds_for] in E. injection E as _ -> <-. rewrite (fl_pre _ _ _ _ _ _ _ SK) in C1. apply clean_app in C1 as [_ C1].
  destruct (m (mkDS (u ++ z) [])) as [[k2 [s2 G2]]| |] eqn:M2; cbn [rbind] in E2; try discriminate E2. cbn [ds_rem ds_for] in E2. injection E2 as _ <- <-.
  destruct (H _ _ _ _ _ PX N G clean_nil Q M1 C1 _ _ _ _ Sz M2) as [-> C2]. split; [reflexivity|]. rewrite (fl_pre _ _ _ _ _ _ _ SK). now apply clean_app.
Qed.
Lemma h_ret_after q S {A B} (m : D A) (f : A -> B) : hlt q S m -> hlt q S (@bind TO A B m (fun a => @ret TO B (f a))).
Proof.
  intros H u x F b F1 PX N G C Q E C1 z b' r2 F2 Sz E2. cbn [bind ret tree_ops] in *. unfold tr_bind, tr_ret in *.
  destruct (m (mkDS (u ++ x) F)) as [[a1 [s1 G1]]| |] eqn:M1; cbn [rbind fst snd] in E; try discriminate E. injection E as _ -> ->.
  destruct (m (mkDS (u ++ z) F)) as [[a2 [s2 G2]]| |] eqn:M2; cbn [rbind fst snd] in E2; try discriminate E2. injection E2 as _ <- <-. exact (H _ _ _ _ _ PX N G C Q M1 C1 _ _ _ _ Sz M2).
Qed.
Lemma h_node q S {A} k (m : D A) : hlt q S m -> hlt q S (@node TO A k m).
Proof. intros H. unfold node. apply h_node_by, (h_ret_after q S m (fun _ => k)). exact H. Qed.
Lemma h_node_ q S {A} k (m : D A) : hlt q S m -> hlt q S (@node_ TO A k m).
Proof. intros H. unfold node_. apply (h_ret_after q S (@node TO A k m) (fun _ => tt)). now apply h_node. Qed.
Lemma h_pre q S {A} i k (m : D A) : hlt q S m -> hlt q S (@pre_node TO A i k m).
Proof. intros H. unfold pre_node. apply h_pre_by, (h_ret_after q S m (fun _ => k)). exact H. Qed.
Lemma h_guard q S a {B} (f : unit -> D B) : hlt q S (f tt) -> hlt q S (@bind TO _ B (@bind TO _ _ (@p_at TO a) (fun b => @passert TO b)) f).
Proof.
  intros H.
  assert (G : forall r F, @bind TO _ B (@bind TO _ _ (@p_at TO a) (fun b => @passert TO b)) f (mkDS r F) = if pacc_test a (hd0 r) then f tt (mkDS r F) else Panic).
  { intros r F. cbn [bind tree_ops]. unfold tr_bind at 1. change (tr_bind (@p_at TO a) (fun b => @passert TO b) (mkDS r F)) with (@bind TO _ _ (@p_at TO a) (fun b => @passert TO b) (mkDS r F)). rewrite (bind_det _ _ _ _ _ (hdet_at a)). now destruct (pacc_test a (hd0 r)). }
  intros u x F b F1 PX N Gd C Q E C1 z b' r2 F2 Sz E2. rewrite G in E, E2. destruct (pacc_test a (hd0 (u ++ x))); [|discriminate E]. destruct (pacc_test a (hd0 (u ++ z))); [|discriminate E2]. exact (H _ _ _ _ _ PX N Gd C Q E C1 _ _ _ _ Sz E2).
Qed.
Lemma h_accept q S a {B} (f : bool -> D B) : (forall b, ext (f b)) -> hlt any S (f true) -> dfl S (f true) [] \/ takes any 1 (f true) -> hlt any S (f false) -> hlt q S (@bind TO _ B (@p_accept TO a) f).
Proof.
  intros XF HT HD HF. intros u x F b F1 PX N G C Q E C1 z b' r2 F2 Sz E2. cbn [bind tree_ops] in E, E2. unfold tr_bind in E, E2.
  destruct (@p_accept TO a (mkDS (u ++ x) F)) as [[b1 [s1 G1]]| |] eqn:M1; cbn [rbind fst snd] in E; try discriminate E. destruct (@p_accept TO a (mkDS (u ++ z) F)) as [[b2 [s2 G2]]| |] eqn:M2; cbn [rbind fst snd] in E2; try discriminate E2.
  destruct u as [|k u]; [congruence|]. cbn [app] in M1, M2.
  destruct (accept_inv _ _ _ _ _ _ M1) as [(T1 & -> & k1 & R1 & ->)|(T1 & -> & -> & ->)]; destruct (accept_inv _ _ _ _ _ _ M2) as [(T2 & -> & k2 & R2 & ->)|(T2 & -> & -> & ->)]; cbn [hd0 nth] in T1, T2; try congruence.
  - assert (k1 = k) by congruence. assert (k2 = k) by congruence. assert (s1 = u ++ x) by congruence. assert (s2 = u ++ z) by congruence. subst k1 k2 s1 s2. pose proof (clean_snoc _ k C) as C'.
    destruct u as [|k' u].
    + cbn [app] in E, E2. destruct HD as [HD|HD]; [exact (HD _ _ _ _ _ Sz C' E2)|]. pose proof (HD _ _ _ _ _ C' eq_refl E C1) as L. pose proof (exact_len (f true) [] x _ _ _ (XF true) E C1) as L2. cbn [length] in L2. lia.
    + exact (HT (k' :: u) _ _ _ _ PX (@cons_nn _ k' u) (good_app [k] _ G) C' eq_refl E C1 _ _ _ _ Sz E2).
  - exact (HF (k :: u) _ _ _ _ PX N G C eq_refl E C1 _ _ _ _ Sz E2).
Qed.
Lemma h_loop S b : T1 b -> hlt any S b -> nos S b -> forall n, hlt any S (@p_loop TO n b).
Proof.
  intros T K H. induction n as [|n IH]; cbn [p_loop]; [apply h_out|]. apply (h_bind any S S); auto.
  - intros [|]; [apply (tw_loop b T n)|apply ext_ret].
  - intros [|]; [exact IH|apply h_ret].
  - intros [|]; [now apply dfl_loop|apply dfl_ret].
  - intros k Hk. exact Hk.
Qed.
Lemma h_while S (g : kind -> bool) cond (b : D unit) n : hdet g cond -> T1 cond -> T1 b -> hlt any S b -> (forall k, S k = true -> g k = false) -> hlt any S (@p_while TO n cond b).
Proof.
  intros Hg Tc Tb K H. unfold p_while. apply h_loop.
  - apply tw_bind; [exact Tc|]. intros [|]; [|apply tw_ret]. apply tw_bind; [exact Tb|]. intros a. apply tw_ret.
  - apply (h_det any S g); [exact Hg|]. intros k _. destruct (g k); [|apply h_ret]. apply h_any, (h_ret_after any S b (fun _ => true)). exact K.
  - apply (nos_det S g); [exact Hg|]. intros k Sk. rewrite (H _ Sk). apply nos_ret.
Qed.

End Halt.
Notation halts := (hlt any) (only parsing).

(** ** What the first error says *)
Definition says (q S : kind -> bool) {A} (m : D A) : Prop := forall r F a r1 F1 e K, clean (fl F) -> q (hd0 r) = true -> m (mkDS r F) = Ok (a, mkDS r1 F1) -> fe (fx F1) = Some e -> promise e = Some K ->
  exists u y, r = u ++ y /\ cp (fl F1) = length (fl F) + length u /\ (forall k c, e = PExpected k c -> c = hd0 y) /\ (u = [] -> S K = true) /\
    (u <> [] -> good u -> forall z a' r2 F2, m (mkDS (u ++ K :: z) F) = Ok (a', mkDS r2 F2) -> length (fl F) + length u < cp (fl F2)).
Lemma no_err {A} (m : D A) q S : (forall r F a r1 F1, clean (fl F) -> m (mkDS r F) = Ok (a, mkDS r1 F1) -> clean (fl F1)) -> says q S m.
Proof. intros H r F a r1 F1 e K C _ E Fe. apply (H _ _ _ _ _ C), clean_fe in E. congruence. Qed.
Lemma s_any q S {A} (m : D A) : says any S m -> says q S m.
Proof. intros H r F a r1 F1 e K C _. exact (H r F a r1 F1 e K C eq_refl). Qed.
Lemma s_sub q S S' {A} (m : D A) : sub S S' -> says q S m -> says q S' m.
Proof. intros H HS r F a r1 F1 e K C Q E Fe P. destruct (HS _ _ _ _ _ _ _ C Q E Fe P) as (u & y & E1 & E2 & E3 & E4 & E5). exists u, y. auto 10. Qed.
Lemma s_ret q S {A} (a : A) : says q S (@ret TO A a).
Proof. apply no_err. intros r F b r1 F1 C E. cbn [ret tree_ops] in E. unfold tr_ret in E. injection E as _ _ <-. exact C. Qed.
Lemma s_out q S {A} : says q S (@out TO A).
Proof. apply no_err. intros r F b r1 F1 C E. discriminate E. Qed.
Lemma s_panic q S {A} : says q S (@panic TO A).
Proof. apply no_err. intros r F b r1 F1 C E. discriminate E. Qed.
Lemma s_bump q S a : says q S (@p_bump TO a).
Proof. apply no_err. intros r F b r1 F1 C E. destruct (bump_inv _ _ _ _ _ _ E) as (k & _ & -> & _). now apply clean_snoc. Qed.
Lemma s_accept q S a : says q S (@p_accept TO a).
Proof. apply no_err. intros r F b r1 F1 C E. destruct (accept_inv _ _ _ _ _ _ E) as [(_ & _ & k & _ & ->)|(_ & _ & _ & ->)]; [now apply clean_snoc|exact C]. Qed.
Lemma s_expect q K : says q (one K) (@p_expect TO K).
Proof.
  intros r F a r1 F1 e K' C _ E Fe P. unfold p_expect in E. rewrite (bind_det _ _ _ _ _ hdet_current) in E. destruct (kind_eqb (hd0 r) K) eqn:EK.
  - exfalso. cbn [bind tree_ops] in E. unfold tr_bind in E. destruct (@p_bump TO PAny (mkDS r F)) as [[u [s1 G1]]| |] eqn:M; cbn [rbind fst snd] in E; try discriminate E. cbn [ret tree_ops] in E. unfold tr_ret in E. injection E as _ <- <-.
    destruct (bump_inv _ _ _ _ _ _ M) as (k & _ & -> & _). apply (clean_snoc _ k), clean_fe in C. congruence.
  - cbn [bind ret p_push_error tree_ops] in E. unfold tr_bind, tr_ret, tr_error in E. cbn [rbind fst snd ds_rem ds_for] in E. injection E as _ <- <-. rewrite fx_app, fe_app_none in Fe by (now apply clean_fe). cbn in Fe. injection Fe as <-. cbn [promise] in P. injection P as <-.
    exists [], r. split; [reflexivity|]. split; [rewrite fl_app, cp_app_clean by exact C; cbn; lia|]. split; [intros k c H; injection H as _ <-; reflexivity|]. split; [intros _; apply kind_eqb_refl|congruence].
Qed.
(** An error is reported at once. *)
Definition errs (m : string) {A} (d : D A) : Prop := forall r F a r1 F1, d (mkDS r F) = Ok (a, mkDS r1 F1) -> exists t, F1 = F ++ [t] /\ fx1 t = [inr (PMsg m)].
Lemma s_errs q S m {A} (d : D A) : errs m d -> (forall K, promise (PMsg m) = Some K -> S K = true) -> says q S d.
Proof.
  intros H HS r F a r1 F1 e K C _ E Fe P. destruct (H _ _ _ _ _ E) as (t & -> & Et). rewrite fx_app, fe_app_none in Fe by (now apply clean_fe). cbn [fx flat_map] in Fe. rewrite Et in Fe. cbn in Fe. injection Fe as <-.
  exists [], r. split; [reflexivity|]. split; [rewrite fl_app, cp_app_clean by exact C; cbn [length]; rewrite (fl_fx [t]); cbn [fx flat_map]; rewrite Et; reflexivity|]. split; [intros k c Hk; discriminate Hk|]. split; [intros _; exact (HS _ P)|congruence].
Qed.
Lemma errs_error m : errs m (@p_error TO m).
Proof. intros r F a r1 F1 E. unfold p_error in E. cbn [p_push_error tree_ops] in E. unfold tr_error in E. cbn [ds_rem ds_for] in E. injection E as _ _ <-. eexists. split; reflexivity. Qed.
Lemma errs_node m {A} (b : D A) : errs m (@err_node TO (@bind TO _ _ b (fun _ => @ret TO _ (PMsg m)))).
Proof.
  intros r F a r1 F1 E. cbn [err_node bind ret tree_ops] in E. unfold tr_err_node, tr_bind, tr_ret in E. cbn [ds_rem ds_for] in E. destruct (b (mkDS r [])) as [[a2 [s2 G2]]| |]; cbn [rbind fst snd] in E; try discriminate E. cbn [ds_rem ds_for] in E. injection E as _ _ <-. eexists. split; reflexivity.
Qed.
Lemma errs_recover m s : errs m (@p_err_recover TO m s).
Proof.
  intros r F a r1 F1 E. unfold p_err_recover in E. rewrite (bind_det _ _ _ _ _ hdet_current) in E. destruct (kind_eqb (hd0 r) KEndKw); [exact (errs_error m _ _ _ _ _ E)|]. rewrite (bind_det _ _ _ _ _ (hdet_at _)) in E.
  destruct (pacc_test (PSet s) (hd0 r)); [exact (errs_error m _ _ _ _ _ E)|]. exact (errs_node m _ _ _ _ _ _ E).
Qed.
Lemma s_det q S {A B} (g : kind -> A) (m : D A) (f : A -> D B) : hdet g m -> (forall k, q k = true -> says (kind_eqb k) S (f (g k))) -> says q S (@bind TO A B m f).
Proof.
  intros H K r F a r1 F1 e K' C Q E Fe P. rewrite (bind_det g) in E by assumption. destruct (K _ Q _ _ _ _ _ _ _ C (kind_eqb_refl _) E Fe P) as (u & y & -> & E2 & E3 & E4 & E5). exists u, y. repeat (split; [assumption||reflexivity|]).
  intros N G z a' r2 F2 M2. rewrite (bind_det g) in M2 by assumption. rewrite (hd0_app u y N) in *. rewrite (hd0_app u (K' :: z) N) in M2. exact (E5 N G _ _ _ _ M2).
Qed.
Lemma s_guard q S a {B} (f : unit -> D B) : says q S (f tt) -> says q S (@bind TO _ B (@bind TO _ _ (@p_at TO a) (fun b => @passert TO b)) f).
Proof.
  intros H.
  assert (G : forall r F, @bind TO _ B (@bind TO _ _ (@p_at TO a) (fun b => @passert TO b)) f (mkDS r F) = if pacc_test a (hd0 r) then f tt (mkDS r F) else Panic).
  { intros r F. cbn [bind tree_ops]. unfold tr_bind at 1. change (tr_bind (@p_at TO a) (fun b => @passert TO b) (mkDS r F)) with (@bind TO _ _ (@p_at TO a) (fun b => @passert TO b) (mkDS r F)). rewrite (bind_det _ _ _ _ _ (hdet_at a)). now destruct (pacc_test a (hd0 r)). }
  intros r F b r1 F1 e K C Q E Fe P. rewrite G in E. destruct (pacc_test a (hd0 r)); [|discriminate E]. destruct (H _ _ _ _ _ _ _ C Q E Fe P) as (u & y & -> & E2 & E3 & E4 & E5). exists u, y. repeat (split; [assumption||reflexivity|]).
  intros N Gd z a' r2 F2 M2. rewrite G in M2. destruct (pacc_test a (hd0 (u ++ K :: z))); [|discriminate M2]. exact (E5 N Gd _ _ _ _ M2).
Qed.
Lemma s_node_by q S (m : D kind) : says q S m -> says q S (@node_by TO m).
Proof.
  intros H r F a r1 F1 e K C Q E Fe P. cbn [node_by tree_ops] in *. unfold tr_node in *. cbn [ds_rem ds_for] in *. destruct (m (mkDS r [])) as [[k [s1 G1]]| |] eqn:M1; cbn [rbind] in E; try discriminate E.
  cbn [ds_rem ds_for] in E. injection E as _ <- <-. rewrite fx_app, fe_app_none in Fe by (now apply clean_fe). replace (fx [PNode k G1]) with (fx G1) in Fe by (unfold fx; cbn [flat_map fx1]; now rewrite app_nil_r).
  destruct (H _ _ _ _ _ _ _ clean_nil Q M1 Fe P) as (u & y & -> & E2 & E3 & E4 & E5). exists u, y. split; [reflexivity|]. split; [rewrite fl_node, cp_app_clean by exact C; cbn [fl flat_map length] in E2; lia|]. repeat (split; [assumption|]).
  intros N Gd z a' r2 F2 M2. cbn [ds_rem ds_for] in M2. destruct (m (mkDS (u ++ K :: z) [])) as [[k2 [s2 G2]]| |] eqn:M3; cbn [rbind] in M2; try discriminate M2. cbn [ds_rem ds_for] in M2. injection M2 as _ _ <-.
  pose proof (E5 N Gd _ _ _ _ M3) as L. rewrite fl_node, cp_app_clean by exact C. cbn [fl flat_map length] in L. lia.
Qed.
Lemma s_pre_by q S i (m : D kind) : says q S m -> says q S (@pre_node_by TO i m).
Proof.
  intros H r F a r1 F1 e K C Q E Fe P. cbn [pre_node_by tree_ops] in *. unfold tr_pre in *. cbn [ds_rem ds_for] in *. destruct (skipn i F) as [|[| | |kt ft] pre] eqn:SK; try discriminate E.
  destruct (m (mkDS r [])) as [[k [s1 G1]]| |] eqn:M1; cbn [rbind] in E; try discriminate E.
  cbn [ds_rem ds_for] in E. injection E as _ <- <-. rewrite (fx_pre _ _ _ _ _ _ _ SK), fe_app_none in Fe by (now apply clean_fe).
  destruct (H _ _ _ _ _ _ _ clean_nil Q M1 Fe P) as (u & y & -> & E2 & E3 & E4 & E5). exists u, y. split; [reflexivity|]. split; [rewrite (fl_pre _ _ _ _ _ _ _ SK), cp_app_clean by exact C; cbn [fl flat_map length] in E2; lia|]. repeat (split; [assumption|]).
  intros N Gd z a' r2 F2 M2. cbn [ds_rem ds_for] in M2. destruct (m (mkDS (u ++ K :: z) [])) as [[k2 [s2 G2]]| |] eqn:M3; cbn [rbind] in M2; try discriminate M2. cbn [ds_rem ds_for] in M2. injection M2 as _ _ <-.
  pose proof (E5 N Gd _ _ _ _ M3) as L. rewrite (fl_pre _ _ _ _ _ _ _ SK), cp_app_clean by exact C. cbn [fl flat_map length] in L. lia.
Qed.
(** Two steps. *)
Lemma s_bind_p pa q S S2 {A B} (m : D A) (f : A -> D B) : tw q m -> (forall a, ext (f a)) -> (forall a, kp (f a)) -> says q S m -> (forall a, says any S2 (f a)) -> hlt pa q S2 m -> (forall a, says (fun k => negb (pa k)) none (f a)) -> (forall a, eats S2 (f a)) ->
  (forall K, S2 K = true -> S K = true) \/ takes q 1 m -> says q S (@bind TO A B m f).
Proof.
  intros T XF KF H1 H2 HL HP EF OR r F b r1 F1 e K C Q E Fe P. cbn [bind tree_ops] in *. unfold tr_bind in *.
  destruct (m (mkDS r F)) as [[a1 [s1 G1]]| |] eqn:M1; cbn [rbind fst snd] in E; try discriminate E.
  destruct (XF _ _ _ _ _ _ E) as (h1 & Eh1 & _). destruct (KF _ _ _ _ _ _ E) as (hh & Ehh & _).
  destruct (fe (fx G1)) as [e1|] eqn:Fe1.
  - assert (e1 = e) by (rewrite Ehh, (fe_app_some _ _ _ Fe1) in Fe; congruence). subst e1. destruct (H1 _ _ _ _ _ _ _ C Q M1 Fe1 P) as (u & y & -> & E2 & E3 & E4 & E5). exists u, y. split; [reflexivity|].
    assert (D1 : dirty (fl G1)). { destruct (clean_or (fl G1)) as [CC|D1]; [|exact D1]. apply clean_fe in CC. congruence. }
    split; [rewrite Eh1, cp_app_dirty by exact D1; exact E2|]. repeat (split; [assumption|]). intros N Gd z b' r2 F2 M2.
    destruct (m (mkDS (u ++ K :: z) F)) as [[a2 [s2 G2]]| |] eqn:M3; cbn [rbind fst snd] in M2; try discriminate M2. destruct (XF _ _ _ _ _ _ M2) as (h2 & Eh2 & _). rewrite Eh2. pose proof (E5 N Gd _ _ _ _ M3). pose proof (cp_mono (fl G2) h2). lia.
  - apply clean_fe in Fe1. destruct (proj1 T _ _ _ _ _ M1) as (g1 & Eg1 & L1). pose proof Fe1 as Cg. rewrite Eg1 in Cg. apply clean_app in Cg as [_ Cg]. specialize (L1 Cg). subst r.
    destruct (H2 a1 _ _ _ _ _ _ _ Fe1 eq_refl E Fe P) as (u2 & y & -> & E2 & E3 & E4 & E5). exists (lead g1 ++ u2), y. split; [apply app_assoc|].
    assert (LG : length (fl G1) = length (fl F) + length (lead g1)) by (rewrite Eg1, app_length, clean_lead by exact Cg; reflexivity).
    split; [rewrite E2, LG, app_length; lia|]. split; [exact E3|]. split.
    + intros EN. apply app_eq_nil in EN as [EG ->]. destruct OR as [OR|OR]; [apply OR, E4, eq_refl|]. pose proof (OR _ _ _ _ _ C Q M1 Fe1) as L. rewrite LG, EG in L. cbn [length] in L. lia.
    + intros N Gd z b' r2 F2 M2. destruct (m (mkDS ((lead g1 ++ u2) ++ K :: z) F)) as [[a2 [s2 G2]]| |] eqn:M3; cbn [rbind fst snd] in M2; try discriminate M2.
      destruct u2 as [|k u2].
      * rewrite app_nil_r in *. cbn [app] in M1. assert (Q' : q (hd0 (lead g1)) = true) by (rewrite <- (hd0_app (lead g1) y N); exact Q).
        assert (PY : pa (hd0 y) = true).
        { destruct (pa (hd0 y)) eqn:PY; [reflexivity|exfalso]. cbn [app] in E. assert (QY : negb (pa (hd0 y)) = true) by (rewrite PY; reflexivity).
          destruct (HP a1 _ _ _ _ _ _ _ Fe1 QY E Fe P) as (u3 & y3 & E31 & E32 & _ & E34 & _). cbn [length] in E2. assert (u3 = []) by (destruct u3; [reflexivity|cbn [length] in E32; lia]). discriminate (E34 H). }
        destruct (HL _ _ _ _ _ PY N Gd C Q' M1 Fe1 (K :: z) _ _ _ (E4 eq_refl) M3) as [-> C2].
        pose proof (EF a2 (K :: z) _ _ _ _ C2 (E4 eq_refl) M2) as L. pose proof (exact_len m _ _ _ _ _ (proj1 T) M3 C2) as L3. lia.
      * assert (Q' : q (hd0 (lead g1 ++ k :: u2)) = true) by (rewrite <- (hd0_app (lead g1 ++ k :: u2) y N), <- app_assoc; exact Q).
        rewrite app_assoc in M1. destruct (h_split q m (k :: u2) g1 _ _ _ _ _ _ _ _ T C (@cons_nn _ k u2) Q' M1 Fe1 M3) as (-> & -> & ->).
        pose proof (E5 (@cons_nn _ k u2) (good_app _ _ Gd) _ _ _ _ M2) as L. rewrite app_length. lia.
Qed.
Lemma s_bind q S S2 {A B} (m : D A) (f : A -> D B) : tw q m -> (forall a, ext (f a)) -> (forall a, kp (f a)) -> says q S m -> (forall a, says any S2 (f a)) -> halts q S2 m -> (forall a, eats S2 (f a)) ->
  (forall K, S2 K = true -> S K = true) \/ takes q 1 m -> says q S (@bind TO A B m f).
Proof. intros. apply (s_bind_p any q S S2); auto. intros a r F b r1 F1 e K _ Q. discriminate Q. Qed.
(** No promise in the second step at its start. *)
Lemma s_seq q S {A B} (m : D A) (f : A -> D B) : tw q m -> (forall a, ext (f a)) -> (forall a, kp (f a)) -> says q S m -> (forall a, says any none (f a)) -> says q S (@bind TO A B m f).
Proof. intros T XF KF H1 H2. apply (s_bind q S none); auto using h_none; [intros a; apply eats_none|left; intros K H; discriminate H]. Qed.
Lemma s_ret_after q S {A B} (m : D A) (f : A -> B) : tw q m -> says q S m -> says q S (@bind TO A B m (fun a => @ret TO B (f a))).
Proof. intros T H. apply s_seq; [exact T|intros a; apply ext_ret|intros a; apply kp_ret|exact H|intros a; apply s_ret]. Qed.
Lemma s_node q S {A} k (m : D A) : tw q m -> says q S m -> says q S (@node TO A k m).
Proof. intros T H. unfold node. apply s_node_by, (s_ret_after q S m (fun _ => k)); assumption. Qed.
Lemma s_node_ q S {A} k (m : D A) : tw q m -> says q S m -> says q S (@node_ TO A k m).
Proof. intros T H. unfold node_. apply (s_ret_after q S (@node TO A k m) (fun _ => tt)); [now apply tw_node|now apply s_node]. Qed.
Lemma s_pre q S {A} i k (m : D A) : tw q m -> says q S m -> says q S (@pre_node TO A i k m).
Proof. intros T H. unfold pre_node. apply s_pre_by, (s_ret_after q S m (fun _ => k)); assumption. Qed.
Lemma s_loop S b : T1 b -> kp b -> says any none b -> forall n, says any S (@p_loop TO n b).
Proof.
  intros T KB H. intros n. apply (s_sub any none); [intros k Hk; discriminate Hk|]. induction n as [|n IH]; cbn [p_loop]; [apply s_out|]. apply s_seq; [exact T| | |exact H|].
  - intros [|]; [apply (tw_loop b T n)|apply ext_ret].
  - intros [|]; [apply kp_loop; exact KB|apply kp_ret].
  - intros [|]; [exact IH|apply s_ret].
Qed.
(** A step that consumes the token it starts at promises nothing at its start. *)
Lemma s_eats q S {A} (m : D A) : eats q m -> says q S m -> says q none m.
Proof.
  intros HE H r F a r1 F1 e K C Q E Fe P. destruct (H _ _ _ _ _ _ _ C Q E Fe P) as (u & y & E1 & E2 & E3 & E4 & E5). exists u, y. repeat (split; [assumption|]). split; [|exact E5].
  intros ->. pose proof (HE _ _ _ _ _ C Q E). cbn [length] in E2. lia.
Qed.
(** What the words of ContProofs.v say about the first token. *)
Lemma eats_one K {A} (m : D A) : kind_eqb K KEof = false -> ext m -> dfl any m [K] -> eats (one K) m.
Proof.
  intros NE X H r F a r1 F1 C Q E. apply kind_eqb_eq in Q. destruct r as [|k r]; [cbn [hd0 nth] in Q; subst K; discriminate NE|]. cbn [hd0 nth] in Q. subst k.
  destruct (H r F a r1 F1 eq_refl C E) as [-> C1]. pose proof (exact_len m [K] r _ _ _ X E C1) as L. assert (cp (fl F1) = length (fl F1)) by exact C1. cbn [length] in L. lia.
Qed.
Lemma eats_after S {A B} (m : D A) (f : A -> D B) : dfl S m [] -> (forall a, eats S (f a)) -> ext m -> eats S (@bind TO A B m f).
Proof.
  intros DM EF X r F b r1 F1 C Q E. cbn [bind tree_ops] in E. unfold tr_bind in E. destruct (m (mkDS r F)) as [[a [s1 G1]]| |] eqn:M; cbn [rbind fst snd] in E; try discriminate E.
  destruct (DM r F _ _ _ Q C M) as [-> C1]. pose proof (EF a r _ _ _ _ C1 Q E) as L. pose proof (exact_len m [] r _ _ _ X M C1) as L2. cbn [length] in L2. lia.
Qed.
Lemma eats_or q q1 q2 {A} (m : D A) : (forall k, q k = true -> q1 k = true \/ q2 k = true) -> eats q1 m -> eats q2 m -> eats q m.
Proof. intros H E1 E2 r F a r1 F1 C Q. destruct (H _ Q) as [Q1|Q2]; [exact (E1 _ _ _ _ _ C Q1)|exact (E2 _ _ _ _ _ C Q2)]. Qed.
(** Two tokens at once: what a choice that looks at the second token does. *)
Lemma peek2 {A} (f : kind -> D A) r F : @bind TO _ _ (@p_nth TO 1) f (mkDS r F) = f (nth 1 r KEof) (mkDS r F).
Proof. apply peek_run. Qed.
Lemma s_peek q S {A} (f : kind -> D A) : (forall k, says q S (f k)) -> (forall k K, q k = true -> forall (r : list kind) F a r1 F1 e, clean (fl F) -> hd0 r = k -> f (nth 1 r KEof) (mkDS r F) = Ok (a, mkDS r1 F1) -> fe (fx F1) = Some e -> promise e = Some K ->
   cp (fl F1) = length (fl F) + 1 -> forall z a' r2 F2, f K (mkDS (k :: K :: z) F) = Ok (a', mkDS r2 F2) -> length (fl F) + 1 < cp (fl F2)) -> says q S (@bind TO _ _ (@p_nth TO 1) f).
Proof.
  intros H H1 r F a r1 F1 e K C Q E Fe P. rewrite peek2 in E. destruct (H _ _ _ _ _ _ _ _ C Q E Fe P) as (u & y & -> & E2 & E3 & E4 & E5). exists u, y. repeat (split; [assumption||reflexivity|]).
  intros N G z a' r2 F2 M2. rewrite peek2 in M2. destruct u as [|k [|k2 u]]; [congruence| |].
  - cbn [app length nth] in *. exact (H1 k K Q (k :: y) F a r1 F1 e C eq_refl E Fe P E2 z a' r2 F2 M2).
  - cbn [app nth] in *. exact (E5 N G z a' r2 F2 M2).
Qed.
Lemma h_peek q S {A} (f : kind -> D A) : (forall k, halts q S (f k)) -> (forall k, q k = true -> forall x F a F1, clean (fl F) -> f (hd0 x) (mkDS (k :: x) F) = Ok (a, mkDS x F1) -> clean (fl F1) ->
   forall z a' r2 F2, S (hd0 z) = true -> f (hd0 z) (mkDS (k :: z) F) = Ok (a', mkDS r2 F2) -> r2 = z /\ clean (fl F2)) -> halts q S (@bind TO _ _ (@p_nth TO 1) f).
Proof.
  intros H H1 u x F a F1 PX N G C Q E C1 z a' r2 F2 Sz E2. rewrite peek2 in E, E2. destruct u as [|k [|k2 u]]; [congruence| |].
  - cbn [app nth] in E, E2. exact (H1 k Q x F a F1 C E C1 z a' r2 F2 Sz E2).
  - cbn [app nth] in E, E2. exact (H k2 (k :: k2 :: u) x F a F1 PX N G C Q E C1 z a' r2 F2 Sz E2).
Qed.
Lemma h_take2 {A} (m : D A) k x F a F1 : ext m -> takes any 2 m -> clean (fl F) -> m (mkDS (k :: x) F) = Ok (a, mkDS x F1) -> clean (fl F1) -> False.
Proof. intros X T C E C1. pose proof (T _ _ _ _ _ C eq_refl E C1). pose proof (exact_len m [k] x _ _ _ X E C1) as L. cbn [length] in L. lia. Qed.
Lemma takes_more q e1 e2 {A B} (m : D A) (f : A -> D B) : takes q e1 m -> (forall a, takes any e2 (f a)) -> (forall a, ext (f a)) -> takes q (e1 + e2) (@bind TO A B m f).
Proof.
  intros T1 T2 X2 r F b r1 F1 C Q E C1. cbn [bind tree_ops] in *. unfold tr_bind in *. destruct (m (mkDS r F)) as [[a1 [s1 G1]]| |] eqn:M1; cbn [rbind fst snd] in E; try discriminate E.
  destruct (X2 _ _ _ _ _ _ E) as (h1 & Eh1 & _). pose proof C1 as CG. rewrite Eh1 in CG. apply clean_app in CG as [CG _].
  pose proof (T2 a1 _ _ _ _ _ CG eq_refl E C1). pose proof (T1 _ _ _ _ _ C Q M1 CG). lia.
Qed.
Lemma takes_pre_by q e i (m : D kind) : takes q e m -> takes q e (@pre_node_by TO i m).
Proof.
  intros H r F a r1 F1 C Q E C1. cbn [pre_node_by tree_ops] in *. unfold tr_pre in *. cbn [ds_rem ds_for] in *. destruct (skipn i F) as [|[| | |kt ft] pre] eqn:SK; try discriminate E.
  destruct (m (mkDS r [])) as [[k [s1 G1]]| |] eqn:M1; cbn [rbind] in E; try discriminate E. cbn [ds_rem ds_for] in E. injection E as _ <- <-. rewrite (fl_pre _ _ _ _ _ _ _ SK) in *. apply clean_app in C1 as [_ C1].
  pose proof (H _ _ _ _ _ clean_nil Q M1 C1) as L. rewrite app_length. cbn [fl flat_map length] in L. lia.
Qed.
Lemma takes_weak q e e' {A} (m : D A) : e' <= e -> takes q e m -> takes q e' m.
Proof. intros L H r F a r1 F1 C Q E C1. pose proof (H _ _ _ _ _ C Q E C1). lia. Qed.
Lemma takes_any q e {A} (m : D A) : takes any e m -> takes q e m.
Proof. intros H r F a r1 F1 C Q. exact (H _ _ _ _ _ C eq_refl). Qed.
Lemma takes_out q e {A} : takes q e (@out TO A).
Proof. intros r F b r1 F1 C Q E. discriminate E. Qed.
Lemma takes_panic q e {A} : takes q e (@panic TO A).
Proof. intros r F b r1 F1 C Q E. discriminate E. Qed.
Lemma takes_guard q e a {B} (f : unit -> D B) : takes q e (f tt) -> takes q e (@bind TO _ B (@bind TO _ _ (@p_at TO a) (fun b => @passert TO b)) f).
Proof.
  intros H r F b r1 F1 C Q E C1. cbn [bind tree_ops] in E. unfold tr_bind at 1 in E. change (tr_bind (@p_at TO a) (fun b => @passert TO b) (mkDS r F)) with (@bind TO _ _ (@p_at TO a) (fun b => @passert TO b) (mkDS r F)) in E.
  rewrite (bind_det _ _ _ _ _ (hdet_at a)) in E. destruct (pacc_test a (hd0 r)); [|discriminate E]. exact (H _ _ _ _ _ C Q E C1).
Qed.
Lemma takes_peek q e {A} (f : kind -> D A) : (forall k, takes q e (f k)) -> takes q e (@bind TO _ _ (@p_nth TO 1) f).
Proof. intros H r F a r1 F1 C Q E C1. rewrite peek2 in E. exact (H _ _ _ _ _ _ C Q E C1). Qed.
Lemma s_map q S {A B} (m : D A) (f : A -> B) : says q S m -> says q S (@bind TO A B m (fun a => @ret TO B (f a))).
Proof.
  intros H r F a r1 F1 e K C Q E Fe P. cbn [bind ret tree_ops] in E. unfold tr_bind, tr_ret in E. destruct (m (mkDS r F)) as [[a1 [s1 G1]]| |] eqn:M; cbn [rbind fst snd] in E; try discriminate E. injection E as _ <- <-.
  destruct (H _ _ _ _ _ _ _ C Q M Fe P) as (u & y & -> & E2 & E3 & E4 & E5). exists u, y. repeat (split; [assumption||reflexivity|]). intros N G z a' r2 F2 M2. cbn [bind ret tree_ops] in M2. unfold tr_bind, tr_ret in M2.
  destruct (m (mkDS (u ++ K :: z) F)) as [[a2 [s2 G2]]| |] eqn:M3; cbn [rbind fst snd] in M2; try discriminate M2. injection M2 as _ _ <-. exact (E5 N G _ _ _ _ M3).
Qed.
Lemma s_nodef q S {A} k (m : D A) : says q S m -> says q S (@node_ TO A k m).
Proof. intros H. unfold node_. apply (s_map q S (@node TO A k m) (fun _ => tt)). unfold node. apply s_node_by, (s_map q S m (fun _ => k)). exact H. Qed.
