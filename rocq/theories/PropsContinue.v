(** PropsContinue.v — C91: up to the first syntax error the text is the beginning of a program. *)
From Coq Require Import ZArith.
From Verif Require Import Base SyntaxKind TokenSet Lexer LexSpec LexerDirect LexerProofs BindingPowers Parser Grammar
  Event EventProofs Tree TreeSink ParserTree ParserRefine SinkProofs GrammarSpec ParserTotal ParserTotal2 ParserFuel Ast ParseSpec ParseProofs StrictTree DressProofs
  ValidProofs PropsLexer PropsParser Grouping GroupProofs PropsGroup TreeComplete PropsLang FirstProofs PropsSuffix PropsFirst ContProofs ContGrammar ContOpen.

Lemma clean_noerrs f : clean (fl f) -> noerrs f = true.
Proof.
  set (P1 := fun t => clean (fl1 t) -> noerr t = true). set (PF := fun f => clean (fl f) -> noerrs f = true).
  change (PF f). apply (forest_ind' P1 PF); unfold P1, PF; try discriminate; try reflexivity.
  - intros k fs IH H. exact (IH H).
  - intros t fs H1 H2 H. change (fl (t :: fs)) with (fl1 t ++ fl fs) in H. apply clean_app in H as [A B]. apply StrictTree.noerrs_cons. auto.
Qed.
Lemma run_reading n w f : 2 * length w + 2 <= n -> NEof w -> @root_f TO n (mkDS w []) = Ok (tt, mkDS [] f) -> clean (fl f) -> reading w f.
Proof.
  intros L NE R C. destruct (root_total n w L NE) as (f' & R' & K & T). assert (f' = f) by congruence. subst f'.
  pose proof (clean_noerrs _ C) as NO. split; [exact (Tree_strict _ _ T NO)|]. split.
  - destruct (PC_root _ _ _ _ _ R) as (g & r & E & E1 & G & _). cbn [app] in E. assert (Er : r = []) by congruence. assert (Eg : g = f) by congruence. subst r g. pose proof (erase_noerr _ NO) as EN. change (ers f = f) in EN. rewrite <- EN. exact G.
  - rewrite <- K. unfold fkinds. now rewrite toks_pkinds.
Qed.
(** Before its first error, a run has read the beginning of a program. *)
Lemma go_on n u v fs : good u -> NEof (u ++ v) -> @root_f TO n (mkDS (u ++ v) []) = Ok (tt, mkDS [] fs) -> cp (fl fs) = length u ->
  exists w f, (length w <= 8 * length u) /\ reading (u ++ w) f.
Proof.
  intros G NE R L. set (N := n + 18 * length u + 2).
  assert (KK : exists w, length w <= 8 * length u /\ ne w = true /\ forall f, @root_f TO N (mkDS (u ++ w) []) = Ok (tt, mkDS [] f) -> clean (fl f)).
  { destruct u as [|k u].
    - exists []. split; [cbn; lia|]. split; [reflexivity|]. intros f R2. destruct (root_total N [] ltac:(unfold N; cbn; lia) (fun H => H)) as (f' & R' & K & T). cbn [app] in R2. assert (f' = f) by congruence. subst f'.
      assert (R3 : @root_f TO 2 (mkDS [] []) = Ok (tt, mkDS [] [PNode KSourceFile [PNode KBlock []]])) by (vm_compute; reflexivity).
      pose proof (up_root_f 2 N ltac:(unfold N; cbn [length]; lia) _ _ R3) as R4. assert (f = [PNode KSourceFile [PNode KBlock []]]) by congruence. subst f. reflexivity.
    - assert (Nn : k :: u <> []) by discriminate. pose proof (up_root_f n N ltac:(unfold N; lia) _ _ R) as R1.
      destruct (cpl_program N (k :: u) v [] tt [] fs Nn G clean_nil eq_refl R1) as (w & W1 & NW & H); [rewrite L; reflexivity|].
      exists w. split; [lia|]. split; [exact NW|]. intros f R2. destruct (H [] tt [] f eq_refl) as [_ C]; [rewrite app_nil_r; exact R2|exact C]. }
  destruct KK as (w & LW & NW & H).
  assert (NE2 : NEof (u ++ w)).
  { unfold NEof in *. rewrite in_app_iff in *. intros [I|I]; [tauto|]. unfold ne in NW. rewrite forallb_forall in NW. specialize (NW _ I). discriminate NW. }
  destruct (root_total N (u ++ w)) as (f & R2 & _ & _); [rewrite app_length; unfold N; lia|exact NE2|].
  exists w, f. split; [exact LW|]. apply (run_reading N); [rewrite app_length; unfold N; lia|exact NE2|exact R2|exact (H _ R2)].
Qed.
(** No program has a colon right after a dot. *)
Fixpoint dc (st : bool) (l : list kind) : option bool :=
  match l with [] => Some st | k :: l' => if st && kind_eqb k KColon then None else dc (kind_eqb k KDot) l' end.
Definition calm (f : forest) : Prop := dc false (flat_map toks f) = Some false.
Lemma dc_app a b st : dc st (a ++ b) = match dc st a with Some st' => dc st' b | None => None end.
Proof. revert st. induction a as [|k a IH]; intros st; [reflexivity|]. cbn [app dc]. destruct (st && kind_eqb k KColon); [reflexivity|]. apply IH. Qed.
Lemma calm_app a b : calm a -> calm b -> calm (a ++ b).
Proof. unfold calm. intros A B. rewrite flat_map_app, dc_app, A. exact B. Qed.
Lemma calm_cons t f : calm [t] -> calm f -> calm (t :: f).
Proof. intros A B. exact (calm_app [t] f A B). Qed.
Lemma calm_nil : calm [].
Proof. reflexivity. Qed.
Lemma calm_node K fs : calm fs -> calm [PNode K fs].
Proof. unfold calm. cbn [flat_map toks]. now rewrite app_nil_r. Qed.
Lemma calm_dot_ident f : calm f -> calm (PTok KDot :: PTok KIdent :: f).
Proof. intros H. exact H. Qed.
Lemma calm_dot_node K f : calm f -> calm (PTok KDot :: PNode K [PTok KIdent] :: f).
Proof. intros H. exact H. Qed.
Lemma calm_static p : calm p -> calm [PNode KFunctionStatic [PNode KIndexPath (p ++ [PTok KDot]); PNode KName [PTok KIdent]]].
Proof.
  unfold calm. intros H. cbn [flat_map toks]. rewrite !app_nil_r, flat_map_app. cbn [flat_map toks app]. rewrite <- app_assoc. cbn [app]. rewrite dc_app, H. reflexivity.
Qed.
Lemma Tree_calm n f : Tree true n f -> calm f.
Proof.
  assert (NE : forall f, is_err true f -> False) by (intros f0 [H0 _]; discriminate H0).
  assert (OE : forall x, x = [] \/ is_err true x -> x = []) by (intros x [->|H0]; [reflexivity|destruct (NE _ H0)]).
  assert (BI : forall o, In o binary_ops -> calm [PTok o]) by (intros o H; cbn in H; repeat (destruct H as [<-|H]; [reflexivity|]); destruct H).
  assert (UN : forall o, In o unary_ops -> calm [PTok o]) by (intros o H; cbn in H; repeat (destruct H as [<-|H]; [reflexivity|]); destruct H).
  assert (LI : forall o, In o literals -> calm [PTok o]) by (intros o H; cbn in H; repeat (destruct H as [<-|H]; [reflexivity|]); destruct H).
  assert (NN : forall x, Tree true NName x -> x = [PNode KName [PTok KIdent]]) by (intros x H; inversion H; subst; [reflexivity|exfalso; eauto]).
  assert (NR : forall x, Tree true NNameRef x -> x = [PNode KNameRef [PTok KIdent]]) by (intros x H; inversion H; subst; [reflexivity|exfalso; eauto]).
  induction 1; try (exfalso; match goal with H0 : is_err _ _ |- _ => exact (NE _ H0) end); try discriminate;
    try match goal with H0 : ?x = [] \/ is_err _ ?x |- _ => apply OE in H0; subst x end;
    repeat match goal with H0 : req true _ _ |- _ => apply req_true in H0; subst | H0 : ?sc = [] \/ ?sc = [PTok KSemicolon] |- _ => destruct H0; subst sc
      | H0 : ?s = KComma \/ ?s = KSemicolon |- _ => destruct H0; subst s
      | H0 : Tree true NNameRef ?x |- calm (PTok KDot :: ?x ++ _) => apply NR in H0; subst x end;
    try match goal with H0 : Tree true NName ?x |- calm [PNode _ [PNode KFunctionStatic (_ :: ?x)]] => apply NN in H0; subst x end;
    try (apply calm_node, calm_static; assumption);
    repeat first [assumption|reflexivity|apply BI; assumption|apply UN; assumption|apply LI; assumption|lazymatch goal with
      | |- calm [PNode _ _] => apply calm_node
      | |- calm (PTok KDot :: PTok KIdent :: _) => apply calm_dot_ident
      | |- calm (PTok KDot :: [PTok KIdent]) => apply calm_dot_ident
      | |- calm (PTok KDot :: [PNode _ [PTok KIdent]] ++ _) => apply calm_dot_node
      | |- calm (_ ++ _) => apply calm_app
      | |- calm (_ :: _) => apply calm_cons
      end].
Qed.
Lemma no_dot_colon p w f : ~ reading (p ++ KDot :: KColon :: w) f.
Proof.
  intros (T & _ & E). apply Tree_calm in T. unfold calm in T. rewrite E, dc_app in T. destruct (dc false p) as [[]|]; discriminate T.
Qed.
(** The tokens before the first error are the beginning of a program — at most eight tokens for each of them complete them —
    unless they end in a dot and a colon, when they are the beginning of none. The token after them, if there is one, comes
    after them in no program (C90). *)
Theorem C91_can_continue : forall t xs toks lex_errs g e es, lexemes_of t xs -> tokenize t = Ok (toks, lex_errs) -> parse_tokens t toks = Ok (g, e :: es) ->
  exists xa xb, xs = xa ++ xb /\ r_start (e_range e) = blen (concat (map snd xa)) /\
    ((forall p, map fst (code xa) <> p ++ [KDot; KColon]) -> exists w f, reading (map fst (code xa) ++ w) f /\ length w <= 8 * length (code xa)) /\
    (forall p, map fst (code xa) = p ++ [KDot; KColon] -> forall w f, ~ reading (map fst (code xa) ++ w) f) /\
    match code xb with
    | [] => forall f, ~ reading (map fst (code xa)) f
    | (k, _) :: _ => forall w f, ~ reading (map fst (code xa) ++ k :: w) f
    end.
Proof.
  intros t xs toks le g e es Lx Ht HP. destruct (parse_tokens_inv _ _ _ _ Ht HP) as (ls & fs & a & Hp & -> & _ & Er). injection Er as -> Ee. symmetry in Ee.
  rewrite (parsed_lexemes_eq _ _ _ _ _ Hp Lx). destruct (parsed_first _ _ _ _ _ _ Hp Ee) as (D & xa & xb & E1 & E2 & E3). exists xa, xb. split; [exact E1|].
  split; [rewrite E2; unfold texts; now rewrite flat_map_concat_map|].
  change (code xb) with (nontriv xb). change (code xa) with (nontriv xa). split; [|split].
  - intros G. pose proof (pd_run _ _ _ _ Hp) as R1. pose proof (parsed_neof _ _ _ _ Hp) as NE. rewrite E1, nontriv_app, map_app in R1, NE.
    destruct (go_on _ _ _ _ G NE R1) as (w & f & LW & R).
    { cbn [fl flat_map fl1]. rewrite !app_nil_r. rewrite E3. rewrite lead_length. reflexivity. }
    exists w, f. split; [exact R|]. now rewrite map_length in LW.
  - intros p -> w f. rewrite <- app_assoc. apply no_dot_colon.
  - rewrite E3. exact (stop_here _ _ _ _ _ _ Hp D E1 E3).
Qed.
Print Assumptions C91_can_continue.
(** That the text before the first error always can go on is false: the error of [function a.:(b) end] is after the colon. *)
Definition late_text := "function a.:(b) end"%string.
Theorem C91_always_can_refuted : exists t xs toks lex_errs g e es, lexemes_of t xs /\ tokenize t = Ok (toks, lex_errs) /\ parse_tokens t toks = Ok (g, e :: es) /\
  forall xa xb, xs = xa ++ xb -> r_start (e_range e) = blen (concat (map snd xa)) -> forall w f, ~ reading (map fst (code xa) ++ w) f.
Proof.
  set (t := txt late_text). destruct (tokenize t) as [[toks le]| |] eqn:Ht; [|vm_compute in Ht; discriminate Ht|vm_compute in Ht; discriminate Ht].
  destruct (parse_tokens t toks) as [[g [|e es]]| |] eqn:HP; [| | |].
  all: pose proof Ht as Ht'; vm_compute in Ht'; injection Ht' as <- <-.
  1,3,4: vm_compute in HP; discriminate HP.
  assert (Ee : r_start (e_range e) = 12) by (pose proof HP as H; vm_compute in H; injection H as _ <- _; reflexivity).
  set (xs := [(KFunctionKw, txt "function"); (KWhitespace, txt " "); (KIdent, txt "a"); (KDot, txt "."); (KColon, txt ":"); (KLParen, txt "("); (KIdent, txt "b"); (KRParen, txt ")"); (KWhitespace, txt " "); (KEndKw, txt "end")]).
  eexists t, xs, _, _, g, e, es. split; [|split; [exact Ht|split; [exact HP|]]].
  - split; [eexists; vm_compute; reflexivity|vm_compute; reflexivity].
  - intros xa xb Ex Eb w f. rewrite Ee in Eb. assert (Eu : map fst (code xa) = [KFunctionKw; KIdent; KDot; KColon]).
    { unfold xs in Ex. clear -Ex Eb.
      repeat (destruct xa as [|? xa]; [try (vm_compute in Eb; discriminate Eb); reflexivity|cbn [app] in Ex; injection Ex as <- Ex]).
      symmetry in Ex. apply app_eq_nil in Ex as [-> _]. vm_compute in Eb. discriminate Eb. }
    rewrite Eu. apply (no_dot_colon [KFunctionKw; KIdent] w f).
Qed.
Print Assumptions C91_always_can_refuted.
(** Cases: first errors, and completed beginnings. *)
Example C91_cases : first_error "x = = 1" = Some 4 /\ first_error "x = y" = None /\ first_error "if a then b() else" = Some 18 /\ first_error "if a then b() else end" = None /\
  first_error "for i in in" = Some 9 /\ first_error "for i in a do end" = None /\ first_error "function a.:(b) end" = Some 12 /\ first_error "function a.:b() end" = Some 11 /\ first_error "function a.b() end" = None.
Proof. vm_compute. repeat split. Qed.
