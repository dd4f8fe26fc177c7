(** PropsClean.v — C74: exactly which files get no diagnostic. Vocabulary: LexRules.v, GrammarSpec.v, Grouping.v, ValidSpec.v;
    [reading] and [visible] are defined in PropsLang.v and PropsExact.v. *)
From Verif Require Import Base SyntaxKind TokenSet Lexer LexSpec LexerDirect LexerProofs LexerClass BindingPowers Parser Grammar
  Event EventProofs Tree TreeSink ParserTree SinkProofs GrammarSpec ParserTotal ParserTotal2 Ast ParseSpec ParseProofs StrictTree DressProofs
  Validation ValidProofs ValidSpec ValidExact PropsLexer PropsParser PropsValid LexRules PropsLexRules LuaSyntax PropsLua PropsPtr Grouping PropsLang PropsExact.

(** * C74 Files without diagnostics *)
(** The text is read by the lexical rules without an error; [w] are the kinds of its tokens without white space and comments. *)
Definition lexically_clean (t : text) (w : list kind) : Prop :=
  exists ls, reads t ls /\ Forall (fun x => snd x = None) ls /\ w = filter (fun k => negb (is_trivia k)) (map (fun x => fst (fst x)) ls).
(** The rules about the parts of a node. *)
Definition node_clean (e : elem) : Prop :=
  (el_kind e = KExprStmt -> exists mv c, el_children e = [mv] /\ visible (el_children mv) = [c] /\ In (el_kind c) call_kinds) /\
  (el_kind e = KAssignStmt -> exists l r, el_children e = [l; r] /\ forall c, In c (visible (el_children l)) -> In (el_kind c) target_kinds) /\
  (forall x o body segs s, el_green e = GNode KLiteral [GTok KStr x] -> string_body x o body -> segmented body segs -> In s segs -> ~ bad s).

Lemma bad_ranges_nil pos l rs : bad_ranges pos l rs -> (rs = [] <-> forall s, In s l -> ~ bad s).
Proof.
  induction 1 as [pos|pos s l rs Hb R IH|pos s l rs Hb R IH].
  - split; [intros _ s []|reflexivity].
  - rewrite IH. split; [intros H s' [<-|Hs]; auto|intros H s' Hs; apply H; now right].
  - split; [discriminate|]. intros H. destruct (H s (or_introl eq_refl) Hb).
Qed.
Lemma node_clean_iff t p e : source_file_parse t = Ok p -> In e (el_descendants (root_elem (pa_green p))) -> (validate_node e = Ok [] <-> node_clean e).
Proof.
  intros H Hin. split.
  - intros Hv. split; [|split].
    + intros Hk. destruct (C26_accepted_exactly _ _ _ H Hin Hk) as (mv & Hc & HI). apply HI in Hv as (c & Hv & Hk'). eauto 6.
    + intros Hk. destruct (C27_exactly _ _ _ H Hin Hk) as (l & r & Hc & _ & _ & HI). exists l, r. split; [exact Hc|]. intros c Hcin. rewrite HI in Hv. apply ok_inj in Hv. apply map_eq_nil in Hv.
      destruct (of_kind target_kinds c) eqn:Ek.
      * unfold of_kind in Ek. apply existsb_exists in Ek as (k & Hk1 & Hk2). apply kind_eqb_eq in Hk2. now rewrite Hk2.
      * assert (HF : In c (filter (fun c => negb (of_kind target_kinds c)) (visible (el_children l)))) by (apply filter_In; rewrite Ek; auto). rewrite Hv in HF. destruct HF.
    + intros x o body segs s Hg Hb Hs. destruct (C24_every_string _ _ _ _ _ _ _ H Hin Hg Hb Hs) as (rs & E & R). rewrite Hv in E. apply ok_inj in E. symmetry in E. apply map_eq_nil in E.
      revert s. now apply (bad_ranges_nil _ _ _ R).
  - intros (H1 & H2 & H3). destruct (kind_eqb (el_kind e) KExprStmt) eqn:K1.
    { apply kind_eqb_eq in K1. destruct (C26_accepted_exactly _ _ _ H Hin K1) as (mv & Hc & HI). apply HI. destruct (H1 K1) as (mv' & c & Hc' & Hv & Hk). rewrite Hc in Hc'. injection Hc' as <-. eauto. }
    destruct (kind_eqb (el_kind e) KAssignStmt) eqn:K2.
    { apply kind_eqb_eq in K2. destruct (C27_exactly _ _ _ H Hin K2) as (l & r & Hc & _ & _ & ->). destruct (H2 K2) as (l' & r' & Hc' & Hv). rewrite Hc in Hc'. injection Hc' as <- <-.
      rewrite filter_none; [reflexivity|]. intros c Hcin. apply negb_false_iff. unfold of_kind. apply existsb_exists. exists (el_kind c). split; [exact (Hv c Hcin)|apply kind_eqb_refl]. }
    destruct (kind_eqb (el_kind e) KLiteral) eqn:K3.
    { apply kind_eqb_eq in K3. destruct (source_file_inv _ _ H) as (ls & fs & a & v & Hp & _ & E & _). pose proof Hin as Hin'. rewrite E in Hin'.
      destruct (parsed_literal _ _ _ _ _ Hp Hin' K3) as (k & x & c & r & _ & Hg & _ & _). destruct (kind_eqb k KStr) eqn:Ek.
      - apply kind_eqb_eq in Ek. subst k. destruct (C24_string_forms _ _ _ _ H Hin Hg) as [(o & body & Hb)|E0]; [|exact E0]. destruct (segmented_total body) as [segs Hs].
        destruct (C24_every_string _ _ _ _ _ _ _ H Hin Hg Hb Hs) as (rs & -> & R). replace rs with (@nil range); [reflexivity|]. symmetry. apply (bad_ranges_nil _ _ _ R). intros s. exact (H3 x o body segs s Hg Hb Hs).
      - eapply C24_unchecked; eauto. intros x0 E0. rewrite Hg in E0. injection E0 as -> _. discriminate. }
    unfold validate_node. destruct (el_kind e); try reflexivity; discriminate.
Qed.
Lemma reads_lexed t ls : Lexed t ls -> forall rs, reads t rs -> rs = map (fun x : lexed_tok => (fst (fst x), snd x, snd (fst x))) ls.
Proof. intros H rs R. exact (reads_fun _ _ R _ (Lexed_reads _ _ H)). Qed.
Lemma errors_of_none toks : forall es pos, Forall (fun e => e = None) es -> errors_of pos toks es = [].
Proof.
  induction toks as [|k toks IH]; intros [|e es] pos H; try reflexivity. cbn [errors_of]. inversion H as [|? ? E H']; subst. now apply IH.
Qed.
Lemma lexed_clean t ls : Lexed t ls -> forall w, lexically_clean t w <-> w = written (map lt_tok ls) /\ errors_of 0 (map lt_tok ls) (map lt_err ls) = [].
Proof.
  intros H w. assert (Ew : filter (fun k => negb (is_trivia k)) (map (fun x => fst (fst x)) (map swap ls)) = written (map lt_tok ls)).
  { unfold written. f_equal. rewrite !map_map. apply map_ext. intros [[k e] x]. reflexivity. }
  split.
  - intros (rs & R & Hn & ->). rewrite (reads_fun _ _ R _ (Lexed_reads _ _ H)) in *. split; [exact Ew|]. apply errors_of_none. clear -Hn. induction ls as [|[[k e] x] ls IH]; [constructor|].
    cbn [map] in *. inversion Hn as [|? ? E Hn']; subst. constructor; [exact E|auto].
  - intros [-> E]. exists (map swap ls). split; [exact (Lexed_reads _ _ H)|]. split; [|now rewrite Ew]. apply errors_of_nil in E; [|now rewrite !map_length].
    clear -E. induction ls as [|[[k e] x] ls IH]; [constructor|]. cbn [map] in *. inversion E as [|? ? E0 Hn']; subst. constructor; [exact E0|auto].
Qed.

(** For every text that parses: there is no diagnostic exactly when the text obeys the lexical rules, its tokens have a reading,
    and every node of the tree obeys the rules for its parts. *)
Theorem C74_clean_exactly : forall t p, source_file_parse t = Ok p ->
  (pa_errors p = [] <->
   (exists w f, lexically_clean t w /\ reading w f) /\
   (forall e, In e (el_descendants (root_elem (pa_green p))) -> node_clean e)).
Proof.
  intros t p H. destruct (source_file_inv _ _ H) as (ls & fs & a & v & Hp & Hv & Eg & Ee).
  pose proof (pd_lexer _ _ _ _ Hp) as HL. pose proof (pd_parse _ _ _ _ Hp) as HP. rewrite Ee. split.
  - intros E. apply app_eq_nil in E as [E Ev]. apply app_eq_nil in E as [Ed El]. split.
    + exists (written (map lt_tok ls)), (skel (pa_green p)). split; [apply (lexed_clean _ _ (pd_lex _ _ _ _ Hp)); auto|]. apply (C73_exact_language _ _ _ _ HL).
      exists (root_of a). rewrite Eg. split; [|reflexivity]. rewrite HP, Ed. reflexivity.
    + intros e He. apply (node_clean_iff _ _ _ H He). subst v. unfold validate in Hv. destruct (validate_list_map _ _ Hv) as (bs & Hbs & E0).
      rewrite Eg in He. apply (in_map validate_node) in He. rewrite Hbs in He. apply in_map_iff in He as (b & <- & Hb). f_equal.
      symmetry in E0. apply concat_nil_Forall in E0. rewrite Forall_forall in E0. exact (E0 b Hb).
  - intros ((w & f & Hw & R) & HN). apply (lexed_clean _ _ (pd_lex _ _ _ _ Hp)) in Hw as [-> El]. apply (C73_exact_language _ _ _ _ HL) in R as (g & P & _).
    rewrite HP in P. assert (Ed : dr_errs a = []) by congruence. rewrite Ed, El. cbn [app].
    unfold validate in Hv. apply (validate_list_nil _ _ Hv). intros e He. apply (node_clean_iff _ _ _ H); [now rewrite Eg|]. apply HN. now rewrite Eg.
Qed.
Print Assumptions C74_clean_exactly.

(** The tree is then that reading. *)
Theorem C74_tree : forall t p w f, source_file_parse t = Ok p -> lexically_clean t w -> reading w f -> skel (pa_green p) = f.
Proof.
  intros t p w f H Hw R. destruct (source_file_inv _ _ H) as (ls & fs & a & v & Hp & _ & Eg & _). apply (lexed_clean _ _ (pd_lex _ _ _ _ Hp)) in Hw as [-> _].
  apply (C73_exact_language _ _ _ _ (pd_lexer _ _ _ _ Hp)) in R as (g & P & <-). rewrite (pd_parse _ _ _ _ Hp) in P. rewrite Eg. unfold root_of. congruence.
Qed.
Print Assumptions C74_tree.

(** Cases. A file with strings, a call and an assignment that gets none. *)
Definition case74 : text := txt "local s = 'a\n' f(s) x.y, z = [[k\t]], -1".
Example C74_case : exists p w f, source_file_parse case74 = Ok p /\ pa_errors p = [] /\ lexically_clean case74 w /\ reading w f /\ skel (pa_green p) = f.
Proof.
  destruct (source_file_parse case74) as [p| |] eqn:H; [|vm_compute in H; discriminate|vm_compute in H; discriminate].
  assert (E : pa_errors p = []) by (vm_compute in H; injection H as <-; reflexivity).
  destruct (proj1 (C74_clean_exactly _ _ H) E) as ((w & f & Hw & R) & _). exists p, w, f. repeat split; try assumption; try apply R. exact (C74_tree _ _ _ _ H Hw R).
Qed.
(** Files that break one of the three rules and no other: a bad escape, a missing operand, an unfinished string. *)
Definition no_diagnostic (t : text) : Prop := match source_file_parse t with Ok p => pa_errors p = [] | _ => False end.
Example C74_case_escape : ~ no_diagnostic (txt "f('\q')").
Proof. vm_compute. discriminate. Qed.
Example C74_case_syntax : ~ no_diagnostic (txt "f(1 + )").
Proof. vm_compute. discriminate. Qed.
Example C74_case_lexical : ~ no_diagnostic (txt "f('a").
Proof. vm_compute. discriminate. Qed.
