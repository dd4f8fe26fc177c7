(** PropsCodegen.v — C76: what the code generator makes of a grammar, and that the checked-in files are what it makes of lua.ungram. *)
From Verif Require Import Base SyntaxKind Tree Ast AstNodes Codegen.
Local Open Scope string_scope.
Local Open Scope nat_scope.
Local Open Scope list_scope.

(** * Specification *)
(** What a rule can mention. *)
Inductive thing := TNode (n : string) | TTok (t : string).
(** The rule is a list of nodes [n] with separators: [n (sep n)*], then possibly an optional part, which can be anything. *)
Inductive node_list (n : string) : list rule -> Prop :=
| nl_plain sep : node_list n [RNode n; RRep (RSeq [sep; RNode n])]
| nl_trailing sep t : node_list n [RNode n; RRep (RSeq [sep; RNode n]); ROpt t].
Definition is_node_list (rs : list rule) : Prop := exists n, node_list n rs.
(** Mentioned in the rule, other than below a label that is implemented by hand, and other than as separator or optional part of a
    list. *)
Inductive seen : rule -> thing -> Prop :=
| seen_node n : seen (RNode n) (TNode n)
| seen_tok t : seen (RTok t) (TTok t)
| seen_rep r x : seen r x -> seen (RRep r) x
| seen_opt r x : seen r x -> seen (ROpt r) x
| seen_lab l r x : ~ In l ["lhs"; "rhs"; "op"; "table_sep"] -> seen r x -> seen (RLab l r) x
| seen_alt rs r x : In r rs -> seen r x -> seen (RAlt rs) x
| seen_seq rs r x : ~ is_node_list rs -> In r rs -> seen r x -> seen (RSeq rs) x
| seen_list n rs : node_list n rs -> seen (RSeq rs) (TNode n).
(** The accessor field belongs to the thing. *)
Definition field_for (f : field) (x : thing) : Prop :=
  match f, x with
  | FNode _ ty _, TNode n => ty = n
  | FToken s, TTok t => (s = t \/ s = ("'" ++ t ++ "'")%string) /\ t <> "string"
  | _, _ => False
  end.
(** Rules the generator cannot handle, below a label or not. *)
Inductive unsupported : bool -> rule -> Prop :=
| un_tok t : unsupported true (RTok t)
| un_rep b r : (forall n, r <> RNode n) -> unsupported b (RRep r)
| un_lab2 l r : unsupported true (RLab l r)
| un_lab l r : ~ In l ["lhs"; "rhs"; "op"; "table_sep"] -> unsupported true r -> unsupported false (RLab l r)
| un_opt b r : unsupported b r -> unsupported b (ROpt r)
| un_alt b rs r : In r rs -> unsupported b r -> unsupported b (RAlt rs)
| un_seq b rs r : ~ is_node_list rs -> In r rs -> unsupported b r -> unsupported b (RSeq rs).

(** * Proofs *)
Lemma rule_ind2 (P : rule -> Prop) (Hn : forall n, P (RNode n)) (Ht : forall t, P (RTok t)) (Hr : forall r, P r -> P (RRep r))
  (Hl : forall l r, P r -> P (RLab l r)) (Hs : forall rs, Forall P rs -> P (RSeq rs)) (Ha : forall rs, Forall P rs -> P (RAlt rs))
  (Ho : forall r, P r -> P (ROpt r)) : forall r, P r.
Proof.
  fix IH 1. intros [n|t|r|l r|rs|rs|r]; [apply Hn|apply Ht|apply Hr, IH|apply Hl, IH|apply Hs|apply Ha|apply Ho, IH]; (induction rs as [|r rs IHrs]; [constructor|constructor; [apply IH|exact IHrs]]).
Qed.
Fixpoint lower_rules (label : option string) (rs : list rule) : res (list field) :=
  match rs with [] => Ok [] | r :: rs => let? a := lower_rule label r in let? b := lower_rules label rs in Ok (a ++ b) end.
Lemma lower_alt label rs : lower_rule label (RAlt rs) = lower_rules label rs.
Proof. cbn [lower_rule lower_comma_list]. induction rs as [|r rs IH]; [reflexivity|]. cbn [lower_rules]. now rewrite <- IH. Qed.
Lemma lower_seq label rs : lower_rule label (RSeq rs) = match lower_comma_list label (RSeq rs) with Some f => Ok [f] | None => lower_rules label rs end.
Proof.
  change (lower_rule label (RSeq rs)) with (match lower_comma_list label (RSeq rs) with Some f => Ok [f] | None =>
    (fix go (rs : list rule) : res (list field) := match rs with [] => Ok [] | r :: rs => let? a := lower_rule label r in let? b := go rs in Ok (a ++ b) end) rs end).
  destruct (lower_comma_list label (RSeq rs)); [reflexivity|]. induction rs as [|r rs IH]; [reflexivity|]. cbn [lower_rules]. now rewrite <- IH.
Qed.
Lemma comma_list_ok label rs : match lower_comma_list label (RSeq rs) with
  | Some f => exists n name c, node_list n rs /\ f = FNode name n c | None => ~ is_node_list rs end.
Proof.
  destruct (lower_comma_list label (RSeq rs)) as [f|] eqn:E.
  - unfold lower_comma_list in E. destruct rs as [|[n| | | | | |] [|[| |rep| | | |] [|[| | | | | |t] [|]]]]; try discriminate E.
    + destruct rep as [| | | |[|sep [|[n'| | | | | |] [|]]]| |]; try discriminate E. destruct (String.eqb_spec n' n) as [->|]; [|discriminate]. injection E as <-. eexists _, _, _. split; [constructor|reflexivity].
    + destruct rep as [| | | |[|sep [|[n'| | | | | |] [|]]]| |]; try discriminate E. destruct (String.eqb_spec n' n) as [->|]; [|discriminate]. injection E as <-. eexists _, _, _. split; [constructor|reflexivity].
  - intros (n & H). destruct H; cbn in E; rewrite String.eqb_refl in E; discriminate.
Qed.
Lemma node_list_unique n m rs : node_list n rs -> node_list m rs -> n = m.
Proof. intros A B. inversion A; subst; inversion B; congruence. Qed.
Lemma manual_spec l : label_is_manually_implemented l = true <-> In l ["lhs"; "rhs"; "op"; "table_sep"].
Proof. unfold label_is_manually_implemented. rewrite existsb_exists. split; [intros (x & Hx & E); apply String.eqb_eq in E; now subst|intros H; exists l; split; [exact H|apply String.eqb_refl]]. Qed.

Definition fields_ok (r : rule) : Prop := forall label fs, lower_rule label r = Ok fs ->
  (forall f, In f fs -> exists x, seen r x /\ field_for f x) /\ (forall x, seen r x -> x <> TTok "string" -> exists f, In f fs /\ field_for f x).
Lemma lower_rules_ok rs : Forall fields_ok rs -> forall label fs, lower_rules label rs = Ok fs ->
  (forall f, In f fs -> exists r x, In r rs /\ seen r x /\ field_for f x) /\
  (forall r x, In r rs -> seen r x -> x <> TTok "string" -> exists f, In f fs /\ field_for f x).
Proof.
  induction 1 as [|r rs H _ IH]; intros label fs E; cbn [lower_rules] in E; [injection E as <-; split; [intros f []|intros r x []]|].
  apply rbind_ok in E as (a & Ea & E). apply rbind_ok in E as (b & Eb & E). injection E as <-. destruct (H _ _ Ea) as [A1 A2], (IH _ _ Eb) as [B1 B2]. split.
  - intros f Hf. apply in_app_or in Hf as [Hf|Hf]; [destruct (A1 f Hf) as (x & ? & ?); exists r, x; split; [now left|auto]|destruct (B1 f Hf) as (r' & x & ? & ? & ?); exists r', x; split; [now right|auto]].
  - intros r' x [<-|Hr] Hs Hx; [destruct (A2 x Hs Hx) as (f & ? & ?)|destruct (B2 r' x Hr Hs Hx) as (f & ? & ?)]; exists f; (split; [apply in_or_app; auto|assumption]).
Qed.
Lemma fields_all r : fields_ok r.
Proof.
  apply (rule_ind2 fields_ok); clear r; unfold fields_ok.
  - intros n label fs E. cbn in E. injection E as <-. split.
    + intros f [<-|[]]. exists (TNode n). split; [constructor|reflexivity].
    + intros x H _. inversion H; subst. eexists. split; [now left|reflexivity].
  - intros t label fs E. cbn [lower_rule lower_comma_list] in E. destruct label; [discriminate|]. destruct (String.eqb_spec t "string") as [->|Ht]; injection E as <-.
    + split; [intros f []|]. intros x H Hx. inversion H; subst. congruence.
    + assert (G : forall b : bool, field_for (FToken (if b then ("'" ++ t ++ "'")%string else t)) (TTok t)) by (intros []; (split; [auto|exact Ht])).
      split; [intros f [<-|[]]; exists (TTok t); split; [constructor|apply G]|]. intros x H _. inversion H; subst. eexists. split; [now left|apply G].
  - intros r IH label fs E. destruct r as [n|t|r|l r|rs|rs|r]; try discriminate E. cbn in E. injection E as <-. split.
    + intros f [<-|[]]. exists (TNode n). split; [repeat constructor|reflexivity].
    + intros x H _. inversion H as [| |r0 x0 H0| | | | |]; subst. inversion H0; subst. eexists. split; [now left|reflexivity].
  - intros l r IH label fs E. cbn [lower_rule lower_comma_list] in E. destruct label; [discriminate|]. destruct (label_is_manually_implemented l) eqn:M.
    + injection E as <-. apply manual_spec in M. split; [intros f []|]. intros x H _. inversion H; subst. contradiction.
    + destruct (IH _ _ E) as [A B]. assert (HM : ~ In l ["lhs"; "rhs"; "op"; "table_sep"]) by (rewrite <- manual_spec, M; discriminate). split.
      * intros f Hf. destruct (A f Hf) as (x & Hx & Hf'). exists x. split; [now constructor|exact Hf'].
      * intros x H Hx. inversion H; subst. auto.
  - intros rs IH label fs E. rewrite lower_seq in E. pose proof (comma_list_ok label rs) as HC. destruct (lower_comma_list label (RSeq rs)) as [f|].
    + injection E as <-. destruct HC as (n & name & c & HL & ->). split.
      * intros f [<-|[]]. exists (TNode n). split; [now apply seen_list|reflexivity].
      * intros x H _. inversion H as [| | | | | |rs0 r0 x0 HN|n0 rs0 HL0]; subst; [destruct HN; now exists n|]. rewrite (node_list_unique _ _ _ HL0 HL). eexists. split; [now left|reflexivity].
    + destruct (lower_rules_ok _ IH _ _ E) as [A B]. split.
      * intros f Hf. destruct (A f Hf) as (r & x & Hr & Hx & Hf'). exists x. split; [now apply (seen_seq rs r)|exact Hf'].
      * intros x H Hx. inversion H as [| | | | | |rs0 r0 x0 HN Hr Hs|n0 rs0 HL0]; subst; [eauto|]. destruct HC. now exists n0.
  - intros rs IH label fs E. rewrite lower_alt in E. destruct (lower_rules_ok _ IH _ _ E) as [A B]. split.
    + intros f Hf. destruct (A f Hf) as (r & x & Hr & Hx & Hf'). exists x. split; [now apply (seen_alt rs r)|exact Hf'].
    + intros x H Hx. inversion H; subst. eauto.
  - intros r IH label fs E. change (lower_rule label r = Ok fs) in E. destruct (IH _ _ E) as [A B]. split.
    + intros f Hf. destruct (A f Hf) as (x & Hx & Hf'). exists x. split; [now constructor|exact Hf'].
    + intros x H Hx. inversion H; subst. auto.
Qed.

(** * C76 The code generator *)
(** The fields of a node type are those for what its rule mentions visibly: every field stands for a mention, and every mention has
    a field (a token called string has none). *)
Theorem C76_fields_exactly : forall r fs, lower_rule None r = Ok fs ->
  (forall f, In f fs -> exists x, seen r x /\ field_for f x) /\ (forall x, seen r x -> x <> TTok "string" -> exists f, In f fs /\ field_for f x).
Proof. intros r fs. apply fields_all. Qed.
Print Assumptions C76_fields_exactly.

(** "Every node mentioned in a rule has an accessor" is false: the optional part after a list is dropped, whatever it is. *)
Theorem C76_trailing_part_lost : forall a b sep, a <> b -> exists fs,
  lower_rule None (RSeq [RNode a; RRep (RSeq [sep; RNode a]); ROpt (RNode b)]) = Ok fs /\ forall f, In f fs -> ~ field_for f (TNode b).
Proof.
  intros a b sep H. eexists. split; [rewrite lower_seq; cbn [lower_comma_list]; rewrite String.eqb_refl; reflexivity|]. intros f [<-|[]]. exact H.
Qed.
Print Assumptions C76_trailing_part_lost.

(** Accessors at work: [src] gives the types. *)
Inductive answer := AnsOne (o : option elem) | AnsMany (l : list elem).
Definition casts (src : ast_src) (ty : string) : kind -> bool :=
  let names := match find (fun en => String.eqb (fst en) ty) (gen_enums src) with Some en => snd en | None => [to_camel_case ty] end in
  fun k => existsb (String.eqb (kind_name k)) names.
Definition kind_named (s : string) : option kind := find (fun k => String.eqb (kind_name k) s) all_kinds.
Definition run_body (src : ast_src) (b : body) (e : elem) : answer :=
  match b with
  | BChildren ty => AnsMany (ast_children (casts src ty) e)
  | BChild ty => AnsOne (ast_child (casts src ty) e)
  | BToken (Some s) => AnsOne (match kind_named s with Some k => ast_token k e | None => None end)
  | BToken None => AnsOne None
  end.
(** A list whose separator may also stand at its end gets an accessor for its first item only. *)
Theorem C76_trailing_list_first_only : forall n sep t, exists f,
  lower_rule None (RSeq [RNode n; RRep (RSeq [sep; RNode n]); ROpt t]) = Ok [f] /\
  forall ks src e c d rest, ast_children (casts src n) e = c :: d :: rest -> run_body src (gen_body ks f) e = AnsOne (Some c).
Proof.
  intros n sep t. eexists. split; [rewrite lower_seq; cbn [lower_comma_list]; rewrite String.eqb_refl; reflexivity|].
  intros ks src e c d rest H. cbn [gen_body run_body]. unfold ast_child. now rewrite H.
Qed.
Print Assumptions C76_trailing_list_first_only.
(** Other lists and repetitions get one for all items, in order. *)
Theorem C76_lists_complete : forall n sep, exists f g,
  lower_rule None (RSeq [RNode n; RRep (RSeq [sep; RNode n])]) = Ok [f] /\ lower_rule None (RRep (RNode n)) = Ok [g] /\
  forall ks src e, run_body src (gen_body ks f) e = AnsMany (filter (fun c => casts src n (el_kind c)) (el_children e)) /\
                   run_body src (gen_body ks g) e = AnsMany (filter (fun c => casts src n (el_kind c)) (el_children e)).
Proof.
  intros n sep. eexists _, _. split; [rewrite lower_seq; cbn [lower_comma_list]; rewrite String.eqb_refl; reflexivity|]. split; [reflexivity|]. intros ks src e. split; reflexivity.
Qed.
Print Assumptions C76_lists_complete.

(** The generator stops with a panic exactly on the rules it cannot handle. *)
Lemma lower_rules_total rs : Forall (fun r => forall label, (lower_rule label r = Panic <-> unsupported (match label with Some _ => true | None => false end) r) /\ lower_rule label r <> OutOfFuel) rs ->
  forall label, (lower_rules label rs = Panic <-> exists r, In r rs /\ unsupported (match label with Some _ => true | None => false end) r) /\ lower_rules label rs <> OutOfFuel.
Proof.
  induction 1 as [|r rs H _ IH]; intros label; cbn [lower_rules]; [split; [split; [discriminate|intros (r & [] & _)]|discriminate]|].
  destruct (H label) as [[A1 A2] A3], (IH label) as [[B1 B2] B3]. destruct (lower_rule label r) as [a| |] eqn:Ea; cbn [rbind]; [|split; [split|discriminate]; [intros _; exists r; split; [now left|auto]|reflexivity]|congruence].
  destruct (lower_rules label rs) as [b| |] eqn:Eb; cbn [rbind]; [|split; [split|discriminate]|congruence].
  - split; [split; [discriminate|]|discriminate]. intros (r' & [<-|Hr] & Hu); [specialize (A2 Hu); discriminate|]. assert (E : Ok b = Panic) by (apply B2; eauto). discriminate.
  - intros _. destruct (B1 eq_refl) as (r' & Hr & Hu). exists r'. split; [now right|exact Hu].
  - reflexivity.
Qed.
Lemma fails_all r : forall label, (lower_rule label r = Panic <-> unsupported (match label with Some _ => true | None => false end) r) /\ lower_rule label r <> OutOfFuel.
Proof.
  apply (rule_ind2 (fun r => forall label, (lower_rule label r = Panic <-> unsupported (match label with Some _ => true | None => false end) r) /\ lower_rule label r <> OutOfFuel)); clear r.
  - intros n label. cbn. split; [split; [discriminate|intros H; inversion H]|discriminate].
  - intros t label. cbn [lower_rule lower_comma_list]. destruct label; [split; [split; [constructor|reflexivity]|discriminate]|]. destruct (String.eqb t "string"); (split; [split; [discriminate|intros H; inversion H]|discriminate]).
  - intros r IH label. destruct r as [n| | | | | |]; cbn [lower_rule lower_comma_list]; (split; [split|discriminate]); try discriminate; try reflexivity; try (intros _; constructor; discriminate).
    intros H. inversion H as [|b r0 Hr| | | | |]; subst. destruct (Hr n eq_refl).
  - intros l r IH label. cbn [lower_rule lower_comma_list]. destruct label; [split; [split; [constructor|reflexivity]|discriminate]|]. destruct (label_is_manually_implemented l) eqn:M.
    + apply manual_spec in M. split; [split; [discriminate|]|discriminate]. intros H. inversion H; subst. contradiction.
    + assert (HM : ~ In l ["lhs"; "rhs"; "op"; "table_sep"]) by (rewrite <- manual_spec, M; discriminate). destruct (IH (Some l)) as [[A B] C]. split; [split|exact C].
      * intros H. apply un_lab; auto.
      * intros H. inversion H; subst. auto.
  - intros rs IH label. rewrite lower_seq. pose proof (comma_list_ok label rs) as HC. destruct (lower_comma_list label (RSeq rs)) as [f|].
    + split; [split; [discriminate|]|discriminate]. intros H. inversion H; subst. destruct HC as (n & ? & ? & HL & _). match goal with X : ~ is_node_list _ |- _ => destruct X; now exists n end.
    + destruct (lower_rules_total _ IH label) as [[A B] C]. split; [split|exact C].
      * intros H. destruct (A H) as (r & Hr & Hu). exact (un_seq _ rs r HC Hr Hu).
      * intros H. inversion H; subst. eauto.
  - intros rs IH label. rewrite lower_alt. destruct (lower_rules_total _ IH label) as [[A B] C]. split; [split|exact C].
    + intros H. destruct (A H) as (r & Hr & Hu). exact (un_alt _ rs r Hr Hu).
    + intros H. inversion H; subst. eauto.
  - intros r IH label. change (lower_rule label (ROpt r)) with (lower_rule label r). destruct (IH label) as [[A B] C]. split; [split|exact C]; [intros H; constructor; auto|intros H; inversion H; subst; auto].
Qed.
Theorem C76_fails_exactly : forall r, (lower_rule None r = Panic <-> unsupported false r) /\ (~ unsupported false r -> exists fs, lower_rule None r = Ok fs).
Proof.
  intros r. destruct (fails_all r None) as [A B]. split; [exact A|]. intros H. destruct (lower_rule None r) as [fs| |]; [eauto|destruct H; now apply A|congruence].
Qed.
Print Assumptions C76_fails_exactly.

(** ** Types *)
Lemma first_mentions_spec l : forall seen, NoDup (first_mentions seen l) /\ (forall n, In n (first_mentions seen l) <-> In n l /\ ~ In n seen).
Proof.
  assert (HE : forall n (seen : list string), existsb (String.eqb n) seen = true <-> In n seen).
  { intros n sn. rewrite existsb_exists. split; [intros (x & Hx & E); apply String.eqb_eq in E; now subst|intros H; exists n; split; [exact H|apply String.eqb_refl]]. }
  induction l as [|n l IH]; intros sn; cbn [first_mentions]; [split; [constructor|intros n; cbn; tauto]|]. destruct (existsb (String.eqb n) sn) eqn:E.
  - apply HE in E. destruct (IH sn) as [A B]. split; [exact A|]. intros m. rewrite B. cbn. split; [tauto|]. intros [[->|H] Hs]; [contradiction|tauto].
  - assert (Hn : ~ In n sn) by (rewrite <- HE, E; discriminate). destruct (IH (n :: sn)) as [A B]. split.
    + constructor; [|exact A]. rewrite B. cbn. tauto.
    + intros m. cbn [In]. rewrite B. cbn [In]. destruct (string_dec n m) as [->|Hm]; [tauto|]. tauto.
Qed.
Definition defined (g : grammar) (n : string) : Prop := exists r, In (n, r) g.
Lemma rule_of_defined g n : defined g n <-> exists r, rule_of g n = Some r.
Proof.
  unfold defined, rule_of. split.
  - intros (r & H). destruct (find (fun d => String.eqb (fst d) n) g) as [d|] eqn:E; [eauto|]. apply (find_none _ _ E) in H. cbn in H. rewrite String.eqb_refl in H. discriminate.
  - intros (r & H). destruct (find (fun d => String.eqb (fst d) n) g) as [[m r']|] eqn:E; [|discriminate]. apply find_some in E as [E1 E2]. apply String.eqb_eq in E2. cbn in E2. subst m. eauto.
Qed.
Lemma src_names_lower l : forall src, lower_nodes l = Ok src -> forall n, In n (src_names src) <-> In n (map fst l).
Proof.
  induction l as [|[m r] l IH]; intros src E n; cbn [lower_nodes] in E; [injection E as <-; reflexivity|]. destruct (lower_enum r).
  - apply rbind_ok in E as (s & Es & E). injection E as <-. cbn [map fst In]. rewrite <- (IH s Es n). unfold src_names. cbn [s_nodes s_enums map fst]. rewrite !in_app_iff. cbn [In]. tauto.
  - apply rbind_ok in E as (fs & _ & E). apply rbind_ok in E as (s & Es & E). injection E as <-. cbn [map fst In]. rewrite <- (IH s Es n). unfold src_names. cbn [s_nodes s_enums map fst app]. cbn [In]. rewrite !in_app_iff. tauto.
Qed.
Lemma src_names_nodup l : NoDup (map fst l) -> forall src, lower_nodes l = Ok src -> NoDup (src_names src).
Proof.
  induction l as [|[m r] l IH]; intros H src E; cbn [lower_nodes] in E; [injection E as <-; constructor|]. cbn [map fst] in H. inversion H as [|? ? Hm Hl]; subst. destruct (lower_enum r).
  - apply rbind_ok in E as (s & Es & E). injection E as <-. unfold src_names. cbn [s_nodes s_enums map fst]. apply NoDup_Add with (l := src_names s) (a := m); [unfold src_names; apply Add_app|]. split; [eauto|]. now rewrite (src_names_lower _ _ Es).
  - apply rbind_ok in E as (fs & _ & E). apply rbind_ok in E as (s & Es & E). injection E as <-. unfold src_names. cbn [s_nodes s_enums map fst app]. constructor; [|exact (IH Hl _ Es)]. change (~ In m (src_names s)). now rewrite (src_names_lower _ _ Es).
Qed.
Lemma iter_names g n : In n (map fst (grammar_iter g)) <-> In n (node_names g) /\ defined g n.
Proof.
  unfold grammar_iter. rewrite rule_of_defined. induction (node_names g) as [|m l IH]; cbn [flat_map]; [cbn; tauto|]. rewrite map_app, in_app_iff, IH. cbn [In].
  destruct (rule_of g m) as [r|] eqn:E; cbn [map fst In].
  - split; [intros [[->|[]]|[H1 H2]]; eauto|intros [[->|H] Hr]; tauto].
  - split; [tauto|]. intros [[->|H] (r & Hr)]; [congruence|]. right. eauto.
Qed.
(** Every defined name becomes one type, once; nothing else does. *)
Theorem C76_types : forall g src, lower g = Ok src -> NoDup (src_names src) /\ forall n, In n (src_names src) <-> defined g n.
Proof.
  intros g src E. unfold lower in E. destruct (first_mentions_spec (flat_map (fun d => fst d :: rule_nodes (snd d)) g) []) as [A B]. split.
  - apply (src_names_nodup (grammar_iter g)); [|exact E]. unfold grammar_iter, node_names. clear B. induction A as [|m l Hm _ IH]; cbn [flat_map]; [constructor|]. rewrite map_app.
    assert (HI : forall l, incl (map fst (flat_map (fun n => match rule_of g n with Some r => [(n, r)] | None => [] end) l)) l).
    { intros l0 x Hx. apply in_map_iff in Hx as ([y r] & <- & Hy). apply in_flat_map in Hy as (z & Hz & Hy). destruct (rule_of g z); [|destruct Hy]. destruct Hy as [Hy|[]]. injection Hy as <- _. exact Hz. }
    destruct (rule_of g m); cbn [map fst app]; [|exact IH]. constructor; [|exact IH]. intros Hx. apply HI in Hx. contradiction.
  - intros n. rewrite (src_names_lower _ _ E), iter_names. split; [tauto|]. intros Hd. split; [|exact Hd]. unfold node_names. apply B. split; [|intros []]. destruct Hd as (r & Hr). apply in_flat_map. exists (n, r). split; [exact Hr|now left].
Qed.
Print Assumptions C76_types.

(** ** The checked-in files *)
(** The arms of [T!] and of the casts, with the model's kinds. *)
Inductive cbody := CChildren (c : kind -> bool) | CChild (c : kind -> bool) | CToken (k : option kind).
Definition crun (b : cbody) (e : elem) : answer :=
  match b with CChildren c => AnsMany (ast_children c e) | CChild c => AnsOne (ast_child c e) | CToken (Some k) => AnsOne (ast_token k e) | CToken None => AnsOne None end.
Definition cbody_of (src : ast_src) (b : body) : cbody :=
  match b with BChildren ty => CChildren (casts src ty) | BChild ty => CChild (casts src ty) | BToken s => CToken (match s with Some s => kind_named s | None => None end) end.
Definition cast_eqb (a b : kind -> bool) : bool := forallb (fun k => Bool.eqb (a k) (b k)) all_kinds.
Definition cbody_eqb (a b : cbody) : bool :=
  match a, b with
  | CChildren c, CChildren d | CChild c, CChild d => cast_eqb c d
  | CToken (Some k), CToken (Some l) => kind_eqb k l
  | _, _ => false
  end.
Lemma cast_eqb_ok a b : cast_eqb a b = true -> forall k, a k = b k.
Proof. intros H k. unfold cast_eqb in H. rewrite forallb_forall in H. specialize (H k (all_kinds_complete k)). now apply Bool.eqb_prop in H. Qed.
Lemma ast_children_ext a b e : (forall k, a k = b k) -> ast_children a e = ast_children b e.
Proof. intros H. unfold ast_children. apply filter_ext. intros c. apply H. Qed.
Lemma cbody_eqb_ok a b e : cbody_eqb a b = true -> crun a e = crun b e.
Proof.
  destruct a as [c|c|[k|]], b as [d|d|[l|]]; try discriminate; cbn [cbody_eqb crun]; intros H.
  - now rewrite (ast_children_ext _ _ e (cast_eqb_ok _ _ H)).
  - unfold ast_child. now rewrite (ast_children_ext _ _ e (cast_eqb_ok _ _ H)).
  - apply kind_eqb_eq in H. now subst.
Qed.
Lemma cbody_run src b e : run_body src b e = crun (cbody_of src b) e.
Proof. destruct b as [ty|ty|[s|]]; cbn [run_body cbody_of crun]; try reflexivity. now destruct (kind_named s). Qed.
(** Type, method and body of all accessors the generator writes, in order. *)
Definition generated_accessors (ks : kinds_src) (src : ast_src) : list (string * string * body) :=
  flat_map (fun s => map (fun m => (fst (fst s), fst m, snd m)) (snd s)) (gen_structs ks src).
(** crates/syntax/src/ast/generated/nodes.rs: the accessors of AstNodes.v under their names, in the order of the file. *)
Definition nodes_rs (e : elem) : list (string * string * answer) :=
  [ ("Name", "ident_token", AnsOne (Name_ident_token e));
    ("NameRef", "ident_token", AnsOne (NameRef_ident_token e));
    ("MultiName", "names", AnsMany (MultiName_names e));
    ("SourceFile", "body", AnsOne (SourceFile_body e));
    ("Block", "stmts", AnsMany (Block_stmts e));
    ("AssignStmt", "eq_token", AnsOne (AssignStmt_eq_token e));
    ("LocalAssignStmt", "local_token", AnsOne (LocalAssignStmt_local_token e));
    ("LocalAssignStmt", "multi_name", AnsOne (LocalAssignStmt_multi_name e));
    ("LocalAssignStmt", "eq_token", AnsOne (LocalAssignStmt_eq_token e));
    ("LocalAssignStmt", "multival_expr", AnsOne (LocalAssignStmt_multival_expr e));
    ("LocalFunctionDefStmt", "local_token", AnsOne (LocalFunctionDefStmt_local_token e));
    ("LocalFunctionDefStmt", "function_token", AnsOne (LocalFunctionDefStmt_function_token e));
    ("LocalFunctionDefStmt", "name", AnsOne (LocalFunctionDefStmt_name e));
    ("LocalFunctionDefStmt", "param_list", AnsOne (LocalFunctionDefStmt_param_list e));
    ("LocalFunctionDefStmt", "body", AnsOne (LocalFunctionDefStmt_body e));
    ("LocalFunctionDefStmt", "end_token", AnsOne (LocalFunctionDefStmt_end_token e));
    ("FunctionDefStmt", "function_token", AnsOne (FunctionDefStmt_function_token e));
    ("FunctionDefStmt", "function_def_content", AnsOne (FunctionDefStmt_function_def_content e));
    ("FunctionDefStmt", "param_list", AnsOne (FunctionDefStmt_param_list e));
    ("FunctionDefStmt", "body", AnsOne (FunctionDefStmt_body e));
    ("FunctionDefStmt", "end_token", AnsOne (FunctionDefStmt_end_token e));
    ("ForStmt", "for_token", AnsOne (ForStmt_for_token e));
    ("ForStmt", "content", AnsOne (ForStmt_content e));
    ("ForStmt", "do_token", AnsOne (ForStmt_do_token e));
    ("ForStmt", "block", AnsOne (ForStmt_block e));
    ("ForStmt", "end_token", AnsOne (ForStmt_end_token e));
    ("IfStmt", "if_token", AnsOne (IfStmt_if_token e));
    ("IfStmt", "cond", AnsOne (IfStmt_cond e));
    ("IfStmt", "then_token", AnsOne (IfStmt_then_token e));
    ("IfStmt", "block", AnsOne (IfStmt_block e));
    ("IfStmt", "else_branch", AnsOne (IfStmt_else_branch e));
    ("IfStmt", "else_if_branch", AnsOne (IfStmt_else_if_branch e));
    ("IfStmt", "end_token", AnsOne (IfStmt_end_token e));
    ("ReturnStmt", "return_token", AnsOne (ReturnStmt_return_token e));
    ("ReturnStmt", "expr", AnsOne (ReturnStmt_expr e));
    ("WhileStmt", "while_token", AnsOne (WhileStmt_while_token e));
    ("WhileStmt", "cond", AnsOne (WhileStmt_cond e));
    ("WhileStmt", "do_token", AnsOne (WhileStmt_do_token e));
    ("WhileStmt", "body", AnsOne (WhileStmt_body e));
    ("WhileStmt", "end_token", AnsOne (WhileStmt_end_token e));
    ("ExprStmt", "multival_expr", AnsOne (ExprStmt_multival_expr e));
    ("BreakStmt", "break_token", AnsOne (BreakStmt_break_token e));
    ("RepeatUntilStmt", "repeat_token", AnsOne (RepeatUntilStmt_repeat_token e));
    ("RepeatUntilStmt", "block", AnsOne (RepeatUntilStmt_block e));
    ("RepeatUntilStmt", "until_token", AnsOne (RepeatUntilStmt_until_token e));
    ("RepeatUntilStmt", "expr", AnsOne (RepeatUntilStmt_expr e));
    ("LabelStmt", "start", AnsOne (LabelStmt_start e));
    ("LabelStmt", "name", AnsOne (LabelStmt_name e));
    ("LabelStmt", "finish", AnsOne (LabelStmt_finish e));
    ("GotoStmt", "goto_token", AnsOne (GotoStmt_goto_token e));
    ("GotoStmt", "name_ref", AnsOne (GotoStmt_name_ref e));
    ("LabelDelim", "double_colon_token", AnsOne (LabelDelim_double_colon_token e));
    ("DoStmt", "do_token", AnsOne (DoStmt_do_token e));
    ("DoStmt", "body", AnsOne (DoStmt_body e));
    ("DoStmt", "end_token", AnsOne (DoStmt_end_token e));
    ("ParamList", "l_paren_token", AnsOne (ParamList_l_paren_token e));
    ("ParamList", "multi_name", AnsOne (ParamList_multi_name e));
    ("ParamList", "triple_dot_token", AnsOne (ParamList_triple_dot_token e));
    ("ParamList", "r_paren_token", AnsOne (ParamList_r_paren_token e));
    ("FunctionMethod", "index_path", AnsOne (FunctionMethod_index_path e));
    ("FunctionMethod", "colon_token", AnsOne (FunctionMethod_colon_token e));
    ("FunctionMethod", "name", AnsOne (FunctionMethod_name e));
    ("FunctionStatic", "index_path", AnsOne (FunctionStatic_index_path e));
    ("FunctionStatic", "dot_token", AnsOne (FunctionStatic_dot_token e));
    ("FunctionStatic", "name", AnsOne (FunctionStatic_name e));
    ("IndexPath", "name_refs", AnsMany (IndexPath_name_refs e));
    ("MultivalExpr", "exprs", AnsMany (MultivalExpr_exprs e));
    ("ElseBranch", "else_token", AnsOne (ElseBranch_else_token e));
    ("ElseBranch", "block", AnsOne (ElseBranch_block e));
    ("ElseIfBranch", "elseif_token", AnsOne (ElseIfBranch_elseif_token e));
    ("ElseIfBranch", "cond", AnsOne (ElseIfBranch_cond e));
    ("ElseIfBranch", "then_token", AnsOne (ElseIfBranch_then_token e));
    ("ElseIfBranch", "block", AnsOne (ElseIfBranch_block e));
    ("ElseIfBranch", "else_if_branch", AnsOne (ElseIfBranch_else_if_branch e));
    ("ElseIfBranch", "else_branch", AnsOne (ElseIfBranch_else_branch e));
    ("NumericFor", "name", AnsOne (NumericFor_name e));
    ("NumericFor", "eq_token", AnsOne (NumericFor_eq_token e));
    ("NumericFor", "expr", AnsOne (NumericFor_expr e));
    ("GenericFor", "multi_name", AnsOne (GenericFor_multi_name e));
    ("GenericFor", "in_token", AnsOne (GenericFor_in_token e));
    ("GenericFor", "expr", AnsOne (GenericFor_expr e));
    ("Literal", "number_token", AnsOne (Literal_number_token e));
    ("Literal", "str_token", AnsOne (Literal_str_token e));
    ("Literal", "true_token", AnsOne (Literal_true_token e));
    ("Literal", "false_token", AnsOne (Literal_false_token e));
    ("TableExpr", "l_curly_token", AnsOne (TableExpr_l_curly_token e));
    ("TableExpr", "table_contents", AnsOne (TableExpr_table_contents e));
    ("TableExpr", "r_curly_token", AnsOne (TableExpr_r_curly_token e));
    ("PrefixExpr", "expr", AnsOne (PrefixExpr_expr e));
    ("IndexExpr", "base", AnsOne (IndexExpr_base e));
    ("IndexExpr", "index", AnsOne (IndexExpr_index e));
    ("DotExpr", "expr", AnsOne (DotExpr_expr e));
    ("DotExpr", "dot_token", AnsOne (DotExpr_dot_token e));
    ("DotExpr", "ident_token", AnsOne (DotExpr_ident_token e));
    ("FunctionExpr", "function_token", AnsOne (FunctionExpr_function_token e));
    ("FunctionExpr", "params", AnsOne (FunctionExpr_params e));
    ("FunctionExpr", "body", AnsOne (FunctionExpr_body e));
    ("FunctionExpr", "end_token", AnsOne (FunctionExpr_end_token e));
    ("CallExpr", "fun", AnsOne (CallExpr_fun e));
    ("CallExpr", "call_args", AnsOne (CallExpr_call_args e));
    ("MethodCallExpr", "fun", AnsOne (MethodCallExpr_fun e));
    ("MethodCallExpr", "colon_token", AnsOne (MethodCallExpr_colon_token e));
    ("MethodCallExpr", "name_ref", AnsOne (MethodCallExpr_name_ref e));
    ("MethodCallExpr", "call_args", AnsOne (MethodCallExpr_call_args e));
    ("CallArgs", "arg_list", AnsOne (CallArgs_arg_list e));
    ("CallArgs", "table_expr", AnsOne (CallArgs_table_expr e));
    ("CallArgs", "str_token", AnsOne (CallArgs_str_token e));
    ("ArgList", "l_paren_token", AnsOne (ArgList_l_paren_token e));
    ("ArgList", "args", AnsMany (ArgList_args e));
    ("ArgList", "triple_dot_token", AnsOne (ArgList_triple_dot_token e));
    ("ArgList", "r_paren_token", AnsOne (ArgList_r_paren_token e));
    ("TableSep", "semicolon_token", AnsOne (TableSep_semicolon_token e));
    ("ParenExpr", "l_paren_token", AnsOne (ParenExpr_l_paren_token e));
    ("ParenExpr", "expr", AnsOne (ParenExpr_expr e));
    ("ParenExpr", "r_paren_token", AnsOne (ParenExpr_r_paren_token e));
    ("KeyValue", "key", AnsOne (KeyValue_key e));
    ("KeyValue", "value", AnsOne (KeyValue_value e));
    ("PositionalValue", "expr", AnsOne (PositionalValue_expr e));
    ("Index", "l_brack_token", AnsOne (Index_l_brack_token e));
    ("Index", "expr", AnsOne (Index_expr e));
    ("Index", "r_brack_token", AnsOne (Index_r_brack_token e));
    ("IdentKey", "ident_token", AnsOne (IdentKey_ident_token e)) ]%string.
(** The same with the bodies apart (for the proof). *)
Definition nodes_rs_bodies : list (string * string * cbody) :=
  [ ("Name", "ident_token", CToken (Some KIdent));
    ("NameRef", "ident_token", CToken (Some KIdent));
    ("MultiName", "names", CChildren (is_kind KName));
    ("SourceFile", "body", CChild (is_kind KBlock));
    ("Block", "stmts", CChildren stmt_can_cast);
    ("AssignStmt", "eq_token", CToken (Some KEq));
    ("LocalAssignStmt", "local_token", CToken (Some KLocalKw));
    ("LocalAssignStmt", "multi_name", CChild (is_kind KMultiName));
    ("LocalAssignStmt", "eq_token", CToken (Some KEq));
    ("LocalAssignStmt", "multival_expr", CChild (is_kind KMultivalExpr));
    ("LocalFunctionDefStmt", "local_token", CToken (Some KLocalKw));
    ("LocalFunctionDefStmt", "function_token", CToken (Some KFunctionKw));
    ("LocalFunctionDefStmt", "name", CChild (is_kind KName));
    ("LocalFunctionDefStmt", "param_list", CChild (is_kind KParamList));
    ("LocalFunctionDefStmt", "body", CChild (is_kind KBlock));
    ("LocalFunctionDefStmt", "end_token", CToken (Some KEndKw));
    ("FunctionDefStmt", "function_token", CToken (Some KFunctionKw));
    ("FunctionDefStmt", "function_def_content", CChild fn_content_can_cast);
    ("FunctionDefStmt", "param_list", CChild (is_kind KParamList));
    ("FunctionDefStmt", "body", CChild (is_kind KBlock));
    ("FunctionDefStmt", "end_token", CToken (Some KEndKw));
    ("ForStmt", "for_token", CToken (Some KForKw));
    ("ForStmt", "content", CChild for_content_can_cast);
    ("ForStmt", "do_token", CToken (Some KDoKw));
    ("ForStmt", "block", CChild (is_kind KBlock));
    ("ForStmt", "end_token", CToken (Some KEndKw));
    ("IfStmt", "if_token", CToken (Some KIfKw));
    ("IfStmt", "cond", CChild expr_can_cast);
    ("IfStmt", "then_token", CToken (Some KThenKw));
    ("IfStmt", "block", CChild (is_kind KBlock));
    ("IfStmt", "else_branch", CChild (is_kind KElseBranch));
    ("IfStmt", "else_if_branch", CChild (is_kind KElseIfBranch));
    ("IfStmt", "end_token", CToken (Some KEndKw));
    ("ReturnStmt", "return_token", CToken (Some KReturnKw));
    ("ReturnStmt", "expr", CChild expr_can_cast);
    ("WhileStmt", "while_token", CToken (Some KWhileKw));
    ("WhileStmt", "cond", CChild expr_can_cast);
    ("WhileStmt", "do_token", CToken (Some KDoKw));
    ("WhileStmt", "body", CChild (is_kind KBlock));
    ("WhileStmt", "end_token", CToken (Some KEndKw));
    ("ExprStmt", "multival_expr", CChild (is_kind KMultivalExpr));
    ("BreakStmt", "break_token", CToken (Some KBreakKw));
    ("RepeatUntilStmt", "repeat_token", CToken (Some KRepeatKw));
    ("RepeatUntilStmt", "block", CChild (is_kind KBlock));
    ("RepeatUntilStmt", "until_token", CToken (Some KUntilKw));
    ("RepeatUntilStmt", "expr", CChild expr_can_cast);
    ("LabelStmt", "start", CChild (is_kind KLabelDelim));
    ("LabelStmt", "name", CChild (is_kind KName));
    ("LabelStmt", "finish", CChild (is_kind KLabelDelim));
    ("GotoStmt", "goto_token", CToken (Some KGotoKw));
    ("GotoStmt", "name_ref", CChild (is_kind KNameRef));
    ("LabelDelim", "double_colon_token", CToken (Some KDoubleColon));
    ("DoStmt", "do_token", CToken (Some KDoKw));
    ("DoStmt", "body", CChild (is_kind KBlock));
    ("DoStmt", "end_token", CToken (Some KEndKw));
    ("ParamList", "l_paren_token", CToken (Some KLParen));
    ("ParamList", "multi_name", CChild (is_kind KMultiName));
    ("ParamList", "triple_dot_token", CToken (Some KTripleDot));
    ("ParamList", "r_paren_token", CToken (Some KRParen));
    ("FunctionMethod", "index_path", CChild (is_kind KIndexPath));
    ("FunctionMethod", "colon_token", CToken (Some KColon));
    ("FunctionMethod", "name", CChild (is_kind KName));
    ("FunctionStatic", "index_path", CChild (is_kind KIndexPath));
    ("FunctionStatic", "dot_token", CToken (Some KDot));
    ("FunctionStatic", "name", CChild (is_kind KName));
    ("IndexPath", "name_refs", CChildren (is_kind KNameRef));
    ("MultivalExpr", "exprs", CChildren expr_can_cast);
    ("ElseBranch", "else_token", CToken (Some KElseKw));
    ("ElseBranch", "block", CChild (is_kind KBlock));
    ("ElseIfBranch", "elseif_token", CToken (Some KElseifKw));
    ("ElseIfBranch", "cond", CChild expr_can_cast);
    ("ElseIfBranch", "then_token", CToken (Some KThenKw));
    ("ElseIfBranch", "block", CChild (is_kind KBlock));
    ("ElseIfBranch", "else_if_branch", CChild (is_kind KElseIfBranch));
    ("ElseIfBranch", "else_branch", CChild (is_kind KElseBranch));
    ("NumericFor", "name", CChild (is_kind KName));
    ("NumericFor", "eq_token", CToken (Some KEq));
    ("NumericFor", "expr", CChild (is_kind KMultivalExpr));
    ("GenericFor", "multi_name", CChild (is_kind KMultiName));
    ("GenericFor", "in_token", CToken (Some KInKw));
    ("GenericFor", "expr", CChild (is_kind KMultivalExpr));
    ("Literal", "number_token", CToken (Some KNumber));
    ("Literal", "str_token", CToken (Some KStr));
    ("Literal", "true_token", CToken (Some KTrueKw));
    ("Literal", "false_token", CToken (Some KFalseKw));
    ("TableExpr", "l_curly_token", CToken (Some KLBrace));
    ("TableExpr", "table_contents", CChild table_content_can_cast);
    ("TableExpr", "r_curly_token", CToken (Some KRBrace));
    ("PrefixExpr", "expr", CChild expr_can_cast);
    ("IndexExpr", "base", CChild expr_can_cast);
    ("IndexExpr", "index", CChild (is_kind KIndex));
    ("DotExpr", "expr", CChild expr_can_cast);
    ("DotExpr", "dot_token", CToken (Some KDot));
    ("DotExpr", "ident_token", CToken (Some KIdent));
    ("FunctionExpr", "function_token", CToken (Some KFunctionKw));
    ("FunctionExpr", "params", CChild (is_kind KParamList));
    ("FunctionExpr", "body", CChild (is_kind KBlock));
    ("FunctionExpr", "end_token", CToken (Some KEndKw));
    ("CallExpr", "fun", CChild expr_can_cast);
    ("CallExpr", "call_args", CChild (is_kind KCallArgs));
    ("MethodCallExpr", "fun", CChild expr_can_cast);
    ("MethodCallExpr", "colon_token", CToken (Some KColon));
    ("MethodCallExpr", "name_ref", CChild (is_kind KNameRef));
    ("MethodCallExpr", "call_args", CChild (is_kind KCallArgs));
    ("CallArgs", "arg_list", CChild (is_kind KArgList));
    ("CallArgs", "table_expr", CChild (is_kind KTableExpr));
    ("CallArgs", "str_token", CToken (Some KStr));
    ("ArgList", "l_paren_token", CToken (Some KLParen));
    ("ArgList", "args", CChildren expr_can_cast);
    ("ArgList", "triple_dot_token", CToken (Some KTripleDot));
    ("ArgList", "r_paren_token", CToken (Some KRParen));
    ("TableSep", "semicolon_token", CToken (Some KSemicolon));
    ("ParenExpr", "l_paren_token", CToken (Some KLParen));
    ("ParenExpr", "expr", CChild expr_can_cast);
    ("ParenExpr", "r_paren_token", CToken (Some KRParen));
    ("KeyValue", "key", CChild table_key_can_cast);
    ("KeyValue", "value", CChild expr_can_cast);
    ("PositionalValue", "expr", CChild expr_can_cast);
    ("Index", "l_brack_token", CToken (Some KLBracket));
    ("Index", "expr", CChild expr_can_cast);
    ("Index", "r_brack_token", CToken (Some KRBracket));
    ("IdentKey", "ident_token", CToken (Some KIdent)) ]%string.

Definition lua_src : ast_src := Eval vm_compute in match lower lua_grammar with Ok s => s | _ => mkSrc [] [] end.
Lemma lua_lowered : lower lua_grammar = Ok lua_src.
Proof. vm_compute. reflexivity. Qed.
Lemma nodes_rs_run e : map (fun r => (fst r, crun (snd r) e)) nodes_rs_bodies = nodes_rs e.
Proof. reflexivity. Qed.
Definition row_eqb (a b : string * string * cbody) : bool :=
  String.eqb (fst (fst a)) (fst (fst b)) && String.eqb (snd (fst a)) (snd (fst b)) && cbody_eqb (snd a) (snd b).
Fixpoint rows_eqb (a b : list (string * string * cbody)) : bool :=
  match a, b with [], [] => true | x :: a, y :: b => row_eqb x y && rows_eqb a b | _, _ => false end.
Lemma rows_eqb_ok e a : forall b, rows_eqb a b = true -> map (fun r => (fst r, crun (snd r) e)) a = map (fun r => (fst r, crun (snd r) e)) b.
Proof.
  induction a as [|[[t m] x] a IH]; intros [|[[t' m'] y] b] H; try discriminate; [reflexivity|]. cbn [rows_eqb] in H. apply andb_true_iff in H as [H1 H2]. unfold row_eqb in H1. cbn [fst snd] in H1.
  apply andb_true_iff in H1 as [H1 H3]. apply andb_true_iff in H1 as [H0 H1]. apply String.eqb_eq in H0. apply String.eqb_eq in H1. subst. cbn [map fst snd]. now rewrite (cbody_eqb_ok _ _ e H3), (IH _ H2).
Qed.
(** nodes.rs is what the generator makes of lua.ungram: the same accessors, by type, name and order, with the same answers on every
    node of every tree. *)
Theorem C76_accessors_generated : exists src, lower lua_grammar = Ok src /\
  forall e, map (fun a => (fst a, run_body src (snd a) e)) (generated_accessors lua_kinds src) = nodes_rs e.
Proof.
  exists lua_src. split; [exact lua_lowered|]. intros e. rewrite <- nodes_rs_run.
  rewrite <- (rows_eqb_ok e (map (fun a => (fst a, cbody_of lua_src (snd a))) (generated_accessors lua_kinds lua_src)) nodes_rs_bodies); [|vm_compute; reflexivity].
  rewrite map_map. apply map_ext. intros a. cbn [fst snd]. now rewrite cbody_run.
Qed.
Print Assumptions C76_accessors_generated.
(** SyntaxKind, its classes, the keywords and [T!] are what the generator makes of ast_src.toml and lua.ungram. *)
Theorem C76_kinds_generated :
  gen_kinds lua_kinds lua_src = map kind_name all_kinds /\
  (forall k, is_trivia k = existsb (String.eqb (kind_name k)) (gen_trivia lua_kinds)) /\
  map (fun p => (txt (fst p), kind_named (snd p))) (gen_from_keyword lua_kinds) = map (fun p => (fst p, Some (snd p))) keyword_table /\
  map (fun p => (kind_named (snd p), txt (fst p))) (punct_map lua_kinds) = map (fun p => (Some (fst p), snd p)) punct_table /\
  NoDup (gen_kinds lua_kinds lua_src).
Proof.
  assert (E : gen_kinds lua_kinds lua_src = map kind_name all_kinds) by (vm_compute; reflexivity).
  split; [exact E|]. split; [apply cast_eqb_ok; vm_compute; reflexivity|]. split; [vm_compute; reflexivity|]. split; [vm_compute; reflexivity|].
  rewrite E. assert (H : forall l, (fix nd (l : list string) := match l with [] => true | x :: l => negb (existsb (String.eqb x) l) && nd l end) l = true -> NoDup l).
  { induction l as [|x l IH]; [constructor|]. intros H. apply andb_true_iff in H as [H1 H2]. constructor; [|auto]. intros Hx. apply negb_true_iff in H1.
    assert (existsb (String.eqb x) l = true) by (apply existsb_exists; exists x; split; [exact Hx|apply String.eqb_refl]). congruence. }
  apply H. vm_compute. reflexivity.
Qed.
Print Assumptions C76_kinds_generated.
(** The enum casts of nodes.rs. *)
Theorem C76_casts_generated : forall k,
  casts lua_src "Stmt" k = stmt_can_cast k /\ casts lua_src "StmtItem" k = stmt_item_can_cast k /\ casts lua_src "FunctionDefContent" k = fn_content_can_cast k /\
  casts lua_src "Expr" k = expr_can_cast k /\ casts lua_src "ForContent" k = for_content_can_cast k /\ casts lua_src "TableContent" k = table_content_can_cast k /\
  casts lua_src "TableKey" k = table_key_can_cast k.
Proof.
  assert (H : forall a b, cast_eqb a b = true -> forall k, a k = b k) by exact cast_eqb_ok.
  intros k. repeat split; apply H; vm_compute; reflexivity.
Qed.
Print Assumptions C76_casts_generated.
(** The rest of generated.rs and tokens.rs: the classes of kinds, [T!], [N!] and the token types. *)
Theorem C76_macros_generated :
  gen_keywords lua_kinds = is_keyword_rs /\ gen_puncts lua_kinds = is_punct_rs /\ gen_literals lua_kinds = is_literal_rs /\
  t_arms lua_kinds = t_macro_rs /\ gen_n_macro lua_src = n_macro_rs /\ gen_tokens lua_kinds = tokens_rs.
Proof. repeat split; vm_compute; reflexivity. Qed.
Print Assumptions C76_macros_generated.
(** [T!] reaches every kind that is not a node but for three: the literals True and False are hidden behind the keywords of the
    same spelling, and the mark of the end of the enum has no name. *)
Theorem C76_unreachable_kinds : forall k,
  (exists t, t_macro lua_kinds t = Some (kind_name k)) <-> (~ In (kind_name k) ["True"; "False"; "__LAST"] /\ ~ In (kind_name k) (src_names lua_src)).
Proof.
  assert (H : forall s, (exists t, t_macro lua_kinds t = Some s) <-> existsb (fun a => match t_macro lua_kinds (fst a) with Some s' => String.eqb s s' | None => false end) (t_arms lua_kinds) = true).
  { intros s. rewrite existsb_exists. split.
    - intros (t & E). pose proof E as E'. unfold t_macro in E. destruct (find (fun a => String.eqb (fst a) t) (t_arms lua_kinds)) as [a|] eqn:F; [|discriminate].
      apply find_some in F as [F1 F2]. apply String.eqb_eq in F2. exists a. split; [exact F1|]. rewrite F2, E'. apply String.eqb_refl.
    - intros (a & _ & E). exists (fst a). destruct (t_macro lua_kinds (fst a)) as [s'|]; [|discriminate]. apply String.eqb_eq in E. now subst. }
  assert (HI : forall s l, In s l <-> existsb (String.eqb s) l = true).
  { intros s l. rewrite existsb_exists. split; [intros Hs; exists s; split; [exact Hs|apply String.eqb_refl]|intros (x & Hx & E); apply String.eqb_eq in E; now subst]. }
  assert (HA : forallb (fun k => Bool.eqb (existsb (fun a => match t_macro lua_kinds (fst a) with Some s' => String.eqb (kind_name k) s' | None => false end) (t_arms lua_kinds))
                 (negb (existsb (String.eqb (kind_name k)) ["True"; "False"; "__LAST"]) && negb (existsb (String.eqb (kind_name k)) (src_names lua_src)))) all_kinds = true) by (vm_compute; reflexivity).
  intros k. rewrite H, !HI, !not_true_iff_false, <- !negb_true_iff, <- andb_true_iff. rewrite forallb_forall in HA. specialize (HA k). rewrite eqb_true_iff in HA. rewrite HA; [reflexivity|].
  destruct k; vm_compute; tauto.
Qed.
Print Assumptions C76_unreachable_kinds.

(** The hypotheses are met: the rule of an argument list; a rule that cannot be lowered. *)
Example case_fields : lower_rule None (RSeq [RTok "("; RLab "args" (ROpt (RSeq [RNode "Expr"; RRep (RSeq [RTok ","; RNode "Expr"])])); RTok ")"]) =
  Ok [FToken "'('"; FNode "args" "Expr" Many; FToken "')'"].
Proof. vm_compute. reflexivity. Qed.
Example case_unsupported : unsupported false (RSeq [RTok "a"; RLab "x" (RTok "b")]).
Proof. apply un_seq with (r := RLab "x" (RTok "b")); [intros (n & H); inversion H|right; now left|]. apply un_lab; [intros H; repeat destruct H as [H|H]; try discriminate; destruct H|constructor]. Qed.
Example case_lower : exists src, lower lua_grammar = Ok src /\ length (src_names src) = 53 /\ NoDup (src_names src).
Proof. exists lua_src. split; [exact lua_lowered|]. split; [vm_compute; reflexivity|]. apply (C76_types _ _ lua_lowered). Qed.

(** ** The table of punctuation, for any list of entries: the last entry for a text counts, and no text is listed twice. *)
Lemma string_compare_refl : forall s, String.compare s s = Eq.
Proof. induction s as [|c s IH]; cbn; [reflexivity|]. unfold Ascii.compare. now rewrite N.compare_refl. Qed.
Lemma map_insert_find k v : forall l t, find (fun e => String.eqb (fst e) t) (map_insert k v l) = if String.eqb k t then Some (k, v) else find (fun e => String.eqb (fst e) t) l.
Proof.
  induction l as [|[k' v'] l IH]; intros t; cbn [map_insert find fst]; [reflexivity|]. destruct (String.compare k k') eqn:C; cbn [find fst].
  - apply String.compare_eq_iff in C. subst k'. destruct (String.eqb k t); reflexivity.
  - reflexivity.
  - rewrite IH. destruct (String.eqb_spec k' t) as [->|]; [|reflexivity]. destruct (String.eqb_spec k t) as [->|]; [|reflexivity]. exfalso. rewrite string_compare_refl in C; discriminate.
Qed.
Lemma map_insert_keys k v : forall l x, In x (map fst (map_insert k v l)) <-> x = k \/ In x (map fst l).
Proof.
  induction l as [|[k' v'] l IH]; intros x; cbn [map_insert map fst In]; [intuition|]. destruct (String.compare k k') eqn:C; cbn [map fst In].
  - apply String.compare_eq_iff in C. subst k'. intuition.
  - intuition.
  - rewrite IH. intuition.
Qed.
Theorem C76_punctuation : forall ks,
  (forall t n, punct_get ks t = Some n <-> exists a b, k_punct ks = a ++ (t, n) :: b /\ forall n', ~ In (t, n') b) /\
  (forall t, In t (map fst (punct_map ks)) <-> In t (map fst (k_punct ks))).
Proof.
  intros ks. unfold punct_get, punct_map. set (l := k_punct ks). clearbody l. split.
  - intros t n. assert (H : forall m, find (fun e => String.eqb (fst e) t) (fold_left (fun m e => map_insert (fst e) (snd e) m) l m) =
       match find (fun e => String.eqb (fst e) t) (rev l) with Some e => Some e | None => find (fun e => String.eqb (fst e) t) m end).
    { induction l as [|[k v] l IH]; intros m; cbn [fold_left rev fst snd]; [reflexivity|]. rewrite IH, map_insert_find.
      assert (A : forall (P : string * string -> bool) a b, find P (a ++ b) = match find P a with Some e => Some e | None => find P b end) by (intros P a b; induction a as [|y a IHa]; cbn; [reflexivity|]; destruct (P y); auto).
      rewrite A. destruct (find _ (rev l)) as [e|]; [reflexivity|]. cbn [find fst]. destruct (String.eqb k t); reflexivity. }
    rewrite H. cbn [find]. clear H. split.
    + destruct (find _ (rev l)) as [e|] eqn:E; [|discriminate]. intros X. injection X as X. revert l E. intros l. induction l as [|y l IH] using rev_ind; [discriminate|]. rewrite rev_unit. cbn [find]. destruct (String.eqb_spec (fst y) t) as [Hy|Hy].
      * intros E. injection E as ->. exists l, []. split; [destruct e; cbn in *; subst; reflexivity|]. intros n' [].
      * intros E. destruct (IH E) as (a & b & -> & Hb). exists a, (b ++ [y]). split; [now rewrite <- app_assoc|]. intros n' Hn. apply in_app_iff in Hn as [Hn|[Hn|[]]]; [exact (Hb _ Hn)|subst y; now apply Hy].
    + intros (a & b & -> & Hb). rewrite rev_app_distr. cbn [rev]. rewrite <- app_assoc. cbn [app].
      assert (X : forall c d : list (string * string), (forall n', ~ In (t, n') c) -> find (fun e => String.eqb (fst e) t) (c ++ d) = find (fun e => String.eqb (fst e) t) d).
      { induction c as [|[u w] c IH]; intros d Hc; cbn [app find fst]; [reflexivity|]. destruct (String.eqb_spec u t) as [->|]; [exfalso; apply (Hc w); now left|]. apply IH. intros n' Hn. apply (Hc n'). now right. }
      rewrite X; [cbn [find fst]; rewrite String.eqb_refl; reflexivity|]. intros n' Hn. apply in_rev in Hn. exact (Hb _ Hn).
  - intros t. assert (H : forall m, In t (map fst (fold_left (fun m e => map_insert (fst e) (snd e) m) l m)) <-> In t (map fst l) \/ In t (map fst m)).
    { induction l as [|[k v] l IH]; intros m; cbn [fold_left map fst snd In]; [intuition|]. rewrite IH, map_insert_keys. intuition. }
    rewrite H. cbn. tauto.
Qed.
Print Assumptions C76_punctuation.
Example case_punctuation : let ks := mkKinds [("=", "Assign"); ("==", "Eq2"); ("=", "Set")] [] [] [] [] in punct_get ks "=" = Some "Set" /\ punct_get ks "==" = Some "Eq2".
Proof. vm_compute. split; reflexivity. Qed.
