(** StrictTree.v — a derivation without error marks is a strict derivation. *)
From Verif Require Import Base SyntaxKind Parser ParserTree GrammarSpec.

Lemma noerrs_app a b : noerrs (a ++ b) = true <-> noerrs a = true /\ noerrs b = true.
Proof. unfold noerrs. rewrite forallb_app. apply andb_true_iff. Qed.
Lemma noerrs_cons t f : noerrs (t :: f) = true <-> noerr t = true /\ noerrs f = true.
Proof. unfold noerrs. cbn [forallb]. apply andb_true_iff. Qed.
Lemma noerr_node k fs : noerr (PNode k fs) = true <-> noerrs fs = true.
Proof. reflexivity. Qed.
Lemma req_strict k f : req false k f -> noerrs f = true -> req true k f.
Proof. intros [->|[_ [e ->]]] H; [left; reflexivity|discriminate H]. Qed.
Lemma is_err_strict f : is_err false f -> noerrs f = true -> False.
Proof. intros (_ & e & [->|(ks & ->)]) H; discriminate H. Qed.
Lemma opt_strict x : x = [] \/ is_err false x -> noerrs x = true -> x = [].
Proof. intros [->|H] Hn; [reflexivity|destruct (is_err_strict _ H Hn)]. Qed.
Lemma noerrs_one t : noerr t = true -> noerrs [t] = true.
Proof. intros H. cbn. now rewrite H. Qed.

Lemma Tree_strict n f : Tree false n f -> noerrs f = true -> Tree true n f.
Proof.
  induction 1; intros HN;
  repeat match goal with
  | H : noerrs (_ ++ _) = true |- _ => apply noerrs_app in H as [? ?]
  | H : noerrs (_ :: _) = true |- _ => apply noerrs_cons in H as [? ?]
  | H : noerr (PNode _ _) = true |- _ => apply noerr_node in H
  | H : noerrs ?f = true -> _, H' : noerrs ?f = true |- _ => specialize (H H')
  | H : noerrs [?t] = true -> _, H' : noerr ?t = true |- _ => specialize (H (noerrs_one _ H'))
  | H : req false _ ?f, H' : noerrs ?f = true |- _ => apply req_strict in H; [|exact H']
  | H : is_err false ?f, H' : noerrs ?f = true |- _ => destruct (is_err_strict _ H H')
  | H : ?x = [] \/ is_err false ?x, H' : noerrs ?x = true |- _ => apply opt_strict in H; [|exact H']
  end; subst; try (econstructor; eauto; fail).
  all: try match goal with H : noerrs (_ ++ _) = false |- _ => exfalso; revert H; apply not_false_iff_true; apply noerrs_app; auto end.
  all: try (eapply T_params_dots; now left).
  all: try (eapply T_params_names_dots; [eassumption|now left]).
  all: try (eapply T_params_names_dots_nocomma; [eassumption|now left]).
  all: try (eapply T_fun_static; eassumption).
Qed.
