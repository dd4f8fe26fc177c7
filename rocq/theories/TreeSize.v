(** TreeSize.v — how large and how deep the trees of GrammarSpec.v can be, in terms of their tokens (for C75). *)
From Verif Require Import Base SyntaxKind Parser ParserTree SinkProofs GrammarSpec ParserTotal ParserTotal2.

(** Nodes and errors of a tree; an error node counts once. *)
Fixpoint wt (t : ptree) : nat :=
  match t with
  | PTok _ => 0
  | PErr _ => 1
  | PErrN fs _ => 1 + list_sum (map wt fs)
  | PNode _ fs => 1 + list_sum (map wt fs)
  end.
Definition fw (f : forest) : nat := list_sum (map wt f).
(** Nodes on the longest way down. *)
Fixpoint dp (t : ptree) : nat :=
  match t with
  | PTok _ | PErr _ => 0
  | PErrN fs _ => 1 + list_max (map dp fs)
  | PNode _ fs => 1 + list_max (map dp fs)
  end.
Definition fd (f : forest) : nat := list_max (map dp f).
Definition nk (f : forest) : nat := length (fkinds f).

Lemma fw_nil : fw [] = 0. Proof. reflexivity. Qed.
Lemma fd_nil : fd [] = 0. Proof. reflexivity. Qed.
Lemma nk_nil : nk [] = 0. Proof. reflexivity. Qed.
Lemma fw_app a b : fw (a ++ b) = fw a + fw b.
Proof. unfold fw. rewrite map_app. apply list_sum_app. Qed.
Lemma fd_app a b : fd (a ++ b) = Nat.max (fd a) (fd b).
Proof. unfold fd. rewrite map_app. apply list_max_app. Qed.
Lemma nk_app a b : nk (a ++ b) = nk a + nk b.
Proof. unfold nk, fkinds. now rewrite flat_map_app, app_length. Qed.
Lemma fw_tok k f : fw (PTok k :: f) = fw f. Proof. reflexivity. Qed.
Lemma fd_tok k f : fd (PTok k :: f) = fd f. Proof. reflexivity. Qed.
Lemma nk_tok k f : nk (PTok k :: f) = S (nk f). Proof. reflexivity. Qed.
Lemma fw_node k g f : fw (PNode k g :: f) = S (fw g) + fw f. Proof. reflexivity. Qed.
Lemma fd_node k g f : fd (PNode k g :: f) = Nat.max (S (fd g)) (fd f). Proof. reflexivity. Qed.
Lemma nk_node k g f : nk (PNode k g :: f) = nk g + nk f.
Proof. unfold nk, fkinds. cbn [flat_map pkinds]. apply app_length. Qed.
Lemma fw_ptoks ks : fw (map PTok ks) = 0.
Proof. induction ks; [reflexivity|]. cbn [map]. now rewrite fw_tok. Qed.
Lemma fd_ptoks ks : fd (map PTok ks) = 0.
Proof. induction ks; [reflexivity|]. cbn [map]. now rewrite fd_tok. Qed.
Lemma nk_ptoks ks : nk (map PTok ks) = length ks.
Proof. induction ks; [reflexivity|]. cbn [map length]. now rewrite nk_tok, IHks. Qed.
Lemma errn_size ks e f : fw (PErrN (map PTok ks) e :: f) = S (fw f) /\ fd (PErrN (map PTok ks) e :: f) = Nat.max 1 (fd f) /\ nk (PErrN (map PTok ks) e :: f) = length ks + nk f.
Proof.
  repeat split.
  - change (S (fw (map PTok ks)) + fw f = S (fw f)). now rewrite fw_ptoks.
  - change (Nat.max (S (fd (map PTok ks))) (fd f) = Nat.max 1 (fd f)). now rewrite fd_ptoks.
  - change (length (fkinds (map PTok ks) ++ fkinds f) = length ks + nk f). rewrite app_length. change (length (fkinds (map PTok ks))) with (nk (map PTok ks)). now rewrite nk_ptoks.
Qed.

Lemma req_size s k f : req s k f -> fw f + nk f = 1 /\ fd f = 0.
Proof. intros [->|(_ & e & ->)]; split; reflexivity. Qed.
Lemma is_err_size s f : is_err s f -> fw f = 1 /\ fd f <= 1.
Proof. intros (_ & e & [->|(ks & ->)]); [cbn; lia|]. destruct (errn_size ks e []) as (-> & -> & _). cbn. lia. Qed.
Lemma has_tok_nk f : existsb has_tok f = true -> 1 <= nk f.
Proof.
  set (P1 := fun t => has_tok t = true -> 1 <= length (pkinds t)). set (PF := fun f => existsb has_tok f = true -> 1 <= nk f).
  change (PF f). apply (forest_ind' P1 PF); unfold P1, PF; try discriminate.
  - cbn. lia.
  - intros fs e IH H. exact (IH H).
  - intros k fs IH H. exact (IH H).
  - intros t fs H1 H2 H. cbn [existsb] in H. apply orb_true_iff in H. unfold nk, fkinds. cbn [flat_map]. rewrite app_length. unfold nk, fkinds in H2. destruct H as [H|H]; [apply H1 in H|apply H2 in H]; lia.
Qed.
Lemma junk_size j : Forall junk j -> Forall (fun t => has_tok t = true) j -> fw j <= nk j /\ fd j <= 1.
Proof.
  induction 1 as [|t j Hj Hf IH]; intros Ht; [cbn; lia|]. inversion Ht as [|? ? Ha Hb]; subst. destruct (IH Hb) as [A B].
  assert (H1 : 1 <= nk [t]) by (apply has_tok_nk; cbn [existsb]; now rewrite Ha).
  destruct Hj as [(ks & e & ->)|(s & _ & ->)].
  - destruct (errn_size ks e j) as (-> & -> & ->). destruct (errn_size ks e []) as (_ & _ & E). rewrite E, nk_nil in H1. lia.
  - rewrite fw_node, fd_node, nk_node, fw_tok, fd_tok, nk_tok, fw_nil, fd_nil, nk_nil. lia.
Qed.

(** The bounds, per nonterminal: [z] bounds the size without tokens, [s] is what is spared with tokens. *)
Definition A := 16.
Definition zs (n : nt) : nat * nat :=
  match n with
  | NSource => (2, 0) | NBlock => (1, 1) | NStmts => (0, 2) | NStmt => (6, 2) | NElse => (0, 2)
  | NMulti => (2, 6) | NMultiTail => (0, 8) | NExprO => (1, 8) | NExpr => (0, 8) | NLhs => (0, 8) | NPost _ => (0, 8)
  | NCallArgs => (0, 8) | NIndex => (0, 12) | NFields => (3, 2) | NField => (3, 5)
  | NName => (1, 7) | NNames => (1, 7) | NNameTail => (0, 8) | NParamList => (5, 0) | NParams => (2, 4) | NNameRef => (1, 7)
  | NPath => (1, 7) | NPathTail => (0, 8) | NFunName => (5, 0) | NFor => (5, 0)
  end.
Definition sized (n : nt) (f : forest) : Prop := (nk f = 0 -> fw f <= fst (zs n)) /\ (1 <= nk f -> fw f + snd (zs n) <= A * nk f).
(** These have a token. *)
Definition tokened (n : nt) : bool := match n with NExpr | NLhs | NPost _ | NCallArgs | NIndex => true | _ => false end.
Definition dz (n : nt) : nat :=
  match n with
  | NSource => 5 | NBlock => 4 | NStmts | NStmt => 3 | NElse => 1 | NMulti => 2 | NMultiTail => 1 | NExprO | NExpr | NLhs | NPost _ => 1
  | NCallArgs => 1 | NIndex => 0 | NFields | NField => 3 | NName => 1 | NNames => 1 | NNameTail => 1 | NParamList => 3 | NParams => 2 | NNameRef => 1
  | NPath => 1 | NPathTail => 1 | NFunName => 4 | NFor => 4
  end.
Definition bounded (n : nt) (f : forest) : Prop := sized n f /\ (tokened n = true -> 1 <= nk f) /\ fd f <= 4 * nk f + dz n.

Theorem tree_bounded s n f : Tree s n f -> bounded n f.
Proof.
  unfold bounded, sized, A.
  induction 1; cbn [zs tokened dz fst snd] in *;
    repeat match goal with
    | H : req _ _ _ |- _ => apply req_size in H
    | H : is_err _ _ |- _ => apply is_err_size in H
    | H : _ = [] \/ is_err _ _ |- _ => destruct H as [->|H]
    | H : _ = [] \/ _ = [PTok KSemicolon] |- _ => destruct H as [->| ->]
    | H : existsb has_tok _ = true |- _ => apply has_tok_nk in H
    | H : Forall junk ?j, H' : Forall _ ?j |- _ => pose proof (junk_size _ H H'); clear H H'
    | |- context [?t :: ?g] => is_var t; lazymatch g with [] => fail | _ => change (t :: g) with ([t] ++ g) end
    end;
    repeat (rewrite ?fw_app, ?fd_app, ?nk_app, ?fw_node, ?fd_node, ?nk_node, ?fw_tok, ?fd_tok, ?nk_tok, ?fw_nil, ?fd_nil, ?nk_nil in * );
    repeat match goal with
    | H : _ /\ (_ /\ _) |- _ => let a := fresh in let b := fresh in let c := fresh in destruct H as (a & b & c); try specialize (b eq_refl)
    end; (split; [|split; [let Q := fresh in intros Q; try discriminate Q|]]).
  all: try lia.
Qed.
