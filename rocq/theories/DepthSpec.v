(** DepthSpec.v — how high a syntax tree is and how deeply its code is nested. *)
From Verif Require Import Base SyntaxKind Tree.

(** Nodes whose first child was parsed before the node was begun. *)
Definition post (k : kind) : bool :=
  match k with KInfixExpr | KCallExpr | KMethodCallExpr | KIndexExpr | KDotExpr => true | _ => false end.
(** Nodes that enclose other code. *)
Definition encl (k : kind) : bool :=
  match k with
  | KParenExpr | KTableExpr | KFunctionExpr | KArgList | KPrefixExpr | KDoStmt | KWhileStmt | KForStmt | KIfStmt | KElseIfBranch
  | KRepeatUntilStmt | KFunctionDefStmt | KLocalFunctionDefStmt => true
  | _ => false
  end.
Definition level_of (k : kind) (l : list nat) : nat :=
  if post k then match l with [] => 1 | x :: r => Nat.max x (S (list_max r)) end else S (list_max l).
Definition nest_of (k : kind) (l : list nat) : nat := if encl k then S (list_max l) else list_max l.


(** A measure of a tree, from the measures of the nodes below each node; tokens do not count. *)
Fixpoint measure (of : kind -> list nat -> nat) (g : green) : list nat :=
  match g with GNode k cs => [of k (flat_map (measure of) cs)] | GTok _ _ => [] end.
(** The height: the number of nodes on the longest path from the root, except that stepping to the first
    operand of an operator, a call or an index does not count. *)
Definition height (g : green) : nat := list_max (measure level_of g).
(** The nesting: the largest number of nodes around a place that enclose it (parentheses, tables, functions,
    arguments, unary operators and compound statements). *)
Definition nesting (g : green) : nat := list_max (measure nest_of g).
