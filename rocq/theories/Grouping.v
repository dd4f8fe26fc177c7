(** Grouping.v — specification vocabulary for C72: how the parser groups operators, operands and calls. It speaks of
    trees (kinds of nodes and of non-trivia tokens, [ptree]) only, not of the parser. *)
From Verif Require Import Base SyntaxKind ParserTree ValidSpec.

(** ** The operator table: the higher number binds. [a o1 b o2 c] is [(a o1 b) o2 c] when
    [right_power o1] exceeds [left_power o2], and [a o1 (b o2 c)] otherwise. 0 for what is no operator. *)
Definition left_power (k : kind) : nat :=
  match k with
  | KOrKw => 2 | KAndKw => 4 | KLt => 6 | KGt => 8 | KLtEq => 10 | KGtEq => 12 | KNotEq => 14 | KEqEq => 16
  | KDoubleDot => 19 | KPlus => 20 | KMinus => 22 | KAsterisk => 24 | KSlash => 26 | KModulo => 28 | KCaret => 34
  | _ => 0
  end.
Definition right_power (k : kind) : nat :=
  match k with
  | KOrKw => 3 | KAndKw => 5 | KLt => 7 | KGt => 9 | KLtEq => 11 | KGtEq => 13 | KNotEq => 15 | KEqEq => 17
  | KDoubleDot => 18 | KPlus => 21 | KMinus => 23 | KAsterisk => 25 | KSlash => 27 | KModulo => 29 | KCaret => 33
  | _ => 0
  end.
Definition unary_power (k : kind) : nat :=
  match k with KNotKw => 30 | KHash => 31 | KMinus => 32 | _ => 0 end.

Definition among (k : kind) (l : list kind) : bool := existsb (kind_eqb k) l.

(** The token kinds of a tree, in order. *)
Fixpoint toks (t : ptree) : list kind :=
  match t with
  | PTok k => [k]
  | PErr _ => []
  | PErrN fs _ => flat_map toks fs
  | PNode _ fs => flat_map toks fs
  end.
(** The first token of a forest, or the one after it if it has none. *)
Definition next (f : forest) (nx : kind) : kind := hd nx (flat_map toks f).

Definition is_exp (t : ptree) : bool := match t with PNode k _ => among k expr_kinds | _ => false end.
(** Expressions that can be indexed and called. *)
Definition callable : list kind :=
  [KTableExpr; KIndexExpr; KDotExpr; KFunctionExpr; KCallExpr; KMethodCallExpr; KNameRef; KParenExpr].

(** Would the token [k], standing after the expression [t], be part of it? A binary operator would if it binds the
    last operand more tightly than the operator before that operand; a call, method call or index would if the last
    operand can take it. *)
Fixpoint extends (t : ptree) (k : kind) : bool :=
  match t with
  | PNode K fs =>
    if kind_eqb K KInfixExpr then
      match fs with [_; PTok o; r] => is_exp r && ((right_power o <=? left_power k) || extends r k) | _ => false end
    else if kind_eqb K KPrefixExpr then
      match fs with [PTok o; r] => is_exp r && ((unary_power o <=? left_power k) || extends r k) | _ => false end
    else if kind_eqb K KLiteral then among k [KLBracket; KDot]
    else among K callable && among k [KLParen; KLBrace; KStr; KColon; KLBracket; KDot]
  | _ => false
  end.

(** The operators of the chain [a o1 b o2 c ...] that [t] is bind at least as tightly as [m]. *)
Fixpoint spine (m : nat) (t : ptree) : bool :=
  match t with
  | PNode K (l :: PTok o :: _) => if kind_eqb K KInfixExpr then (m <=? left_power o) && spine m l else true
  | _ => true
  end.

(** No expression of the forest is extended by what follows it. *)
Fixpoint closed (f : forest) (nx : kind) : Prop :=
  match f with [] => True | t :: f' => extends t (next f' nx) = false /\ closed f' nx end.

(** The nodes whose children include expressions that stand for themselves. *)
Definition operand_parents : list kind :=
  [KInfixExpr; KPrefixExpr; KMultivalExpr; KParenExpr; KIndex; KKeyValue; KPositionalValue; KIfStmt; KElseIfBranch;
   KWhileStmt; KRepeatUntilStmt; KGenericFor].
Definition starts_expr : list kind :=
  [KNilKw; KTrueKw; KFalseKw; KNumber; KStr; KTripleDot; KFunctionKw; KLBrace; KIdent; KLParen; KNotKw; KHash; KMinus].

(** A node of kind [K] with children [fs], followed by the token [nx], is grouped right:
    - no operand is extended by what follows it;
    - the operators in a right operand bind at least as tightly as the operator before it demands;
    - [return] takes a value if one follows;
    - an assignment or a call statement begins with a name or a parenthesis. *)
Definition grouped (K : kind) (fs : forest) (nx : kind) : Prop :=
  (In K operand_parents -> closed fs nx) /\
  (K = KInfixExpr -> forall l o r, fs = [l; PTok o; r] -> spine (right_power o) r = true) /\
  (K = KPrefixExpr -> forall o r, fs = [PTok o; r] -> spine (unary_power o) r = true) /\
  (K = KReturnStmt -> fs = [PTok KReturnKw] -> among nx starts_expr = false) /\
  (In K [KExprStmt; KAssignStmt] -> In (next fs nx) [KIdent; KLParen]).

(** All nodes of a forest, each with its children and the token that follows it. *)
Fixpoint nodes_in (t : ptree) (nx : kind) : list (kind * forest * kind) :=
  match t with
  | PNode K fs => (K, fs, nx) ::
      (fix go (l : forest) : list (kind * forest * kind) :=
         match l with [] => [] | t :: l' => nodes_in t (next l' nx) ++ go l' end) fs
  | _ => []
  end.
Fixpoint nodes_of (f : forest) (nx : kind) : list (kind * forest * kind) :=
  match f with [] => [] | t :: f' => nodes_in t (next f' nx) ++ nodes_of f' nx end.
(** Every node is grouped right. *)
Definition well_grouped (f : forest) (nx : kind) : Prop := Forall (fun x => grouped (fst (fst x)) (snd (fst x)) (snd x)) (nodes_of f nx).
