(** ParseSpec.v — specification vocabulary for the parser properties C11–C17, C22, C23, C28, C30:
    texts, tokens, green trees and sink calls only. *)
From Verif Require Import Base SyntaxKind Lexer LexSpec Parser ParserTree Event Tree Ast.

(** Kinds a lexer token can have. *)
Definition lexer_kinds : list kind :=
  map fst spellings ++ map snd keywords ++ [KIdent; KNumber; KStr; KComment; KWhitespace; KUnknown].

(** Kinds a node of a syntax tree can have. *)
Definition node_kinds : list kind :=
  [KError; KName; KNameRef; KMultiName; KSourceFile; KBlock; KAssignStmt; KLocalAssignStmt;
   KLocalFunctionDefStmt; KFunctionDefStmt; KForStmt; KIfStmt; KReturnStmt; KWhileStmt; KExprStmt;
   KBreakStmt; KRepeatUntilStmt; KLabelStmt; KGotoStmt; KLabelDelim; KDoStmt; KParamList;
   KFunctionMethod; KFunctionStatic; KIndexPath; KMultivalExpr; KElseBranch; KElseIfBranch;
   KNumericFor; KGenericFor; KLiteral; KTableExpr; KInfixExpr; KPrefixExpr; KIndexExpr; KDotExpr;
   KFunctionExpr; KCallExpr; KMethodCallExpr; KCallArgs; KArgList; KTableSep; KParenExpr; KKeyValue;
   KPositionalValue; KIndex; KFunctionDefContent; KForContent; KTableContent; KTableKey].

(** A tree without its whitespace and comment tokens. *)
Fixpoint strip (g : green) : list green :=
  match g with
  | GNode k cs => [GNode k (flat_map strip cs)]
  | GTok k t => if is_trivia k then [] else [GTok k t]
  end.

(** The shape of a tree: node kinds and the kinds of the non-trivia tokens. *)
Fixpoint skel (g : green) : forest :=
  match g with
  | GNode k cs => [PNode k (flat_map skel cs)]
  | GTok k t => if is_trivia k then [] else [PTok k]
  end.

(** The non-trivia tokens of a tree's leaves. *)
Definition code_leaves (g : green) : list (kind * text) :=
  filter (fun p => negb (is_trivia (fst p))) (green_leaves g).

(** [n] is the position of a token boundary: the end of the first [i] tokens. *)
Definition token_boundary (toks : list token) (n : nat) : Prop :=
  exists i, i <= length toks /\ n = list_sum (map t_len (firstn i toks)).

(** The error nodes of a tree in document order. *)
Definition error_nodes (g : green) : list elem :=
  filter (fun e => kind_eqb (el_kind e) KError) (el_descendants (root_elem g)).

(** The reported errors are one per error node, with its range, in order, and otherwise have an
    empty range (a missing token). *)
Inductive errors_match : list elem -> list syntax_error -> Prop :=
| em_nil : errors_match [] []
| em_point m p ns es : errors_match ns es -> errors_match ns (mkErr m (mkRange p p) :: es)
| em_node n m ns es : errors_match ns es -> errors_match (n :: ns) (mkErr m (el_range n) :: es).

(** The first and the last child of a node, if any, are not trivia. *)
Definition tight (e : elem) : Prop :=
  match el_green e with
  | GNode _ cs => (forall c cs', cs = c :: cs' -> is_trivia (green_kind c) = false) /\
                  (forall c cs', cs = cs' ++ [c] -> is_trivia (green_kind c) = false)
  | GTok _ _ => True
  end.

(** Sequences of sink calls in which every start is closed by the matching finish. *)
Inductive nested : list step -> Prop :=
| ns_nil : nested []
| ns_tok l : nested l -> nested (STok :: l)
| ns_err e l : nested l -> nested (SErr e :: l)
| ns_node k a b : nested a -> nested b -> nested (SStart k :: a ++ SFinish :: b)
| ns_errnode e a b : nested a -> nested b -> nested (SStartErr :: a ++ SFinishErr e :: b).

(** The lexemes of a text: the tokens of [tokenize] with the pieces of text they stand for. *)
Definition lexemes_of (t : text) (xs : list (kind * text)) : Prop :=
  (exists errs, tokenize t = Ok (map (fun p => mkToken (fst p) (blen (snd p))) xs, errs)) /\
  concat (map snd xs) = t.

(** The non-trivia tokens among lexemes. *)
Definition code (xs : list (kind * text)) : list (kind * text) :=
  filter (fun p => negb (is_trivia (fst p))) xs.
