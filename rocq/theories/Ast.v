(** Ast.v — rowan syntax nodes (green node + offset) and the typed accessors of
    crates/syntax/src/ast.rs, ast/*_ext.rs and ast/generated/nodes.rs. *)
From Verif Require Import Base SyntaxKind Tree Grammar.

(** A positioned element of a tree: [rowan::SyntaxNode] / [SyntaxToken] as far as kind, text and
    [text_range] are concerned. *)
Record elem := mkElem { el_off : nat; el_green : green }.

Definition el_kind (e : elem) : kind := green_kind (el_green e).
(** [text_range]. *)
Definition el_range (e : elem) : range :=
  mkRange (el_off e) (el_off e + green_len (el_green e)).

(** Positions of a list of consecutive siblings starting at [off]. *)
Fixpoint place (off : nat) (cs : list green) : list elem :=
  match cs with
  | [] => []
  | c :: cs' => mkElem off c :: place (off + green_len c) cs'
  end.

(** [children_with_tokens]. *)
Definition el_children_with_tokens (e : elem) : list elem :=
  match el_green e with
  | GNode _ cs => place (el_off e) cs
  | GTok _ _ => []
  end.
(** [children]: only the nodes. *)
Definition el_children (e : elem) : list elem :=
  filter (fun c => is_gnode (el_green c)) (el_children_with_tokens e).

(** [descendants]: all nodes below and including a node, in preorder. *)
Fixpoint descendants_at (off : nat) (g : green) {struct g} : list elem :=
  match g with
  | GTok _ _ => []
  | GNode k cs =>
    mkElem off g ::
    (fix go (off : nat) (cs : list green) : list elem :=
       match cs with
       | [] => []
       | c :: cs' => descendants_at off c ++ go (off + green_len c) cs'
       end) off cs
  end.
Definition el_descendants (e : elem) : list elem := descendants_at (el_off e) (el_green e).
(** [SyntaxNode::new_root]. *)
Definition root_elem (g : green) : elem := mkElem 0 g.

(** ast/generated/nodes.rs:1664-1679 [Expr::can_cast]. *)
Definition expr_can_cast (k : kind) : bool :=
  match k with
  | KLiteral | KTableExpr | KInfixExpr | KPrefixExpr | KIndexExpr | KDotExpr
  | KFunctionExpr | KCallExpr | KMethodCallExpr | KNameRef => true
  | _ => false
  end.
(** nodes.rs:1467-1486 [Stmt::can_cast]. *)
Definition stmt_can_cast (k : kind) : bool :=
  match k with
  | KBlock | KAssignStmt | KLocalAssignStmt | KLocalFunctionDefStmt | KFunctionDefStmt
  | KForStmt | KIfStmt | KReturnStmt | KWhileStmt | KExprStmt | KBreakStmt
  | KRepeatUntilStmt | KLabelStmt | KGotoStmt => true
  | _ => false
  end.
(** nodes.rs:1543-1550 [StmtItem::can_cast]. *)
Definition stmt_item_can_cast (k : kind) : bool :=
  match k with
  | KLocalAssignStmt | KLocalFunctionDefStmt | KFunctionDefStmt => true
  | _ => false
  end.
(** nodes.rs:1586-1591 [FunctionDefContent::can_cast]. *)
Definition fn_content_can_cast (k : kind) : bool :=
  match k with KFunctionMethod | KFunctionStatic | KName => true | _ => false end.
(** nodes.rs:1721-1726 [ForContent::can_cast]. *)
Definition for_content_can_cast (k : kind) : bool :=
  match k with KNumericFor | KGenericFor => true | _ => false end.
(** nodes.rs:1753-1758 [TableContent::can_cast]. *)
Definition table_content_can_cast (k : kind) : bool :=
  match k with KKeyValue | KPositionalValue => true | _ => false end.
(** nodes.rs:1787-1792 [TableKey::can_cast]. *)
Definition table_key_can_cast (k : kind) : bool :=
  match k with KIndex | KName => true | _ => false end.
(** A struct node casts from exactly its own kind (e.g. nodes.rs:767-769, and the same in every [impl AstNode]). *)
Definition is_kind (k : kind) : kind -> bool := fun k' => kind_eqb k' k.

(** ast.rs:85-87 [support::children]. *)
Definition ast_children (cast : kind -> bool) (e : elem) : list elem :=
  filter (fun c => cast (el_kind c)) (el_children e).
(** ast.rs:81-83 [support::child]. *)
Definition ast_child (cast : kind -> bool) (e : elem) : option elem :=
  hd_error (ast_children cast e).
(** ast.rs:89-91 [support::token]. *)
Definition ast_token (k : kind) (e : elem) : option elem :=
  hd_error (filter (fun c => kind_eqb (el_kind c) k)
              (filter (fun c => negb (is_gnode (el_green c))) (el_children_with_tokens e))).

(** nodes.rs:48-52 [Block::stmts]. *)
Definition block_stmts (e : elem) : list elem := ast_children stmt_can_cast e.
(** nodes.rs:354-358 [MultivalExpr::exprs]. *)
Definition multival_exprs (e : elem) : list elem := ast_children expr_can_cast e.
(** nodes.rs:210-214 [ExprStmt::multival_expr]. *)
Definition expr_stmt_multival (e : elem) : option elem := ast_child (is_kind KMultivalExpr) e.
(** ast/stmt_ext.rs:18-33 [AssignStmt::lhs/rhs]. *)
Definition assign_lhs (e : elem) : option elem :=
  nth_error (ast_children (is_kind KMultivalExpr) e) 0.
Definition assign_rhs (e : elem) : option elem :=
  nth_error (ast_children (is_kind KMultivalExpr) e) 1.
(** ast/expr_ext.rs:27-40 [InfixExpr::lhs/rhs]. *)
Definition infix_lhs (e : elem) : option elem := nth_error (ast_children expr_can_cast e) 0.
Definition infix_rhs (e : elem) : option elem := nth_error (ast_children expr_can_cast e) 1.
(** ast/expr_ext.rs:8-25 [op_details]: the first direct token that is an operator other than
    [not]. *)
Definition infix_op_details (e : elem) : option (elem * lua_op) :=
  hd_error
    (flat_map (fun c => if kind_eqb (el_kind c) KNotKw then []
                        else match op_of_kind (el_kind c) with
                             | Some o => [(c, o)] | None => [] end)
       (filter (fun c => negb (is_gnode (el_green c))) (el_children_with_tokens e))).

(** ast/node_ext.rs:17-22 [text_of_first_token]: Name::text, NameRef::text. *)
Definition name_text (e : elem) : res text :=
  match el_green e with
  | GNode _ (GTok _ t :: _) => Ok t
  | _ => Panic
  end.

(** ast/expr_ext.rs:53-59 [Literal::token]. *)
Definition literal_token (e : elem) : res elem :=
  match find (fun c => negb (is_trivia (el_kind c))) (el_children_with_tokens e) with
  | Some c => if is_gnode (el_green c) then Panic else Ok c
  | None => Panic
  end.
(** ast/expr_ext.rs:44-50 [LiteralKind]. *)
Inductive literal_kind := LKStr | LKNumber | LKBool (b : bool) | LKNil | LKVararg.
(** ast/expr_ext.rs:61-79 [Literal::kind]. *)
Definition literal_kind_of (e : elem) : res literal_kind :=
  let? t := literal_token e in
  match el_kind t with
  | KNumber => Ok LKNumber
  | KStr => Ok LKStr
  | KTrueKw => Ok (LKBool true)
  | KFalseKw => Ok (LKBool false)
  | KNilKw => Ok LKNil
  | KTripleDot => Ok LKVararg
  | _ => Panic
  end.

(** crates/syntax/src/lib.rs:98-102 [Expr::is_call]. *)
Definition expr_is_call (e : elem) : bool :=
  match el_kind e with KCallExpr | KMethodCallExpr => true | _ => false end.
