(** Tree.v — rowan green trees (rowan 0.12, modelled from its documentation) and the builder. *)
From Verif Require Import Base SyntaxKind.

(** A green tree: inner nodes and tokens with text. *)
Inductive green :=
| GNode (k : kind) (cs : list green)
| GTok (k : kind) (t : text).

Definition green_kind (g : green) : kind :=
  match g with GNode k _ => k | GTok k _ => k end.

(** The concatenated text ([SyntaxNode::text]). *)
Fixpoint green_text (g : green) : text :=
  match g with
  | GNode _ cs => flat_map green_text cs
  | GTok _ t => t
  end.

(** The tokens, left to right. *)
Fixpoint green_leaves (g : green) : list (kind * text) :=
  match g with
  | GNode _ cs => flat_map green_leaves cs
  | GTok k t => [(k, t)]
  end.

(** [text_range().len()]. *)
Definition green_len (g : green) : nat := blen (green_text g).

Definition is_gnode (g : green) : bool := match g with GNode _ _ => true | _ => false end.

(** ** rowan::GreenNodeBuilder (rowan 0.12 src/green/builder.rs) *)
(** [parents: Vec<(SyntaxKind, usize)>, children: Vec<GreenElement>]; both stacks are kept in
    push order. The node cache is semantically transparent and left out. *)
Record builder := mkB { b_parents : list (kind * nat); b_children : list green }.
Definition builder_new : builder := mkB [] [].

Definition b_start (k : kind) (b : builder) : builder :=
  mkB (b_parents b ++ [(k, length (b_children b))]) (b_children b).
Definition b_token (k : kind) (t : text) (b : builder) : builder :=
  mkB (b_parents b) (b_children b ++ [GTok k t]).
(** [finish_node]: pop().unwrap(), then wrap the children from first_child on. *)
Definition b_finish_node (b : builder) : res builder :=
  match rev (b_parents b) with
  | [] => Panic
  | (k, first) :: _ =>
    Ok (mkB (removelast (b_parents b))
            (firstn first (b_children b) ++ [GNode k (skipn first (b_children b))]))
  end.
(** [finish]: assert_eq!(children.len(), 1) and the child must be a node. *)
Definition b_finish (b : builder) : res green :=
  match b_children b with
  | [GNode k cs] => Ok (GNode k cs)
  | _ => Panic
  end.
