(** Ptr.v — crates/syntax/src/ptr.rs. *)
From Verif Require Import Base SyntaxKind Tree Ast.

(** ptr.rs:12-16 [SyntaxNodePtr]. *)
Record node_ptr := mkPtr { np_range : range; np_kind : kind }.
(** ptr.rs:19-21 [SyntaxNodePtr::new]. *)
Definition ptr_new (e : elem) : node_ptr := mkPtr (el_range e) (el_kind e).

(** text_size: [TextRange::contains_range] and [==]. *)
Definition contains_range (a b : range) : bool := (r_start a <=? r_start b) && (r_end b <=? r_end a).
Definition range_eqb (a b : range) : bool := (r_start a =? r_start b) && (r_end a =? r_end b).

(** ptr.rs:25-27: the successors of a node: the node, then repeatedly the first child node whose
    range contains [r]. Structural on the tree instead of a lazy iterator; the iterator is only
    consumed by the [find] of [ptr_to_node]. *)
Fixpoint ptr_chain (r : range) (off : nat) (g : green) {struct g} : list elem :=
  mkElem off g ::
  match g with
  | GTok _ _ => []
  | GNode _ cs =>
    (fix go (off : nat) (cs : list green) : list elem :=
       match cs with
       | [] => []
       | c :: cs' =>
         if is_gnode c && contains_range (el_range (mkElem off c)) r then ptr_chain r off c
         else go (off + green_len c) cs'
       end) off cs
  end.

(** ptr.rs:23-30 [SyntaxNodePtr::to_node]; the assertion that [root] has no parent always holds
    for a root element. *)
Definition ptr_to_node (p : node_ptr) (root : green) : res elem :=
  runwrap (find (fun e => range_eqb (el_range e) (np_range p) && kind_eqb (el_kind e) (np_kind p))
             (ptr_chain (np_range p) 0 root)).

(** ptr.rs:32-37 [SyntaxNodePtr::cast], ptr.rs:79-84 [AstPtr::cast]: [can_cast] stands for the
    node type. *)
Definition ptr_cast (can_cast : kind -> bool) (p : node_ptr) : option node_ptr :=
  if can_cast (np_kind p) then Some p else None.
(** ptr.rs:70-73 [AstPtr::to_node]. *)
Definition ast_ptr_to_node (can_cast : kind -> bool) (p : node_ptr) (root : green) : res elem :=
  let? e := ptr_to_node p root in
  if can_cast (el_kind e) then Ok e else Panic.
