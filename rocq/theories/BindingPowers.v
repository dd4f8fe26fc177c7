(** BindingPowers.v — lib/binding_powers: assigning binding powers to operator declarations. *)
From Verif Require Import Base.

(** lib/binding_powers/src/lib.rs:3, 8 [NOT_AN_OP], [LOWEST]. *)
Definition NOT_AN_OP : nat := 0.
Definition LOWEST : nat := 1.

(** lib.rs:24-27 [Assoc]. *)
Inductive assoc := ALeft | ARight.
(** lib.rs:37-41 [PrecType]. *)
Inductive prec_type := PInfix (a : assoc) | PPrefix | PPostfix.

(** lib.rs:30-34 [Precedences]. *)
Record precs := mkPrecs
  { pr_prefix : option nat; pr_infix : option (nat * nat); pr_postfix : option nat }.

Definition no_precs : precs := mkPrecs None None None.

(** [res[i] = v] on an array; panics when out of bounds. *)
Fixpoint arr_update {A} (l : list A) (i : nat) (f : A -> A) : res (list A) :=
  match l, i with
  | [], _ => Panic
  | x :: l', 0 => Ok (f x :: l')
  | x :: l', S i' => let? r := arr_update l' i' f in Ok (x :: r)
  end.

(** [counter += 1] on a u8: overflow is a (compile-time) panic. *)
Definition u8_incr (c : nat) : res nat := if c =? 255 then Panic else Ok (S c).

(** lib.rs:48-92 the loop of [BindingPowers::new]. *)
Fixpoint bp_loop (tbl : list precs) (counter : nat) (kinds : list (nat * prec_type))
  : res (list precs) :=
  match kinds with
  | [] => Ok tbl
  | (id, PInfix a) :: rest =>
    let? first := u8_incr counter in
    let? second := u8_incr first in
    let infix := match a with ALeft => (first, second) | ARight => (second, first) end in
    let? tbl := arr_update tbl id (fun p => mkPrecs (pr_prefix p) (Some infix) (pr_postfix p)) in
    bp_loop tbl second rest
  | (id, PPrefix) :: rest =>
    let? second := u8_incr counter in
    let? tbl := arr_update tbl id (fun p => mkPrecs (Some second) (pr_infix p) (pr_postfix p)) in
    bp_loop tbl second rest
  | (id, PPostfix) :: rest =>
    let? first := u8_incr counter in
    let? tbl := arr_update tbl id (fun p => mkPrecs (pr_prefix p) (pr_infix p) (Some first)) in
    bp_loop tbl first rest
  end.

(** lib.rs:47-93 [BindingPowers::<N>::new]; the counter starts at 1. *)
Definition bp_new (n : nat) (kinds : list (nat * prec_type)) : res (list precs) :=
  bp_loop (repeat no_precs n) 1 kinds.

(** lib.rs:95-101 [get_infix]. *)
Definition get_infix (t : list precs) (i : nat) : nat * nat :=
  match nth_error t i with
  | Some p => match pr_infix p with Some x => x | None => (NOT_AN_OP, NOT_AN_OP) end
  | None => (NOT_AN_OP, NOT_AN_OP)
  end.
(** lib.rs:111-117 [get_prefix]. *)
Definition get_prefix (t : list precs) (i : nat) : nat :=
  match nth_error t i with
  | Some p => match pr_prefix p with Some x => x | None => NOT_AN_OP end
  | None => NOT_AN_OP
  end.
(** lib.rs:103-109 [get_postfix]. *)
Definition get_postfix (t : list precs) (i : nat) : nat :=
  match nth_error t i with
  | Some p => match pr_postfix p with Some x => x | None => NOT_AN_OP end
  | None => NOT_AN_OP
  end.
