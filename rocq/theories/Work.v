(** Work.v — the parser with a count of the operations it performs: every call of [nth], [advance],
    [push_event], [start], [complete], [start_error] and [precede] of crates/parser/src/parser.rs counts one.
    Each is a constant amount of work: indexing a vector, pushing to one, or replacing an element. *)
From Verif Require Import Base SyntaxKind TokenSet Lexer Parser Grammar Event.

(** A computation of the parser that is given the operations so far and gives them back. *)
Definition C (A : Type) : Type := nat -> P (A * nat).
Definition c_ret {A} (a : A) : C A := fun c => pret (a, c).
Definition c_bind {A B} (m : C A) (f : A -> C B) : C B := fun c => pbind (m c) (fun r => f (fst r) (snd r)).
(** One operation. *)
Definition op {A} (m : P A) : C A := fun c => pbind m (fun a => pret (a, S c)).

(** parser.rs: the operations of Parser.v ([event_ops]), counted. *)
Definition count_ops : ops :=
  {| M := C; mark := cmark; ret := @c_ret; bind := @c_bind;
     panic := fun A _ => ppanic; out := fun A _ => pout;
     p_nth := fun n => op (ev_nth n);
     p_adv := op p_advance_expect;
     p_push_error := fun e => op (push_event (EError e));
     node_by := fun body => c_bind (op p_start) (fun m => c_bind body (fun k => op (m_complete m k)));
     pre_node_by := fun c body => c_bind (op (c_precede c)) (fun m => c_bind body (fun k => op (m_complete m k)));
     err_node := fun body => c_bind (op p_start_error) (fun m => c_bind body (fun e => op (m_complete_error m e))) |}.

(** crates/parser/src/lib.rs:75-101: the events of a text's tokens, and the operations. *)
Definition parse_work (s : token_source) : res (list event * nat) :=
  let? (r, st) := root_f (O := count_ops) (parse_fuel s) 0 (mkP s []) in
  Ok (p_events st, snd r).

(** event.rs:42-57, the links followed. *)
Fixpoint walk_work (fuel : nat) (evs : list event) (idx : nat) (fp : option nat) : nat * list event :=
  match fp with
  | None => (0, evs)
  | Some fwd =>
    match fuel with
    | 0 => (0, evs)
    | S fuel' =>
      match nth_error evs (idx + fwd) with
      | Some (EStart _ fp') =>
        let (w, evs) := walk_work fuel' (list_set evs (idx + fwd) tombstone) (idx + fwd) fp' in (S w, evs)
      | _ => (0, evs)
      end
    end
  end.
(** event.rs:30-67 [process]: one for each turn of the loop and each link followed. *)
Fixpoint process_work (todo : nat) (i : nat) (evs : list event) : nat :=
  match todo with
  | 0 => 0
  | S todo' =>
    match nth_error evs i with
    | Some (EStart k fp) =>
      let evs := list_set evs i tombstone in
      if kind_eqb k KTombstone then S (process_work todo' (S i) evs)
      else let (w, evs) := walk_work (S (length evs)) evs i fp in S (w + process_work todo' (S i) evs)
    | _ => S (process_work todo' (S i) (list_set evs i tombstone))
    end
  end.
