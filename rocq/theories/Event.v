(** Event.v — crates/parser/src/event.rs:27-70 [process]: turning the event list into calls on
    a TreeSink. The calls are recorded as a list of [step]s (no sink method returns a value to
    [process], so recording and replaying is the same as calling). *)
From Verif Require Import Base SyntaxKind Parser.

(** The TreeSink methods, crates/parser/src/lib.rs:63-83 ([finish] is the end of the list). *)
Inductive step :=
| SStart (k : kind)
| SFinish
| STok
| SErr (e : perr)
| SStartErr
| SFinishErr (e : perr).

(** event.rs:42-57: following [forward_parent] links from [idx], collecting kinds (in the order
    pushed) and replacing visited events by tombstones. *)
Fixpoint walk (fuel : nat) (evs : list event) (idx : nat) (fp : option nat) (acc : list kind)
  : res (list kind * list event) :=
  match fp with
  | None => Ok (acc, evs)
  | Some fwd =>
    match fuel with
    | 0 => OutOfFuel
    | S fuel' =>
      let idx := idx + fwd in
      match nth_error evs idx with
      | Some (EStart k fp') =>
        let evs := list_set evs idx tombstone in
        let acc := if kind_eqb k KTombstone then acc else acc ++ [k] in
        walk fuel' evs idx fp' acc
      | _ => Panic
      end
    end
  end.

(** event.rs:30-67: the main loop, from index [i]. [todo] is the number of indices left
    ([0..events.len()]). *)
Fixpoint process_loop (todo : nat) (i : nat) (evs : list event) : res (list step) :=
  match todo with
  | 0 => Ok []
  | S todo' =>
    match nth_error evs i with
    | None => Panic
    | Some e =>
      let evs := list_set evs i tombstone in
      match e with
      | EStart k fp =>
        if kind_eqb k KTombstone then process_loop todo' (S i) evs
        else
          let? (ks, evs) := walk (S (length evs)) evs i fp [k] in
          let? rest := process_loop todo' (S i) evs in
          Ok (map SStart (rev ks) ++ rest)
      | EError e => let? rest := process_loop todo' (S i) evs in Ok (SErr e :: rest)
      | EFinish => let? rest := process_loop todo' (S i) evs in Ok (SFinish :: rest)
      | EToken => let? rest := process_loop todo' (S i) evs in Ok (STok :: rest)
      | EStartError => let? rest := process_loop todo' (S i) evs in Ok (SStartErr :: rest)
      | EFinishError e => let? rest := process_loop todo' (S i) evs in Ok (SFinishErr e :: rest)
      end
    end
  end.

Definition process (evs : list event) : res (list step) :=
  process_loop (length evs) 0 evs.
