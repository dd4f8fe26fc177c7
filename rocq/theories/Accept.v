(** Accept.v — lib/accept: character sources and accept combinators. *)
From Verif Require Import Base.

(** lib/accept/src/source.rs:42-45 [CharSource { input_len, chars }]. *)
Record source := mkSource { s_input_len : nat; s_rest : text }.

(** source.rs:48-50 [CharSource::new]: panics when the byte length does not fit in u32. *)
Definition source_new (t : text) : res source :=
  if fits_u32 (blen t) then Ok (mkSource (blen t) t) else Panic.

(** source.rs:61-63 [pos]: input_len - chars_len. *)
Definition s_pos (s : source) : nat := s_input_len s - blen (s_rest s).

(** source.rs:39 [EOF_CHAR]. *)
Definition eof_char : char := 0%N.

(** source.rs:78-80 [nth]. *)
Definition s_nth (s : source) (n : nat) : char := nth n (s_rest s) eof_char.
(** source.rs:26-28 [current]. *)
Definition s_current (s : source) : char := s_nth s 0.
(** source.rs:86-88 [nth_is_eof]. *)
Definition s_nth_is_eof (s : source) (n : nat) : bool := length (s_rest s) <=? n.
(** source.rs:82-84 [is_eof]. *)
Definition s_is_eof (s : source) : bool := s_nth_is_eof s 0.

(** source.rs:74-76 [advance], and 12-20 [bump_raw]/[bump_expect]: panic at the end. *)
Definition s_bump (s : source) : res source :=
  match s_rest s with
  | [] => Panic
  | _ :: r => Ok (mkSource (s_input_len s) r)
  end.

(** The types implementing [Lexable]/[Accept] for a char source (accept.rs:97-145,
    combinators.rs), as a deep embedding. Tuples of any arity (the macro gives 2..13) are
    lists. *)
Inductive lexable : Type :=
| LChr (c : char)                      (* accept.rs:97-105   char *)
| LPred (f : char -> bool)             (* accept.rs:107-121  F: Fn(T) -> bool *)
| LRange (a b : char)                  (* accept.rs:123-131  Range<char> (half open) *)
| LAny                                 (* accept.rs:133-145  Any *)
| LSeq (ts : list lexable)             (* combinators.rs:5-47 *)
| LAnd (ts : list lexable)             (* combinators.rs:48-81 *)
| LOr (ts : list lexable)              (* combinators.rs:82-141 *)
| LNot (t : lexable)                   (* combinators.rs:143-164 *)
| LWhile (t : lexable)                 (* combinators.rs:166-201 *)
| LUntil (t : lexable)                 (* combinators.rs:203-228 *)
| LRepeat (t : lexable) (n : nat).     (* combinators.rs:230-258 *)

(** [Lexable::nth]. *)
Fixpoint l_nth (t : lexable) (s : source) (n : nat) {struct t} : bool :=
  match t with
  | LChr c => N.eqb (s_nth s n) c
  | LPred f => f (s_nth s n)
  | LRange a b => (N.leb a (s_nth s n)) && (N.ltb (s_nth s n) b)
  | LAny => negb (s_nth_is_eof s n)
  | LSeq ts =>
      (fix go (ts : list lexable) (i : nat) : bool :=
         match ts with
         | [] => true
         | t' :: ts' => l_nth t' s (i + n) && go ts' (S i)
         end) ts 0
  | LAnd ts => forallb (fun t' => l_nth t' s n) ts
  | LOr ts => existsb (fun t' => l_nth t' s n) ts
  | LNot t' => negb (s_is_eof s) && negb (l_nth t' s n)
  | LWhile t' => l_nth t' s n
  | LUntil t' => negb (s_is_eof s) && negb (l_nth t' s n)
  | LRepeat t' k => forallb (fun i => l_nth t' s (n + i)) (seq 0 k)
  end.

(** [Lexable::peek] (accept.rs:58-63). *)
Definition l_peek (t : lexable) (s : source) : bool := l_nth t s 0.

(** Default [Accept::accept] (accept.rs:70-80). *)
Definition default_accept (t : lexable) (s : source) : res (bool * source) :=
  if l_peek t s then let? s' := s_bump s in Ok (true, s') else Ok (false, s).

(** [while !l.is_eof() && self.0.accept(l) {}] (combinators.rs:189). *)
Fixpoint while_loop (fuel : nat) (acc : source -> res (bool * source)) (s : source)
  : res source :=
  match fuel with
  | 0 => OutOfFuel
  | S fuel' =>
    if s_is_eof s then Ok s
    else let? (b, s') := acc s in
         if b then while_loop fuel' acc s' else Ok s'
  end.

(** [while self.0.accept(l) { count += 1 }] (combinators.rs:194-200). *)
Fixpoint count_loop (fuel : nat) (acc : source -> res (bool * source)) (count : nat)
  (s : source) : res (nat * source) :=
  match fuel with
  | 0 => OutOfFuel
  | S fuel' =>
    let? (b, s') := acc s in
    if b then count_loop fuel' acc (S count) s' else Ok (count, s')
  end.

(** Enough iterations for any loop that makes progress; a loop that exhausts it has had an
    iteration that consumed nothing and therefore never ends. *)
Definition loop_fuel (s : source) : nat := S (S (length (s_rest s))).

(** [Accept::accept]. *)
Fixpoint l_accept (t : lexable) (s : source) {struct t} : res (bool * source) :=
  match t with
  | LSeq ts =>                                  (* combinators.rs:26-34 *)
      if l_peek (LSeq ts) s then
        let? s' :=
          (fix go (ts : list lexable) (s : source) : res source :=
             match ts with
             | [] => Ok s
             | t' :: ts' => let? (_, s') := l_accept t' s in go ts' s'
             end) ts s in
        Ok (true, s')
      else Ok (false, s)
  | LOr ts =>                                   (* combinators.rs:103-106 *)
      (fix go (ts : list lexable) (s : source) : res (bool * source) :=
         match ts with
         | [] => Ok (false, s)
         | t' :: ts' =>
             let? (b, s') := l_accept t' s in
             if b then Ok (true, s') else go ts' s'
         end) ts s
  | LWhile t' =>                                (* combinators.rs:184-192 *)
      if s_is_eof s && negb (l_peek (LWhile t') s) then Ok (false, s)
      else let? s' := while_loop (loop_fuel s) (l_accept t') s in Ok (true, s')
  | LUntil t' =>                                (* combinators.rs:221-223: While(Not(t)) *)
      if s_is_eof s && negb (l_peek (LUntil t') s) then Ok (false, s)
      else let? s' := while_loop (loop_fuel s) (default_accept (LNot t')) s in Ok (true, s')
  | LRepeat t' n =>                             (* combinators.rs:248-257 *)
      if l_peek (LRepeat t' n) s then
        let? s' :=
          (fix go (k : nat) (s : source) : res source :=
             match k with
             | 0 => Ok s
             | S k' => let? (_, s') := l_accept t' s in go k' s'
             end) n s in
        Ok (true, s')
      else Ok (false, s)
  | _ => default_accept t s
  end.

(** [Accept::accept_count] (accept.rs:82-87; overridden in combinators.rs:194-200, 225-227). *)
Definition l_accept_count (t : lexable) (s : source) : res (nat * source) :=
  match t with
  | LWhile t' => count_loop (loop_fuel s) (l_accept t') 0 s
  | LUntil t' => count_loop (loop_fuel s) (default_accept (LNot t')) 0 s
  | _ => let? (b, s') := l_accept t s in Ok ((if b then 1 else 0), s')
  end.

(** [Accept::bump] (accept.rs:89-94): asserts that accept succeeded. *)
Definition l_bump (t : lexable) (s : source) : res source :=
  let? (b, s') := l_accept t s in
  if b then Ok s' else Panic.

(** [Acceptor::bump_then] (accept.rs:24-30). *)
Definition l_bump_then (t : lexable) (s : source) : res (char * source) :=
  let? s' := l_bump t s in Ok (s_nth s' 0, s').
