(** TextEdit.v — crates/text_edit/src/lib.rs. Sizes and offsets (TextSize) are u32 in Rust: nat
    here, with additions and subtractions that panic where u32 arithmetic overflows (as in
    builds with overflow checks). A TextRange has start <= end by construction (TextRange::new
    asserts it); theorems take that as a hypothesis. *)
From Verif Require Import Base.

(** u32 addition and subtraction. *)
Definition uadd (a b : nat) : res nat := if fits_u32 (a + b) then Ok (a + b) else Panic.
Definition usub (a b : nat) : res nat := if b <=? a then Ok (a - b) else Panic.
(** text_size: TextSize::of(&str), panics when the length does not fit in u32. *)
Definition size_of (t : text) : res nat := if fits_u32 (blen t) then Ok (blen t) else Panic.
(** text_size: TextRange::len. *)
Definition range_len (r : range) : nat := r_end r - r_start r.

(** lib.rs:12-16 *)
Record indel := mkIndel { i_insert : text; i_delete : range }.
Definition i_start (i : indel) : nat := r_start (i_delete i).
Definition i_end (i : indel) : nat := r_end (i_delete i).
(** lib.rs:19-21, 24-26: TextEdit and TextEditBuilder both hold the vector of indels. *)
Definition text_edit := list indel.

(** lib.rs:39-43 Indel::apply; String::replace_range panics off char boundaries, out of range,
    or when start > end. *)
Definition indel_apply (i : indel) (t : text) : res text :=
  if i_end i <? i_start i then Panic
  else match bsplit (i_start i) t, bsplit (i_end i) t with
       | Some (a, _), Some (_, b) => Ok (a ++ i_insert i ++ b)
       | _, _ => Panic
       end.

(** lib.rs:45-47 Indel::offset *)
Definition indel_offset (i : indel) : res nat :=
  let? n := size_of (i_insert i) in usub n (range_len (i_delete i)).

(** lib.rs:194 the sort key (start, end), ordered lexicographically. *)
Definition key_leb (a b : indel) : bool :=
  (i_start a <? i_start b) || ((i_start a =? i_start b) && (i_end a <=? i_end b)).

(** slice::sort_by_key is a stable sort; stable insertion sort here. *)
Fixpoint insert_key (x : indel) (l : list indel) : list indel :=
  match l with
  | [] => [x]
  | y :: l' => if key_leb x y then x :: l else y :: insert_key x l'
  end.
Definition sort_key (l : list indel) : list indel := fold_right insert_key [] l.

(** lib.rs:195-198: every adjacent pair satisfies l.end <= r.start. *)
Fixpoint adjacent_ok (l : list indel) : bool :=
  match l with
  | a :: (b :: _) as l' => (i_end a <=? i_start b) && adjacent_ok l'
  | _ => true
  end.

(** lib.rs:193-199 check_disjoint: sorts in place and returns the verdict. *)
Definition check_disjoint (l : list indel) : list indel * bool :=
  let s := sort_key l in (s, adjacent_ok s).
(** lib.rs:190-192 assert_disjoint *)
Definition assert_disjoint (l : list indel) : res (list indel) :=
  let (s, b) := check_disjoint l in if b then Ok s else Panic.

(** lib.rs:182-187 TextEditBuilder::indel *)
Definition builder_indel (b : text_edit) (i : indel) : res text_edit :=
  let b := b ++ [i] in
  if length b <=? 16 then assert_disjoint b else Ok b.
(** lib.rs:174-178 TextEditBuilder::finish *)
Definition builder_finish (b : text_edit) : res text_edit := assert_disjoint b.
(** lib.rs:51-53 builder(), then any sequence of builder calls (165-173), then finish. *)
Fixpoint builder_calls (b : text_edit) (is : list indel) : res text_edit :=
  match is with
  | [] => Ok b
  | i :: is' => let? b := builder_indel b i in builder_calls b is'
  end.
Definition build (is : list indel) : res text_edit :=
  let? b := builder_calls [] is in builder_finish b.
(** lib.rs:29-37, 55-71: insert, delete and replace, as one-indel edits. *)
Definition edit_replace (r : range) (s : text) : res text_edit := build [mkIndel s r].
Definition edit_insert (o : nat) (s : text) : res text_edit := build [mkIndel s (mkRange o o)].
Definition edit_delete (r : range) : res text_edit := build [mkIndel [] r].
(** lib.rs:179-181 invalidates_offset; contains_inclusive is start <= offset <= end. *)
Definition invalidates_offset (b : text_edit) (o : nat) : bool :=
  existsb (fun i => (i_start i <=? o) && (o <=? i_end i)) b.

(** lib.rs:95-99 *)
Fixpoint total_len (acc : nat) (e : text_edit) : res nat :=
  match e with
  | [] => Ok acc
  | i :: e' =>
    let? n := size_of (i_insert i) in
    let? acc := uadd acc n in
    let? d := usub (i_end i) (i_start i) in
    let? acc := usub acc d in
    total_len acc e'
  end.
(** lib.rs:101-111 *)
Fixpoint apply_loop (t : text) (buf : text) (prev : nat) (e : text_edit) : res text :=
  match e with
  | [] => let? s := bslice t prev (blen t) in Ok (buf ++ s)
  | i :: e' =>
    let? buf := if prev <? i_start i then let? s := bslice t prev (i_start i) in Ok (buf ++ s) else Ok buf in
    apply_loop t (buf ++ i_insert i) (i_end i) e'
  end.
(** lib.rs:85-117 TextEdit::apply *)
Definition edit_apply (e : text_edit) (t : text) : res text :=
  match e with
  | [] => Ok t
  | [i] => indel_apply i t
  | _ =>
    let? n := size_of t in
    let? n := total_len n e in
    let? buf := apply_loop t [] 0 e in
    let? m := size_of buf in
    let? _ := rassert (m =? n) in
    Ok buf
  end.

(** lib.rs:119-128 TextEdit::union: the new value of self and the result. [inl] is Ok(()), [inr]
    is Err(other). *)
Definition edit_union (self other : text_edit) : res (text_edit * (unit + text_edit)) :=
  let (_, ok) := check_disjoint (self ++ other) in
  if ok then let? s := assert_disjoint (self ++ other) in Ok (s, inl tt)
  else Ok (self, inr other).

(** lib.rs:130-143 apply_to_offset *)
Fixpoint offset_loop (o r : nat) (e : text_edit) : res (option nat) :=
  match e with
  | [] => Ok (Some r)
  | i :: e' =>
    if o <=? i_start i then Ok (Some r)
    else if o <? i_end i then Ok None
    else
      let? n := size_of (i_insert i) in
      let? r := uadd r n in
      let? r := usub r (range_len (i_delete i)) in
      offset_loop o r e'
  end.
Definition apply_to_offset (e : text_edit) (o : nat) : res (option nat) := offset_loop o o e.
