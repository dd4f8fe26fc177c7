(** TestUtils.v — model of crates/test_utils/src/lib.rs (the cursor markers of test texts) and of
    xtask/src/utils.rs [update] (how generated files are written). *)
From Verif Require Import Base.

(** lib.rs:4 [CURSOR_MARKER]. *)
Definition CURSOR_MARKER : text := txt "$0".

(** [str::starts_with]. *)
Fixpoint starts_with (p t : text) : bool :=
  match p, t with
  | [], _ => true
  | x :: p', y :: t' => N.eqb x y && starts_with p' t'
  | _ :: _, [] => false
  end.

(** [str::find(&str)]: the byte offset of the leftmost occurrence. *)
Fixpoint str_find (p t : text) : option nat :=
  if starts_with p t then Some 0
  else match t with
       | [] => None
       | c :: t' => option_map (fun n => utf8_len c + n) (str_find p t')
       end.

(** [usize as u32] wraps. *)
Definition as_u32 (n : nat) : nat := N.to_nat (N.modulo (N.of_nat n) 4294967296).

(** lib.rs:42-49 [try_extract_offset]; the two slices may in principle panic. *)
Definition try_extract_offset (t : text) : res (option (nat * text)) :=
  match str_find CURSOR_MARKER t with
  | None => Ok None
  | Some pos =>
      let? lhs := bslice t 0 pos in
      let? rhs := bslice t (pos + blen CURSOR_MARKER) (blen t) in
      Ok (Some (as_u32 pos, lhs ++ rhs))
  end.

(** lib.rs:33-38 [extract_offset]. *)
Definition extract_offset (t : text) : res (nat * text) :=
  let? r := try_extract_offset t in runwrap r.

(** lib.rs:61-65 [try_extract_range]; TextRange::new asserts start <= end. *)
Definition try_extract_range (t : text) : res (option (range * text)) :=
  let? r1 := try_extract_offset t in
  match r1 with
  | None => Ok None
  | Some (start, t1) =>
      let? r2 := try_extract_offset t1 in
      match r2 with
      | None => Ok None
      | Some (end_, t2) =>
          let? _ := rassert (start <=? end_) in
          Ok (Some (mkRange start end_, t2))
      end
  end.

(** lib.rs:52-57 [extract_range]. *)
Definition extract_range (t : text) : res (range * text) :=
  let? r := try_extract_range t in runwrap r.

(** lib.rs:67-78 [format_diff]: the chunks of a diff, deletions on a red and insertions on a green
    background. *)
Inductive chunk := Equal (t : text) | Delete (t : text) | Insert (t : text).

Definition ESC : text := [27%N].
Definition format_diff (l : list chunk) : text :=
  concat (map (fun c => match c with
                        | Equal t => t
                        | Delete t => ESC ++ txt "[41m" ++ t ++ ESC ++ txt "[0m"
                        | Insert t => ESC ++ txt "[42m" ++ t ++ ESC ++ txt "[0m"
                        end) l).

(** xtask/src/utils.rs:29-31 [normalize]: [s.replace("\r\n", "\n")], leftmost, not overlapping. *)
Fixpoint normalize (s : text) : text :=
  match s with
  | [] => []
  | c :: s' =>
      match s' with
      | d :: s'' => if N.eqb c 13 && N.eqb d 10 then 10%N :: normalize s'' else c :: normalize s'
      | [] => [c]
      end
  end.

(** A disk: what reading each file gives ([None]: no such file, or not readable as UTF-8). *)
Definition disk := text -> option text.
Definition write_file (d : disk) (p contents : text) : disk :=
  fun q => if text_eqb q p then Some contents else d q.

(** xtask/src/utils.rs:28-43 [update]. [wr] says whether writing that file would succeed; the
    result is the new disk, whether a write was made, and whether [update] returned [Ok].
    A failed write is modelled as leaving the disk unchanged. *)
Definition update (wr : bool) (d : disk) (p contents : text) : disk * bool * bool :=
  match d p with
  | Some old =>
      if text_eqb (normalize old) (normalize contents) then (d, false, true)
      else if wr then (write_file d p contents, true, true) else (d, false, false)
  | None => if wr then (write_file d p contents, true, true) else (d, false, false)
  end.
