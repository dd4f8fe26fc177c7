(** Vfs.v — crates/vfs/src/lib.rs and crates/vfs/src/path_interner.rs. *)
From Verif Require Import Base.

(** An AbsPathBuf: compared for equality only. *)
Definition path := string.
(** File contents, Vec<u8>: either valid UTF-8, and then determined by its text, or some other
    byte string, identified here by a number. [String::from_utf8] and [into_bytes] are then
    [as_utf8] and [CText]. *)
Inductive contents := CText (t : text) | CRaw (n : N).
Definition contents_eq_dec (a b : contents) : {a = b} + {a <> b}.
Proof. decide equality; [apply (list_eq_dec N.eq_dec)|apply N.eq_dec]. Defined.
Definition as_utf8 (c : contents) : option text := match c with CText t => Some t | CRaw _ => None end.

(** lib.rs:45-52 ChangeKind *)
Inductive change_kind := Create | Modify | Delete.
(** lib.rs:23-28 ChangedFile; FileId (12) is a nat. *)
Definition changed_file := (nat * change_kind)%type.
(** lib.rs:32-34 ChangedFile::exists *)
Definition cf_exists (c : changed_file) : bool := match snd c with Delete => false | _ => true end.
(** lib.rs:38-40 is_created_or_deleted *)
Definition is_created_or_deleted (c : changed_file) : bool := match snd c with Create | Delete => true | Modify => false end.

(** lib.rs:15-19 Vfs. The interner's IndexSet (path_interner.rs:12-14) is the list of its
    elements in insertion order. *)
Record vfs := mkVfs { v_paths : list path; v_data : list (option contents); v_changes : list changed_file }.
Definition vfs_default : vfs := mkVfs [] [] [].

(** indexmap get_index_of *)
Fixpoint index_of (p : path) (l : list path) : option nat :=
  match l with [] => None | q :: l' => if String.eqb p q then Some 0 else option_map S (index_of p l') end.
(** path_interner.rs:17-19 get *)
Definition interner_get (l : list path) (p : path) : option nat := index_of p l.
(** path_interner.rs:21-25 intern; IndexSet::insert_full, then the assertion id < u32::MAX. *)
Definition intern (l : list path) (p : path) : res (list path * nat) :=
  let '(l', id) := match index_of p l with Some i => (l, i) | None => (l ++ [p], length l) end in
  let? _ := rassert (fits_u32 (S id)) in Ok (l', id).
(** path_interner.rs:27-29 lookup *)
Definition interner_lookup (l : list path) (id : nat) : res path := runwrap (nth_error l id).

(** lib.rs:150-152 get: indexing panics out of bounds. *)
Definition v_get (v : vfs) (id : nat) : res (option contents) := runwrap (nth_error (v_data v) id).
(** Vec::resize_with(len, || None) with len >= data.len() *)
Definition resize (l : list (option contents)) (n : nat) : list (option contents) := l ++ repeat None (n - length l).
(** lib.rs:137-143 alloc_file_id *)
Definition alloc_file_id (v : vfs) (p : path) : res (vfs * nat) :=
  let? r := intern (v_paths v) p in let '(ps, id) := r in
  Ok (mkVfs ps (resize (v_data v) (Nat.max (length (v_data v)) (id + 1))) (v_changes v), id).
(** Assignment through get_mut, lib.rs:159-161. *)
Fixpoint update {A} (l : list A) (i : nat) (x : A) : list A :=
  match l, i with [], _ => [] | _ :: l', 0 => x :: l' | y :: l', S i' => y :: update l' i' x end.

(** lib.rs:105-118 set_file_contents *)
Definition set_file_contents (v : vfs) (p : path) (c : option contents) : res (vfs * bool) :=
  let? r := alloc_file_id v p in let '(v, id) := r in
  let? old := v_get v id in
  let change k := Ok (mkVfs (v_paths v) (update (v_data v) id c) (v_changes v ++ [(id, k)]), true) in
  match old, c with
  | None, None => Ok (v, false)
  | None, Some _ => change Create
  | Some _, None => change Delete
  | Some a, Some b => if contents_eq_dec a b then Ok (v, false) else change Modify
  end.
(** lib.rs:58-60 len *)
Definition v_len (v : vfs) : nat := length (v_data v).
(** lib.rs:63-65 file_id *)
Definition v_file_id (v : vfs) (p : path) : res (option nat) :=
  match interner_get (v_paths v) p with
  | None => Ok None
  | Some id => let? c := v_get v id in Ok (match c with Some _ => Some id | None => None end)
  end.
(** lib.rs:72-74 file_path *)
Definition v_file_path (v : vfs) (id : nat) : res path := interner_lookup (v_paths v) id.
(** lib.rs:82-84 file_contents *)
Definition v_file_contents (v : vfs) (id : nat) : res contents := let? c := v_get v id in runwrap c.
(** lib.rs:89-97 iter *)
Fixpoint v_iter_from (v : vfs) (ids : list nat) : res (list (nat * path)) :=
  match ids with
  | [] => Ok []
  | id :: ids' =>
    let? c := v_get v id in
    match c with
    | None => v_iter_from v ids'
    | Some _ => let? p := v_file_path v id in let? l := v_iter_from v ids' in Ok ((id, p) :: l)
    end
  end.
Definition v_iter (v : vfs) : res (list (nat * path)) := v_iter_from v (seq 0 (length (v_data v))).
(** lib.rs:121-123 has_changes, 126-128 take_changes *)
Definition v_has_changes (v : vfs) : bool := match v_changes v with [] => false | _ => true end.
Definition v_take_changes (v : vfs) : vfs * list changed_file := (mkVfs (v_paths v) (v_data v) [], v_changes v).
