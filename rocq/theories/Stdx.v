(** Stdx.v — crates/stdx/src/lib.rs (partition_point) and crates/stdx/src/paths.rs (path
    normalization). *)
From Verif Require Import Base.

(** crates/stdx/src/lib.rs:11-39 partition_point. The predicate is a pure function (FnMut in
    Rust). [get_unchecked] out of bounds is undefined behaviour: Panic here, so that a proof of
    [Ok] excludes it. *)
Fixpoint pp_loop {T} (fuel : nat) (slice : list T) (pred : T -> bool) (left right : nat) : res nat :=
  match fuel with
  | 0 => OutOfFuel
  | S fuel' =>
    if left =? right then Ok left
    else
      let mid := left + (right - left) / 2 in
      match nth_error slice mid with
      | None => Panic
      | Some value => if pred value then pp_loop fuel' slice pred (mid + 1) right else pp_loop fuel' slice pred left mid
      end
  end.
Definition partition_point {T} (slice : list T) (pred : T -> bool) : res nat :=
  pp_loop (S (length slice)) slice pred 0 (length slice).

(** std::path::Component on Unix (no Prefix: it only occurs on Windows, so the first branch of
    normalize_path and the unreachable! arm are not modelled). *)
Inductive component := RootDir | CurDir | ParentDir | Normal (s : text).

(** std::path::Path::components on Unix: the separators are '/'; empty parts and "." are
    dropped, except a leading "." of a relative path. *)
Fixpoint split_sep (cur : text) (t : text) : list text :=
  match t with
  | [] => [cur]
  | c :: t' => if N.eqb c 47 then cur :: split_sep [] t' else split_sep (cur ++ [c]) t'
  end.
Definition parts (t : text) : list text := split_sep [] t.
Definition part_component (p : text) : list component :=
  if text_eqb p [] then [] else if text_eqb p (txt ".") then [] else if text_eqb p (txt "..") then [ParentDir] else [Normal p].
Definition components (t : text) : list component :=
  match t with
  | c :: _ => if N.eqb c 47 then RootDir :: flat_map part_component (parts t)
              else match parts t with
                   | p :: ps => (if text_eqb p (txt ".") then [CurDir] else part_component p) ++ flat_map part_component ps
                   | [] => []
                   end
  | [] => []
  end.
Definition is_absolute (t : text) : bool := match t with c :: _ => N.eqb c 47 | [] => false end.

(** PathBuf::push on Unix: an absolute argument replaces the buffer; otherwise a separator is
    added unless the buffer is empty or ends with one. *)
Definition path_push (b : text) (p : text) : text :=
  if is_absolute p then p
  else match b with
       | [] => p
       | _ => if N.eqb (last b 0%N) 47 then b ++ p else b ++ [47%N] ++ p
       end.
(** Component::as_os_str *)
Definition component_str (c : component) : text :=
  match c with RootDir => txt "/" | CurDir => txt "." | ParentDir => txt ".." | Normal s => s end.
(** A PathBuf as the list of its components, rendered by pushing them one by one. *)
Definition render (cs : list component) : text := fold_left (fun b c => path_push b (component_str c)) cs [].
(** PathBuf::pop: Path::parent drops the last component unless it is the root; nothing happens
    when there is no parent. On the components of the buffer; paths are compared (Eq, Hash) by
    their components. *)
Definition path_pop (cs : list component) : list component :=
  match rev cs with
  | [] => []
  | RootDir :: _ => cs
  | _ :: r => rev r
  end.

(** paths.rs:251-276 normalize_path, on components: pushing RootDir replaces the buffer. *)
Definition normalize_step (ret : list component) (c : component) : list component :=
  match c with
  | RootDir => [RootDir]
  | CurDir => ret
  | ParentDir => path_pop ret
  | Normal s => ret ++ [Normal s]
  end.
Definition normalize_components (cs : list component) : list component := fold_left normalize_step cs [].
(** paths.rs:159-161 AbsPath::normalize *)
Definition normalize_path (t : text) : text := render (normalize_components (components t)).
