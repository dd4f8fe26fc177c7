(** Paths.v — crates/stdx/src/paths.rs on the texts of paths. std::path of Unix is modelled as its
    source does it, on byte strings with the separator '/' (only whole separators matter, so
    characters do as well): Components::next, next_back, as_path, trim_left, trim_right, and Path's
    parent, join, strip_prefix, PathBuf's push and pop. An AbsPath is a text; a failed assertion is Panic.
    Simplification: paths that are not valid UTF-8 and Windows prefixes are not modelled. *)
From Verif Require Import Base Stdx.

(** Components::parse_single_component: nothing for "" and ".". *)
Definition parse_single (p : text) : option component :=
  if text_eqb p [] then None else if text_eqb p (txt ".") then None else if text_eqb p (txt "..") then Some ParentDir else Some (Normal p).

(** memchr and memrchr for the separator: the text before and after its first or last occurrence. *)
Fixpoint split_first (t : text) : option (text * text) :=
  match t with
  | [] => None
  | c :: t' => if N.eqb c 47 then Some ([], t') else option_map (fun ab => (c :: fst ab, snd ab)) (split_first t')
  end.
Fixpoint split_last (t : text) : option (text * text) :=
  match t with
  | [] => None
  | c :: t' => match split_last t' with
               | Some ab => Some (c :: fst ab, snd ab)
               | None => if N.eqb c 47 then Some ([], t') else None
               end
  end.

(** Components::next in the state Body, on what is left of the path: the next component and the
    rest. The fuel is the length of the text. *)
Fixpoint next_body (fuel : nat) (t : text) : option (component * text) :=
  match fuel, t with
  | _, [] => None
  | 0, _ => None
  | S fuel', _ =>
    let (p, rest) := match split_first t with Some ab => ab | None => (t, []) end in
    match parse_single p with Some c => Some (c, rest) | None => next_body fuel' rest end
  end.
(** Components::next_back in the state Body, on the part after the root. *)
Fixpoint next_back_body (fuel : nat) (t : text) : option (text * component) :=
  match fuel, t with
  | _, [] => None
  | 0, _ => None
  | S fuel', _ =>
    let (rest, p) := match split_last t with Some ab => ab | None => ([], t) end in
    match parse_single p with Some c => Some (rest, c) | None => next_back_body fuel' rest end
  end.
(** Components::trim_left and trim_right *)
Fixpoint trim_left (fuel : nat) (t : text) : text :=
  match fuel, t with
  | _, [] => []
  | 0, _ => t
  | S fuel', _ =>
    let (p, rest) := match split_first t with Some ab => ab | None => (t, []) end in
    match parse_single p with Some _ => t | None => trim_left fuel' rest end
  end.
Fixpoint trim_right (fuel : nat) (t : text) : text :=
  match fuel, t with
  | _, [] => []
  | 0, _ => t
  | S fuel', _ =>
    let (rest, p) := match split_last t with Some ab => ab | None => ([], t) end in
    match parse_single p with Some _ => t | None => trim_right fuel' rest end
  end.

(** paths.rs:44-60 AbsPathBuf::try_from; 66-77 AbsPathBuf::assert and 123-127 AbsPath::assert. *)
Definition abs_try_from (t : text) : option text := if is_absolute t then Some t else None.
Definition abs_assert (t : text) : res text := if is_absolute t then Ok t else Panic.

(** Path::parent for a path with a root: the root stays, the last component goes, and what is left is
    trimmed (Components::as_path). *)
Definition path_parent (t : text) : option text :=
  match t with
  | r :: b => match next_back_body (length b) b with
              | Some (rest, _) => Some (r :: trim_right (length rest) rest)
              | None => None
              end
  | [] => None
  end.
(** paths.rs:129-132 AbsPath::parent *)
Definition abs_parent (t : text) : res (option text) :=
  match path_parent t with Some p => let? p := abs_assert p in Ok (Some p) | None => Ok None end.
(** paths.rs:86-92 AbsPathBuf::pop; PathBuf::pop truncates to the parent. *)
Definition abs_pop (t : text) : text * bool := match path_parent t with Some p => (p, true) | None => (t, false) end.
(** paths.rs:134-137 AbsPath::join; Path::join pushes on a copy. *)
Definition abs_join (b p : text) : res text := runwrap (abs_try_from (path_push b p)).

(** std::path::iter_after, the rest of the path after the components of the prefix; both paths have a root,
    which is read first, so the state is Body from there on. *)
Fixpoint iter_after (prefix : list component) (t : text) : option text :=
  match prefix with
  | [] => Some t
  | y :: prefix' =>
    match next_body (length t) t with
    | Some (x, rest) => match x, y with
                        | Normal a, Normal b => if text_eqb a b then iter_after prefix' rest else None
                        | ParentDir, ParentDir => iter_after prefix' rest
                        | _, _ => None
                        end
    | None => None
    end
  end.
(** The components of a path after its root, read one by one. *)
Fixpoint body_components (fuel : nat) (t : text) : list component :=
  match fuel with
  | 0 => []
  | S fuel' => match next_body (length t) t with Some (c, rest) => c :: body_components fuel' rest | None => [] end
  end.
(** paths.rs:163-168 AbsPath::strip_prefix; Components::as_path trims both ends. *)
Definition abs_strip_prefix (t base : text) : option text :=
  match t, base with
  | _ :: b, _ :: bb => match iter_after (body_components (length bb) bb) b with
                       | Some rest => let l := trim_left (length rest) rest in Some (trim_right (length l) l)
                       | None => None
                       end
  | _, _ => None
  end.

(** paths.rs:249-276 normalize_path for a path with a root, pushing and popping on the text; 139-156
    AbsPath::normalize, which does not check its result. *)
Definition abs_normalize_step (ret : text) (c : component) : text :=
  match c with
  | RootDir => path_push ret (txt "/")
  | CurDir => ret
  | ParentDir => fst (abs_pop ret)
  | Normal s => path_push ret s
  end.
Definition abs_normalize (t : text) : text := fold_left abs_normalize_step (RootDir :: match t with _ :: b => body_components (length b) b | [] => [] end) [].
