(** Loader.v — crates/vfs/src/loader.rs: the file loader, and the system of server and loader. The
    loader is its own thread; it and the main loop only share two channels, which are unbounded and
    first-in first-out (crossbeam_channel). Not modelled: [load_sync], and [Message::Invalidate]
    (loader.rs:82-86), which nothing sends. *)
From Coq Require Import ZArith.
From Verif Require Import Base Vfs Ide Server.

(** The file system at one moment. [fs_walk root]: the entries WalkDir (follow_links) yields without
    error below [root], each with whether it is a regular file. [fs_read]: std::fs::read. *)
Record fs := mkFs { fs_walk : path -> list (path * bool); fs_read : path -> option contents }.

(** std::path::Path::file_name for a path that does not end in a separator, . or .. : what follows
    the last separator. *)
Fixpoint file_name (p : string) : string :=
  match p with
  | EmptyString => EmptyString
  | String c p' =>
    if Ascii.eqb c "/" then file_name p'
    else if existsb (Ascii.eqb "/") (list_ascii_of_string p') then file_name p' else p
  end.
(** std: the parts before and after the last dot. *)
Fixpoint rsplit_dot (s : string) : option (string * string) :=
  match s with
  | EmptyString => None
  | String c s' =>
    match rsplit_dot s' with
    | Some (a, b) => Some (String c a, b)
    | None => if Ascii.eqb c "." then Some (EmptyString, s') else None
    end
  end.
(** std::path::Path::extension: none if there is no dot or only a leading one. *)
Definition extension (p : string) : option string :=
  match rsplit_dot (file_name p) with
  | Some (EmptyString, _) => None
  | Some (_, e) => Some e
  | None => None
  end.
(** loader.rs:102-106: [extension().unwrap_or_default() == "lua"]. *)
Definition is_lua (p : string) : bool :=
  String.eqb (match extension p with Some e => e | None => ""%string end) "lua".

(** loader.rs:91-115 [load_entry]. *)
Definition load_entry (d : fs) (root : path) : list (path * option contents) :=
  map (fun p => (p, fs_read d p)) (filter is_lua (map fst (filter snd (fs_walk d root)))).

(** handle.rs:26-34 [Message], with the fields of Progress. *)
Inductive hmsg := HProgress (n_total n_done version : nat) | HLoaded (files : list (path * option contents)).
(** What the main loop reads of a message. *)
Definition erase (h : hmsg) : vmsg := match h with HProgress _ _ _ => VProgress | HLoaded l => VLoaded l end.

(** The sends of one turn of the loader, in order: a Progress message, or loading an entry and
    sending the result. *)
Inductive job := JProgress (n_total n_done version : nat) | JLoad (root : path).
(** loader.rs:72-80, the loop over the entries. *)
Fixpoint entry_jobs (version n_total i : nat) (roots : list path) : list job :=
  match roots with
  | [] => []
  | r :: roots' => JLoad r :: JProgress n_total (i + 1) version :: entry_jobs version n_total (S i) roots'
  end.
(** loader.rs:66-81, one Config message. *)
Definition config_jobs (c : nat * list path) : list job :=
  JProgress (length (snd c)) 0 (fst c) :: entry_jobs (fst c) (length (snd c)) 0 (snd c).
Definition do_job (d : fs) (j : job) : hmsg :=
  match j with JProgress a b c => HProgress a b c | JLoad r => HLoaded (load_entry d r) end.

(** * The system: the server, the loader's remaining sends, how many configurations the loader has
    received, the channel from the loader, and (for the specification only) all messages the loader
    has sent. *)
Record sys := mkSys { y_server : gstate; y_seen : nat; y_jobs : list job; y_chan : list hmsg; y_sent : list hmsg }.
Definition sys_new (c : config) : sys := mkSys (g_new c) 0 [] [] [].

Inductive label :=
| LServer (e : event)   (** the main loop handles a client message or its tasks *)
| LVfs (n : nat)        (** the main loop takes n+1 loader messages *)
| LTake                 (** the loader receives a configuration *)
| LWork.                (** the loader does its next send *)
(** One step, when the disk is [d]. loader.rs:61-66 (the loop), main_loop.rs:71-96. *)
Inductive step : fs -> sys -> label -> sys -> Prop :=
| St_server d s e g : (forall m ms, e <> EVfs m ms) -> e <> ELsp (MNot NExit) -> handle_event (y_server s) e = Ok g ->
    step d s (LServer e) (mkSys g (y_seen s) (y_jobs s) (y_chan s) (y_sent s))
| St_vfs d s h hs rest g : y_chan s = h :: hs ++ rest -> handle_event (y_server s) (EVfs (erase h) (map erase hs)) = Ok g ->
    step d s (LVfs (length hs)) (mkSys g (y_seen s) (y_jobs s) rest (y_sent s))
| St_take d s c : y_jobs s = [] -> nth_error (g_loads (y_server s)) (y_seen s) = Some c ->
    step d s LTake (mkSys (y_server s) (S (y_seen s)) (config_jobs c) (y_chan s) (y_sent s))
| St_work d s j js : y_jobs s = j :: js ->
    step d s LWork (mkSys (y_server s) (y_seen s) js (y_chan s ++ [do_job d j]) (y_sent s ++ [do_job d j])).
Inductive steps : sys -> list (fs * label) -> sys -> Prop :=
| Ss_nil s : steps s [] s
| Ss_cons s d l s1 r s2 : step d s l s1 -> steps s1 r s2 -> steps s ((d, l) :: r) s2.
