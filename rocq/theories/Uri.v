(** Uri.v — document URIs. crates/lua-analyzer/src/from_proto.rs:9-12 [abs_path], to_proto.rs:30-57
    [url_from_abs_path], global_state.rs:216-219 [file_id_to_url], on Unix, and the server seen from
    the wire, where documents are named by URIs. [Url] is the crate url 2.2.1 and its percent
    encoding, modelled from their documentation; a URL is given parsed. The drive-letter code of
    to_proto.rs:34-56 and of [Url::to_file_path] concerns Windows; on Unix the latter at most adds a
    separator at the end of a path, which does not change its components. *)
From Coq Require Import ZArith.
From Verif Require Import Base LineIndex Vfs Ide Server.

(** Bytes are [ascii]. *)
Definition bytes := list ascii.

(** A parsed URL. [u_base] is false for "cannot be a base" URLs such as untitled:Untitled-1; their
    path has no segments. Segments are still percent-encoded. *)
Record url := mkUrl { u_scheme : string; u_base : bool; u_host : option string; u_segs : list bytes;
                      u_query : option string; u_fragment : option string }.

(** ** percent_encoding 2.1.0 *)

Definition hex_digit (n : N) : ascii := ascii_of_N (if (n <? 10)%N then 48 + n else 55 + n)%N.
(** [percent_encode(bytes, set)]: bytes above 127 and those of the set are written %XX. *)
Definition must_encode (set : ascii -> bool) (b : ascii) : bool := (127 <? N_of_ascii b)%N || set b.
Definition encode_byte (set : ascii -> bool) (b : ascii) : bytes :=
  if must_encode set b then ["%"; hex_digit (N.div (N_of_ascii b) 16); hex_digit (N.modulo (N_of_ascii b) 16)]%char else [b].
Definition percent_encode (set : ascii -> bool) (s : bytes) : bytes := flat_map (encode_byte set) s.

(** [char::to_digit(16)]. *)
Definition hex_value (c : ascii) : option N :=
  let n := N_of_ascii c in
  if (48 <=? n)%N && (n <=? 57)%N then Some (n - 48)%N
  else if (65 <=? n)%N && (n <=? 70)%N then Some (n - 55)%N
  else if (97 <=? n)%N && (n <=? 102)%N then Some (n - 87)%N
  else None.
(** [percent_decode]: a % that two hex digits do not follow stands for itself. *)
Fixpoint percent_decode (s : bytes) : bytes :=
  match s with
  | [] => []
  | c :: s' =>
    if Ascii.eqb c "%" then
      match s' with
      | h :: l :: s'' =>
        match hex_value h, hex_value l with
        | Some a, Some b => ascii_of_N (16 * a + b) :: percent_decode s''
        | _, _ => c :: percent_decode s'
        end
      | _ => c :: percent_decode s'
      end
    else c :: percent_decode s'
  end.

(** The set url uses for the segments of a file path: controls, space, and the characters below. *)
Definition PATH_SEGMENT (b : ascii) : bool :=
  (N_of_ascii b <? 33)%N || (N_of_ascii b =? 127)%N ||
  existsb (Ascii.eqb b) ["034"; "<"; ">"; "`"; "#"; "?"; "{"; "}"; "/"; "%"]%char.

(** ** Paths *)

(** std: [Path::components] of an absolute path, without the root: the parts between separators,
    without empty ones and those that are one dot. *)
Fixpoint split_slash (cur : bytes) (p : bytes) : list bytes :=
  match p with
  | [] => [cur]
  | c :: p' => if Ascii.eqb c "/" then cur :: split_slash [] p' else split_slash (cur ++ [c]) p'
  end.
Definition is_component (s : bytes) : bool := match s with [] => false | ["."%char] => false | _ => true end.
Definition components (p : bytes) : list bytes := filter is_component (split_slash [] p).
(** [Path::is_absolute]. *)
Definition is_absolute (p : bytes) : bool := match p with c :: _ => Ascii.eqb c "/" | [] => false end.
(** Paths are equal when their components are; the server model's path of given components. *)
Definition path_of (cs : list bytes) : path := ("/" ++ String.concat "/" (map string_of_list_ascii cs))%string.

(** ** url 2.2.1 on Unix *)

(** [Url::to_file_path]: no check of the scheme; the host must be absent or localhost. *)
Definition to_file_path (u : url) : option bytes :=
  if u_base u then
    match u_host u with
    | None => Some (flat_map (fun s => "/"%char :: percent_decode s) (u_segs u))
    | Some h => if String.eqb h "localhost" then Some (flat_map (fun s => "/"%char :: percent_decode s) (u_segs u)) else None
    end
  else None.
(** [Url::from_file_path] for an absolute path; [None] otherwise. *)
Definition from_file_path (set : ascii -> bool) (p : bytes) : option url :=
  if is_absolute p then
    Some (mkUrl "file" true None
            (match components p with [] => [[]] | cs => map (percent_encode set) cs end) None None)
  else None.

(** ** The server's own conversions *)

(** from_proto.rs:9-12 [abs_path]: [None] for an error, a panic if the path is not absolute. *)
Definition abs_path_url (u : url) : res (option bytes) :=
  match to_file_path u with
  | None => Ok None
  | Some p => if is_absolute p then Ok (Some p) else Panic
  end.
(** to_proto.rs:30-41 [url_from_abs_path]: assert, then unwrap. *)
Definition url_from_abs_path (set : ascii -> bool) (p : bytes) : res url :=
  let? _ := rassert (is_absolute p) in runwrap (from_file_path set p).

(** ** The server on the wire *)

(** How the server model sees a URI. *)
Definition uri_of (u : url) : uri :=
  match to_file_path u with Some p => UFile (path_of (components p)) | None => UOther "" end.
(** global_state.rs:216-219 [file_id_to_url], for the path of a file. *)
Definition url_of_path (p : path) : url :=
  match url_from_abs_path PATH_SEGMENT (list_ascii_of_string p) with
  | Ok u => u
  | _ => mkUrl "" false None [] None None
  end.

(** A client message or other event; documents are named by URIs. *)
Inductive wevent :=
| WOpen (u : url) (version : Z) (t : text)
| WChange (u : url) (version : Z) (cs : list change_event)
| WClose (u : url)
| WElse (e : event).
Definition event_of (w : wevent) : event :=
  match w with
  | WOpen u v t => ELsp (MNot (NOpen (uri_of u) v t))
  | WChange u v cs => ELsp (MNot (NChange (uri_of u) v cs))
  | WClose u => ELsp (MNot (NClose (uri_of u)))
  | WElse e => e
  end.
(** A publishDiagnostics notification. *)
Record wdiag := mkWD { w_url : url; w_diags : list lsp_diagnostic; w_version : option Z }.
(** main_loop.rs:114-126: diagnostics go to [file_id_to_url] of the file. *)
Definition wire_out (o : output) : list wdiag :=
  match o with
  | OutDiagnostics (UFile p) ds ver => [mkWD (url_of_path p) ds ver]
  | _ => []
  end.
(** The notifications of one event: those of a close begin with the one for the URI the client gave
    (main_loop.rs:275-283). *)
Definition wire_new (w : wevent) (new : list output) : list wdiag :=
  match w, new with
  | WClose u, OutDiagnostics _ ds ver :: rest => mkWD u ds ver :: flat_map wire_out rest
  | _, _ => flat_map wire_out new
  end.
(** main_loop.rs:71-83 [run]; the notifications sent by the end. *)
Fixpoint wrun (g : gstate) (ws : list wevent) : res (gstate * list wdiag) :=
  match ws with
  | [] => Ok (g, [])
  | WElse (ELsp (MNot NExit)) :: _ => Ok (g, [])
  | w :: ws' =>
    let? g1 := handle_event g (event_of w) in
    let? (g2, out) := wrun g1 ws' in
    Ok (g2, wire_new w (skipn (length (g_sent g)) (g_sent g1)) ++ out)
  end.
