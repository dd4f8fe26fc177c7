(** Server.v — the language server: crates/lua-analyzer/src/{main_loop,global_state,dispatch,
    handlers,reload,config,thread_pool}.rs, base_db/src/change.rs. A panic anywhere ends the
    process and is [Panic]. Not modelled: logging, JSON-RPC framing, a client that disconnects,
    and threads: TaskPool::spawn (thread_pool.rs:16-25) uses rayon's [install], which returns only
    when the task is done and its result is in the channel, so tasks run one at a time in the
    main loop; the file loader is another process and its messages come in any order. *)
From Coq Require Import ZArith.
From Verif Require Import Base TextEdit LineIndex Vfs Ide.

(** lsp_server::RequestId *)
Inductive rid := RNum (n : Z) | RStr (s : string).
Definition rid_eq_dec (a b : rid) : {a = b} + {a <> b}.
Proof. decide equality; [apply Z.eq_dec|apply string_dec]. Defined.

(** lsp_types::Url: a file URL is identified with its path, others are opaque. What this means for
    clients, which see URLs, is in Uri.v and PropsUri.v (from_proto.rs:9-12, to_proto.rs:30-57). *)
Inductive uri := UFile (p : path) | UOther (s : string).
Definition abs_path (u : uri) : option path := match u with UFile p => Some p | UOther _ => None end.

(** serde_json::Value; numbers and booleans are opaque. *)
Inductive json := JNull | JAtom (n : N) | JStr (s : string) | JArr (l : list json) | JObj (l : list (string * json)).

(** * Configuration, config.rs. Only the workspace_library field (7-11) is modelled. *)
Definition config := list string.
(** serde_json::Value::get on an object *)
Definition json_get (k : string) (j : json) : option json :=
  match j with JObj l => aget string_dec k l | _ => None end.
(** serde_json::from_value::<Vec<String>> *)
Fixpoint strings (l : list json) : option (list string) :=
  match l with
  | [] => Some []
  | JStr s :: l' => option_map (cons s) (strings l')
  | _ :: _ => None
  end.
Definition as_strings (j : json) : option (list string) := match j with JArr l => strings l | _ => None end.
(** config.rs:81-100 get_field at the JSON pointer /workspace/library, default []. *)
Definition config_from_json (j : json) : config :=
  match json_get "workspace" j with
  | Some w => match json_get "library" w with
              | Some l => match as_strings l with Some ss => ss | None => [] end
              | None => []
              end
  | None => []
  end.
(** config.rs:31-37 Config::update *)
Definition config_update (c : config) (j : json) : config :=
  match j with JNull => c | JObj [] => c | _ => config_from_json j end.

(** * Messages *)

(** lsp_server::Request: [q_params] says whether the parameters deserialize to what the method
    expects (dispatch.rs:68-91). *)
Record request := mkReq { q_id : rid; q_method : string; q_params : bool }.
(** lsp_server::Notification, by method. [NMalformed]: one of the five handled methods with
    parameters that do not deserialize; lsp_server's Notification::extract then panics. *)
Inductive notification :=
| NOpen (u : uri) (version : Z) (t : text)
| NChange (u : uri) (version : Z) (cs : list change_event)
| NClose (u : uri)
| NSave (u : uri)
| NConfig
| NExit
| NMalformed
| NOther (method : string).
(** lsp_server::Response, from the client *)
Record response := mkResp { s_id : rid; s_error : bool; s_result : option json }.
Inductive message := MReq (q : request) | MNot (n : notification) | MResp (s : response).
(** vfs/src/handle.rs:26-34 Message *)
Inductive vmsg := VProgress | VLoaded (files : list (path * option contents)).

(** What a response of the server carries: a result, or an error code. *)
Inductive outcome := OShutdownResult | OCompletionResult | OError (code : Z).
(** lsp_server::ErrorCode *)
Definition InvalidRequest : Z := (-32600)%Z.
Definition MethodNotFound : Z := (-32601)%Z.
Definition InvalidParams : Z := (-32602)%Z.

(** Messages to the client. *)
Inductive output :=
| OutResponse (id : rid) (o : outcome)
| OutDiagnostics (u : uri) (ds : list lsp_diagnostic) (version : option Z)
| OutRequest (id : Z).

(** main_loop.rs:60-64 Task *)
Inductive task := TResponse (id : rid) (o : outcome) | TDiagnostics (l : list (nat * list lsp_diagnostic)).

(** * State, global_state.rs:33-45. [g_incoming] and [g_outgoing], [g_next_id] are
    lsp_server::ReqQueue; [g_tasks] is the task channel; [g_sent] all messages sent so far;
    [g_loads] all set_config calls to the loader; [g_db] the salsa input file_text. *)
Record gstate := mkG {
  g_incoming : list (rid * string);
  g_outgoing : list (rid * unit);
  g_next_id : nat;
  g_diagnostics : collection;
  g_shutdown : bool;
  g_sent : list output;
  g_tasks : list task;
  g_mem_docs : list (path * Z);
  g_vfs : vfs;
  g_config : config;
  g_db : list (nat * text);
  g_config_version : nat;
  g_loads : list (nat * list path) }.

(** Functional record updates. *)
Definition with_incoming x g := mkG x (g_outgoing g) (g_next_id g) (g_diagnostics g) (g_shutdown g) (g_sent g) (g_tasks g) (g_mem_docs g) (g_vfs g) (g_config g) (g_db g) (g_config_version g) (g_loads g).
Definition with_outgoing x n g := mkG (g_incoming g) x n (g_diagnostics g) (g_shutdown g) (g_sent g) (g_tasks g) (g_mem_docs g) (g_vfs g) (g_config g) (g_db g) (g_config_version g) (g_loads g).
Definition with_diagnostics x g := mkG (g_incoming g) (g_outgoing g) (g_next_id g) x (g_shutdown g) (g_sent g) (g_tasks g) (g_mem_docs g) (g_vfs g) (g_config g) (g_db g) (g_config_version g) (g_loads g).
Definition with_shutdown x g := mkG (g_incoming g) (g_outgoing g) (g_next_id g) (g_diagnostics g) x (g_sent g) (g_tasks g) (g_mem_docs g) (g_vfs g) (g_config g) (g_db g) (g_config_version g) (g_loads g).
Definition with_tasks x g := mkG (g_incoming g) (g_outgoing g) (g_next_id g) (g_diagnostics g) (g_shutdown g) (g_sent g) x (g_mem_docs g) (g_vfs g) (g_config g) (g_db g) (g_config_version g) (g_loads g).
Definition with_mem_docs x g := mkG (g_incoming g) (g_outgoing g) (g_next_id g) (g_diagnostics g) (g_shutdown g) (g_sent g) (g_tasks g) x (g_vfs g) (g_config g) (g_db g) (g_config_version g) (g_loads g).
Definition with_vfs x g := mkG (g_incoming g) (g_outgoing g) (g_next_id g) (g_diagnostics g) (g_shutdown g) (g_sent g) (g_tasks g) (g_mem_docs g) x (g_config g) (g_db g) (g_config_version g) (g_loads g).
Definition with_config x n l g := mkG (g_incoming g) (g_outgoing g) (g_next_id g) (g_diagnostics g) (g_shutdown g) (g_sent g) (g_tasks g) (g_mem_docs g) (g_vfs g) x (g_db g) n l.
Definition with_db x g := mkG (g_incoming g) (g_outgoing g) (g_next_id g) (g_diagnostics g) (g_shutdown g) (g_sent g) (g_tasks g) (g_mem_docs g) (g_vfs g) (g_config g) x (g_config_version g) (g_loads g).
(** global_state.rs:144-146 send *)
Definition send (o : output) g := mkG (g_incoming g) (g_outgoing g) (g_next_id g) (g_diagnostics g) (g_shutdown g) (g_sent g ++ [o]) (g_tasks g) (g_mem_docs g) (g_vfs g) (g_config g) (g_db g) (g_config_version g) (g_loads g).

(** global_state.rs:48-76 GlobalState::new *)
Definition g_new (c : config) : gstate := mkG [] [] 0 coll_default false [] [] [] vfs_default c [] 0 [].

(** * Changes *)

(** global_state.rs:87-99: what is recorded for each changed file. *)
Fixpoint collect_changes (v : vfs) (l : list changed_file) : res (list (nat * option text)) :=
  match l with
  | [] => Ok []
  | f :: l' =>
    let? t := if cf_exists f then let? c := v_file_contents v (fst f) in Ok (as_utf8 c) else Ok None in
    let? r := collect_changes v l' in
    Ok ((fst f, t) :: r)
  end.
(** base_db/src/change.rs:18-24 Change::apply *)
Definition apply_change (db : list (nat * text)) (l : list (nat * option text)) : list (nat * text) :=
  fold_left (fun db ft => aset Nat.eq_dec (fst ft) (match snd ft with Some t => t | None => [] end) db) l db.
(** global_state.rs:78-105 process_changes *)
Definition process_changes (g : gstate) : res (gstate * bool) :=
  let '(v, l) := v_take_changes (g_vfs g) in
  match l with
  | [] => Ok (with_vfs v g, false)
  | _ => let? ch := collect_changes v l in Ok (with_db (apply_change (g_db g) ch) (with_vfs v g), true)
  end.

(** global_state.rs:175-179: the ids of the open documents. The order of a hash map's keys is
    unspecified in Rust; here it is the order of opening. *)
Fixpoint subscriptions (v : vfs) (l : list (path * Z)) : res (list nat) :=
  match l with
  | [] => Ok []
  | (p, _) :: l' =>
    let? i := v_file_id v p in
    let? i := runwrap i in
    let? r := subscriptions v l' in
    Ok (i :: r)
  end.
(** global_state.rs:184-199; salsa panics when file_text has not been set. *)
Fixpoint compute_diagnostics (db : list (nat * text)) (l : list nat) : res (list (nat * list lsp_diagnostic)) :=
  match l with
  | [] => Ok []
  | f :: l' =>
    let? t := runwrap (aget Nat.eq_dec f db) in
    let? ds := publish_diagnostics t in
    let? r := compute_diagnostics db l' in
    Ok ((f, ds) :: r)
  end.
(** global_state.rs:174-201 maybe_update_diagnostics *)
Definition maybe_update_diagnostics (g : gstate) : res gstate :=
  let? s := subscriptions (g_vfs g) (g_mem_docs g) in
  let? ds := compute_diagnostics (g_db g) s in
  Ok (with_tasks (g_tasks g ++ [TDiagnostics ds]) g).

(** * Requests *)

(** global_state.rs:158-164 respond; lsp_server Incoming::complete removes the pending id. *)
Definition respond (id : rid) (o : outcome) (g : gstate) : gstate :=
  match aget rid_eq_dec id (g_incoming g) with
  | Some _ => send (OutResponse id o) (with_incoming (adel rid_eq_dec id (g_incoming g)) g)
  | None => g
  end.
(** main_loop.rs:187-211 on_request and dispatch.rs:17-103: register, then Shutdown, then
    Completion, then finish. *)
Definition on_request (g : gstate) (q : request) : gstate :=
  let g := with_incoming (aset rid_eq_dec (q_id q) (q_method q) (g_incoming g)) g in
  if g_shutdown g then respond (q_id q) (OError InvalidRequest) g
  else if String.eqb (q_method q) "shutdown" then
    if q_params q then respond (q_id q) OShutdownResult (with_shutdown true g)
    else respond (q_id q) (OError InvalidParams) g
  else if String.eqb (q_method q) "textDocument/completion" then
    if q_params q then with_tasks (g_tasks g ++ [TResponse (q_id q) OCompletionResult]) g
    else respond (q_id q) (OError InvalidParams) g
  else respond (q_id q) (OError MethodNotFound) g.

(** * Notifications and responses *)

(** stdx/src/paths.rs AbsPathBuf::assert; Unix Path::is_absolute. *)
Definition is_absolute (s : string) : bool := match s with String c _ => Ascii.eqb c "/"%char | EmptyString => false end.
(** reload.rs:9-35 update_configuration and load_workspace *)
Definition update_configuration (c : config) (g : gstate) : res gstate :=
  if list_eq_dec string_dec c (g_config g) then Ok (with_config c (g_config_version g) (g_loads g) g)
  else
    let? _ := rassert (forallb is_absolute c) in
    let? n := uadd (g_config_version g) 1 in
    Ok (with_config c n (g_loads g ++ [(n, c)]) g).
(** main_loop.rs:297-318, the handler of the configuration response; configs.get_mut(0) is the
    first element of an array. *)
Definition on_config_response (r : response) (g : gstate) : res gstate :=
  match s_error r, s_result r with
  | false, Some (JArr (j :: _)) => update_configuration (config_update (g_config g) j) g
  | _, _ => Ok g
  end.
(** global_state.rs:125-128 complete_request; lsp_server Outgoing::complete panics for an id that
    is not pending. *)
Definition complete_request (r : response) (g : gstate) : res gstate :=
  let? _ := runwrap (aget rid_eq_dec (s_id r) (g_outgoing g)) in
  on_config_response r (with_outgoing (adel rid_eq_dec (s_id r) (g_outgoing g)) (g_next_id g) g).

(** main_loop.rs:217-243 *)
Definition did_open (u : uri) (version : Z) (t : text) (g : gstate) : res gstate :=
  match abs_path u with
  | None => Ok g
  | Some p =>
    let? (v, changed) := set_file_contents (g_vfs g) p (Some (CText t)) in
    let g := with_vfs v (with_mem_docs (aset string_dec p version (g_mem_docs g)) g) in
    if changed then Ok g else maybe_update_diagnostics g
  end.
(** main_loop.rs:244-263 *)
Definition did_change (u : uri) (version : Z) (cs : list change_event) (g : gstate) : res gstate :=
  match abs_path u with
  | None => Ok g
  | Some p =>
    match aget string_dec p (g_mem_docs g) with
    | None => Ok g
    | Some _ =>
      let? id := v_file_id (g_vfs g) p in
      let? id := runwrap id in
      let? c := v_file_contents (g_vfs g) id in
      let? t := runwrap (as_utf8 c) in
      let? t' := apply_document_changes t cs in
      let? (v, _) := set_file_contents (g_vfs g) p (Some (CText t')) in
      Ok (with_vfs v (with_mem_docs (aset string_dec p version (g_mem_docs g)) g))
    end
  end.
(** main_loop.rs:264-284 *)
Definition did_close (u : uri) (g : gstate) : gstate :=
  match abs_path u with
  | None => send (OutDiagnostics u [] None) g
  | Some p => send (OutDiagnostics u [] (aget string_dec p (g_mem_docs g))) (with_mem_docs (adel string_dec p (g_mem_docs g)) g)
  end.
(** main_loop.rs:286-320 and global_state.rs:116-123 send_request; the id is an i32 counter. *)
Definition did_change_configuration (g : gstate) : gstate :=
  let id := Z.of_nat (g_next_id g) in
  send (OutRequest id) (with_outgoing (aset rid_eq_dec (RNum id) tt (g_outgoing g)) (S (g_next_id g)) g).
(** main_loop.rs:213-325 on_notification *)
Definition on_notification (g : gstate) (n : notification) : res gstate :=
  match n with
  | NOpen u v t => did_open u v t g
  | NChange u v cs => did_change u v cs g
  | NClose u => Ok (did_close u g)
  | NSave _ => Ok g
  | NConfig => Ok (did_change_configuration g)
  | NMalformed => Panic
  | NExit | NOther _ => Ok g
  end.

(** * Events *)

(** main_loop.rs:22-26 Event. The loader messages of one turn (162-185 drains the channel) are
    given together, at least one; a task event takes all tasks (142-160). *)
Inductive event := ELsp (m : message) | ETask | EVfs (m : vmsg) (ms : list vmsg).

(** main_loop.rs:144-151 *)
Definition run_task (g : gstate) (t : task) : gstate :=
  match t with
  | TResponse id o => respond id o g
  | TDiagnostics l => with_diagnostics (fold_left (fun c fd => set_native c (fst fd) (snd fd)) l (g_diagnostics g)) g
  end.
(** main_loop.rs:142-160 handle_task *)
Definition handle_task (g : gstate) : gstate := fold_left run_task (g_tasks g) (with_tasks [] g).
(** main_loop.rs:164-175 *)
Fixpoint load_files (g : gstate) (l : list (path * option contents)) : res gstate :=
  match l with
  | [] => Ok g
  | (p, c) :: l' =>
    match aget string_dec p (g_mem_docs g) with
    | Some _ => load_files g l'
    | None => let? (v, _) := set_file_contents (g_vfs g) p c in load_files (with_vfs v g) l'
    end
  end.
(** main_loop.rs:162-185 handle_vfs *)
Fixpoint handle_vfs (g : gstate) (ms : list vmsg) : res gstate :=
  match ms with
  | [] => Ok g
  | VProgress :: ms' => handle_vfs g ms'
  | VLoaded l :: ms' => let? g := load_files g l in handle_vfs g ms'
  end.
(** main_loop.rs:132-140 handle_lsp *)
Definition handle_lsp (g : gstate) (m : message) : res gstate :=
  match m with
  | MReq q => Ok (on_request g q)
  | MNot n => on_notification g n
  | MResp r => complete_request r g
  end.
(** main_loop.rs:114-126; FxHashSet order as in [subscriptions]. *)
Fixpoint publish (g : gstate) (l : list nat) : res gstate :=
  match l with
  | [] => Ok g
  | f :: l' =>
    let? p := v_file_path (g_vfs g) f in
    publish (send (OutDiagnostics (UFile p) (diagnostics_for (g_diagnostics g) f) (aget string_dec p (g_mem_docs g))) g) l'
  end.
(** main_loop.rs:98-130 handle_event *)
Definition dispatch_event (g : gstate) (e : event) : res gstate :=
  match e with
  | ELsp m => handle_lsp g m
  | ETask => Ok (handle_task g)
  | EVfs m ms => handle_vfs g (m :: ms)
  end.
Definition after_event (g : gstate) : res gstate :=
  let? (g, changed) := process_changes g in
  let? g := if changed : bool then maybe_update_diagnostics g else Ok g in
  let '(c, l) := coll_take_changes (g_diagnostics g) in
  let g := with_diagnostics c g in
  match l with Some l => publish g l | None => Ok g end.
Definition handle_event (g : gstate) (e : event) : res gstate :=
  let? g := dispatch_event g e in after_event g.
(** main_loop.rs:71-83 run, for the events next_event delivers (85-96 picks any channel that has
    a message). *)
Fixpoint run (g : gstate) (es : list event) : res gstate :=
  match es with
  | [] => Ok g
  | ELsp (MNot NExit) :: _ => Ok g
  | e :: es' => let? g := handle_event g e in run g es'
  end.
