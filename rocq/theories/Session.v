(** Session.v — a session of the server from the end of the initialization handshake to the end of
    the process: crates/lua-analyzer/src/main.rs, the loop of main_loop.rs and the announced
    capabilities of caps.rs. Not modelled: the handshake itself (lsp_server's initialize_start and
    initialize_finish), setting up the log, joining the I/O threads, and a client that stops reading
    (sending to it would panic). *)
From Coq Require Import ZArith.
From Verif Require Import Base Vfs Ide Server.

(** main_loop.rs:85-96 next_event: select! takes a message from any of the three channels that has
    one. [TurnInbox]: the client's next message, or its disconnection; [TurnTask]: a task (the loop
    of handle_task takes them all); [TurnLoader]: messages of the loader. *)
Inductive turn := TurnInbox | TurnTask | TurnLoader (m : vmsg) (ms : list vmsg).

(** How far a session is: still running; main_loop returned Ok; main_loop returned the error
    "client exited without proper shutdown sequence"; a panic. *)
Inductive ending := Running (g : gstate) | Exited (g : gstate) | Disconnected (g : gstate) | Crashed.

(** main_loop.rs:71-83 run, for a client that sends [w] and then closes its end of the connection, and
    any choices of select!. A turn of the task channel is only possible when it has a task; it is
    skipped here otherwise. *)
Fixpoint session (g : gstate) (w : list message) (s : list turn) : ending :=
  match s with
  | [] => Running g
  | TurnInbox :: s' =>
    match w with
    | [] => Disconnected g
    | MNot NExit :: _ => Exited g
    | m :: w' => match handle_event g (ELsp m) with Ok g' => session g' w' s' | _ => Crashed end
    end
  | TurnTask :: s' =>
    match g_tasks g with
    | [] => session g w s'
    | _ => match handle_event g ETask with Ok g' => session g' w s' | _ => Crashed end
    end
  | TurnLoader m ms :: s' => match handle_event g (EVfs m ms) with Ok g' => session g' w s' | _ => Crashed end
  end.

(** main.rs:16-30, 72-76: the exit status of the process; 101 is Rust's status after a panic of the
    main thread. *)
Definition exit_status (e : ending) : option nat :=
  match e with Running _ => None | Exited _ => Some 0 | Disconnected _ => Some 1 | Crashed => Some 101 end.

(** main.rs:50-70: the initial configuration, from the initialization options if given; the root path is
    not used by anything modelled. config.rs:26-29 Config::new has no libraries. *)
Definition initial_config (options : option json) : config :=
  match options with Some j => config_update [] j | None => [] end.

(** caps.rs:6-21 server_capabilities: the fields that are set. [sync_change] is
    TextDocumentSyncKind (0 none, 1 full, 2 incremental). Everything else is ..Default::default(): not
    provided. *)
Record capabilities := mkCaps { open_close : bool; sync_change : nat; completion_triggers : option (list string) }.
Definition server_capabilities : capabilities := mkCaps true 2 (Some [":"; "."]%string).
