(** HashOrder.v — the server with hash maps and hash sets that are iterated in any order. Server.v
    iterates them in one fixed order; PropsOrder.v shows that the order makes no difference. *)
From Coq Require Import ZArith Permutation.
From Verif Require Import Base LineIndex Vfs Ide Server.

(** The order of the keys of the open documents (FxHashMap, global_state.rs:176-178), and the order of
    the changed files (FxHashSet, main_loop.rs:115), for one event. *)
Record orders := mkOrders { o_docs : list (path * Z) -> list (path * Z); o_files : list nat -> list nat }.
Definition valid (o : orders) : Prop := (forall l, Permutation (o_docs o l) l) /\ (forall l, Permutation (o_files o l) l).
Definition fixed : orders := mkOrders (fun l => l) (fun l => l).

(** global_state.rs:174-201 maybe_update_diagnostics *)
Definition maybe_update_any (o : orders) (g : gstate) : res gstate :=
  let? s := subscriptions (g_vfs g) (o_docs o (g_mem_docs g)) in
  let? ds := compute_diagnostics (g_db g) s in
  Ok (with_tasks (g_tasks g ++ [TDiagnostics ds]) g).
(** main_loop.rs:217-243 *)
Definition did_open_any (o : orders) (u : uri) (version : Z) (t : text) (g : gstate) : res gstate :=
  match abs_path u with
  | None => Ok g
  | Some p =>
    let? (v, changed) := set_file_contents (g_vfs g) p (Some (CText t)) in
    let g := with_vfs v (with_mem_docs (aset string_dec p version (g_mem_docs g)) g) in
    if changed then Ok g else maybe_update_any o g
  end.
(** main_loop.rs:98-130 handle_event; only opening a document uses an order before line 103. *)
Definition dispatch_any (o : orders) (g : gstate) (e : event) : res gstate :=
  match e with
  | ELsp (MNot (NOpen u v t)) => did_open_any o u v t g
  | _ => dispatch_event g e
  end.
Definition after_any (o : orders) (g : gstate) : res gstate :=
  let? (g, changed) := process_changes g in
  let? g := if changed : bool then maybe_update_any o g else Ok g in
  let '(c, l) := coll_take_changes (g_diagnostics g) in
  let g := with_diagnostics c g in
  match l with Some l => publish g (o_files o l) | None => Ok g end.
Definition handle_any (o : orders) (g : gstate) (e : event) : res gstate :=
  let? g := dispatch_any o g e in after_any o g.
(** main_loop.rs:71-83 run *)
Fixpoint run_any (g : gstate) (es : list (orders * event)) : res gstate :=
  match es with
  | [] => Ok g
  | (_, ELsp (MNot NExit)) :: _ => Ok g
  | (o, e) :: es' => let? g := handle_any o g e in run_any g es'
  end.
