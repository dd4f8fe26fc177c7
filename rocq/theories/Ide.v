(** Ide.v — crates/ide/src/diagnostics.rs, crates/ide_db/src/lib.rs (line_index),
    publish_diagnostics of crates/lua-analyzer/src/handlers.rs, and
    crates/lua-analyzer/src/diagnostics.rs. Salsa queries are the functions they memoize. *)
From Verif Require Import Base Tree Ast Validation LineIndex.

(** ide/src/diagnostics.rs:40-44 *)
Inductive severity := SevError | SevWeakWarning.
(** ide/src/diagnostics.rs:7-13 *)
Record ide_diagnostic := mkIdeDiag { id_message : string; id_range : range; id_severity : severity }.
(** ide/src/diagnostics.rs:25-38 diagnostics, for a file with text [t] (base_db/src/lib.rs:68-71). *)
Definition ide_diagnostics (t : text) : res (list ide_diagnostic) :=
  let? p := source_file_parse t in
  Ok (map (fun e => mkIdeDiag (String.append "Syntax Error: " (e_msg e)) (e_range e) SevError) (firstn 128 (pa_errors p))).

(** lsp_types::Diagnostic; [ld_rest] stands for code, code_description, related_information,
    tags and data (0: all None). *)
Record lsp_diagnostic := mkDiag
  { ld_range : line_col * line_col; ld_severity : option nat; ld_source : option string; ld_message : string; ld_rest : N }.
(** to_proto.rs:19-24 diagnostic_severity; lsp_types: Error = 1, Hint = 4. *)
Definition diagnostic_severity (s : severity) : nat := match s with SevError => 1 | SevWeakWarning => 4 end.

Fixpoint lsp_diags (li : line_index) (l : list ide_diagnostic) : res (list lsp_diagnostic) :=
  match l with
  | [] => Ok []
  | d :: l' =>
    let? r := to_proto_range li (id_range d) in
    let? ds := lsp_diags li l' in
    Ok (mkDiag r (Some (diagnostic_severity (id_severity d))) (Some "lua-analyzer"%string) (id_message d) 0 :: ds)
  end.
(** handlers.rs:26-49 publish_diagnostics, for a file with text [t]; the work is never canceled,
    see Server.v. *)
Definition publish_diagnostics (t : text) : res (list lsp_diagnostic) :=
  let? li := li_new t in
  let? ds := ide_diagnostics t in
  lsp_diags li ds.

(** * Finite maps (FxHashMap) as association lists with distinct keys. *)
Fixpoint aget {K V} (dec : forall a b : K, {a = b} + {a <> b}) (k : K) (l : list (K * V)) : option V :=
  match l with [] => None | (k', v) :: l' => if dec k k' then Some v else aget dec k l' end.
Fixpoint aset {K V} (dec : forall a b : K, {a = b} + {a <> b}) (k : K) (v : V) (l : list (K * V)) : list (K * V) :=
  match l with [] => [(k, v)] | (k', v') :: l' => if dec k k' then (k', v) :: l' else (k', v') :: aset dec k v l' end.
Fixpoint adel {K V} (dec : forall a b : K, {a = b} + {a <> b}) (k : K) (l : list (K * V)) : list (K * V) :=
  match l with [] => [] | (k', v') :: l' => if dec k k' then adel dec k l' else (k', v') :: adel dec k l' end.

(** * DiagnosticCollection, crates/lua-analyzer/src/diagnostics.rs:7-13. *)
Record collection := mkColl
  { co_native : list (nat * list lsp_diagnostic); co_check : list (nat * list lsp_diagnostic); co_changes : list nat }.
Definition coll_default : collection := mkColl [] [] [].

Definition option_eqb {A} (eqb : A -> A -> bool) (a b : option A) : bool :=
  match a, b with Some x, Some y => eqb x y | None, None => true | _, _ => false end.
Definition lc_eqb (a b : line_col) : bool := (lc_line a =? lc_line b) && (lc_col a =? lc_col b).
(** diagnostics.rs:53-58 are_diagnostics_equal *)
Definition are_diagnostics_equal (a b : lsp_diagnostic) : bool :=
  option_eqb String.eqb (ld_source a) (ld_source b) && option_eqb Nat.eqb (ld_severity a) (ld_severity b)
  && (lc_eqb (fst (ld_range a)) (fst (ld_range b)) && lc_eqb (snd (ld_range a)) (snd (ld_range b)))
  && String.eqb (ld_message a) (ld_message b).
(** diagnostics.rs:23-26, the len comparison and zip().all() *)
Definition all_equal (a b : list lsp_diagnostic) : bool :=
  (length b =? length a) && forallb (fun p => are_diagnostics_equal (fst p) (snd p)) (combine a b).
(** FxHashSet::insert *)
Definition set_insert (x : nat) (l : list nat) : list nat := if existsb (Nat.eqb x) l then l else l ++ [x].
(** diagnostics.rs:16-34 set_native_diagnostics *)
Definition set_native (c : collection) (f : nat) (ds : list lsp_diagnostic) : collection :=
  let put := mkColl (aset Nat.eq_dec f ds (co_native c)) (co_check c) (set_insert f (co_changes c)) in
  match aget Nat.eq_dec f (co_native c) with
  | Some old => if all_equal ds old then c else put
  | None => put
  end.
(** diagnostics.rs:36-41 take_changes *)
Definition coll_take_changes (c : collection) : collection * option (list nat) :=
  match co_changes c with [] => (c, None) | l => (mkColl (co_native c) (co_check c) [], Some l) end.
(** diagnostics.rs:43-50 diagnostics_for *)
Definition diagnostics_for (c : collection) (f : nat) : list lsp_diagnostic :=
  match aget Nat.eq_dec f (co_native c) with Some l => l | None => [] end ++
  match aget Nat.eq_dec f (co_check c) with Some l => l | None => [] end.
