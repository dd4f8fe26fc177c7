(** Hir.v — crates/hir: the AST id map, the item tree and the queries that build them. Not modelled:
    salsa's caching and interning (queries are functions of the file's text), [Debug]/[Hash] impls,
    [shrink_to_fit]. *)
From Verif Require Import Base SyntaxKind Lexer Parser Tree TreeSink Ast Validation Ptr Reparse.

(** A syntax node with its identity: the path of child indices from the node the walk starts at. *)
Definition lnode := (list nat * elem)%type.
Fixpoint number (i : nat) (p : list nat) (cs : list elem) : list lnode :=
  match cs with
  | [] => []
  | c :: cs' => (p ++ [i], c) :: number (S i) p cs'
  end.
(** rowan [SyntaxNode::children]. *)
Definition lchildren (n : lnode) : list lnode :=
  filter (fun c => is_gnode (el_green (snd c))) (number 0 (fst n) (el_children_with_tokens (snd n))).

(** ast_id_map.rs:126-137, the inner loop of [bdfs] on one node of the layer: rowan's [preorder], with
    [skip_subtree] after a node for which [f] holds. The nodes [f] is called on, in order, and the nodes
    added to the next layer. [f] is a function of the node; in the code it may also update state (the
    arena), which is modelled by the order of the calls. *)
Fixpoint walk (f : elem -> bool) (g : green) {struct g} : list nat -> nat -> list lnode * list lnode := fun p off =>
  match g with
  | GTok _ _ => ([], [])
  | GNode _ cs =>
    let e := mkElem off g in
    if f e then ([(p, e)], lchildren (p, e))
    else
      let sub := (fix go (i : nat) (off : nat) (cs : list green) : list lnode * list lnode :=
                    match cs with
                    | [] => ([], [])
                    | c :: cs' =>
                      let a := walk f c (p ++ [i]) off in
                      let b := go (S i) (off + green_len c) cs' in
                      (fst a ++ fst b, snd a ++ snd b)
                    end) 0 off cs in
      ((p, e) :: fst sub, snd sub)
  end.
Definition walk_node (f : elem -> bool) (n : lnode) : list lnode * list lnode :=
  walk f (el_green (snd n)) (fst n) (el_off (snd n)).
(** ast_id_map.rs:124-140, the loop over layers. *)
Fixpoint bdfs_loop (fuel : nat) (f : elem -> bool) (layer : list lnode) : res (list lnode) :=
  match fuel with
  | 0 => OutOfFuel
  | S fuel' =>
    match layer with
    | [] => Ok []
    | _ :: _ =>
      let? l := bdfs_loop fuel' f (flat_map (fun n => snd (walk_node f n)) layer) in
      Ok (flat_map (fun n => fst (walk_node f n)) layer ++ l)
    end
  end.
(** ast_id_map.rs:123-141 [bdfs]: the nodes visited, in order. *)
Definition bdfs (f : elem -> bool) (e : elem) : res (list lnode) :=
  bdfs_loop (S (length (el_descendants e))) f [([], e)].

(** ast_id_map.rs:61-63 [AstIdMap]: the arena; an id is an index. *)
Definition ast_id_map := list node_ptr.
(** ast_id_map.rs:70-81: the nodes that get an id. *)
Definition has_ast_id (e : elem) : bool := stmt_item_can_cast (el_kind e) || kind_eqb (el_kind e) KBlock.
(** ast_id_map.rs:66-85 [AstIdMap::from_source]; [has_parent]: [node.parent().is_some()]. *)
Definition from_source (has_parent : bool) (e : elem) : res ast_id_map :=
  if has_parent then
    let? l := bdfs has_ast_id e in
    Ok (map (fun n => ptr_new (snd n)) (filter (fun n => has_ast_id (snd n)) l))
  else Panic.
Definition ptr_eqb (a b : node_ptr) : bool := range_eqb (np_range a) (np_range b) && kind_eqb (np_kind a) (np_kind b).
(** ast_id_map.rs:92-102 [erased_ast_id]. *)
Fixpoint find_ptr (i : nat) (p : node_ptr) (m : ast_id_map) : res nat :=
  match m with
  | [] => Panic
  | q :: m' => if ptr_eqb q p then Ok i else find_ptr (S i) p m'
  end.
(** ast_id_map.rs:87-90 [ast_id]. *)
Definition ast_id (m : ast_id_map) (e : elem) : res nat := find_ptr 0 (ptr_new e) m.
(** ast_id_map.rs:104-106 [get]; [can_cast] stands for the node type of the id. *)
Definition ast_get (can_cast : kind -> bool) (m : ast_id_map) (id : nat) : res node_ptr :=
  let? p := runwrap (nth_error m id) in
  runwrap (ptr_cast can_cast p).

(** hir/src/lib.rs:49-55 the [ast_id_map] query, as a function of the parsed file: the tree of a file
    without errors, the empty map otherwise. The node passed to [from_source] is the root. *)
Definition ast_id_map_query (p : parse) : res ast_id_map :=
  match pa_errors p with
  | [] => from_source false (root_elem (pa_green p))
  | _ :: _ => Ok []
  end.

(** ** The item tree *)
(** hir/src/name.rs:20 [Name], 5-7 [MultiName]; expr.rs:33-36 [ParamList]; item_tree.rs:186-188 [IndexPath]. *)
Record param_list := mkParams { pl_names : list text; pl_vararg : bool }.
(** item_tree.rs:197-215. *)
Record local_assign := mkLA { la_names : list text; la_id : nat }.
Record local_function := mkLF { lf_name : text; lf_params : param_list; lf_id : nat }.
Record function_item := mkFn { fi_path : list text; fi_name : text; fi_method : bool; fi_id : nat }.
(** item_tree.rs:220-224 [ModItem]: an index into the arena of its kind. *)
Inductive mod_item := MLocalAssign (i : nat) | MLocalFunction (i : nat) | MFunction (i : nat).
(** item_tree.rs:28-31 [ItemTree], 69-75 [ItemTreeData]. [inner_items] is left out: only
    [collect_inner_items] fills it, which nothing calls. *)
Record item_tree := mkTree
  { it_top : list mod_item; it_assigns : list local_assign; it_locals : list local_function; it_funs : list function_item }.
Definition tree_empty : item_tree := mkTree [] [] [] [].

Fixpoint mapr {A B} (f : A -> res B) (l : list A) : res (list B) :=
  match l with
  | [] => Ok []
  | x :: l' => let? y := f x in let? ys := mapr f l' in Ok (y :: ys)
  end.
(** item_tree/lower.rs:153-156 [lower_multi_name]; nodes.rs:30-33 [MultiName::names]. *)
Definition lower_multi_name (e : elem) : res (list text) := mapr name_text (ast_children (is_kind KName) e).
(** lower.rs:148-151 [lower_index_path]; nodes.rs:345-348. *)
Definition lower_index_path (e : elem) : res (list text) := mapr name_text (ast_children (is_kind KNameRef) e).
(** lower.rs:158-163 [lower_params]; nodes.rs:301-306. *)
Definition lower_params (e : elem) : res (option param_list) :=
  match ast_child (is_kind KMultiName) e with
  | None => Ok None
  | Some m =>
    let? ns := lower_multi_name m in
    Ok (Some (mkParams ns match ast_token KTripleDot e with Some _ => true | None => false end))
  end.
(** lower.rs:90-100 [lower_local_assign]. *)
Definition lower_local_assign (m : ast_id_map) (e : elem) (s : item_tree) : res (option mod_item * item_tree) :=
  match ast_child (is_kind KMultiName) e with
  | None => Ok (None, s)
  | Some mn =>
    let? ns := lower_multi_name mn in
    let? id := ast_id m e in
    Ok (Some (MLocalAssign (length (it_assigns s))),
        mkTree (it_top s) (it_assigns s ++ [mkLA ns id]) (it_locals s) (it_funs s))
  end.
(** lower.rs:102-113 [lower_local_function]. *)
Definition lower_local_function (m : ast_id_map) (e : elem) (s : item_tree) : res (option mod_item * item_tree) :=
  match ast_child (is_kind KName) e with
  | None => Ok (None, s)
  | Some n =>
    let? nm := name_text n in
    match ast_child (is_kind KParamList) e with
    | None => Ok (None, s)
    | Some pl =>
      let? ps := lower_params pl in
      match ps with
      | None => Ok (None, s)
      | Some ps =>
        let? id := ast_id m e in
        Ok (Some (MLocalFunction (length (it_locals s))),
            mkTree (it_top s) (it_assigns s) (it_locals s ++ [mkLF nm ps id]) (it_funs s))
      end
    end
  end.
(** lower.rs:124-146 [lower_function_content]. *)
Definition lower_function_content (c : elem) : res (option (list text * text * bool)) :=
  let named (method : bool) :=
    match ast_child (is_kind KIndexPath) c with
    | None => Ok None
    | Some ip =>
      let? path := lower_index_path ip in
      match ast_child (is_kind KName) c with
      | None => Ok None
      | Some n => let? nm := name_text n in Ok (Some (path, nm, method))
      end
    end in
  match el_kind c with
  | KFunctionMethod => named true
  | KFunctionStatic => named false
  | _ => let? nm := name_text c in Ok (Some ([], nm, false))
  end.
(** lower.rs:115-122 [lower_function]. *)
Definition lower_function (m : ast_id_map) (e : elem) (s : item_tree) : res (option mod_item * item_tree) :=
  match ast_child fn_content_can_cast e with
  | None => Ok (None, s)
  | Some c =>
    let? o := lower_function_content c in
    match o with
    | None => Ok (None, s)
    | Some (path, nm, meth) =>
      let? id := ast_id m e in
      Ok (Some (MFunction (length (it_funs s))),
          mkTree (it_top s) (it_assigns s) (it_locals s) (it_funs s ++ [mkFn path nm meth id]))
    end
  end.
(** lower.rs:43-57 [lower_mod_item]. *)
Definition lower_mod_item (m : ast_id_map) (e : elem) (s : item_tree) : res (option mod_item * item_tree) :=
  match el_kind e with
  | KLocalAssignStmt => lower_local_assign m e s
  | KLocalFunctionDefStmt => lower_local_function m e s
  | _ => lower_function m e s
  end.
Fixpoint lower_items (m : ast_id_map) (es : list elem) (s : item_tree) : res (list mod_item * item_tree) :=
  match es with
  | [] => Ok ([], s)
  | e :: es' =>
    let? (o, s1) := lower_mod_item m e s in
    let? (l, s2) := lower_items m es' s1 in
    Ok (match o with Some x => x :: l | None => l end, s2)
  end.
(** syntax/src/ast/stmt_ext.rs:36-38 [SourceFile::stmt_items]. *)
Definition stmt_items (e : elem) : list elem := ast_children stmt_item_can_cast e.
(** lower.rs:36-41 [lower_module_items]. *)
Definition lower_module_items (m : ast_id_map) (root : elem) : res item_tree :=
  let? (l, s) := lower_items m (stmt_items root) tree_empty in
  Ok (mkTree l (it_assigns s) (it_locals s) (it_funs s)).
(** item_tree.rs:34-48 [file_item_tree_query], lower.rs:28-30 [Ctx::new]. *)
Definition file_item_tree (p : parse) : res item_tree :=
  let? m := ast_id_map_query p in
  if kind_eqb (green_kind (pa_green p)) KSourceFile then lower_module_items m (root_elem (pa_green p)) else Panic.

(** ** Bodies *)
(** body.rs:31-56 [body_query] of a module, body/lower.rs:16-51 [lower], [Collector::collect]: the id map
    is queried, then [todo!()] panics. *)
Definition module_body (p : parse) : res unit :=
  let? _ := ast_id_map_query p in Panic.
