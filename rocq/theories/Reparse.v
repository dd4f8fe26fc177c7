(** Reparse.v — crates/syntax/src/parsing/reparsing.rs and [Parse::reparse] of
    crates/syntax/src/lib.rs. Red-tree nodes are paths of child indices from the root. *)
From Verif Require Import Base SyntaxKind Lexer Parser Grammar Event Tree TreeSink Ast Validation TextEdit Ptr.

(** text_size: [TextRange::ordering], Less / Greater / Equal as -1 / 1 / 0. *)
Definition range_before (a b : range) : bool := r_end a <=? r_start b.

(** rowan 0.12 [GreenNode::child_at_range]: binary search by [TextRange::ordering]; when no child
    overlaps the range, the child before the insertion point (the first one if there is none);
    then only if it contains the range. On ranges sorted by position the search finds the one
    overlapping child if there is exactly one, and any of them otherwise (none of which contains
    the range). *)
Fixpoint first_overlap (i : nat) (r : range) (cs : list elem) : option nat :=
  match cs with
  | [] => None
  | c :: cs' =>
    if negb (range_before (el_range c) r) && negb (range_before r (el_range c)) then Some i
    else first_overlap (S i) r cs'
  end.
Definition count_before (r : range) (cs : list elem) : nat :=
  length (filter (fun c => range_before (el_range c) r) cs).
Definition child_at_range (r : range) (cs : list elem) : option (nat * elem) :=
  let i := match first_overlap 0 r cs with Some i => i | None => pred (count_before r cs) end in
  match nth_error cs i with
  | Some c => if contains_range (el_range c) r then Some (i, c) else None
  | None => None
  end.

(** rowan 0.12 [SyntaxNode::covering_element]: the path to the element, and the element. *)
Fixpoint covering (r : range) (g : green) {struct g} : nat -> res (list nat * elem) := fun off =>
  if negb (contains_range (el_range (mkElem off g)) r) then Panic
  else match g with
       | GTok _ _ => Ok ([], mkElem off g)
       | GNode _ cs =>
         let subs := map (covering r) cs in
         match child_at_range r (place off cs) with
         | None => Ok ([], mkElem off g)
         | Some (i, c) =>
           match nth_error subs i with
           | Some f => let? (p, e) := f (el_off c) in Ok (i :: p, e)
           | None => Panic
           end
         end
       end.

(** The element at a path. *)
Fixpoint elem_at (p : list nat) (e : elem) : option elem :=
  match p with
  | [] => Some e
  | i :: p' => match nth_error (el_children_with_tokens e) i with
               | Some c => elem_at p' c
               | None => None
               end
  end.

(** rowan [replace_with] on the element at a path: replace_child in each ancestor up to the
    root. [assert_eq!] of the kinds at the element itself. *)
Fixpoint replace_path (p : list nat) (new g : green) : res green :=
  match p with
  | [] => if kind_eqb (green_kind new) (green_kind g) then Ok new else Panic
  | i :: p' =>
    match g with
    | GTok _ _ => Panic
    | GNode k cs =>
      match nth_error cs i with
      | None => Panic
      | Some c => let? c' := replace_path p' new c in
                  Ok (GNode k (firstn i cs ++ c' :: skipn (S i) cs))
      end
    end
  end.

(** reparsing.rs:84-93 [get_text_after_edit]. *)
Definition get_text_after_edit (e : elem) (edit : indel) : res text :=
  let? a := usub (i_start edit) (el_off e) in
  let? b := usub (i_end edit) (el_off e) in
  indel_apply (mkIndel (i_insert edit) (mkRange a b)) (green_text (el_green e)).

(** What the reparse functions return: the new root, the new errors, the old range. *)
Definition reparsed := (green * list syntax_error * range)%type.

(** reparsing.rs:28-60 [reparse_token]. *)
Definition reparse_token (root : green) (edit : indel) : res (option reparsed) :=
  let? (p, e) := covering (i_delete edit) root 0 in
  match el_green e with
  | GNode _ _ => Ok None
  | GTok k tx =>
    match k with
    | KWhitespace | KComment | KIdent | KStr =>
      let? stop :=
        match k with
        | KWhitespace | KComment =>
          let? a := usub (i_start edit) (el_off e) in
          let? b := usub (i_end edit) (el_off e) in
          let? d := bslice tx a b in
          Ok (existsb (N.eqb 10) d)
        | _ => Ok false
        end in
      if stop : bool then Ok None
      else
        let? new_text := get_text_after_edit e edit in
        let? o := first_syntax_kind new_text in
        match o with
        | None => Ok None
        | Some (nk, nerr) =>
          if negb (kind_eqb nk k) then Ok None
          else
            let? g := replace_path p (GTok k new_text) root in
            Ok (Some (g, match nerr with Some x => [x] | None => [] end, el_range e))
        end
    | _ => Ok None
    end
  end.

(** reparsing.rs:95-99 [find_reparsable_node]: the innermost node on the path from the root to the
    covering element (which [ancestors] includes if it is a node) that has a reparser. *)
Fixpoint find_reparsable (p : list nat) (e : elem) : option (list nat * elem) :=
  let deeper :=
    match p with
    | [] => None
    | i :: p' => match nth_error (el_children_with_tokens e) i with
                 | Some c => match find_reparsable p' c with
                             | Some (q, n) => Some (i :: q, n)
                             | None => None
                             end
                 | None => None
                 end
    end in
  match deeper with
  | Some x => Some x
  | None => if is_gnode (el_green e) && match reparser (el_kind e) with Some _ => true | None => false end
            then Some ([], e) else None
  end.

(** reparsing.rs:101-106 [is_balanced]. *)
Definition is_balanced (toks : list token) : bool :=
  match rev toks with [] => false | t :: _ => kind_eqb (t_kind t) KEndKw end.

(** reparsing.rs:62-82 [reparse_block]; parser/src/lib.rs:118-127 [Reparser::parse]. *)
Definition reparse_block (root : green) (edit : indel) : res (option reparsed) :=
  let? (p, _) := covering (i_delete edit) root 0 in
  match find_reparsable p (root_elem root) with
  | None => Ok None
  | Some (q, n) =>
    let? t := get_text_after_edit n edit in
    let? (toks, lex_errs) := tokenize t in
    if negb (is_balanced toks) then Ok None
    else
      match reparser (el_kind n) with
      | None => Ok None
      | Some f =>
        let? evs := run_grammar f (ts_new_source toks) in
        let? steps := process evs in
        let? (g, errs) := run_tsink t toks steps in
        let? root' := replace_path q g root in
        Ok (Some (root', errs ++ lex_errs, el_range n))
      end
  end.

(** text_size: [TextRange + TextSize]. *)
Definition range_add (r : range) (n : nat) : res range :=
  let? a := uadd (r_start r) n in
  let? b := uadd (r_end r) n in
  Ok (mkRange a b).
Definition err_with (e : syntax_error) (r : range) : syntax_error := mkErr (e_msg e) r.

(** reparsing.rs:116-126: the old errors kept. *)
Fixpoint merge_old (olds : list syntax_error) (r : range) (edit : indel) : res (list syntax_error) :=
  match olds with
  | [] => Ok []
  | e :: olds' =>
    if r_end (e_range e) <=? r_start r then
      let? l := merge_old olds' r edit in Ok (e :: l)
    else if r_end r <=? r_start (e_range e) then
      let? o := indel_offset edit in
      let? er := range_add (e_range e) o in
      let? l := merge_old olds' r edit in Ok (err_with e er :: l)
    else merge_old olds' r edit
  end.
(** reparsing.rs:128-131: the new errors moved. *)
Fixpoint merge_new (news : list syntax_error) (r : range) : res (list syntax_error) :=
  match news with
  | [] => Ok []
  | e :: news' =>
    let? er := range_add (e_range e) (r_start r) in
    let? l := merge_new news' r in Ok (err_with e er :: l)
  end.
(** reparsing.rs:108-134 [merge_errors]. *)
Definition merge_errors (olds news : list syntax_error) (r : range) (edit : indel) : res (list syntax_error) :=
  let? a := merge_old olds r edit in
  let? b := merge_new news r in
  Ok (a ++ b).

(** reparsing.rs:12-26 [incremental_reparse]. *)
Definition incremental_reparse (root : green) (edit : indel) (errors : list syntax_error) : res (option reparsed) :=
  let? o := reparse_token root edit in
  match o with
  | Some (g, news, r) => let? m := merge_errors errors news r edit in Ok (Some (g, m, r))
  | None =>
    let? o := reparse_block root edit in
    match o with
    | Some (g, news, r) => let? m := merge_errors errors news r edit in Ok (Some (g, m, r))
    | None => Ok None
    end
  end.

(** lib.rs:134-138 [full_reparse]. *)
Definition full_reparse (p : parse) (edit : indel) : res parse :=
  let? t := indel_apply edit (green_text (pa_green p)) in
  source_file_parse t.
(** lib.rs:120-133 [Parse::reparse]. *)
Definition reparse (p : parse) (edit : indel) : res parse :=
  let? o := incremental_reparse (pa_green p) edit (pa_errors p) in
  match o with
  | Some (g, errs, _) => Ok (mkParse g errs)
  | None => full_reparse p edit
  end.

(** ** reparsing.rs:143-204: the repository's own tests. *)
Definition check_reparse (before : text) (a b : nat) (ins : text) (len : nat) : bool :=
  match source_file_parse before with
  | Ok p =>
    match incremental_reparse (pa_green p) (mkIndel ins (mkRange a b)) (pa_errors p),
          full_reparse p (mkIndel ins (mkRange a b)) with
    | Ok (Some (g, errs, r)), Ok q =>
      (range_len r =? len) && (if list_eq_dec N.eq_dec (green_text g) (green_text (pa_green q)) then true else false)
      && (length errs =? length (pa_errors q))
    | _, _ => false
    end
  | _ => false
  end.
Definition nl : text := [10%N].
Example reparse_tokens_1 :
  check_reparse (nl ++ txt "local function foo()" ++ nl ++ txt "  return 1" ++ nl ++ txt "end") 16 19 (txt "bar") 3 = true.
Proof. vm_compute. reflexivity. Qed.
Example reparse_tokens_2 :
  check_reparse (nl ++ txt "--" ++ nl ++ txt "local hello = 'world'") 3 3 (txt "some comment") 2 = true.
Proof. vm_compute. reflexivity. Qed.
Example reparse_tokens_3 : check_reparse (nl ++ txt "-- omment" ++ nl) 4 4 (txt "c") 9 = true.
Proof. vm_compute. reflexivity. Qed.
Example reparse_tokens_4 : check_reparse (nl ++ txt "local person = ''" ++ nl) 17 17 (txt "my name") 2 = true.
Proof. vm_compute. reflexivity. Qed.
