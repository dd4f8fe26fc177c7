(** Validation.v — crates/syntax/src/validation.rs and SourceFile::parse (crates/syntax/src/lib.rs:104-117). *)
From Verif Require Import Base SyntaxKind Lexer Tree TreeSink Ast.

(** Decimal rendering of a count, for [format!("... got {}", n)] (validation.rs:80). *)
Fixpoint dec_digits (fuel n : nat) (acc : string) : string :=
  match fuel with
  | 0 => acc
  | S f =>
    let d := String (ascii_of_nat (48 + n mod 10)) acc in
    if n <? 10 then d else dec_digits f (n / 10) d
  end.
Definition show_nat (n : nat) : string := dec_digits (S n) n "".

(** validation.rs:50-86 [ExprStmt::validate]. *)
Definition validate_expr_stmt (e : elem) : list syntax_error :=
  match expr_stmt_multival e with
  | None => [mkErr "Must have an expression" (el_range e)]
  | Some mv =>
    let exprs := multival_exprs mv in
    let bad := filter (fun x => negb (expr_is_call x)) exprs in
    let n := length (filter expr_is_call exprs) in
    map (fun x => mkErr "Expression statements can only be call expressions" (el_range x)) bad
    ++ (if n =? 0 then [mkErr "Expected a call expression" (el_range e)] else [])
    ++ (if 1 <? n then
          [mkErr ("Expected only one call expression, got " ++ show_nat n)%string (el_range e)]
        else [])
  end.

(** validation.rs:106-109: the accepted targets. *)
Definition assignable (e : elem) : bool :=
  match el_kind e with KDotExpr | KIndexExpr | KNameRef => true | _ => false end.

(** validation.rs:88-117 [AssignStmt::validate]. *)
Definition validate_assign (e : elem) : list syntax_error :=
  match assign_lhs e with
  | None => [mkErr "Must have at least one expression for the left hand side" (el_range e)]
  | Some lhs =>
    match assign_rhs e with
    | None => [mkErr "Must have a least one expression for the right hand side" (el_range e)]
    | Some _ =>
      map (fun x => mkErr "Can only assign name reference or index expression" (el_range x))
          (filter (fun x => negb (assignable x)) (multival_exprs lhs))
    end
  end.

Fixpoint take_while (f : char -> bool) (t : text) : text :=
  match t with
  | [] => []
  | c :: t' => if f c then c :: take_while f t' else []
  end.

Definition last_is (c : char) (t : text) : bool :=
  match rev t with [] => false | d :: _ => N.eqb c d end.

(** validation.rs:140-171 [unquote]. Bytes are compared with ASCII characters only, so the
    byte iterators are character iterators here; the slices remove ASCII characters at the two
    ends. The result is the offset and the body. *)
Definition unquote (t : text) : res (option (nat * text)) :=
  match t with
  | [] => Panic
  | d :: t1 =>
    if (d =? squote)%N || (d =? dquote)%N then
      if negb (last_is d t) || (blen t =? 1) then Ok None
      else Ok (Some (1, removelast t1))
    else if (d =? lbr)%N then
      let equals := length (take_while (N.eqb eqs) t1) in
      let t2 := skipn equals t1 in
      let t3 := match t2 with c :: r => if (c =? lbr)%N then r else t2 | [] => t2 end in
      let t4 :=
        if last_is rbr t3 then
          let a := removelast t3 in
          let back := length (take_while (N.eqb eqs) (rev a)) in
          let b := firstn (length a - back) a in
          if last_is rbr b then removelast b else b
        else t3 in
      Ok (Some (2 + equals, t4))
    else Panic
  end.

(** validation.rs:202: the characters accepted after a backslash. *)
Definition escape_ok (c : char) : bool :=
  existsb (N.eqb c)
    (txt "abfnrtv" ++ [backslash; dquote; squote; lbr; rbr]).

Definition ESCAPE_MSG : string := "Invalid escape sequence".

(** validation.rs:175-210 [unescape] with [unescape_once]; [pos] is
    [text_size - chars.as_str().len() - first.len()], the byte position of the current
    character, and [start] the offset of the body in the file. *)
Fixpoint unescape (fuel : nat) (pos start : nat) (t : text) : list syntax_error :=
  match fuel with
  | 0 => []
  | S fuel' =>
    match t with
    | [] => []
    | c :: t' =>
      if (c =? backslash)%N then
        match t' with
        | [] => [mkErr ESCAPE_MSG (mkRange (pos + start) (pos + 1 + start))]
        | d :: t'' =>
          let rest := unescape fuel' (pos + utf8_len c + utf8_len d) start t'' in
          if escape_ok d then rest
          else mkErr ESCAPE_MSG (mkRange (pos + start) (pos + (1 + utf8_len d) + start)) :: rest
        end
      else unescape fuel' (pos + utf8_len c) start t'
    end
  end.

(** validation.rs:119-135 [Literal::validate]. [TextSize + TextSize] and [TextRange + TextSize]
    (validation.rs:126, 189-196) panic when the sum does not fit u32; the ends of the ranges are the
    largest values computed. *)
Definition validate_literal (e : elem) : res (list syntax_error) :=
  let? tok := literal_token e in
  let? lk := literal_kind_of e in
  match lk with
  | LKStr =>
    let t := green_text (el_green tok) in
    let? o := unquote t in
    match o with
    | Some (offset, body) =>
      let? _ := rassert (fits_u32 (el_off tok + offset)) in
      let errs := unescape (S (length body)) 0 (el_off tok + offset) body in
      let? _ := rassert (forallb (fun e => fits_u32 (r_end (e_range e))) errs) in
      Ok errs
    | None => Ok []
    end
  | _ => Ok []
  end.

(** validation.rs:30-38: one node. *)
Definition validate_node (e : elem) : res (list syntax_error) :=
  match el_kind e with
  | KExprStmt => Ok (validate_expr_stmt e)
  | KLiteral => validate_literal e
  | KAssignStmt => Ok (validate_assign e)
  | _ => Ok []
  end.

Fixpoint validate_list (l : list elem) : res (list syntax_error) :=
  match l with
  | [] => Ok []
  | e :: l' =>
    let? a := validate_node e in
    let? b := validate_list l' in
    Ok (a ++ b)
  end.

(** validation.rs:23-42 [validate]. *)
Definition validate (root : elem) : res (list syntax_error) :=
  validate_list (el_descendants root).

(** lib.rs:37-41 [Parse { green, errors }]. *)
Record parse := mkParse { pa_green : green; pa_errors : list syntax_error }.

(** lib.rs:107-116 [SourceFile::parse]. *)
Definition source_file_parse (t : text) : res parse :=
  let? (g, errs) := parse_text t in
  let? verrs := validate (root_elem g) in
  let? _ := rassert (kind_eqb (green_kind g) KSourceFile) in
  Ok (mkParse g (errs ++ verrs)).
