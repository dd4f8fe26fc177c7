(** Lexer.v — crates/syntax/src/lua_lexer.rs and lexer.rs. *)
From Verif Require Import Base SyntaxKind Accept.

(** crates/parser/src/lib.rs:29-34 [Token { kind, len }]. *)
Record token := mkToken { t_kind : kind; t_len : nat }.

(** lexer/error.rs:60 [LexResult<T>] = a value and an optional message. *)
Definition lex_result (A : Type) : Type := (A * option string)%type.

(** ** Character classes: lua_lexer.rs:329-351 *)

(** lua_lexer.rs:329-331 [is_number]. *)
Definition is_number (c : char) : bool := (48 <=? c)%N && (c <=? 57)%N.
(** lua_lexer.rs:334-336 [is_ident_start]: ASCII alphabetic or underscore. *)
Definition is_ident_start (c : char) : bool :=
  ((65 <=? c)%N && (c <=? 90)%N) || ((97 <=? c)%N && (c <=? 122)%N) || (c =? 95)%N.
(** lua_lexer.rs:339-341 [is_ident_continue]. *)
Definition is_ident_continue (c : char) : bool := is_ident_start c || is_number c.
(** lua_lexer.rs:344-346 [is_whitespace] = [char::is_ascii_whitespace]:
    space, tab, newline, form feed, carriage return. *)
Definition is_whitespace (c : char) : bool :=
  (c =? 32)%N || (c =? 9)%N || (c =? 10)%N || (c =? 12)%N || (c =? 13)%N.
(** lua_lexer.rs:349-351 [is_hex]. *)
Definition is_hex (c : char) : bool :=
  is_number c || ((65 <=? c)%N && (c <=? 70)%N) || ((97 <=? c)%N && (c <=? 102)%N).

Definition newline : char := 10%N.
Definition backslash : char := 92%N.
Definition dquote : char := 34%N.
Definition squote : char := 39%N.
Definition lbr : char := 91%N.
Definition rbr : char := 93%N.
Definition eqs : char := 61%N.

Definition C (a : ascii) : lexable := LChr (ch a).

Definition ok_kind (k : kind) (s : source) : res (lex_result kind * source) :=
  Ok ((k, None), s).

(** lua_lexer.rs:189-207 [number]. *)
Definition lex_number (s : source) : res (lex_result kind * source) :=
  let? _ := rassert (l_peek (LPred is_number) s) in
  let? (b, s) := l_accept (LSeq [C "0"; C "x"]) s in
  if b then
    let? (_, s) := l_accept (LWhile (LPred is_hex)) s in
    ok_kind KNumber s
  else
    let? (_, s) := l_accept (LWhile (LPred is_number)) s in
    let? (b, s) := l_accept (C ".") s in
    let? s := (if b then let? (_, s) := l_accept (LWhile (LPred is_number)) s in Ok s
               else Ok s) in
    let? (b1, s) := l_accept (C "e") s in
    let? (b, s) := (if b1 then Ok (true, s) else l_accept (C "E") s) in
    let? s := (if b then
                 let? (_, s) := l_accept (C "-") s in
                 let? (_, s) := l_accept (LWhile (LPred is_number)) s in Ok s
               else Ok s) in
    ok_kind KNumber s.

(** lua_lexer.rs:209-215 [whitespace]. *)
Definition lex_whitespace (s : source) : res (lex_result kind * source) :=
  let? _ := rassert (l_peek (LPred is_whitespace) s) in
  let? (_, s) := l_accept (LWhile (LPred is_whitespace)) s in
  ok_kind KWhitespace s.

(** The loop of [close], lua_lexer.rs:251-265. [None]: end of input reached. *)
Fixpoint close_loop (fuel : nat) (count : nat) (s : source) : res (bool * source) :=
  match fuel with
  | 0 => OutOfFuel
  | S fuel' =>
    let? (_, s) :=
      l_accept (LWhile (LOr [LSeq [LChr backslash; LChr rbr]; LNot (LChr rbr)])) s in
    let? (b, s) := l_accept (LChr rbr) s in
    if negb b then Ok (false, s)
    else
      let? (close_count, s) := l_accept_count (LWhile (LChr eqs)) s in
      if negb (count =? close_count) then close_loop fuel' count s else Ok (true, s)
  end.

(** [close], lua_lexer.rs:232-270. *)
Definition lex_close (count : nat) (s : source) : res (option string * source) :=
  let? (b1, s) := l_accept (LChr lbr) s in
  let? (found, s) := close_loop (loop_fuel s) count s in
  if negb found then Ok (Some "Could not find bracket string close"%string, s)
  else
    let? (b2, s) := l_accept (LChr rbr) s in
    Ok ((if b1 && b2 then None else Some "Invalid bracket notation"%string), s).

(** lua_lexer.rs:231-282 [bracket_enclosed]. *)
Definition bracket_enclosed (s : source) : res (option string * source) :=
  let c := s_current s in
  let? _ := rassert ((c =? lbr)%N || (c =? eqs)%N) in
  if l_peek (LChr lbr) s then lex_close 0 s
  else if l_peek (LChr eqs) s then
    let? (count, s) := l_accept_count (LWhile (LChr eqs)) s in
    lex_close count s
  else Ok (None, s).

(** lua_lexer.rs:217-229 [comment]; the result of [bracket_enclosed] is discarded. *)
Definition lex_comment (s : source) : res (lex_result kind * source) :=
  let? s := l_bump (C "-") s in
  let? (b, s) := l_accept (LChr lbr) s in
  let? s := (if b then
               if l_peek (LChr lbr) s then
                 let? (_, s) := bracket_enclosed s in Ok s
               else Ok s
             else Ok s) in
  let? (_, s) := l_accept (LUntil (LChr newline)) s in
  ok_kind KComment s.

(** lua_lexer.rs:284-288 [multiline_string]. *)
Definition lex_multiline_string (s : source) : res (lex_result kind * source) :=
  let? _ := rassert (l_peek (LOr [LChr lbr; LChr eqs]) s) in
  let? (err, s) := bracket_enclosed s in
  Ok ((KStr, err), s).

(** The loop of [string], lua_lexer.rs:300-311. *)
Fixpoint string_loop (fuel : nat) (delim : char) (s : source)
  : res (option string * source) :=
  match fuel with
  | 0 => OutOfFuel
  | S fuel' =>
    let c := s_current s in
    if (c =? eof_char)%N then
      Ok (Some ("Could not find closing delimiter `"
                ++ String (ascii_of_N delim) "`")%string, s)
    else if (c =? newline)%N then Ok (Some "Unexpected newline in string"%string, s)
    else if (c =? delim)%N then
      let? s := l_bump (LChr delim) s in Ok (None, s)
    else
      let? s := l_bump (LOr [LSeq [LChr backslash; LChr delim]; LAny]) s in
      string_loop fuel' delim s
  end.

(** lua_lexer.rs:296-314 [string]. *)
Definition lex_string (delim : char) (s : source) : res (lex_result kind * source) :=
  let? _ := rassert ((delim =? squote)%N || (delim =? dquote)%N) in
  let? s := l_bump (LChr delim) s in
  let? (err, s) := string_loop (loop_fuel s) delim s in
  Ok ((KStr, err), s).

(** lua_lexer.rs:316-325 [ident]. *)
Definition lex_ident (s : source) : res (lex_result kind * source) :=
  let start := s_pos s in
  let t := s_rest s in
  let? s := l_bump (LPred is_ident_start) s in
  let? (_, s) := l_accept (LWhile (LPred is_ident_continue)) s in
  let? t := bslice t 0 (s_pos s - start) in
  ok_kind (match from_keyword t with Some k => k | None => KIdent end) s.

(** lua_lexer.rs:86-187 [lex_main]. *)
Definition lex_main (s : source) : res (lex_result kind * source) :=
  let c := s_current s in
  (* the kinds reached by falling out of the match: one character consumed *)
  let single (k : kind) := let? s := l_bump LAny s in ok_kind k s in
  if (c =? ch "=")%N then
    let? (d, s) := l_bump_then LAny s in
    if (d =? ch "=")%N then let? s := l_bump (C "=") s in ok_kind KEqEq s
    else ok_kind KEq s
  else if (c =? ch "~")%N then
    let? (d, s) := l_bump_then LAny s in
    if (d =? ch "=")%N then let? s := l_bump (C "=") s in ok_kind KNotEq s
    else ok_kind KUnknown s
  else if (c =? ch "(")%N then single KLParen
  else if (c =? ch ")")%N then single KRParen
  else if (c =? ch "{")%N then single KLBrace
  else if (c =? ch "}")%N then single KRBrace
  else if (c =? lbr)%N then
    let? (d, s) := l_bump_then LAny s in
    if (d =? lbr)%N then lex_multiline_string s
    else if (d =? eqs)%N then lex_multiline_string s
    else ok_kind KLBracket s
  else if (c =? rbr)%N then single KRBracket
  else if (c =? ch ",")%N then single KComma
  else if (c =? ch ".")%N then
    let? (d, s) := l_bump_then LAny s in
    if (d =? ch ".")%N then
      let? (d, s) := l_bump_then LAny s in
      if (d =? ch ".")%N then let? s := l_bump (C ".") s in ok_kind KTripleDot s
      else ok_kind KDoubleDot s
    else ok_kind KDot s
  else if (c =? ch ";")%N then single KSemicolon
  else if (c =? ch ":")%N then
    let? (d, s) := l_bump_then LAny s in
    if (d =? ch ":")%N then let? s := l_bump (C ":") s in ok_kind KDoubleColon s
    else ok_kind KColon s
  else if (c =? ch "#")%N then single KHash
  else if (c =? ch "+")%N then single KPlus
  else if (c =? ch "*")%N then single KAsterisk
  else if (c =? ch "/")%N then single KSlash
  else if (c =? ch "%")%N then single KModulo
  else if (c =? ch "^")%N then single KCaret
  else if (c =? ch ">")%N then
    let? (d, s) := l_bump_then LAny s in
    if (d =? ch "=")%N then let? s := l_bump (C "=") s in ok_kind KGtEq s
    else ok_kind KGt s
  else if (c =? ch "<")%N then
    let? (d, s) := l_bump_then LAny s in
    if (d =? ch "=")%N then let? s := l_bump (C "=") s in ok_kind KLtEq s
    else ok_kind KLt s
  else if (c =? ch "!")%N then single KBang
  else if (c =? ch "-")%N then
    let? (d, s) := l_bump_then LAny s in
    if (d =? ch "-")%N then lex_comment s
    else ok_kind KMinus s
  else if (c =? squote)%N || (c =? dquote)%N then lex_string c s
  else if is_ident_start c then lex_ident s
  else if is_number c then lex_number s
  else if is_whitespace c then lex_whitespace s
  else
    let? s := l_bump LAny s in
    Ok ((KUnknown, Some "Got an unknown token"%string), s).

(** lexer.rs:29-40 [first_token] with 17-24 [next_token]: the first token of a non-empty
    text, and its error with range [0, len). *)
Definition first_token (t : text) : res (option (token * option syntax_error)) :=
  match t with
  | [] => Ok None
  | _ =>
    let? s := source_new t in
    let? (r, s') := lex_main s in
    let len := s_pos s' in
    Ok (Some (mkToken (fst r) len,
              option_map (fun m => mkErr m (mkRange 0 len)) (snd r)))
  end.

(** lexer.rs:42-47 [first_syntax_kind]. *)
Definition first_syntax_kind (t : text) : res (option (kind * option syntax_error)) :=
  let? o := first_token t in
  Ok (option_map (fun p => (t_kind (fst p), snd p)) o).

(** lexer.rs:67-86 [tokenizer] driven to the end, collecting as lexer.rs:50-64 [tokenize].
    Recursion on fuel; each turn of the iterator removes the first token. *)
Fixpoint tokenize_loop (fuel : nat) (pos : nat) (t : text)
  : res (list token * list syntax_error) :=
  match fuel with
  | 0 => OutOfFuel
  | S fuel' =>
    let? o := first_token t in
    match o with
    | None => Ok ([], [])
    | Some (tok, err) =>
      let err' := option_map
        (fun e => mkErr (e_msg e) (mkRange (r_start (e_range e) + pos) (r_end (e_range e) + pos)))
        err in
      match bsplit (t_len tok) t with
      | None => Panic
      | Some (_, rest) =>
        let? (toks, errs) := tokenize_loop fuel' (pos + t_len tok) rest in
        Ok (tok :: toks, match err' with Some e => e :: errs | None => errs end)
      end
    end
  end.

Definition tokenize (t : text) : res (list token * list syntax_error) :=
  tokenize_loop (S (length t)) 0 t.
