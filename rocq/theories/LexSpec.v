(** LexSpec.v — specification vocabulary for the lexer properties C01–C10. Nothing here refers to
    how the lexer works; only to texts, token kinds and the result of [tokenize]. *)
From Verif Require Import Base SyntaxKind Lexer.

(** Tokens of a text with their texts: [token_at t a k l b] — tokenizing [t] succeeds and one of
    the tokens has kind [k] and text [l], coming after [a] and before [b]. *)
Definition token_at (t a : text) (k : kind) (l b : text) : Prop :=
  exists toks errs pre post,
    tokenize t = Ok (toks, errs) /\ toks = pre ++ mkToken k (blen l) :: post /\
    t = a ++ l ++ b /\ blen a = list_sum (map t_len pre).

Definition prefix_of (p t : text) : Prop := exists r, t = p ++ r.

(** Fixed spellings of operators and punctuation. *)
Definition spellings : list (kind * text) :=
  [(KBang, txt "!"); (KHash, txt "#"); (KModulo, txt "%"); (KLParen, txt "("); (KRParen, txt ")");
   (KAsterisk, txt "*"); (KPlus, txt "+"); (KComma, txt ","); (KMinus, txt "-"); (KDot, txt ".");
   (KDoubleDot, txt ".."); (KTripleDot, txt "..."); (KSlash, txt "/"); (KColon, txt ":");
   (KDoubleColon, txt "::"); (KSemicolon, txt ";"); (KLt, txt "<"); (KLtEq, txt "<=");
   (KEq, txt "="); (KEqEq, txt "=="); (KGt, txt ">"); (KGtEq, txt ">="); (KLBracket, txt "[");
   (KRBracket, txt "]"); (KCaret, txt "^"); (KLBrace, txt "{"); (KRBrace, txt "}");
   (KNotEq, txt "~=")].

(** Openers that make the lexer leave the operator world: comments and long strings. *)
Definition openers : list text := [txt "--"; txt "[["; txt "[="].

(** The 22 keywords. *)
Definition keywords : list (text * kind) :=
  [(txt "and", KAndKw); (txt "break", KBreakKw); (txt "do", KDoKw); (txt "else", KElseKw);
   (txt "elseif", KElseifKw); (txt "end", KEndKw); (txt "false", KFalseKw); (txt "for", KForKw);
   (txt "function", KFunctionKw); (txt "goto", KGotoKw); (txt "if", KIfKw); (txt "in", KInKw);
   (txt "local", KLocalKw); (txt "nil", KNilKw); (txt "not", KNotKw); (txt "or", KOrKw);
   (txt "repeat", KRepeatKw); (txt "return", KReturnKw); (txt "then", KThenKw);
   (txt "true", KTrueKw); (txt "until", KUntilKw); (txt "while", KWhileKw)].

(** Character classes. *)
Definition letter (c : char) : Prop :=
  (65 <= c <= 90)%N \/ (97 <= c <= 122)%N \/ c = 95%N.
Definition digit (c : char) : Prop := (48 <= c <= 57)%N.
Definition hexdigit (c : char) : Prop :=
  (48 <= c <= 57)%N \/ (65 <= c <= 70)%N \/ (97 <= c <= 102)%N.
Definition blank (c : char) : Prop :=
  c = 32%N \/ c = 9%N \/ c = 10%N \/ c = 12%N \/ c = 13%N.

Definition identc (c : char) : Prop := letter c \/ digit c.

(** [A-Za-z_][A-Za-z0-9_]* *)
Definition ident_shape (l : text) : Prop :=
  exists c r, l = c :: r /\ letter c /\ Forall (fun d => letter d \/ digit d) r.

(** The text starts with a character of the class. *)
Definition starts (P : char -> Prop) (t : text) : Prop :=
  match t with [] => False | c :: _ => P c end.

(** Numerals as this lexer understands them: 0x and hex digits, or digits with optional
    fraction and exponent (both possibly without digits). *)
Definition optional (P : text -> Prop) (t : text) : Prop := t = [] \/ P t.
Definition digits (t : text) : Prop := Forall digit t.
Definition fraction (t : text) : Prop := exists d, t = txt "." ++ d /\ digits d.
Definition exponent (t : text) : Prop :=
  exists e s d, t = e ++ s ++ d /\ (e = txt "e" \/ e = txt "E") /\ (s = [] \/ s = txt "-") /\ digits d.
Definition decimal (l : text) : Prop :=
  exists a f e, l = a ++ f ++ e /\ a <> [] /\ digits a /\ optional fraction f /\ optional exponent e.
Definition hexadecimal (l : text) : Prop := exists h, l = txt "0x" ++ h /\ Forall hexdigit h.
Definition numeral (l : text) : Prop := decimal l \/ hexadecimal l.

(** Short strings, as written in Lua source: between equal quotes, plain characters (not the quote,
    a backslash or a newline) and escapes (a backslash and any one character). The second
    component of [Body] is the list of items. *)
Definition quote_char (q : char) : Prop := q = 39%N \/ q = 34%N.
Inductive str_item (q : char) : text -> Prop :=
| item_plain c : c <> q -> c <> 92%N -> c <> 10%N -> str_item q [c]
| item_escape c : str_item q [92%N; c].
Definition lua_short_string (l : text) : Prop :=
  exists q items, quote_char q /\ Forall (str_item q) items /\ l = [q] ++ concat items ++ [q].

(** Long brackets of level [n]: the opener, content without the closer, the closer. *)
Definition long_open (n : nat) : text := txt "[" ++ repeat 61%N n ++ txt "[".
Definition long_close (n : nat) : text := txt "]" ++ repeat 61%N n ++ txt "]".
Definition lua_long_bracket (n : nat) (x l : text) : Prop :=
  l = long_open n ++ x ++ long_close n /\
  forall p q, x ++ long_close n = p ++ long_close n ++ q -> q = [].

(** Contents of a long bracket that this lexer reads as intended: no [\]] directly (the lexer takes
    it for an escape), and no [] =*n] not followed by one more [=] (the lexer gives up there even
    when no [\]] follows). *)
Definition no_escaped_close (x : text) : Prop :=
  forall p s, x ++ txt "]" <> p ++ txt "\]" ++ s.
Definition no_early_close (n : nat) (x : text) : Prop :=
  forall p s, x = p ++ txt "]" ++ repeat 61%N n ++ s -> exists s', s = txt "=" ++ s'.

(** Numerals of the Lua manual. *)
Definition lua_exponent (t : text) : Prop :=
  exists e s d, t = e ++ s ++ d /\ (e = txt "e" \/ e = txt "E") /\
                (s = [] \/ s = txt "-" \/ s = txt "+") /\ d <> [] /\ digits d.
Definition lua_decimal (l : text) : Prop :=
  exists a f e, l = a ++ f ++ e /\ digits a /\ optional fraction f /\ optional lua_exponent e /\
    (a <> [] \/ exists d, f = txt "." ++ d /\ d <> []).
Definition lua_hexadecimal (l : text) : Prop :=
  exists p h, l = p ++ h /\ (p = txt "0x" \/ p = txt "0X") /\ h <> [] /\ Forall hexdigit h.
Definition lua_numeral (l : text) : Prop := lua_decimal l \/ lua_hexadecimal l.

(** A text is lexed as a single token of kind [k] without error. *)
Definition lexes_as (l : text) (k : kind) : Prop := tokenize l = Ok ([mkToken k (blen l)], []).

(** The errors of a token list with one optional message per token, from byte position [pos]. *)
Fixpoint errors_of (pos : nat) (toks : list token) (es : list (option string)) : list syntax_error :=
  match toks, es with
  | tok :: toks', e :: es' =>
    let rest := errors_of (pos + t_len tok) toks' es' in
    match e with
    | Some m => mkErr m (mkRange pos (pos + t_len tok)) :: rest
    | None => rest
    end
  | _, _ => []
  end.

(** Shifting an error. *)
Definition shift_err (d : nat) (e : syntax_error) : syntax_error :=
  mkErr (e_msg e) (mkRange (r_start (e_range e) + d) (r_end (e_range e) + d)).

(** A closed short string token: at least two characters, ending with its opening quote, and that
    last quote not directly after a backslash. *)
Definition closed (l : text) : Prop :=
  exists q m, l = [q] ++ m ++ [q] /\ last m 0%N <> 92%N.

(** Which tokens have an error. *)
Definition error_spec (k : kind) (l : text) (e : option string) : Prop :=
  (k <> KStr -> k <> KUnknown -> e = None) /\
  (k = KUnknown -> (l = txt "~" /\ e = None) \/ (l <> txt "~" /\ e = Some "Got an unknown token"%string)) /\
  (k = KStr -> starts quote_char l -> (e = None <-> closed l)).

(** Pieces a program text can be made of for C10/C20: lexemes and the kind they denote. The
    string case excludes backslashes; every other lexeme form is as above. *)
Inductive lexeme : kind -> text -> Prop :=
| lx_op k l : In (k, l) spellings -> lexeme k l
| lx_keyword k l : In (l, k) keywords -> lexeme k l
| lx_ident l : ident_shape l -> (forall k, ~ In (l, k) keywords) -> lexeme KIdent l
| lx_number l : numeral l -> lexeme KNumber l
| lx_string q m : quote_char q -> Forall (fun c => c <> q /\ c <> 92%N /\ c <> 10%N /\ c <> 0%N) m ->
    lexeme KStr ([q] ++ m ++ [q]).

(** A run of whitespace. *)
Definition blank_run (w : text) : Prop := w <> [] /\ Forall blank w.

(** [spaced ps t toks]: [t] is the sequence of lexemes [ps], each followed by a run of whitespace,
    and [toks] are the tokens one expects. *)
Inductive spaced : list (kind * text) -> text -> list token -> Prop :=
| sp_nil : spaced [] [] []
| sp_cons k l w ps t toks : lexeme k l -> blank_run w -> spaced ps t toks ->
    spaced ((k, l) :: ps) (l ++ w ++ t)
           (mkToken k (blen l) :: mkToken KWhitespace (blen w) :: toks).
