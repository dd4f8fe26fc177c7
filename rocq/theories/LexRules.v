(** LexRules.v — the lexical rules of the implemented language, for C70: which text is a token, which kind it has and
    which error it gets, given what follows it. Nothing here refers to how the lexer works. *)
From Verif Require Import Base SyntaxKind LexSpec.

(** The places where a short string with quote [q] can stop, in the text [r] after the opening quote: the end, a
    newline or a NUL, and the quote unless a backslash stands directly before it. *)
Definition stops (q : char) (r p s : text) : Prop :=
  r = p ++ s /\ (s = [] \/ starts (fun c => c = 10%N \/ c = 0%N) s \/ (starts (fun c => c = q) s /\ last p 0%N <> 92%N)).
Definition first_stop (q : char) (r p s : text) : Prop :=
  stops q r p s /\ forall p' s', stops q r p' s' -> length p <= length p'.

(** The places where a long bracket of level [n] can stop, in the text [r] after its opening: a [\]] and exactly [n]
    equal signs, unless a backslash stands directly before it. *)
Definition closes_at (n : nat) (r p s : text) : Prop :=
  r = p ++ txt "]" ++ repeat 61%N n ++ s /\ last p 0%N <> 92%N /\ ~ starts (fun c => c = 61%N) s.
Definition first_close (n : nat) (r p s : text) : Prop :=
  closes_at n r p s /\ forall p' s', closes_at n r p' s' -> length p <= length p'.

(** The second bracket of a long opening; without equal signs it must be there, with them it may be missing. *)
Definition second_open (n : nat) (o r : text) : Prop :=
  o = txt "[" \/ (o = [] /\ n <> 0 /\ ~ starts (fun c => c = 91%N \/ c = 61%N) r).
(** The second bracket of a close may be missing. *)
Definition second_close (c b : text) : Prop := c = txt "]" \/ (c = [] /\ ~ starts (fun c => c = 93%N) b).

Definition no_newline (x : text) : Prop := Forall (fun c => c <> 10%N) x.
Definition line_end (b : text) : Prop := b = [] \/ starts (fun c => c = 10%N) b.

(** Characters that begin a token of another kind. *)
Definition known (c : char) : Prop :=
  letter c \/ digit c \/ blank c \/ quote_char c \/ c = 126%N \/ exists k sp, In (k, sp) spellings /\ starts (fun d => d = c) sp.

Inductive token_rule : kind -> option string -> text -> text -> Prop :=
| TR_operator k l b : In (k, l) spellings ->
    (forall sp, In sp (openers ++ map snd spellings) -> prefix_of sp (l ++ b) -> length sp <= length l) ->
    token_rule k None l b
| TR_keyword k l b : In (l, k) keywords -> ~ starts identc b -> token_rule k None l b
| TR_ident l b : ident_shape l -> (forall k, ~ In (l, k) keywords) -> ~ starts identc b -> token_rule KIdent None l b
| TR_number l b : numeral l -> (forall p, numeral p -> prefix_of p (l ++ b) -> length p <= length l) ->
    token_rule KNumber None l b
| TR_blank l b : l <> [] -> Forall blank l -> ~ starts blank b -> token_rule KWhitespace None l b
| TR_comment x b : ~ prefix_of (txt "[[") (x ++ b) -> no_newline x -> line_end b -> token_rule KComment None (txt "--" ++ x) b
| TR_long_comment x c y b : first_close 0 (x ++ txt "]" ++ c ++ y ++ b) x (c ++ y ++ b) -> second_close c (y ++ b) ->
    no_newline y -> line_end b -> token_rule KComment None (txt "--[[" ++ x ++ txt "]" ++ c ++ y) b
| TR_open_comment x : (forall p s, ~ closes_at 0 x p s) -> token_rule KComment None (txt "--[[" ++ x) []
| TR_string q p b : quote_char q -> first_stop q (p ++ [q] ++ b) p ([q] ++ b) -> token_rule KStr None ([q] ++ p ++ [q]) b
| TR_string_newline q p b : quote_char q -> first_stop q (p ++ b) p b -> starts (fun c => c = 10%N) b ->
    token_rule KStr (Some "Unexpected newline in string"%string) ([q] ++ p) b
| TR_string_end q p b : quote_char q -> first_stop q (p ++ b) p b -> b = [] \/ starts (fun c => c = 0%N) b ->
    token_rule KStr (Some ("Could not find closing delimiter `" ++ String (ascii_of_N q) "`")%string) ([q] ++ p) b
| TR_long_string n o x c b : second_open n o (x ++ txt "]" ++ repeat 61%N n ++ c ++ b) ->
    first_close n (x ++ txt "]" ++ repeat 61%N n ++ c ++ b) x (c ++ b) -> second_close c b ->
    token_rule KStr (match o, c with _ :: _, _ :: _ => None | _, _ => Some "Invalid bracket notation"%string end)
      (txt "[" ++ repeat 61%N n ++ o ++ x ++ txt "]" ++ repeat 61%N n ++ c) b
| TR_open_string n o x : second_open n o x -> (forall p s, ~ closes_at n x p s) ->
    token_rule KStr (Some "Could not find bracket string close"%string) (txt "[" ++ repeat 61%N n ++ o ++ x) []
| TR_tilde b : ~ starts (fun c => c = 61%N) b -> token_rule KUnknown None (txt "~") b
| TR_unknown c b : ~ known c -> token_rule KUnknown (Some "Got an unknown token"%string) [c] b.

(** A text read token by token. *)
Inductive reads : text -> list (kind * text * option string) -> Prop :=
| reads_nil : reads [] []
| reads_cons k e l b ls : token_rule k e l b -> reads b ls -> reads (l ++ b) ((k, l, e) :: ls).
