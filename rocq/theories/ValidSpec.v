(** ValidSpec.v — specification vocabulary for the validation properties C24–C27, C29. *)
From Verif Require Import Base SyntaxKind Lexer LexSpec Tree Ast.

(** A string body cut into plain characters and escapes; a last lone backslash is possible. *)
Inductive seg := Plain (c : char) | Esc (c : char) | Dangling.
Definition seg_text (s : seg) : text :=
  match s with Plain c => [c] | Esc c => [92%N; c] | Dangling => [92%N] end.
Fixpoint segs_ok (l : list seg) : Prop :=
  match l with
  | [] => True
  | Plain c :: l' => c <> 92%N /\ segs_ok l'
  | Esc _ :: l' => segs_ok l'
  | Dangling :: l' => l' = []
  end.
(** [segmented body l]: [l] is the segmentation of [body]. *)
Definition segmented (body : text) (l : list seg) : Prop := segs_ok l /\ concat (map seg_text l) = body.

(** The escapes the validator supports. *)
Definition supported : text := txt "abfnrtv\""'[]".
Definition bad (s : seg) : Prop :=
  match s with Plain _ => False | Esc c => ~ In c supported | Dangling => True end.

(** The ranges of the bad segments, from byte position [pos]. *)
Inductive bad_ranges : nat -> list seg -> list range -> Prop :=
| br_nil pos : bad_ranges pos [] []
| br_good pos s l rs : ~ bad s -> bad_ranges (pos + blen (seg_text s)) l rs -> bad_ranges pos (s :: l) rs
| br_bad pos s l rs : bad s -> bad_ranges (pos + blen (seg_text s)) l rs ->
    bad_ranges pos (s :: l) (mkRange pos (pos + blen (seg_text s)) :: rs).

(** Escapes of Lua 5.1 as far as one character after the backslash: the letters, quotes,
    backslash, newline and decimal digits. *)
Definition lua_escape (c : char) : Prop := In c (txt "abfnrtv\""'") \/ c = 10%N \/ digit c.

(** Node kinds that are calls, assignable expressions, expressions, statements. *)
Definition call_kinds : list kind := [KCallExpr; KMethodCallExpr].
Definition target_kinds : list kind := [KNameRef; KIndexExpr; KDotExpr].
Definition expr_kinds : list kind :=
  [KLiteral; KTableExpr; KInfixExpr; KPrefixExpr; KIndexExpr; KDotExpr; KFunctionExpr; KCallExpr; KMethodCallExpr; KNameRef; KParenExpr].
Definition stmt_kinds : list kind :=
  [KAssignStmt; KLocalAssignStmt; KLocalFunctionDefStmt; KFunctionDefStmt; KForStmt; KIfStmt; KReturnStmt; KWhileStmt; KExprStmt;
   KBreakStmt; KRepeatUntilStmt; KLabelStmt; KGotoStmt; KDoStmt].

(** ** The body of a string token, as validation sees it *)
(** The end of a bracketed string: [\]], equal signs, [\]]; of an unfinished one, what there is of that. *)
Inductive long_end : text -> text -> Prop :=
| le_full body k : long_end body (txt "]" ++ repeat 61%N k ++ txt "]")
| le_half body k : last body 0%N <> 61%N -> last body 0%N <> 93%N -> long_end body (repeat 61%N k ++ txt "]")
| le_none body : last body 0%N <> 93%N -> long_end body [].
(** [string_body x o body]: [body] is what lies between the delimiters of [x], and [o] is the number of bytes counted for
    the opening one. Where the second bracket of an opening is missing it is counted all the same. *)
Inductive string_body : text -> nat -> text -> Prop :=
| sb_short q body : quote_char q -> string_body ([q] ++ body ++ [q]) 1 body
| sb_long n body c : long_end body c -> string_body (txt "[" ++ repeat 61%N n ++ txt "[" ++ body ++ c) (2 + n) body
| sb_half n body c : long_end body c -> ~ starts (fun d => d = 91%N \/ d = 61%N) (body ++ c) ->
    string_body (txt "[" ++ repeat 61%N n ++ body ++ c) (2 + n) body.
