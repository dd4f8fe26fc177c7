(** LuaDialect.v — specification vocabulary for C18–C21, continued: where this implementation reads
    a Lua program as something else, and printing with parentheses. *)
From Verif Require Import Base SyntaxKind ParserTree LuaSyntax.

(** ** Programs which both readings agree on *)
(** [a o' b o c] where [o'] and [o] have the same precedence in Lua: [o'] does not bind more loosely
    than [o] here. *)
Definition same_level (o : binop) (l : exp) : bool :=
  match l with
  | EBin o' _ _ => negb (lua_level o =? lua_level o') || (impl_level o <=? impl_level o')
  | _ => true
  end.
(** Does the written form end in a table constructor or in a function? *)
Fixpoint ends_constructor (e : exp) : bool :=
  match e with
  | EFun _ _ _ | ETable _ => true
  | EUn _ e => ends_constructor e
  | EBin _ _ r => ends_constructor r
  | _ => false
  end.
Fixpoint last_constructor (es : exps) : bool :=
  match es with One e => ends_constructor e | More _ es => last_constructor es end.
Definition stat_constructor (s : stat) : bool :=
  match s with
  | SAssign _ es | SLocalInit _ es | SReturn es => last_constructor es
  | SRepeat _ e => ends_constructor e
  | _ => false
  end.

Fixpoint exp_same (e : exp) : bool :=
  match e with
  | ELit _ | EName => true
  | EParen e => exp_same e
  | EFun _ _ b => block_same b
  | ETable fs => fields_same fs
  | EUn _ e => exp_same e
  | EBin o l r => same_level o l && exp_same l && exp_same r
  | ECall f a | EMethod f a => exp_same f && args_same a
  | EIndex f i => exp_same f && exp_same i
  | EDot f => exp_same f
  end
with exps_same (es : exps) : bool :=
  match es with One e => exp_same e | More e es => exp_same e && exps_same es end
with args_same (a : args) : bool :=
  match a with ANone | AString => true | AList es => exps_same es | ATable fs => fields_same fs end
with fields_same (fs : fields) : bool :=
  match fs with FNil => true | FLast f => field_same f | FCons f _ fs => field_same f && fields_same fs end
with field_same (f : field) : bool :=
  match f with FPos e | FName e => exp_same e | FKey k v => exp_same k && exp_same v end
with stat_same (s : stat) : bool :=
  match s with
  | SCall e => exp_same e
  | SAssign ts es => exps_same ts && exps_same es
  | SLocalInit _ es | SReturn es => exps_same es
  | SLocalFun _ _ b | SFun _ _ _ b | SDo b => block_same b
  | SIf e b t => exp_same e && block_same b && iftail_same t
  | SWhile e b | SRepeat b e => exp_same e && block_same b
  | SForNum es b => exps_same es && block_same b
  | SForIn _ es b => is_one es && exps_same es && block_same b            (* one expression *)
  | SLocal _ | SReturn0 | SBreak | SGoto | SLabel => true
  end
with iftail_same (t : iftail) : bool :=
  match t with INone => true | IElse b => block_same b | IElseif e b t => exp_same e && block_same b && iftail_same t end
with block_same (b : block) : bool :=
  match b with
  | BNil => true
  | BCons s semi b =>
      stat_same s && block_same b &&
      (semi || negb (stat_constructor s && starts_paren b))       (* [x = {}] then [(f)()] *)
  end.

(** ** Printing an operator tree with the parentheses that a precedence table requires *)
Definition paren_unless (b : bool) (e : exp) : exp := if b then e else EParen e.
Section Dialect.
Variable D : dialect.
Fixpoint minparen (e : exp) : exp :=
  match e with
  | EParen e => EParen (minparen e)
  | EUn o e => let e' := minparen e in EUn o (paren_unless (un_ok D e') e')
  | EBin o l r =>
      let l' := minparen l in
      let r' := minparen r in
      EBin o (paren_unless (left_ok D o l') l') (paren_unless (right_ok D o r') r')
  | e => e
  end.
(** The operands at the leaves of the operator tree are themselves well written. *)
Fixpoint leaves_ok (e : exp) : bool :=
  match e with
  | EParen e | EUn _ e => leaves_ok e
  | EBin _ l r => leaves_ok l && leaves_ok r
  | e => exp_ok D e
  end.
End Dialect.
(** The operator tree without its parentheses. *)
Fixpoint unparen (e : exp) : exp :=
  match e with
  | EParen e => unparen e
  | EUn o e => EUn o (unparen e)
  | EBin o l r => EBin o (unparen l) (unparen r)
  | e => e
  end.
(** No operand of a binary operator is a looser operator of the same Lua precedence, as in
    [(a + b) - c]. *)
Fixpoint chains_ok (e : exp) : bool :=
  match e with
  | EParen e | EUn _ e => chains_ok e
  | EBin o l r => same_level o l && chains_ok l && chains_ok r
  | _ => true
  end.

(** ** A text for every program *)
Definition spell (k : kind) : text :=
  match k with
  | KIdent => txt "x" | KNumber => txt "1" | KStr => txt "''"
  | KNilKw => txt "nil" | KTrueKw => txt "true" | KFalseKw => txt "false" | KTripleDot => txt "..."
  | KNotKw => txt "not" | KHash => txt "#" | KMinus => txt "-"
  | KOrKw => txt "or" | KAndKw => txt "and" | KLt => txt "<" | KGt => txt ">" | KLtEq => txt "<=" | KGtEq => txt ">="
  | KNotEq => txt "~=" | KEqEq => txt "==" | KDoubleDot => txt ".." | KPlus => txt "+" | KAsterisk => txt "*" | KSlash => txt "/"
  | KModulo => txt "%" | KCaret => txt "^"
  | KComma => txt "," | KSemicolon => txt ";" | KDot => txt "." | KColon => txt ":" | KDoubleColon => txt "::" | KEq => txt "="
  | KLParen => txt "(" | KRParen => txt ")" | KLBrace => txt "{" | KRBrace => txt "}" | KLBracket => txt "[" | KRBracket => txt "]"
  | KFunctionKw => txt "function" | KEndKw => txt "end" | KLocalKw => txt "local" | KIfKw => txt "if" | KThenKw => txt "then"
  | KElseKw => txt "else" | KElseifKw => txt "elseif" | KWhileKw => txt "while" | KDoKw => txt "do" | KRepeatKw => txt "repeat"
  | KUntilKw => txt "until" | KForKw => txt "for" | KInKw => txt "in" | KReturnKw => txt "return" | KBreakKw => txt "break"
  | KGotoKw => txt "goto"
  | _ => []
  end.
Definition write (ks : list kind) : text := flat_map (fun k => spell k ++ txt " ") ks.
