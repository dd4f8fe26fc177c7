(** LuaSyntax.v — specification vocabulary for C18–C21: the abstract syntax of Lua programs, how
    they are written as token kinds, and the tree each of them must be given. Nothing here mentions
    the parser; names, numbers and strings are represented by their token kind only. *)
From Verif Require Import Base SyntaxKind ParserTree.

(** ** Abstract syntax (Lua 5.1 reference manual, section 8) *)

Inductive lit := LNil | LTrue | LFalse | LNumber | LString | LVararg.
Inductive unop := UNot | ULen | UNeg.
Inductive binop :=
| BOr | BAnd | BLt | BGt | BLe | BGe | BNe | BEq | BConcat | BAdd | BSub | BMul | BDiv | BMod | BPow.

(** The name of a defined function: [f], [a.b.f] or [a.b:f], where [n] is the number of names of
    the path, less one. *)
Inductive fname := FPlain | FStatic (n : nat) | FMethod (n : nat).

Inductive exp :=
| ELit (l : lit)
| EName
| EParen (e : exp)
| EFun (n : nat) (va : bool) (b : block)             (* n parameters, then ... if va *)
| ETable (fs : fields)
| EUn (o : unop) (e : exp)
| EBin (o : binop) (l r : exp)
| ECall (f : exp) (a : args)
| EMethod (f : exp) (a : args)                       (* f:name args *)
| EIndex (f i : exp)
| EDot (f : exp)                                     (* f.name *)
with exps := One (e : exp) | More (e : exp) (es : exps)
with args := ANone | AList (es : exps) | ATable (fs : fields) | AString
with fields := FNil | FLast (f : field) | FCons (f : field) (semi : bool) (fs : fields)
with field := FPos (e : exp) | FName (e : exp) | FKey (k v : exp)
with stat :=
| SCall (e : exp)
| SAssign (ts es : exps)
| SLocal (n : nat)                                   (* n+1 names *)
| SLocalInit (n : nat) (es : exps)
| SLocalFun (n : nat) (va : bool) (b : block)
| SFun (f : fname) (n : nat) (va : bool) (b : block)
| SIf (e : exp) (b : block) (t : iftail)
| SWhile (e : exp) (b : block)
| SRepeat (b : block) (e : exp)
| SDo (b : block)
| SForNum (es : exps) (b : block)
| SForIn (n : nat) (es : exps) (b : block)           (* n+1 names *)
| SReturn0
| SReturn (es : exps)
| SBreak
| SGoto
| SLabel
with iftail := INone | IElse (b : block) | IElseif (e : exp) (b : block) (t : iftail)
with block := BNil | BCons (s : stat) (semi : bool) (b : block).

Scheme exp_mi := Induction for exp Sort Prop
  with exps_mi := Induction for exps Sort Prop
  with args_mi := Induction for args Sort Prop
  with fields_mi := Induction for fields Sort Prop
  with field_mi := Induction for field Sort Prop
  with stat_mi := Induction for stat Sort Prop
  with iftail_mi := Induction for iftail Sort Prop
  with block_mi := Induction for block Sort Prop.
Combined Scheme lua_ind from exp_mi, exps_mi, args_mi, fields_mi, field_mi, stat_mi, iftail_mi, block_mi.

(** ** Written form *)

Definition lit_kind (l : lit) : kind :=
  match l with
  | LNil => KNilKw | LTrue => KTrueKw | LFalse => KFalseKw | LNumber => KNumber | LString => KStr | LVararg => KTripleDot
  end.
Definition unop_kind (o : unop) : kind := match o with UNot => KNotKw | ULen => KHash | UNeg => KMinus end.
Definition binop_kind (o : binop) : kind :=
  match o with
  | BOr => KOrKw | BAnd => KAndKw | BLt => KLt | BGt => KGt | BLe => KLtEq | BGe => KGtEq | BNe => KNotEq | BEq => KEqEq
  | BConcat => KDoubleDot | BAdd => KPlus | BSub => KMinus | BMul => KAsterisk | BDiv => KSlash | BMod => KModulo
  | BPow => KCaret
  end.

(** [n+1] names separated by commas. *)
Fixpoint names_w (n : nat) : list kind :=
  match n with 0 => [KIdent] | S n' => KIdent :: KComma :: names_w n' end.
Definition params_w (n : nat) (va : bool) : list kind :=
  KLParen ::
  match n, va with
  | 0, false => []
  | 0, true => [KTripleDot]
  | S n', false => names_w n'
  | S n', true => names_w n' ++ [KComma; KTripleDot]
  end ++ [KRParen].
Fixpoint path_w (n : nat) : list kind :=
  match n with 0 => [KIdent] | S n' => KIdent :: KDot :: path_w n' end.
Definition fname_w (f : fname) : list kind :=
  match f with
  | FPlain => [KIdent]
  | FStatic n => path_w n ++ [KDot; KIdent]
  | FMethod n => path_w n ++ [KColon; KIdent]
  end.
Definition semi_w (b : bool) : list kind := if b then [KSemicolon] else [].

Fixpoint exp_w (e : exp) : list kind :=
  match e with
  | ELit l => [lit_kind l]
  | EName => [KIdent]
  | EParen e => KLParen :: exp_w e ++ [KRParen]
  | EFun n va b => KFunctionKw :: params_w n va ++ block_w b ++ [KEndKw]
  | ETable fs => KLBrace :: fields_w fs ++ [KRBrace]
  | EUn o e => unop_kind o :: exp_w e
  | EBin o l r => exp_w l ++ binop_kind o :: exp_w r
  | ECall f a => exp_w f ++ args_w a
  | EMethod f a => exp_w f ++ KColon :: KIdent :: args_w a
  | EIndex f i => exp_w f ++ KLBracket :: exp_w i ++ [KRBracket]
  | EDot f => exp_w f ++ [KDot; KIdent]
  end
with exps_w (es : exps) : list kind :=
  match es with One e => exp_w e | More e es => exp_w e ++ KComma :: exps_w es end
with args_w (a : args) : list kind :=
  match a with
  | ANone => [KLParen; KRParen]
  | AList es => KLParen :: exps_w es ++ [KRParen]
  | ATable fs => KLBrace :: fields_w fs ++ [KRBrace]
  | AString => [KStr]
  end
with fields_w (fs : fields) : list kind :=
  match fs with
  | FNil => []
  | FLast f => field_w f
  | FCons f semi fs => field_w f ++ (if semi then KSemicolon else KComma) :: fields_w fs
  end
with field_w (f : field) : list kind :=
  match f with
  | FPos e => exp_w e
  | FName e => KIdent :: KEq :: exp_w e
  | FKey k v => KLBracket :: exp_w k ++ KRBracket :: KEq :: exp_w v
  end
with stat_w (s : stat) : list kind :=
  match s with
  | SCall e => exp_w e
  | SAssign ts es => exps_w ts ++ KEq :: exps_w es
  | SLocal n => KLocalKw :: names_w n
  | SLocalInit n es => KLocalKw :: names_w n ++ KEq :: exps_w es
  | SLocalFun n va b => KLocalKw :: KFunctionKw :: KIdent :: params_w n va ++ block_w b ++ [KEndKw]
  | SFun f n va b => KFunctionKw :: fname_w f ++ params_w n va ++ block_w b ++ [KEndKw]
  | SIf e b t => KIfKw :: exp_w e ++ KThenKw :: block_w b ++ iftail_w t ++ [KEndKw]
  | SWhile e b => KWhileKw :: exp_w e ++ KDoKw :: block_w b ++ [KEndKw]
  | SRepeat b e => KRepeatKw :: block_w b ++ KUntilKw :: exp_w e
  | SDo b => KDoKw :: block_w b ++ [KEndKw]
  | SForNum es b => KForKw :: KIdent :: KEq :: exps_w es ++ KDoKw :: block_w b ++ [KEndKw]
  | SForIn n es b => KForKw :: names_w n ++ KInKw :: exps_w es ++ KDoKw :: block_w b ++ [KEndKw]
  | SReturn0 => [KReturnKw]
  | SReturn es => KReturnKw :: exps_w es
  | SBreak => [KBreakKw]
  | SGoto => [KGotoKw; KIdent]
  | SLabel => [KDoubleColon; KIdent; KDoubleColon]
  end
with iftail_w (t : iftail) : list kind :=
  match t with
  | INone => []
  | IElse b => KElseKw :: block_w b
  | IElseif e b t => KElseifKw :: exp_w e ++ KThenKw :: block_w b ++ iftail_w t
  end
with block_w (b : block) : list kind :=
  match b with
  | BNil => []
  | BCons s semi b => stat_w s ++ semi_w semi ++ block_w b
  end.

(** ** The tree of a program *)

Definition name_t : ptree := PNode KName [PTok KIdent].
Definition name_ref_t : ptree := PNode KNameRef [PTok KIdent].
Fixpoint names_t (n : nat) : list ptree :=
  match n with 0 => [name_t] | S n' => name_t :: PTok KComma :: names_t n' end.
Definition params_t (n : nat) (va : bool) : ptree :=
  PNode KParamList
    (PTok KLParen ::
     match n, va with
     | 0, false => []
     | 0, true => [PNode KMultiName []; PTok KTripleDot]
     | S n', false => [PNode KMultiName (names_t n')]
     | S n', true => [PNode KMultiName (names_t n' ++ [PTok KComma]); PTok KTripleDot]
     end ++ [PTok KRParen]).
Fixpoint path_t (n : nat) : list ptree :=
  match n with 0 => [name_ref_t] | S n' => name_ref_t :: PTok KDot :: path_t n' end.
Definition fname_t (f : fname) : ptree :=
  PNode KFunctionDefContent
    match f with
    | FPlain => [name_t]
    | FStatic n => [PNode KFunctionStatic [PNode KIndexPath (path_t n ++ [PTok KDot]); name_t]]
    | FMethod n => [PNode KFunctionMethod [PNode KIndexPath (path_t n); PTok KColon; name_t]]
    end.
Definition semi_t (b : bool) : list ptree := if b then [PTok KSemicolon] else [].
Definition label_delim_t : ptree := PNode KLabelDelim [PTok KDoubleColon].

Fixpoint exp_t (e : exp) : ptree :=
  match e with
  | ELit l => PNode KLiteral [PTok (lit_kind l)]
  | EName => name_ref_t
  | EParen e => PNode KParenExpr [PTok KLParen; exp_t e; PTok KRParen]
  | EFun n va b => PNode KFunctionExpr [PTok KFunctionKw; params_t n va; PNode KBlock (block_t b); PTok KEndKw]
  | ETable fs => PNode KTableExpr (PTok KLBrace :: fields_t fs ++ [PTok KRBrace])
  | EUn o e => PNode KPrefixExpr [PTok (unop_kind o); exp_t e]
  | EBin o l r => PNode KInfixExpr [exp_t l; PTok (binop_kind o); exp_t r]
  | ECall f a => PNode KCallExpr [exp_t f; args_t a]
  | EMethod f a => PNode KMethodCallExpr [exp_t f; PTok KColon; name_ref_t; args_t a]
  | EIndex f i => PNode KIndexExpr [exp_t f; PNode KIndex [PTok KLBracket; exp_t i; PTok KRBracket]]
  | EDot f => PNode KDotExpr [exp_t f; PTok KDot; PTok KIdent]
  end
with exps_t (es : exps) : list ptree :=
  match es with One e => [exp_t e] | More e es => exp_t e :: PTok KComma :: exps_t es end
with args_t (a : args) : ptree :=
  PNode KCallArgs
    [match a with
     | ANone => PNode KArgList [PTok KLParen; PTok KRParen]
     | AList es => PNode KArgList [PTok KLParen; PNode KMultivalExpr (exps_t es); PTok KRParen]
     | ATable fs => PNode KTableExpr (PTok KLBrace :: fields_t fs ++ [PTok KRBrace])
     | AString => PTok KStr
     end]
with fields_t (fs : fields) : list ptree :=
  match fs with
  | FNil => []
  | FLast f => [field_t f]
  | FCons f semi fs => field_t f :: PNode KTableSep [PTok (if semi then KSemicolon else KComma)] :: fields_t fs
  end
with field_t (f : field) : ptree :=
  PNode KTableContent
    [match f with
     | FPos e => PNode KPositionalValue [exp_t e]
     | FName e => PNode KKeyValue [PNode KTableKey [name_t]; PTok KEq; exp_t e]
     | FKey k v => PNode KKeyValue [PNode KTableKey [PNode KIndex [PTok KLBracket; exp_t k; PTok KRBracket]]; PTok KEq; exp_t v]
     end]
with stat_t (s : stat) : ptree :=
  match s with
  | SCall e => PNode KExprStmt [PNode KMultivalExpr [exp_t e]]
  | SAssign ts es => PNode KAssignStmt [PNode KMultivalExpr (exps_t ts); PTok KEq; PNode KMultivalExpr (exps_t es)]
  | SLocal n => PNode KLocalAssignStmt [PTok KLocalKw; PNode KMultiName (names_t n)]
  | SLocalInit n es =>
      PNode KLocalAssignStmt [PTok KLocalKw; PNode KMultiName (names_t n); PTok KEq; PNode KMultivalExpr (exps_t es)]
  | SLocalFun n va b =>
      PNode KLocalFunctionDefStmt
        [PTok KLocalKw; PTok KFunctionKw; name_t; params_t n va; PNode KBlock (block_t b); PTok KEndKw]
  | SFun f n va b =>
      PNode KFunctionDefStmt [PTok KFunctionKw; fname_t f; params_t n va; PNode KBlock (block_t b); PTok KEndKw]
  | SIf e b t =>
      PNode KIfStmt ([PTok KIfKw; exp_t e; PTok KThenKw; PNode KBlock (block_t b)] ++ iftail_t t ++ [PTok KEndKw])
  | SWhile e b => PNode KWhileStmt [PTok KWhileKw; exp_t e; PTok KDoKw; PNode KBlock (block_t b); PTok KEndKw]
  | SRepeat b e => PNode KRepeatUntilStmt [PTok KRepeatKw; PNode KBlock (block_t b); PTok KUntilKw; exp_t e]
  | SDo b => PNode KDoStmt [PTok KDoKw; PNode KBlock (block_t b); PTok KEndKw]
  | SForNum es b =>
      PNode KForStmt [PTok KForKw; PNode KForContent [PNode KNumericFor [name_t; PTok KEq; PNode KMultivalExpr (exps_t es)]];
                      PTok KDoKw; PNode KBlock (block_t b); PTok KEndKw]
  | SForIn n es b =>
      PNode KForStmt [PTok KForKw; PNode KForContent [PNode KGenericFor (PNode KMultiName (names_t n) :: PTok KInKw :: exps_t es)];
                      PTok KDoKw; PNode KBlock (block_t b); PTok KEndKw]
  | SReturn0 => PNode KReturnStmt [PTok KReturnKw]
  | SReturn es => PNode KReturnStmt [PTok KReturnKw; PNode KMultivalExpr (exps_t es)]
  | SBreak => PNode KBreakStmt [PTok KBreakKw]
  | SGoto => PNode KGotoStmt [PTok KGotoKw; name_ref_t]
  | SLabel => PNode KLabelStmt [label_delim_t; name_t; label_delim_t]
  end
with iftail_t (t : iftail) : list ptree :=
  match t with
  | INone => []
  | IElse b => [PNode KElseBranch [PTok KElseKw; PNode KBlock (block_t b)]]
  | IElseif e b t => [PNode KElseIfBranch ([PTok KElseifKw; exp_t e; PTok KThenKw; PNode KBlock (block_t b)] ++ iftail_t t)]
  end
with block_t (b : block) : list ptree :=
  match b with
  | BNil => []
  | BCons s semi b => stat_t s :: semi_t semi ++ block_t b
  end.

(** The tree of a whole file. *)
Definition file_t (b : block) : ptree := PNode KSourceFile [PNode KBlock (block_t b)].

(** ** Which abstract programs the written form denotes *)

(** What the two readings of the written form, Lua's and this implementation's, differ in. *)
Record dialect := mkDialect
  { d_level : binop -> nat;       (* precedence of the binary operators, loosest first *)
    d_un : nat;                   (* precedence of the unary operators *)
    d_atom : nat;                 (* everything else *)
    d_call_any : bool;            (* can a table constructor or a function be called without parentheses? *)
    d_for_list : bool }.          (* can the generic for have several expressions? *)

(** Lua (reference manual 2.5.6, 2.4.5, 8). *)
Definition lua_level (o : binop) : nat :=
  match o with
  | BOr => 1 | BAnd => 2
  | BLt | BGt | BLe | BGe | BNe | BEq => 3
  | BConcat => 4
  | BAdd | BSub => 5
  | BMul | BDiv | BMod => 6
  | BPow => 8
  end.
Definition lua : dialect := mkDialect lua_level 7 9 false true.

(** This implementation gives each operator its own precedence (C19), takes [{} (f)] and
    [function() end (f)] as calls, and one expression in the generic for (C21). *)
Definition impl_level (o : binop) : nat :=
  match o with
  | BOr => 1 | BAnd => 2
  | BLt => 3 | BGt => 4 | BLe => 5 | BGe => 6 | BNe => 7 | BEq => 8
  | BConcat => 9
  | BAdd => 10 | BSub => 11
  | BMul => 12 | BDiv => 13 | BMod => 14
  | BPow => 16
  end.
Definition impl : dialect := mkDialect impl_level 15 17 true false.

(** [..] and [^] associate to the right, all others to the left. *)
Definition right_assoc (o : binop) : bool := match o with BConcat | BPow => true | _ => false end.
Definition is_un (e : exp) : bool := match e with EUn _ _ => true | _ => false end.

Definition is_prefixexp (e : exp) : bool :=
  match e with EName | EParen _ | ECall _ _ | EMethod _ _ | EIndex _ _ | EDot _ => true | _ => false end.
Definition is_call (e : exp) : bool := match e with ECall _ _ | EMethod _ _ => true | _ => false end.
Definition is_var (e : exp) : bool := match e with EName | EIndex _ _ | EDot _ => true | _ => false end.
Fixpoint all_vars (es : exps) : bool :=
  match es with One e => is_var e | More e es => is_var e && all_vars es end.
Definition is_one (es : exps) : bool := match es with One _ => true | More _ _ => false end.
Definition starts_paren (b : block) : bool :=
  match block_w b with KLParen :: _ => true | _ => false end.
Definition is_return (s : stat) : bool := match s with SReturn0 | SReturn _ => true | _ => false end.
Definition is_nil (b : block) : bool := match b with BNil => true | _ => false end.

Section Dialect.
Variable D : dialect.

Definition level (e : exp) : nat :=
  match e with EBin o _ _ => d_level D o | EUn _ _ => d_un D | _ => d_atom D end.

(** An operand that needs no parentheses: it binds more tightly than its operator, or as tightly
    and on the side to which the operator associates. A unary operator on the right never needs
    them. *)
Definition left_ok (o : binop) (l : exp) : bool :=
  if right_assoc o then d_level D o <? level l else d_level D o <=? level l.
Definition right_ok (o : binop) (r : exp) : bool :=
  is_un r || (if right_assoc o then d_level D o <=? level r else d_level D o <? level r).
Definition un_ok (e : exp) : bool := d_un D <=? level e.

(** Does the written form end in something that a following parenthesis would call? *)
Fixpoint open_end (e : exp) : bool :=
  match e with
  | ELit _ => false
  | EFun _ _ _ | ETable _ => d_call_any D
  | EUn _ e => open_end e
  | EBin _ _ r => open_end r
  | _ => true
  end.
Fixpoint open_last (es : exps) : bool :=
  match es with One e => open_end e | More _ es => open_last es end.
Definition open_stat (s : stat) : bool :=
  match s with
  | SCall _ => true
  | SAssign _ es | SLocalInit _ es | SReturn es => open_last es
  | SRepeat _ e => open_end e
  | _ => false
  end.

(** The written form of the program is read as this program. *)
Fixpoint exp_ok (e : exp) : bool :=
  match e with
  | ELit _ | EName => true
  | EParen e => exp_ok e
  | EFun _ _ b => block_ok b
  | ETable fs => fields_ok fs
  | EUn _ e => un_ok e && exp_ok e
  | EBin o l r => left_ok o l && right_ok o r && exp_ok l && exp_ok r
  | ECall f a | EMethod f a => is_prefixexp f && exp_ok f && args_ok a
  | EIndex f i => is_prefixexp f && exp_ok f && exp_ok i
  | EDot f => is_prefixexp f && exp_ok f
  end
with exps_ok (es : exps) : bool :=
  match es with One e => exp_ok e | More e es => exp_ok e && exps_ok es end
with args_ok (a : args) : bool :=
  match a with ANone | AString => true | AList es => exps_ok es | ATable fs => fields_ok fs end
with fields_ok (fs : fields) : bool :=
  match fs with FNil => true | FLast f => field_ok f | FCons f _ fs => field_ok f && fields_ok fs end
with field_ok (f : field) : bool :=
  match f with FPos e | FName e => exp_ok e | FKey k v => exp_ok k && exp_ok v end
with stat_ok (s : stat) : bool :=
  match s with
  | SCall e => is_call e && exp_ok e
  | SAssign ts es => all_vars ts && exps_ok ts && exps_ok es
  | SLocalInit _ es | SReturn es => exps_ok es
  | SLocalFun _ _ b | SFun _ _ _ b | SDo b => block_ok b
  | SIf e b t => exp_ok e && block_ok b && iftail_ok t
  | SWhile e b | SRepeat b e => exp_ok e && block_ok b
  | SForNum es b => exps_ok es && block_ok b
  | SForIn _ es b => (d_for_list D || is_one es) && exps_ok es && block_ok b
  | SLocal _ | SReturn0 | SBreak | SGoto | SLabel => true
  end
with iftail_ok (t : iftail) : bool :=
  match t with INone => true | IElse b => block_ok b | IElseif e b t => exp_ok e && block_ok b && iftail_ok t end
with block_ok (b : block) : bool :=
  match b with
  | BNil => true
  | BCons s semi b =>
      stat_ok s && block_ok b &&
      (negb (is_return s) || is_nil b) &&                         (* return comes last *)
      (semi || negb (open_stat s && starts_paren b))              (* [f] then [(g)()] is one call *)
  end.
End Dialect.
