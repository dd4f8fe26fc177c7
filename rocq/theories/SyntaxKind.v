(** SyntaxKind.v — crates/parser/src/syntax_kind/generated.rs and syntax_kind.rs.
    The constructor for Rust's [SyntaxKind::Foo] is [KFoo]; [__LAST] is [KLAST].
    The list below is a transcription (by script) of the Rust enum, same order. *)
From Verif Require Import Base.

(** crates/parser/src/syntax_kind/generated.rs:5-128 *)
Inductive kind : Set :=
| KTombstone
| KEof
| KUnknown
| KBang
| KHash
| KModulo
| KLParen
| KRParen
| KAsterisk
| KPlus
| KComma
| KMinus
| KDot
| KDoubleDot
| KTripleDot
| KSlash
| KColon
| KDoubleColon
| KSemicolon
| KLt
| KLtEq
| KEq
| KEqEq
| KGt
| KGtEq
| KLBracket
| KRBracket
| KCaret
| KLBrace
| KRBrace
| KNotEq
| KFunctionKw
| KLocalKw
| KTrueKw
| KFalseKw
| KIfKw
| KThenKw
| KElseKw
| KElseifKw
| KWhileKw
| KForKw
| KInKw
| KBreakKw
| KDoKw
| KGotoKw
| KAndKw
| KOrKw
| KNotKw
| KReturnKw
| KEndKw
| KRepeatKw
| KUntilKw
| KNilKw
| KNumber
| KStr
| KTrue
| KFalse
| KError
| KIdent
| KShebang
| KName
| KNameRef
| KMultiName
| KSourceFile
| KBlock
| KAssignStmt
| KLocalAssignStmt
| KLocalFunctionDefStmt
| KFunctionDefStmt
| KForStmt
| KIfStmt
| KReturnStmt
| KWhileStmt
| KExprStmt
| KBreakStmt
| KRepeatUntilStmt
| KLabelStmt
| KGotoStmt
| KLabelDelim
| KDoStmt
| KParamList
| KFunctionMethod
| KFunctionStatic
| KIndexPath
| KMultivalExpr
| KElseBranch
| KElseIfBranch
| KNumericFor
| KGenericFor
| KLiteral
| KTableExpr
| KInfixExpr
| KPrefixExpr
| KIndexExpr
| KDotExpr
| KFunctionExpr
| KCallExpr
| KMethodCallExpr
| KCallArgs
| KArgList
| KTableSep
| KParenExpr
| KKeyValue
| KPositionalValue
| KIndex
| KIdentKey
| KStmt
| KStmtItem
| KFunctionDefContent
| KExpr
| KForContent
| KTableContent
| KTableKey
| KComment
| KWhitespace
| KLAST.

(** [k as u16] (repr(u16), discriminants in declaration order; generated.rs:6-7,
    syntax_kind.rs:15-19). *)
Definition kind_to_u16 (k : kind) : N :=
  match k with
  | KTombstone => 0
  | KEof => 1
  | KUnknown => 2
  | KBang => 3
  | KHash => 4
  | KModulo => 5
  | KLParen => 6
  | KRParen => 7
  | KAsterisk => 8
  | KPlus => 9
  | KComma => 10
  | KMinus => 11
  | KDot => 12
  | KDoubleDot => 13
  | KTripleDot => 14
  | KSlash => 15
  | KColon => 16
  | KDoubleColon => 17
  | KSemicolon => 18
  | KLt => 19
  | KLtEq => 20
  | KEq => 21
  | KEqEq => 22
  | KGt => 23
  | KGtEq => 24
  | KLBracket => 25
  | KRBracket => 26
  | KCaret => 27
  | KLBrace => 28
  | KRBrace => 29
  | KNotEq => 30
  | KFunctionKw => 31
  | KLocalKw => 32
  | KTrueKw => 33
  | KFalseKw => 34
  | KIfKw => 35
  | KThenKw => 36
  | KElseKw => 37
  | KElseifKw => 38
  | KWhileKw => 39
  | KForKw => 40
  | KInKw => 41
  | KBreakKw => 42
  | KDoKw => 43
  | KGotoKw => 44
  | KAndKw => 45
  | KOrKw => 46
  | KNotKw => 47
  | KReturnKw => 48
  | KEndKw => 49
  | KRepeatKw => 50
  | KUntilKw => 51
  | KNilKw => 52
  | KNumber => 53
  | KStr => 54
  | KTrue => 55
  | KFalse => 56
  | KError => 57
  | KIdent => 58
  | KShebang => 59
  | KName => 60
  | KNameRef => 61
  | KMultiName => 62
  | KSourceFile => 63
  | KBlock => 64
  | KAssignStmt => 65
  | KLocalAssignStmt => 66
  | KLocalFunctionDefStmt => 67
  | KFunctionDefStmt => 68
  | KForStmt => 69
  | KIfStmt => 70
  | KReturnStmt => 71
  | KWhileStmt => 72
  | KExprStmt => 73
  | KBreakStmt => 74
  | KRepeatUntilStmt => 75
  | KLabelStmt => 76
  | KGotoStmt => 77
  | KLabelDelim => 78
  | KDoStmt => 79
  | KParamList => 80
  | KFunctionMethod => 81
  | KFunctionStatic => 82
  | KIndexPath => 83
  | KMultivalExpr => 84
  | KElseBranch => 85
  | KElseIfBranch => 86
  | KNumericFor => 87
  | KGenericFor => 88
  | KLiteral => 89
  | KTableExpr => 90
  | KInfixExpr => 91
  | KPrefixExpr => 92
  | KIndexExpr => 93
  | KDotExpr => 94
  | KFunctionExpr => 95
  | KCallExpr => 96
  | KMethodCallExpr => 97
  | KCallArgs => 98
  | KArgList => 99
  | KTableSep => 100
  | KParenExpr => 101
  | KKeyValue => 102
  | KPositionalValue => 103
  | KIndex => 104
  | KIdentKey => 105
  | KStmt => 106
  | KStmtItem => 107
  | KFunctionDefContent => 108
  | KExpr => 109
  | KForContent => 110
  | KTableContent => 111
  | KTableKey => 112
  | KComment => 113
  | KWhitespace => 114
  | KLAST => 115
  end%N.

(** The unsafe transmute's defined range: the kind with a given discriminant. *)
Definition kind_of_index (n : N) : option kind :=
  match n with
  | 0 => Some KTombstone
  | 1 => Some KEof
  | 2 => Some KUnknown
  | 3 => Some KBang
  | 4 => Some KHash
  | 5 => Some KModulo
  | 6 => Some KLParen
  | 7 => Some KRParen
  | 8 => Some KAsterisk
  | 9 => Some KPlus
  | 10 => Some KComma
  | 11 => Some KMinus
  | 12 => Some KDot
  | 13 => Some KDoubleDot
  | 14 => Some KTripleDot
  | 15 => Some KSlash
  | 16 => Some KColon
  | 17 => Some KDoubleColon
  | 18 => Some KSemicolon
  | 19 => Some KLt
  | 20 => Some KLtEq
  | 21 => Some KEq
  | 22 => Some KEqEq
  | 23 => Some KGt
  | 24 => Some KGtEq
  | 25 => Some KLBracket
  | 26 => Some KRBracket
  | 27 => Some KCaret
  | 28 => Some KLBrace
  | 29 => Some KRBrace
  | 30 => Some KNotEq
  | 31 => Some KFunctionKw
  | 32 => Some KLocalKw
  | 33 => Some KTrueKw
  | 34 => Some KFalseKw
  | 35 => Some KIfKw
  | 36 => Some KThenKw
  | 37 => Some KElseKw
  | 38 => Some KElseifKw
  | 39 => Some KWhileKw
  | 40 => Some KForKw
  | 41 => Some KInKw
  | 42 => Some KBreakKw
  | 43 => Some KDoKw
  | 44 => Some KGotoKw
  | 45 => Some KAndKw
  | 46 => Some KOrKw
  | 47 => Some KNotKw
  | 48 => Some KReturnKw
  | 49 => Some KEndKw
  | 50 => Some KRepeatKw
  | 51 => Some KUntilKw
  | 52 => Some KNilKw
  | 53 => Some KNumber
  | 54 => Some KStr
  | 55 => Some KTrue
  | 56 => Some KFalse
  | 57 => Some KError
  | 58 => Some KIdent
  | 59 => Some KShebang
  | 60 => Some KName
  | 61 => Some KNameRef
  | 62 => Some KMultiName
  | 63 => Some KSourceFile
  | 64 => Some KBlock
  | 65 => Some KAssignStmt
  | 66 => Some KLocalAssignStmt
  | 67 => Some KLocalFunctionDefStmt
  | 68 => Some KFunctionDefStmt
  | 69 => Some KForStmt
  | 70 => Some KIfStmt
  | 71 => Some KReturnStmt
  | 72 => Some KWhileStmt
  | 73 => Some KExprStmt
  | 74 => Some KBreakStmt
  | 75 => Some KRepeatUntilStmt
  | 76 => Some KLabelStmt
  | 77 => Some KGotoStmt
  | 78 => Some KLabelDelim
  | 79 => Some KDoStmt
  | 80 => Some KParamList
  | 81 => Some KFunctionMethod
  | 82 => Some KFunctionStatic
  | 83 => Some KIndexPath
  | 84 => Some KMultivalExpr
  | 85 => Some KElseBranch
  | 86 => Some KElseIfBranch
  | 87 => Some KNumericFor
  | 88 => Some KGenericFor
  | 89 => Some KLiteral
  | 90 => Some KTableExpr
  | 91 => Some KInfixExpr
  | 92 => Some KPrefixExpr
  | 93 => Some KIndexExpr
  | 94 => Some KDotExpr
  | 95 => Some KFunctionExpr
  | 96 => Some KCallExpr
  | 97 => Some KMethodCallExpr
  | 98 => Some KCallArgs
  | 99 => Some KArgList
  | 100 => Some KTableSep
  | 101 => Some KParenExpr
  | 102 => Some KKeyValue
  | 103 => Some KPositionalValue
  | 104 => Some KIndex
  | 105 => Some KIdentKey
  | 106 => Some KStmt
  | 107 => Some KStmtItem
  | 108 => Some KFunctionDefContent
  | 109 => Some KExpr
  | 110 => Some KForContent
  | 111 => Some KTableContent
  | 112 => Some KTableKey
  | 113 => Some KComment
  | 114 => Some KWhitespace
  | 115 => Some KLAST
  | _ => None
  end%N.

(** crates/parser/src/syntax_kind.rs:8-13 [From<u16>]: asserts d <= __LAST, then transmutes. *)
Definition kind_from_u16 (d : N) : res kind :=
  if (d <=? kind_to_u16 KLAST)%N then
    match kind_of_index d with Some k => Ok k | None => Panic end
  else Panic.

(** Derived PartialEq. *)
Definition kind_eqb (a b : kind) : bool := N.eqb (kind_to_u16 a) (kind_to_u16 b).

(** Derived Debug name. *)
Definition kind_name (k : kind) : string :=
  match k with
  | KTombstone => "Tombstone"
  | KEof => "Eof"
  | KUnknown => "Unknown"
  | KBang => "Bang"
  | KHash => "Hash"
  | KModulo => "Modulo"
  | KLParen => "LParen"
  | KRParen => "RParen"
  | KAsterisk => "Asterisk"
  | KPlus => "Plus"
  | KComma => "Comma"
  | KMinus => "Minus"
  | KDot => "Dot"
  | KDoubleDot => "DoubleDot"
  | KTripleDot => "TripleDot"
  | KSlash => "Slash"
  | KColon => "Colon"
  | KDoubleColon => "DoubleColon"
  | KSemicolon => "Semicolon"
  | KLt => "Lt"
  | KLtEq => "LtEq"
  | KEq => "Eq"
  | KEqEq => "EqEq"
  | KGt => "Gt"
  | KGtEq => "GtEq"
  | KLBracket => "LBracket"
  | KRBracket => "RBracket"
  | KCaret => "Caret"
  | KLBrace => "LBrace"
  | KRBrace => "RBrace"
  | KNotEq => "NotEq"
  | KFunctionKw => "FunctionKw"
  | KLocalKw => "LocalKw"
  | KTrueKw => "TrueKw"
  | KFalseKw => "FalseKw"
  | KIfKw => "IfKw"
  | KThenKw => "ThenKw"
  | KElseKw => "ElseKw"
  | KElseifKw => "ElseifKw"
  | KWhileKw => "WhileKw"
  | KForKw => "ForKw"
  | KInKw => "InKw"
  | KBreakKw => "BreakKw"
  | KDoKw => "DoKw"
  | KGotoKw => "GotoKw"
  | KAndKw => "AndKw"
  | KOrKw => "OrKw"
  | KNotKw => "NotKw"
  | KReturnKw => "ReturnKw"
  | KEndKw => "EndKw"
  | KRepeatKw => "RepeatKw"
  | KUntilKw => "UntilKw"
  | KNilKw => "NilKw"
  | KNumber => "Number"
  | KStr => "Str"
  | KTrue => "True"
  | KFalse => "False"
  | KError => "Error"
  | KIdent => "Ident"
  | KShebang => "Shebang"
  | KName => "Name"
  | KNameRef => "NameRef"
  | KMultiName => "MultiName"
  | KSourceFile => "SourceFile"
  | KBlock => "Block"
  | KAssignStmt => "AssignStmt"
  | KLocalAssignStmt => "LocalAssignStmt"
  | KLocalFunctionDefStmt => "LocalFunctionDefStmt"
  | KFunctionDefStmt => "FunctionDefStmt"
  | KForStmt => "ForStmt"
  | KIfStmt => "IfStmt"
  | KReturnStmt => "ReturnStmt"
  | KWhileStmt => "WhileStmt"
  | KExprStmt => "ExprStmt"
  | KBreakStmt => "BreakStmt"
  | KRepeatUntilStmt => "RepeatUntilStmt"
  | KLabelStmt => "LabelStmt"
  | KGotoStmt => "GotoStmt"
  | KLabelDelim => "LabelDelim"
  | KDoStmt => "DoStmt"
  | KParamList => "ParamList"
  | KFunctionMethod => "FunctionMethod"
  | KFunctionStatic => "FunctionStatic"
  | KIndexPath => "IndexPath"
  | KMultivalExpr => "MultivalExpr"
  | KElseBranch => "ElseBranch"
  | KElseIfBranch => "ElseIfBranch"
  | KNumericFor => "NumericFor"
  | KGenericFor => "GenericFor"
  | KLiteral => "Literal"
  | KTableExpr => "TableExpr"
  | KInfixExpr => "InfixExpr"
  | KPrefixExpr => "PrefixExpr"
  | KIndexExpr => "IndexExpr"
  | KDotExpr => "DotExpr"
  | KFunctionExpr => "FunctionExpr"
  | KCallExpr => "CallExpr"
  | KMethodCallExpr => "MethodCallExpr"
  | KCallArgs => "CallArgs"
  | KArgList => "ArgList"
  | KTableSep => "TableSep"
  | KParenExpr => "ParenExpr"
  | KKeyValue => "KeyValue"
  | KPositionalValue => "PositionalValue"
  | KIndex => "Index"
  | KIdentKey => "IdentKey"
  | KStmt => "Stmt"
  | KStmtItem => "StmtItem"
  | KFunctionDefContent => "FunctionDefContent"
  | KExpr => "Expr"
  | KForContent => "ForContent"
  | KTableContent => "TableContent"
  | KTableKey => "TableKey"
  | KComment => "Comment"
  | KWhitespace => "Whitespace"
  | KLAST => "__LAST"
  end%string.

(** All kinds, in order (used only to sweep the finite type in proofs). *)
Definition all_kinds : list kind :=
  [KTombstone; KEof; KUnknown; KBang; KHash; KModulo; KLParen; KRParen; KAsterisk; KPlus; KComma; KMinus; KDot; KDoubleDot; KTripleDot; KSlash; KColon; KDoubleColon; KSemicolon; KLt; KLtEq; KEq; KEqEq; KGt; KGtEq; KLBracket; KRBracket; KCaret; KLBrace; KRBrace; KNotEq; KFunctionKw; KLocalKw; KTrueKw; KFalseKw; KIfKw; KThenKw; KElseKw; KElseifKw; KWhileKw; KForKw; KInKw; KBreakKw; KDoKw; KGotoKw; KAndKw; KOrKw; KNotKw; KReturnKw; KEndKw; KRepeatKw; KUntilKw; KNilKw; KNumber; KStr; KTrue; KFalse; KError; KIdent; KShebang; KName; KNameRef; KMultiName; KSourceFile; KBlock; KAssignStmt; KLocalAssignStmt; KLocalFunctionDefStmt; KFunctionDefStmt; KForStmt; KIfStmt; KReturnStmt; KWhileStmt; KExprStmt; KBreakStmt; KRepeatUntilStmt; KLabelStmt; KGotoStmt; KLabelDelim; KDoStmt; KParamList; KFunctionMethod; KFunctionStatic; KIndexPath; KMultivalExpr; KElseBranch; KElseIfBranch; KNumericFor; KGenericFor; KLiteral; KTableExpr; KInfixExpr; KPrefixExpr; KIndexExpr; KDotExpr; KFunctionExpr; KCallExpr; KMethodCallExpr; KCallArgs; KArgList; KTableSep; KParenExpr; KKeyValue; KPositionalValue; KIndex; KIdentKey; KStmt; KStmtItem; KFunctionDefContent; KExpr; KForContent; KTableContent; KTableKey; KComment; KWhitespace; KLAST].

(** generated.rs:131-133 [is_trivia]. *)
Definition is_trivia (k : kind) : bool :=
  match k with KComment | KWhitespace => true | _ => false end.

(** generated.rs:196-223 [from_keyword]. *)
Definition keyword_table : list (text * kind) :=
  [(txt "function", KFunctionKw);
   (txt "local", KLocalKw);
   (txt "true", KTrueKw);
   (txt "false", KFalseKw);
   (txt "if", KIfKw);
   (txt "then", KThenKw);
   (txt "else", KElseKw);
   (txt "elseif", KElseifKw);
   (txt "while", KWhileKw);
   (txt "for", KForKw);
   (txt "in", KInKw);
   (txt "break", KBreakKw);
   (txt "do", KDoKw);
   (txt "goto", KGotoKw);
   (txt "and", KAndKw);
   (txt "or", KOrKw);
   (txt "not", KNotKw);
   (txt "return", KReturnKw);
   (txt "end", KEndKw);
   (txt "repeat", KRepeatKw);
   (txt "until", KUntilKw);
   (txt "nil", KNilKw)].

Definition from_keyword (t : text) : option kind :=
  match find (fun p => text_eqb (fst p) t) keyword_table with
  | Some p => Some (snd p)
  | None => None
  end.

(** The spelling attached to each punctuation kind by the [T!] macro (generated.rs:227). *)
Definition punct_table : list (kind * text) :=
  [(KBang, txt "!");
   (KHash, txt "#");
   (KModulo, txt "%");
   (KLParen, txt "(");
   (KRParen, txt ")");
   (KAsterisk, txt "*");
   (KPlus, txt "+");
   (KComma, txt ",");
   (KMinus, txt "-");
   (KDot, txt ".");
   (KDoubleDot, txt "..");
   (KTripleDot, txt "...");
   (KSlash, txt "/");
   (KColon, txt ":");
   (KDoubleColon, txt "::");
   (KSemicolon, txt ";");
   (KLt, txt "<");
   (KLtEq, txt "<=");
   (KEq, txt "=");
   (KEqEq, txt "==");
   (KGt, txt ">");
   (KGtEq, txt ">=");
   (KLBracket, txt "[");
   (KRBracket, txt "]");
   (KCaret, txt "^");
   (KLBrace, txt "{");
   (KRBrace, txt "}");
   (KNotEq, txt "~=")].

Lemma kind_of_to k : kind_of_index (kind_to_u16 k) = Some k.
Proof. destruct k; reflexivity. Qed.

Lemma kind_to_u16_inj a b : kind_to_u16 a = kind_to_u16 b -> a = b.
Proof.
  intros H. pose proof (kind_of_to a) as Ha. rewrite H, kind_of_to in Ha. congruence.
Qed.

Lemma kind_eqb_eq a b : kind_eqb a b = true <-> a = b.
Proof.
  unfold kind_eqb. rewrite N.eqb_eq. split; [apply kind_to_u16_inj|now intros ->].
Qed.

Lemma kind_eqb_refl a : kind_eqb a a = true.
Proof. apply kind_eqb_eq; reflexivity. Qed.

Lemma kind_eqb_neq a b : kind_eqb a b = false <-> a <> b.
Proof.
  rewrite <- kind_eqb_eq. destruct (kind_eqb a b); split; congruence.
Qed.

Lemma kind_eqb_spec a b : reflect (a = b) (kind_eqb a b).
Proof.
  destruct (kind_eqb a b) eqn:E; constructor; [now apply kind_eqb_eq|now apply kind_eqb_neq].
Qed.

Definition kind_eq_dec (a b : kind) : {a = b} + {a <> b}.
Proof. destruct (kind_eqb a b) eqn:E; [left; now apply kind_eqb_eq|right; now apply kind_eqb_neq]. Defined.

Lemma all_kinds_complete k : In k all_kinds.
Proof. apply (nth_error_In _ (N.to_nat (kind_to_u16 k))). destruct k; reflexivity. Qed.

(** Lifting a boolean sweep over all kinds. *)
Lemma forall_kinds (P : kind -> bool) : forallb P all_kinds = true -> forall k, P k = true.
Proof. intros H k. rewrite forallb_forall in H. apply H, all_kinds_complete. Qed.

Lemma kind_to_u16_lt k : (kind_to_u16 k < 128)%N.
Proof. destruct k; reflexivity. Qed.
