(** GrammarSpec.v — the tree grammar of the parser (C23), written as productions.

    [Tree true n f]: the forest [f] is derived from the nonterminal [n] by the productions.
    [Tree false n f]: the same, where a missing token may be replaced by an error mark, and error
    nodes holding only tokens may stand for missing parts.

    Trees are over the non-trivia tokens only ([ptree], ParserTree.v): [PTok] a token, [PNode] a
    node, [PErr] a reported error without extent, [PErrN] an error node with its report. *)
From Verif Require Import Base SyntaxKind Parser ParserTree.

Definition unary_ops : list kind := [KNotKw; KHash; KMinus].
Definition binary_ops : list kind :=
  [KOrKw; KAndKw; KLt; KGt; KLtEq; KGtEq; KNotEq; KEqEq; KDoubleDot; KPlus; KMinus; KAsterisk;
   KSlash; KModulo; KCaret].
Definition literals : list kind := [KTrueKw; KFalseKw; KNumber; KStr; KNilKw; KTripleDot].

(** No error anywhere in the tree. *)
Fixpoint noerr (t : ptree) : bool :=
  match t with
  | PTok _ => true
  | PErr _ | PErrN _ _ => false
  | PNode _ fs => forallb noerr fs
  end.
Definition noerrs (f : forest) : bool := forallb noerr f.

(** Some token stands in the tree. *)
Fixpoint has_tok (t : ptree) : bool :=
  match t with
  | PTok _ => true
  | PErr _ => false
  | PErrN fs _ | PNode _ fs => existsb has_tok fs
  end.

Inductive nt :=
| NSource | NBlock | NStmts | NStmt | NElse
| NMulti | NMultiTail | NExprO | NExpr | NLhs | NPost (callable : bool) | NCallArgs | NIndex
| NFields | NField
| NName | NNames | NNameTail | NParamList | NParams | NNameRef
| NPath | NPathTail | NFunName | NFor.

Section Spec.
Variable strict : bool.

(** A required token: the token, or (not strict) an error mark in its place. *)
Definition req (k : kind) (f : forest) : Prop :=
  f = [PTok k] \/ (strict = false /\ exists e, f = [PErr e]).

(** An error mark or error node. *)
Definition is_err (f : forest) : Prop :=
  strict = false /\ exists e, f = [PErr e] \/ exists ks, f = [PErrN (map PTok ks) e].

(** What may follow a table field when something is wrong: error nodes and separators. *)
Definition junk (t : ptree) : Prop :=
  (exists ks e, t = PErrN (map PTok ks) e) \/
  (exists s, (s = KComma \/ s = KSemicolon) /\ t = PNode KTableSep [PTok s]).

Inductive Tree : nt -> forest -> Prop :=
(** A file is one block; a block is a list of statements, each with at least one token and
    optionally followed by [;]. *)
| T_source f : Tree NBlock f -> Tree NSource [PNode KSourceFile f]
| T_block f : Tree NStmts f -> Tree NBlock [PNode KBlock f]
| T_stmts_nil : Tree NStmts []
| T_stmts_cons f sc g : Tree NStmt f -> existsb has_tok f = true -> sc = [] \/ sc = [PTok KSemicolon] -> Tree NStmts g ->
    Tree NStmts (f ++ sc ++ g)
(** Statements. *)
| T_stmt_err f : is_err f -> Tree NStmt f
| T_if c th b e en : Tree NExprO c -> req KThenKw th -> Tree NBlock b -> Tree NElse e ->
    req KEndKw en -> Tree NStmt [PNode KIfStmt (PTok KIfKw :: c ++ th ++ b ++ e ++ en)]
| T_else_none : Tree NElse []
| T_else b : Tree NBlock b -> Tree NElse [PNode KElseBranch (PTok KElseKw :: b)]
| T_elseif c th b e : Tree NExprO c -> req KThenKw th -> Tree NBlock b -> Tree NElse e ->
    Tree NElse [PNode KElseIfBranch (PTok KElseifKw :: c ++ th ++ b ++ e)]
| T_label d1 n d2 : req KDoubleColon d1 -> Tree NName n -> req KDoubleColon d2 ->
    Tree NStmt [PNode KLabelStmt ([PNode KLabelDelim d1] ++ n ++ [PNode KLabelDelim d2])]
| T_goto n : req KIdent n -> Tree NStmt [PNode KGotoStmt [PTok KGotoKw; PNode KNameRef n]]
| T_local_fun fk n p b en : req KFunctionKw fk -> Tree NName n -> Tree NParamList p ->
    Tree NBlock b -> req KEndKw en ->
    Tree NStmt [PNode KLocalFunctionDefStmt (PTok KLocalKw :: fk ++ n ++ p ++ b ++ en)]
| T_local ns : Tree NNames ns ->
    Tree NStmt [PNode KLocalAssignStmt [PTok KLocalKw; PNode KMultiName ns]]
| T_local_init ns e : Tree NNames ns -> Tree NMulti e ->
    Tree NStmt [PNode KLocalAssignStmt ([PTok KLocalKw; PNode KMultiName ns; PTok KEq] ++ e)]
| T_repeat b u e : Tree NBlock b -> req KUntilKw u -> Tree NExprO e ->
    Tree NStmt [PNode KRepeatUntilStmt (PTok KRepeatKw :: b ++ u ++ e)]
| T_fun n p b en : Tree NFunName n -> Tree NParamList p -> Tree NBlock b -> req KEndKw en ->
    Tree NStmt [PNode KFunctionDefStmt (PTok KFunctionKw :: n ++ p ++ b ++ en)]
| T_return : Tree NStmt [PNode KReturnStmt [PTok KReturnKw]]
| T_return_val e : Tree NMulti e -> Tree NStmt [PNode KReturnStmt (PTok KReturnKw :: e)]
| T_do b en : Tree NBlock b -> req KEndKw en -> Tree NStmt [PNode KDoStmt (PTok KDoKw :: b ++ en)]
| T_while c d b en : Tree NExprO c -> req KDoKw d -> Tree NBlock b -> req KEndKw en ->
    Tree NStmt [PNode KWhileStmt (PTok KWhileKw :: c ++ d ++ b ++ en)]
| T_for c d b en : Tree NFor c -> req KDoKw d -> Tree NBlock b -> req KEndKw en ->
    Tree NStmt [PNode KForStmt (PTok KForKw :: [PNode KForContent c] ++ d ++ b ++ en)]
| T_for_err f : is_err f -> Tree NFor f
| T_for_num e : Tree NMulti e ->
    Tree NFor [PNode KNumericFor ([PNode KName [PTok KIdent]; PTok KEq] ++ e)]
| T_for_gen ns i e : Tree NNames ns -> req KInKw i -> Tree NExprO e ->
    Tree NFor [PNode KGenericFor (PNode KMultiName ns :: i ++ e)]
| T_break : Tree NStmt [PNode KBreakStmt [PTok KBreakKw]]
| T_assign l e : Tree NMulti l -> Tree NMulti e -> Tree NStmt [PNode KAssignStmt (l ++ PTok KEq :: e)]
| T_expr_stmt e : Tree NMulti e -> Tree NStmt [PNode KExprStmt e]
(** Names and parameters. *)
| T_name : Tree NName [PNode KName [PTok KIdent]]
| T_name_err f : is_err f -> Tree NName f
| T_names n t : Tree NName n -> Tree NNameTail t -> Tree NNames (n ++ t)
| T_names_nil : Tree NNameTail []
| T_names_cons n t : Tree NName n -> Tree NNameTail t -> Tree NNameTail (PTok KComma :: n ++ t)
| T_param_list l p r : req KLParen l -> Tree NParams p -> req KRParen r ->
    Tree NParamList [PNode KParamList (l ++ p ++ r)]
| T_params_none : Tree NParams []
| T_params_names ns : Tree NNames ns -> Tree NParams [PNode KMultiName ns]
| T_params_dots x : x = [] \/ is_err x -> Tree NParams ([PNode KMultiName []; PTok KTripleDot] ++ x)
| T_params_names_dots ns x : Tree NNames ns -> x = [] \/ is_err x ->
    Tree NParams ([PNode KMultiName (ns ++ [PTok KComma]); PTok KTripleDot] ++ x)
  (* accepted although Lua requires a comma here *)
| T_params_names_dots_nocomma ns x : Tree NNames ns -> x = [] \/ is_err x ->
    Tree NParams ([PNode KMultiName ns; PTok KTripleDot] ++ x)
| T_nameref : Tree NNameRef [PNode KNameRef [PTok KIdent]]
| T_nameref_err f : is_err f -> Tree NNameRef f
(** Function names: [f], [a.b.f], [a.b:f]. *)
| T_fun_plain n : Tree NName n -> Tree NFunName [PNode KFunctionDefContent n]
| T_fun_static p n : Tree NPath p -> Tree NName n ->
    Tree NFunName [PNode KFunctionDefContent [PNode KFunctionStatic (PNode KIndexPath (p ++ [PTok KDot]) :: n)]]
  (* accepted although Lua requires a dot here *)
| T_fun_static_nodot p n : Tree NPath p -> Tree NName n ->
    Tree NFunName [PNode KFunctionDefContent [PNode KFunctionStatic (PNode KIndexPath p :: n)]]
| T_fun_method p n : Tree NPath p -> Tree NName n ->
    Tree NFunName [PNode KFunctionDefContent [PNode KFunctionMethod (PNode KIndexPath p :: PTok KColon :: n)]]
| T_fun_method_err p n : Tree NPath p -> is_err n ->
    Tree NFunName [PNode KFunctionDefContent
                     [PNode KFunctionMethod (PNode KIndexPath (p ++ [PTok KDot]) :: PTok KColon :: n)]]
| T_path n t : Tree NNameRef n -> Tree NPathTail t -> Tree NPath (n ++ t)
| T_path_nil : Tree NPathTail []
| T_path_cons n t : Tree NNameRef n -> Tree NPathTail t -> Tree NPathTail (PTok KDot :: n ++ t)
(** Expressions. *)
| T_multi e t : Tree NExprO e -> Tree NMultiTail t -> Tree NMulti [PNode KMultivalExpr (e ++ t)]
| T_multi_nil : Tree NMultiTail []
| T_multi_cons e t : Tree NExprO e -> Tree NMultiTail t -> Tree NMultiTail (PTok KComma :: e ++ t)
| T_expr f : Tree NExpr f -> Tree NExprO f
| T_expr_err f : is_err f -> Tree NExprO f
| T_expr_lhs f : Tree NLhs f -> Tree NExpr f
| T_infix t o r : Tree NExpr [t] -> In o binary_ops -> Tree NExprO r ->
    Tree NExpr [PNode KInfixExpr (t :: PTok o :: r)]
| T_prefix o r : In o unary_ops -> Tree NExprO r -> Tree NLhs [PNode KPrefixExpr (PTok o :: r)]
| T_post c f : Tree (NPost c) f -> Tree NLhs f
| T_literal k : In k literals -> Tree (NPost false) [PNode KLiteral [PTok k]]
| T_function p b en : Tree NParamList p -> Tree NBlock b -> req KEndKw en ->
    Tree (NPost true) [PNode KFunctionExpr (PTok KFunctionKw :: p ++ b ++ en)]
| T_nameref_expr : Tree (NPost true) [PNode KNameRef [PTok KIdent]]
| T_paren e r : Tree NExprO e -> req KRParen r ->
    Tree (NPost true) [PNode KParenExpr (PTok KLParen :: e ++ r)]
| T_table fs r : Tree NFields fs -> req KRBrace r ->
    Tree (NPost true) [PNode KTableExpr (PTok KLBrace :: fs ++ r)]
| T_call t a : Tree (NPost true) [t] -> Tree NCallArgs a -> Tree (NPost true) [PNode KCallExpr (t :: a)]
| T_method_call t n a : Tree (NPost true) [t] -> req KIdent n -> Tree NCallArgs a ->
    Tree (NPost true) [PNode KMethodCallExpr (t :: PTok KColon :: PNode KNameRef n :: a)]
| T_method_call_err t n a : Tree (NPost true) [t] -> req KIdent n -> is_err a ->
    Tree (NPost true) [PNode KMethodCallExpr (t :: PTok KColon :: PNode KNameRef n :: a)]
| T_index_expr c t i : Tree (NPost c) [t] -> Tree NIndex i -> Tree (NPost true) [PNode KIndexExpr (t :: i)]
| T_dot_expr c t n : Tree (NPost c) [t] -> req KIdent n ->
    Tree (NPost true) [PNode KDotExpr (t :: PTok KDot :: n)]
| T_index e r : Tree NExprO e -> req KRBracket r -> Tree NIndex [PNode KIndex (PTok KLBracket :: e ++ r)]
| T_args_none r : req KRParen r ->
    Tree NCallArgs [PNode KCallArgs [PNode KArgList (PTok KLParen :: r)]]
| T_args e r : Tree NMulti e -> req KRParen r ->
    Tree NCallArgs [PNode KCallArgs [PNode KArgList (PTok KLParen :: e ++ r)]]
| T_args_table fs r : Tree NFields fs -> req KRBrace r ->
    Tree NCallArgs [PNode KCallArgs [PNode KTableExpr (PTok KLBrace :: fs ++ r)]]
| T_args_str : Tree NCallArgs [PNode KCallArgs [PTok KStr]]
(** Table fields: separated by [,] or [;], a final separator is allowed. *)
| T_fields_nil : Tree NFields []
| T_fields_last f : Tree NField f -> Tree NFields f
| T_fields_cons f s g : Tree NField f -> s = KComma \/ s = KSemicolon -> Tree NFields g ->
    Tree NFields (f ++ PNode KTableSep [PTok s] :: g)
| T_fields_err f j g : strict = false -> Tree NField f -> Forall junk j -> noerrs (f ++ j) = false ->
    existsb has_tok (f ++ j) = true -> Forall (fun t => has_tok t = true) j -> Tree NFields g -> Tree NFields (f ++ j ++ g)
| T_field_name e : Tree NExprO e ->
    Tree NField [PNode KTableContent [PNode KKeyValue
      (PNode KTableKey [PNode KName [PTok KIdent]] :: PTok KEq :: e)]]
| T_field_index i q e : Tree NIndex i -> req KEq q -> Tree NExprO e ->
    Tree NField [PNode KTableContent [PNode KKeyValue (PNode KTableKey i :: q ++ e)]]
| T_field_pos e : Tree NExprO e -> Tree NField [PNode KTableContent [PNode KPositionalValue e]]
| T_field_err f : is_err f -> Tree NField [PNode KTableContent f].
End Spec.
