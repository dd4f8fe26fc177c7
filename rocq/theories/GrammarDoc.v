(** GrammarDoc.v — what the grammar file lua.ungram says about syntax trees: the meaning of its rules, and the corrections it needs
    to describe the trees the parser builds. Nothing here refers to the parser. *)
From Verif Require Import Base SyntaxKind ParserTree Codegen.
Local Open Scope string_scope.
Local Open Scope nat_scope.
Local Open Scope list_scope.

(** The kind a token of the grammar file stands for: the generator's own table [T!]. *)
Definition token_named (t : string) (k : kind) : Prop :=
  t_macro lua_kinds t = Some (kind_name k) \/ t_macro lua_kinds ("'" ++ t ++ "'")%string = Some (kind_name k).
(** A grammar, with the names that are classes (they stand for any name they are a choice of) and those that have nodes. *)
Record doc := mkDoc { d_rules : grammar; d_class : string -> bool; d_node : string -> bool }.
(** [fits d r cs]: the children [cs], white space and comments left out, are as the rule says. *)
Inductive fits (d : doc) : rule -> forest -> Prop :=
| fits_node k cs : d_node d (kind_name k) = true -> fits d (RNode (kind_name k)) [PNode k cs]
| fits_class n rs m t : d_class d n = true -> rule_of (d_rules d) n = Some (RAlt rs) -> In (RNode m) rs -> fits d (RNode m) [t] ->
    fits d (RNode n) [t]
| fits_tok s k : token_named s k -> fits d (RTok s) [PTok k]
| fits_rep_nil r : fits d (RRep r) []
| fits_rep_cons r a b : fits d r a -> fits d (RRep r) b -> fits d (RRep r) (a ++ b)
| fits_lab l r cs : fits d r cs -> fits d (RLab l r) cs
| fits_seq_nil : fits d (RSeq []) []
| fits_seq_cons r rs a b : fits d r a -> fits d (RSeq rs) b -> fits d (RSeq (r :: rs)) (a ++ b)
| fits_alt rs r cs : In r rs -> fits d r cs -> fits d (RAlt rs) cs
| fits_none r : fits d (ROpt r) []
| fits_some r cs : fits d r cs -> fits d (ROpt r) cs.
(** The node is as the rule of its kind says. *)
Definition node_fits (d : doc) (k : kind) (cs : forest) : Prop := exists r, rule_of (d_rules d) (kind_name k) = Some r /\ fits d r cs.
(** Every node in the tree is. *)
Inductive conforms (d : doc) : ptree -> Prop :=
| conf_tok k : conforms d (PTok k)
| conf_node k cs : node_fits d k cs -> Forall (conforms d) cs -> conforms d (PNode k cs).

(** lua.ungram, read as generously as possible: every name may have a node, every choice of names may be a class. *)
Definition lua_doc : doc := mkDoc lua_grammar (fun _ => true) (fun _ => true).

(** Rules that are wrong about the trees, corrected. *)
Definition corrections : grammar :=
  [ ("MultiName", ROpt (RSeq [RNode "Name"; RRep (RSeq [RTok ","; RNode "Name"]); ROpt (RTok ",")]));
    ("Stmt", RAlt [RNode "AssignStmt"; RNode "LocalAssignStmt"; RNode "LocalFunctionDefStmt"; RNode "FunctionDefStmt"; RNode "ForStmt"; RNode "IfStmt"; RNode "ReturnStmt"; RNode "WhileStmt"; RNode "ExprStmt"; RNode "BreakStmt"; RNode "RepeatUntilStmt"; RNode "LabelStmt"; RNode "GotoStmt"; RNode "DoStmt"]);
    ("FunctionStatic", RSeq [RNode "IndexPath"; RNode "Name"]);
    ("IndexPath", RSeq [RNode "NameRef"; RRep (RSeq [RTok "."; RNode "NameRef"]); ROpt (RTok ".")]);
    ("ParamList", RSeq [RTok "("; ROpt (RSeq [RNode "MultiName"; ROpt (RTok "...")]); RTok ")"]);
    ("ReturnStmt", RSeq [RTok "return"; ROpt (RNode "MultivalExpr")]);
    ("GenericFor", RSeq [RNode "MultiName"; RTok "in"; RNode "Expr"]);
    ("Block", RRep (RSeq [RNode "Stmt"; ROpt (RTok ";")]));
    ("Expr", RAlt [RNode "Literal"; RNode "TableExpr"; RNode "InfixExpr"; RNode "PrefixExpr"; RNode "IndexExpr"; RNode "DotExpr"; RNode "FunctionExpr"; RNode "CallExpr"; RNode "MethodCallExpr"; RNode "NameRef"; RNode "ParenExpr"]);
    ("ArgList", RSeq [RTok "("; ROpt (RNode "MultivalExpr"); RTok ")"]);
    ("Literal", RAlt [RTok "number"; RTok "str"; RTok "true"; RTok "false"; RTok "nil"; RTok "..."]);
    ("TableExpr", RSeq [RTok "{"; ROpt (RSeq [RNode "TableContent"; RRep (RSeq [RNode "TableSep"; RNode "TableContent"]); ROpt (RNode "TableSep")]); RTok "}"]);
    ("KeyValue", RSeq [RLab "key" (RNode "TableKey"); RTok "="; RLab "value" (RNode "Expr")]);
    ("InfixExpr", RSeq [RLab "lhs" (RNode "Expr"); RLab "op" (RAlt [RTok "^"; RTok "*"; RTok "/"; RTok "%"; RTok "+"; RTok "-"; RTok ".."; RTok "<"; RTok ">"; RTok "<="; RTok ">="; RTok "~="; RTok "=="; RTok "and"; RTok "or"]); RLab "rhs" (RNode "Expr")]);
    ("PrefixExpr", RSeq [RLab "op" (RAlt [RTok "not"; RTok "-"; RTok "#"]); RNode "Expr"]) ].
(** Rules that allow more than the parser builds, sharpened. *)
Definition sharpened : grammar :=
  [ ("AssignStmt", RSeq [RLab "lhs" (RNode "MultivalExpr"); RTok "="; RLab "rhs" (RNode "MultivalExpr")]);
    ("CallExpr", RSeq [RLab "fun" (RNode "Callable"); RNode "CallArgs"]);
    ("MethodCallExpr", RSeq [RLab "fun" (RNode "Callable"); RTok ":"; RNode "NameRef"; RNode "CallArgs"]);
    ("IndexExpr", RSeq [RLab "base" (RNode "Indexable"); RNode "Index"]);
    ("DotExpr", RSeq [RNode "Indexable"; RTok "."; RTok "ident"]) ].
(** New classes. *)
Definition new_classes : grammar :=
  [ ("Callable", RAlt [RNode "TableExpr"; RNode "IndexExpr"; RNode "DotExpr"; RNode "FunctionExpr"; RNode "CallExpr"; RNode "MethodCallExpr"; RNode "NameRef"; RNode "ParenExpr"]);
    ("Indexable", RAlt [RNode "Literal"; RNode "Callable"]) ].
Definition replaced (changes : grammar) (g : grammar) : grammar :=
  map (fun d => match rule_of changes (fst d) with Some r => (fst d, r) | None => d end) g.
Definition corrected_grammar : grammar := replaced (corrections ++ sharpened) lua_grammar ++ new_classes.
Definition classes : list string := ["Stmt"; "Expr"; "Callable"; "Indexable"].
Definition corrected : doc := mkDoc corrected_grammar (fun n => existsb (String.eqb n) classes) (fun n => negb (existsb (String.eqb n) classes)).

(** What rules without context cannot say: a list of names is empty or ends in a comma only in a parameter list with dots, a path
    ends in a dot only in the name of a function that is not a method. *)
Definition names_complete (cs : forest) : Prop := exists front k sub, cs = front ++ [PNode k sub].
Inductive ends_ok : ptree -> Prop :=
| ends_tok k : ends_ok (PTok k)
| ends_node k cs : Forall ends_ok cs ->
    (forall before ns after, cs = before ++ PNode KMultiName ns :: after -> names_complete ns \/ (k = KParamList /\ exists rest, after = PTok KTripleDot :: rest)) ->
    (forall before p after, cs = before ++ PNode KIndexPath p :: after -> names_complete p \/ k = KFunctionStatic) -> ends_ok (PNode k cs).
