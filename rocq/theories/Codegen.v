(** Codegen.v — the code generator of xtask/src/codegen/gen_syntax: from the grammar lua.ungram and the lists of ast_src.toml to
    the syntax kinds, the token casts and the typed nodes with their accessors. The output is modelled as data (which kinds, which
    casts, which accessors with which bodies), not as Rust source text; rustfmt and the file update are not modelled. The parsers
    of the ungrammar and toml crates are not modelled: the two assets are transcribed by script, at the end. *)
From Coq Require Import Ascii NArith.
From Verif Require Import Base.
Local Open Scope string_scope.
Local Open Scope nat_scope.
Local Open Scope list_scope.

(** ** heck 0.3.2, on ASCII: SnakeCase and CamelCase *)
Definition code (c : ascii) : N := N_of_ascii c.
Definition is_upper (c : ascii) : bool := ((65 <=? code c) && (code c <=? 90))%N.
Definition is_lower (c : ascii) : bool := ((97 <=? code c) && (code c <=? 122))%N.
Definition is_underscore (c : ascii) : bool := (code c =? 95)%N.
Definition is_alnum (c : ascii) : bool := is_upper c || is_lower c || ((48 <=? code c) && (code c <=? 57))%N || is_underscore c.
Definition upper (c : ascii) : ascii := if is_lower c then ascii_of_N (code c - 32) else c.
Definition lower_c (c : ascii) : ascii := if is_upper c then ascii_of_N (code c + 32) else c.
Fixpoint to_list (s : string) : list ascii := match s with EmptyString => [] | String c s => c :: to_list s end.
Fixpoint of_list (l : list ascii) : string := match l with [] => EmptyString | c :: l => String c (of_list l) end.
Inductive word_mode := MBoundary | MLower | MUpper.
(** heck's [transform] on one word of letters, digits and underscores: [acc] is the current piece, reversed. *)
Fixpoint split_word (mode : word_mode) (acc : list ascii) (l : list ascii) : list (list ascii) :=
  match l with
  | [] => []
  | c :: l' =>
    if is_underscore c then (match acc, l' with [], _ => split_word mode [] l' | _, [] => [] | _, _ => split_word mode (c :: acc) l' end)
    else match l' with
         | [] => [rev (c :: acc)]
         | next :: _ =>
           let next_mode := if is_lower c then MLower else if is_upper c then MUpper else mode in
           if is_underscore next || (match next_mode with MLower => is_upper next | _ => false end)
           then rev (c :: acc) :: split_word MBoundary [] l'
           else if (match mode with MUpper => true | _ => false end) && is_upper c && is_lower next
           then rev acc :: split_word MBoundary [c] l'
           else split_word next_mode (c :: acc) l'
         end
  end.
(** [unicode_words] on ASCII: maximal runs of letters, digits and underscores. Simplified: the full rules also join words at some
    punctuation, which no name in the assets has. *)
Fixpoint ascii_words (acc : list ascii) (l : list ascii) : list (list ascii) :=
  match l with
  | [] => match acc with [] => [] | _ => [rev acc] end
  | c :: l' => if is_alnum c then ascii_words (c :: acc) l' else (match acc with [] => [] | _ => [rev acc] end) ++ ascii_words [] l'
  end.
Definition heck_words (s : string) : list (list ascii) := flat_map (split_word MBoundary []) (ascii_words [] (to_list s)).
Definition capitalize (w : list ascii) : list ascii := match w with [] => [] | c :: w => upper c :: map lower_c w end.
Definition to_snake_case (s : string) : string := String.concat "_" (map (fun w => of_list (map lower_c w)) (heck_words s)).
Definition to_camel_case (s : string) : string := String.concat "" (map (fun w => of_list (capitalize w)) (heck_words s)).

(** ** ungrammar::Rule and ungrammar::Grammar
    Nodes and tokens are named instead of numbered. *)
Inductive rule :=
| RNode (n : string) | RTok (t : string) | RRep (r : rule) | RLab (l : string) (r : rule)
| RSeq (rs : list rule) | RAlt (rs : list rule) | ROpt (r : rule).
(** The definitions in the order of the file. *)
Definition grammar := list (string * rule).
Fixpoint rule_eqb (a b : rule) {struct a} : bool :=
  match a, b with
  | RNode x, RNode y | RTok x, RTok y => String.eqb x y
  | RRep x, RRep y | ROpt x, ROpt y => rule_eqb x y
  | RLab l x, RLab m y => String.eqb l m && rule_eqb x y
  | RSeq xs, RSeq ys | RAlt xs, RAlt ys =>
    (fix go xs ys := match xs, ys with [], [] => true | x :: xs, y :: ys => rule_eqb x y && go xs ys | _, _ => false end) xs ys
  | _, _ => false
  end.
(** Node names in the order in which ungrammar numbers them: at their first mention. *)
Fixpoint rule_nodes (r : rule) : list string :=
  match r with
  | RNode n => [n] | RTok _ => [] | RRep r | RLab _ r | ROpt r => rule_nodes r
  | RSeq rs | RAlt rs => flat_map rule_nodes rs
  end.
Fixpoint first_mentions (seen : list string) (l : list string) : list string :=
  match l with
  | [] => []
  | n :: l => if existsb (String.eqb n) seen then first_mentions seen l else n :: first_mentions (n :: seen) l
  end.
Definition rule_of (g : grammar) (n : string) : option rule :=
  match find (fun d => String.eqb (fst d) n) g with Some d => Some (snd d) | None => None end.
(** [Grammar::iter] with [grammar[node]]; a node that is not defined is an error of the ungrammar parser. *)
Definition node_names (g : grammar) : list string := first_mentions [] (flat_map (fun d => fst d :: rule_nodes (snd d)) g).
Definition grammar_iter (g : grammar) : list (string * rule) :=
  flat_map (fun n => match rule_of g n with Some r => [(n, r)] | None => [] end) (node_names g).

(** ** ast_src.rs *)
(** ast_src.rs:93-98 [Cardinality]. *)
Inductive cardinality := Optional | ManyTrailing | Many.
(** ast_src.rs:31-35 [Field]. *)
Inductive field := FToken (s : string) | FNode (name ty : string) (c : cardinality).
(** ast_src.rs:7-29, 100-105 [AstSrc], [AstNodeSrc], [AstEnumSrc]; documentation comments are dropped. *)
Record ast_src := mkSrc { s_nodes : list (string * list field); s_enums : list (string * list string) }.
(** ast_src.rs:37-39 *)
Definition label_is_manually_implemented (l : string) : bool := existsb (String.eqb l) ["lhs"; "rhs"; "op"; "table_sep"].
(** ast_src.rs:241-243 *)
Definition pluralize (s : string) : string := (s ++ "s")%string.
(** [label.cloned().unwrap_or_else(..)] *)
Definition unwrap_or (label : option string) (d : string) : string := match label with Some l => l | None => d end.
(** ast_src.rs:209-239 [lower_comma_list]: the field, if the rule is a list with separators. The first arm of the inner match is
    subsumed by the second. *)
Definition lower_comma_list (label : option string) (r : rule) : option field :=
  match r with
  | RSeq rs =>
    match (match rs with
           | [RNode n; RRep rep; ROpt _] => Some (n, rep, ManyTrailing)
           | [RNode n; RRep rep] => Some (n, rep, Many)
           | _ => None
           end) with
    | Some (n, rep, c) =>
      match rep with
      | RSeq [_; RNode n'] => if String.eqb n' n then Some (FNode (unwrap_or label (pluralize (to_snake_case n))) n c) else None
      | _ => None
      end
    | None => None
    end
  | _ => None
  end.
(** [str::contains] of a string. *)
Fixpoint prefix_b (p s : list ascii) : bool :=
  match p, s with [], _ => true | a :: p, b :: s => Ascii.eqb a b && prefix_b p s | _ :: _, [] => false end.
Fixpoint contains_l (s p : list ascii) : bool := prefix_b p s || match s with [] => false | _ :: s => contains_l s p end.
Definition contains (s p : string) : bool := contains_l (to_list s) (to_list p).
(** ast_src.rs:156-207 [lower_rule]; [acc] is the result. *)
Fixpoint lower_rule (label : option string) (r : rule) {struct r} : res (list field) :=
  match lower_comma_list label r with
  | Some f => Ok [f]
  | None =>
    match r with
    | RNode n => Ok [FNode (unwrap_or label (to_snake_case n)) n Optional]
    | RTok t =>
      match label with
      | Some _ => Panic
      | None =>
        if String.eqb t "string" then Ok []
        else Ok [FToken (if contains "[]{}()" t then ("'" ++ t ++ "'")%string else t)]
      end
    | RRep (RNode n) => Ok [FNode (unwrap_or label (pluralize (to_snake_case n))) n Many]
    | RRep _ => Panic
    | RLab l r' =>
      match label with
      | Some _ => Panic
      | None => if label_is_manually_implemented l then Ok [] else lower_rule (Some l) r'
      end
    | RSeq rs | RAlt rs =>
      (fix go (rs : list rule) : res (list field) :=
         match rs with [] => Ok [] | r :: rs => let? a := lower_rule label r in let? b := go rs in Ok (a ++ b) end) rs
    | ROpt r' => lower_rule label r'
    end
  end.
(** ast_src.rs:139-154 [lower_enum]. *)
Fixpoint variants_of (rs : list rule) : option (list string) :=
  match rs with
  | [] => Some []
  | RNode n :: rs => match variants_of rs with Some vs => Some (n :: vs) | None => None end
  | _ :: _ => None
  end.
Definition lower_enum (r : rule) : option (list string) := match r with RAlt rs => variants_of rs | _ => None end.
(** ast_src.rs:107-137 [lower]; [node_is_manually_implemented] is constantly false. *)
Fixpoint lower_nodes (l : list (string * rule)) : res ast_src :=
  match l with
  | [] => Ok (mkSrc [] [])
  | (name, r) :: l =>
    match lower_enum r with
    | Some vs => let? s := lower_nodes l in Ok (mkSrc (s_nodes s) ((name, vs) :: s_enums s))
    | None => let? fs := lower_rule None r in let? s := lower_nodes l in Ok (mkSrc ((name, fs) :: s_nodes s) (s_enums s))
    end
  end.
Definition lower (g : grammar) : res ast_src := lower_nodes (grammar_iter g).
(** ast_src.rs:19-21 [AstSrc::names]. *)
Definition src_names (s : ast_src) : list string := map fst (s_nodes s) ++ map fst (s_enums s).

(** ** kinds_src.rs:10-17 [KindsSrc] *)
Record kinds_src := mkKinds
  { k_punct : list (string * string); k_keywords : list string; k_literals : list string; k_tokens : list string; k_trivia : list string }.
(** kinds_src.rs:19-30 [PunctMap], a BTreeMap: sorted by key, a later entry replaces an earlier one. *)
Fixpoint map_insert (k v : string) (l : list (string * string)) : list (string * string) :=
  match l with
  | [] => [(k, v)]
  | (k', v') :: l' => match String.compare k k' with Lt => (k, v) :: l | Eq => (k, v) :: l' | Gt => (k', v') :: map_insert k v l' end
  end.
Definition punct_map (ks : kinds_src) : list (string * string) := fold_left (fun m e => map_insert (fst e) (snd e) m) (k_punct ks) [].
Definition punct_get (ks : kinds_src) (t : string) : option string :=
  match find (fun e => String.eqb (fst e) t) (punct_map ks) with Some e => Some (snd e) | None => None end.

(** ** mod.rs *)
(** mod.rs:40-161 [gen_syntax_kinds]: the enum [SyntaxKind], in order. *)
Definition keyword_kind (kw : string) : string := (to_camel_case kw ++ "Kw")%string.
Definition gen_kinds (ks : kinds_src) (src : ast_src) : list string :=
  ["Tombstone"; "Eof"; "Unknown"] ++ map snd (punct_map ks) ++ map keyword_kind (k_keywords ks) ++ map to_camel_case (k_literals ks) ++
  k_tokens ks ++ src_names src ++ k_trivia ks ++ ["__LAST"].
(** mod.rs:112-126 [is_trivia], [is_keyword], [is_punct], [is_literal], as the kinds they match. *)
Definition gen_trivia (ks : kinds_src) : list string := k_trivia ks.
Definition gen_keywords (ks : kinds_src) : list string := map keyword_kind (k_keywords ks).
Definition gen_puncts (ks : kinds_src) : list string := map snd (punct_map ks).
Definition gen_literals (ks : kinds_src) : list string := map to_camel_case (k_literals ks).
(** mod.rs:128-134 [from_keyword], as the arms of its match. *)
Definition gen_from_keyword (ks : kinds_src) : list (string * string) := map (fun kw => (kw, keyword_kind kw)) (k_keywords ks).
(** mod.rs:41-53, 139-149 the arms of [T!]. The first that fits is taken. *)
Definition t_arms (ks : kinds_src) : list (string * string) :=
  map (fun e => ((if contains "{}[]()" (fst e) then ("'" ++ fst e ++ "'")%string else fst e), snd e)) (punct_map ks) ++
  map (fun kw => (kw, keyword_kind kw)) (k_keywords ks) ++
  map (fun l => (to_snake_case l, to_camel_case l)) (k_literals ks) ++
  map (fun t => (to_snake_case t, t)) (k_tokens ks) ++
  map (fun t => (to_snake_case t, t)) (k_trivia ks) ++
  [("__", "Tombstone"); ("eof", "Eof"); ("unknown", "Unknown")].
Definition t_macro (ks : kinds_src) (t : string) : option string :=
  match find (fun a => String.eqb (fst a) t) (t_arms ks) with Some a => Some (snd a) | None => None end.
(** mod.rs:151-156 [N!], its arms. *)
Definition gen_n_macro (src : ast_src) : list (string * string) := map (fun n => (n, n)) (src_names src).
(** mod.rs:163-203 [gen_tokens]: each token type with the kind it casts from. *)
Definition gen_tokens (ks : kinds_src) : list (string * string) :=
  map (fun t => (t, to_camel_case t)) (k_tokens ks ++ k_literals ks ++ k_trivia ks).
(** ast_src.rs:65-83 [Field::method_name]. *)
Definition method_name (ks : kinds_src) (f : field) : string :=
  match f with
  | FToken n =>
    let n' := if String.eqb n "'{'" then "l_curly" else if String.eqb n "'}'" then "r_curly" else if String.eqb n "'('" then "l_paren"
              else if String.eqb n "')'" then "r_paren" else if String.eqb n "'['" then "l_brack" else if String.eqb n "']'" then "r_brack"
              else match punct_get ks n with Some m => m | None => n end in
    (to_snake_case n' ++ "_token")%string
  | FNode n _ _ => n
  end.
(** The body of an accessor: [support::children], [support::child], or [support::token] with the kind [T!] gives ([None]: does not
    compile). *)
Inductive body := BChildren (ty : string) | BChild (ty : string) | BToken (k : option string).
(** mod.rs:222-250, one method. *)
Definition gen_body (ks : kinds_src) (f : field) : body :=
  match f with
  | FNode _ ty Many => BChildren ty
  | FNode _ ty _ => BChild ty
  | FToken t => BToken (t_macro ks t)
  end.
(** mod.rs:218-251 the methods of a node; commas get none. *)
Definition gen_methods (ks : kinds_src) (fs : list field) : list (string * body) :=
  map (fun f => (method_name ks f, gen_body ks f)) (filter (fun f => match f with FToken s => negb (String.eqb s ",") | _ => true end) fs).
(** mod.rs:205-283 [gen_nodes], the structs: type, kind it casts from, methods. *)
Definition gen_structs (ks : kinds_src) (src : ast_src) : list (string * string * list (string * body)) :=
  map (fun n => (fst n, to_camel_case (fst n), gen_methods ks (snd n))) (s_nodes src).
(** mod.rs:285-352 the enums: type and the kinds it casts from. *)
Definition gen_enums (src : ast_src) : list (string * list string) :=
  map (fun en => (fst en, map (fun v => to_camel_case (to_camel_case v)) (snd en))) (s_enums src).

(** ** The assets *)
(** xtask/assets/lua.ungram, transcribed by script; the comments give its lines. *)
Definition lua_grammar : grammar :=
  [ ("Name", RTok "ident") (* 1-2 *);
    ("NameRef", RTok "ident") (* 4-5 *);
    ("MultiName", RSeq [RNode "Name"; RRep (RSeq [RTok ","; RNode "Name"])]) (* 7-8 *);
    ("SourceFile", RLab "body" (RNode "Block")) (* 10-11 *);
    ("Stmt", RAlt [RNode "Block"; RNode "AssignStmt"; RNode "LocalAssignStmt"; RNode "LocalFunctionDefStmt"; RNode "FunctionDefStmt"; RNode "ForStmt"; RNode "IfStmt"; RNode "ReturnStmt"; RNode "WhileStmt"; RNode "ExprStmt"; RNode "BreakStmt"; RNode "RepeatUntilStmt"; RNode "LabelStmt"; RNode "GotoStmt"]) (* 13-27 *);
    ("StmtItem", RAlt [RNode "LocalAssignStmt"; RNode "LocalFunctionDefStmt"; RNode "FunctionDefStmt"]) (* 29-32 *);
    ("LabelStmt", RSeq [RLab "start" (RNode "LabelDelim"); RNode "Name"; RLab "finish" (RNode "LabelDelim")]) (* 34-35 *);
    ("LabelDelim", RTok "::") (* 37-38 *);
    ("GotoStmt", RSeq [RTok "goto"; RNode "NameRef"]) (* 40-41 *);
    ("BreakStmt", RTok "break") (* 43-44 *);
    ("DoStmt", RSeq [RTok "do"; RLab "body" (RNode "Block"); RTok "end"]) (* 46-49 *);
    ("FunctionDefStmt", RSeq [RTok "function"; RNode "FunctionDefContent"; RNode "ParamList"; RLab "body" (RNode "Block"); RTok "end"]) (* 51-56 *);
    ("FunctionDefContent", RAlt [RNode "FunctionMethod"; RNode "FunctionStatic"; RNode "Name"]) (* 58-61 *);
    ("FunctionMethod", RSeq [RNode "IndexPath"; RTok ":"; RNode "Name"]) (* 63-66 *);
    ("FunctionStatic", RSeq [RNode "IndexPath"; RTok "."; RNode "Name"]) (* 68-71 *);
    ("LocalFunctionDefStmt", RSeq [RTok "local"; RTok "function"; RNode "Name"; RNode "ParamList"; RLab "body" (RNode "Block"); RTok "end"]) (* 73-76 *);
    ("ParamList", RSeq [RTok "("; ROpt (RSeq [RNode "MultiName"; ROpt (RSeq [RTok ","; RTok "..."])]); RTok ")"]) (* 78-79 *);
    ("ExprStmt", RNode "MultivalExpr") (* 81-81 *);
    ("IfStmt", RSeq [RTok "if"; RLab "cond" (RNode "Expr"); RTok "then"; RNode "Block"; ROpt (RAlt [RNode "ElseBranch"; RNode "ElseIfBranch"]); RTok "end"]) (* 83-89 *);
    ("ElseBranch", RSeq [RTok "else"; RNode "Block"]) (* 91-93 *);
    ("ElseIfBranch", RSeq [RTok "elseif"; RLab "cond" (RNode "Expr"); RTok "then"; RNode "Block"; ROpt (RAlt [RNode "ElseIfBranch"; RNode "ElseBranch"])]) (* 95-100 *);
    ("WhileStmt", RSeq [RTok "while"; RLab "cond" (RNode "Expr"); RTok "do"; RLab "body" (RNode "Block"); RTok "end"]) (* 102-107 *);
    ("ReturnStmt", RSeq [RTok "return"; ROpt (RNode "Expr")]) (* 109-111 *);
    ("ForStmt", RSeq [RTok "for"; RLab "content" (RNode "ForContent"); RTok "do"; RNode "Block"; RTok "end"]) (* 113-114 *);
    ("ForContent", RAlt [RNode "NumericFor"; RNode "GenericFor"]) (* 116-118 *);
    ("NumericFor", RSeq [RNode "Name"; RTok "="; RLab "expr" (RNode "MultivalExpr")]) (* 120-123 *);
    ("GenericFor", RSeq [RLab "multi_name" (RNode "MultiName"); RTok "in"; RLab "expr" (RNode "MultivalExpr")]) (* 125-128 *);
    ("Block", RRep (RNode "Stmt")) (* 130-131 *);
    ("RepeatUntilStmt", RSeq [RTok "repeat"; RNode "Block"; RTok "until"; RNode "Expr"]) (* 133-137 *);
    ("LocalAssignStmt", RSeq [RTok "local"; RNode "MultiName"; ROpt (RSeq [RTok "="; RNode "MultivalExpr"])]) (* 139-140 *);
    ("AssignStmt", RSeq [RLab "lhs" (RNode "MultivalExpr"); ROpt (RSeq [RTok "="; RLab "rhs" (RNode "MultivalExpr")])]) (* 142-143 *);
    ("Expr", RAlt [RNode "Literal"; RNode "TableExpr"; RNode "InfixExpr"; RNode "PrefixExpr"; RNode "IndexExpr"; RNode "DotExpr"; RNode "FunctionExpr"; RNode "CallExpr"; RNode "MethodCallExpr"; RNode "NameRef"]) (* 145-155 *);
    ("CallExpr", RSeq [RLab "fun" (RNode "Expr"); RNode "CallArgs"]) (* 157-158 *);
    ("MethodCallExpr", RSeq [RLab "fun" (RNode "Expr"); RTok ":"; RNode "NameRef"; RNode "CallArgs"]) (* 160-161 *);
    ("MultivalExpr", RSeq [RNode "Expr"; RRep (RSeq [RTok ","; RNode "Expr"])]) (* 163-164 *);
    ("CallArgs", RAlt [RNode "ArgList"; RNode "TableExpr"; RTok "str"]) (* 166-169 *);
    ("ArgList", RSeq [RTok "("; RLab "args" (ROpt (RSeq [RNode "Expr"; RRep (RSeq [RTok ","; RNode "Expr"])])); ROpt (RSeq [RTok ","; RTok "..."]); RTok ")"]) (* 171-172 *);
    ("Literal", RAlt [RTok "number"; RTok "str"; RTok "true"; RTok "false"]) (* 174-178 *);
    ("FunctionExpr", RSeq [RTok "function"; RLab "params" (RNode "ParamList"); RLab "body" (RNode "Block"); RTok "end"]) (* 180-184 *);
    ("TableExpr", RSeq [RTok "{"; RSeq [RNode "TableContent"; RRep (RSeq [RNode "TableSep"; RNode "TableContent"]); ROpt (RNode "TableSep")]; RTok "}"]) (* 186-189 *);
    ("TableSep", RAlt [RTok ","; RTok ";"]) (* 191-192 *);
    ("DotExpr", RSeq [RNode "Expr"; RTok "."; RTok "ident"]) (* 194-195 *);
    ("ParenExpr", RSeq [RTok "("; RNode "Expr"; RTok ")"]) (* 197-200 *);
    ("TableContent", RAlt [RNode "KeyValue"; RNode "PositionalValue"]) (* 202-204 *);
    ("PositionalValue", RNode "Expr") (* 206-207 *);
    ("KeyValue", RSeq [RLab "key" (RNode "TableKey"); RLab "value" (RNode "Expr")]) (* 209-210 *);
    ("TableKey", RAlt [RNode "Index"; RNode "Name"]) (* 212-214 *);
    ("IdentKey", RTok "ident") (* 216-217 *);
    ("InfixExpr", RSeq [RLab "lhs" (RNode "Expr"); RLab "op" (RAlt [RTok "^"; RTok "*"; RTok "/"; RTok "+"; RTok "-"; RTok ".."; RTok "<"; RTok ">"; RTok "<="; RTok ">="; RTok "~="; RTok "=="; RTok "and"; RTok "or"]); RLab "rhs" (RNode "Expr")]) (* 219-222 *);
    ("PrefixExpr", RSeq [RLab "op" (RAlt [RTok "not"; RTok "-"]); RNode "Expr"]) (* 224-225 *);
    ("IndexExpr", RSeq [RLab "base" (RNode "Expr"); RNode "Index"]) (* 227-228 *);
    ("Index", RSeq [RTok "["; RNode "Expr"; RTok "]"]) (* 230-231 *);
    ("IndexPath", RSeq [RNode "NameRef"; RRep (RSeq [RTok "."; RNode "NameRef"])]) (* 233-234 *) ]%string.
(** xtask/assets/ast_src.toml:1-90, transcribed by script, including the repeated keys. *)
Definition lua_kinds : kinds_src :=
  mkKinds
    [("==", "EqEq"); ("~=", "NotEq"); (">", "Gt"); (">=", "GtEq"); ("<", "Lt"); ("<=", "LtEq"); ("=", "Eq"); ("(", "LParen"); (")", "RParen"); ("{", "LBrace"); ("}", "RBrace"); ("[", "LBracket"); ("]", "RBracket"); (",", "Comma"); (".", "Dot"); (";", "Semicolon"); (":", "Colon"); ("::", "DoubleColon"); ("+", "Plus"); ("-", "Minus"); ("*", "Asterisk"); ("/", "Slash"); ("%", "Modulo"); ("^", "Caret"); ("%", "Modulo"); ("^", "Caret"); ("#", "Hash"); ("!", "Bang"); ("..", "DoubleDot"); ("...", "TripleDot")]
    ["function"; "local"; "true"; "false"; "if"; "then"; "else"; "elseif"; "while"; "for"; "in"; "break"; "do"; "goto"; "and"; "or"; "not"; "return"; "end"; "repeat"; "until"; "nil"]
    ["Number"; "Str"; "True"; "False"]
    ["Error"; "Ident"; "Shebang"]
    ["Comment"; "Whitespace"]%string.

(** ** The checked-in outputs that no other file of the model transcribes, by script *)
(** crates/parser/src/syntax_kind/generated.rs:134-160 [SyntaxKind::is_keyword], as the kinds it matches. *)
Definition is_keyword_rs : list string := ["FunctionKw"; "LocalKw"; "TrueKw"; "FalseKw"; "IfKw"; "ThenKw"; "ElseKw"; "ElseifKw"; "WhileKw"; "ForKw"; "InKw"; "BreakKw"; "DoKw"; "GotoKw"; "AndKw"; "OrKw"; "NotKw"; "ReturnKw"; "EndKw"; "RepeatKw"; "UntilKw"; "NilKw"].
(** crates/parser/src/syntax_kind/generated.rs:161-192 [SyntaxKind::is_punct], as the kinds it matches. *)
Definition is_punct_rs : list string := ["Bang"; "Hash"; "Modulo"; "LParen"; "RParen"; "Asterisk"; "Plus"; "Comma"; "Minus"; "Dot"; "DoubleDot"; "TripleDot"; "Slash"; "Colon"; "DoubleColon"; "Semicolon"; "Lt"; "LtEq"; "Eq"; "EqEq"; "Gt"; "GtEq"; "LBracket"; "RBracket"; "Caret"; "LBrace"; "RBrace"; "NotEq"].
(** crates/parser/src/syntax_kind/generated.rs:193-195 [SyntaxKind::is_literal], as the kinds it matches. *)
Definition is_literal_rs : list string := ["Number"; "Str"; "True"; "False"].
(** crates/parser/src/syntax_kind/generated.rs:227 [T!], its arms. *)
Definition t_macro_rs : list (string * string) :=
  [("!", "Bang"); ("#", "Hash"); ("%", "Modulo"); ("'('", "LParen"); ("')'", "RParen"); ("*", "Asterisk"); ("+", "Plus"); (",", "Comma"); ("-", "Minus"); (".", "Dot"); ("..", "DoubleDot"); ("...", "TripleDot"); ("/", "Slash"); (":", "Colon"); ("::", "DoubleColon"); (";", "Semicolon"); ("<", "Lt"); ("<=", "LtEq"); ("=", "Eq"); ("==", "EqEq"); (">", "Gt"); (">=", "GtEq"); ("'['", "LBracket"); ("']'", "RBracket"); ("^", "Caret"); ("'{'", "LBrace"); ("'}'", "RBrace"); ("~=", "NotEq"); ("function", "FunctionKw"); ("local", "LocalKw"); ("true", "TrueKw"); ("false", "FalseKw"); ("if", "IfKw"); ("then", "ThenKw"); ("else", "ElseKw"); ("elseif", "ElseifKw"); ("while", "WhileKw"); ("for", "ForKw"); ("in", "InKw"); ("break", "BreakKw"); ("do", "DoKw"); ("goto", "GotoKw"); ("and", "AndKw"); ("or", "OrKw"); ("not", "NotKw"); ("return", "ReturnKw"); ("end", "EndKw"); ("repeat", "RepeatKw"); ("until", "UntilKw"); ("nil", "NilKw"); ("number", "Number"); ("str", "Str"); ("true", "True"); ("false", "False"); ("error", "Error"); ("ident", "Ident"); ("shebang", "Shebang"); ("comment", "Comment"); ("whitespace", "Whitespace"); ("__", "Tombstone"); ("eof", "Eof"); ("unknown", "Unknown")].
(** crates/parser/src/syntax_kind/generated.rs:230 [N!], its arms: each node name stands for the kind of that name. *)
Definition n_macro_rs : list (string * string) :=
  [("Name", "Name"); ("NameRef", "NameRef"); ("MultiName", "MultiName"); ("SourceFile", "SourceFile"); ("Block", "Block"); ("AssignStmt", "AssignStmt"); ("LocalAssignStmt", "LocalAssignStmt"); ("LocalFunctionDefStmt", "LocalFunctionDefStmt"); ("FunctionDefStmt", "FunctionDefStmt"); ("ForStmt", "ForStmt"); ("IfStmt", "IfStmt"); ("ReturnStmt", "ReturnStmt"); ("WhileStmt", "WhileStmt"); ("ExprStmt", "ExprStmt"); ("BreakStmt", "BreakStmt"); ("RepeatUntilStmt", "RepeatUntilStmt"); ("LabelStmt", "LabelStmt"); ("GotoStmt", "GotoStmt"); ("LabelDelim", "LabelDelim"); ("DoStmt", "DoStmt"); ("ParamList", "ParamList"); ("FunctionMethod", "FunctionMethod"); ("FunctionStatic", "FunctionStatic"); ("IndexPath", "IndexPath"); ("MultivalExpr", "MultivalExpr"); ("ElseBranch", "ElseBranch"); ("ElseIfBranch", "ElseIfBranch"); ("NumericFor", "NumericFor"); ("GenericFor", "GenericFor"); ("Literal", "Literal"); ("TableExpr", "TableExpr"); ("InfixExpr", "InfixExpr"); ("PrefixExpr", "PrefixExpr"); ("IndexExpr", "IndexExpr"); ("DotExpr", "DotExpr"); ("FunctionExpr", "FunctionExpr"); ("CallExpr", "CallExpr"); ("MethodCallExpr", "MethodCallExpr"); ("CallArgs", "CallArgs"); ("ArgList", "ArgList"); ("TableSep", "TableSep"); ("ParenExpr", "ParenExpr"); ("KeyValue", "KeyValue"); ("PositionalValue", "PositionalValue"); ("Index", "Index"); ("IdentKey", "IdentKey"); ("Stmt", "Stmt"); ("StmtItem", "StmtItem"); ("FunctionDefContent", "FunctionDefContent"); ("Expr", "Expr"); ("ForContent", "ForContent"); ("TableContent", "TableContent"); ("TableKey", "TableKey")].
(** crates/syntax/src/ast/generated/tokens.rs: each token type and the kind its [can_cast] accepts; [cast] follows it. *)
Definition tokens_rs : list (string * string) := [("Error", "Error"); ("Ident", "Ident"); ("Shebang", "Shebang"); ("Number", "Number"); ("Str", "Str"); ("True", "True"); ("False", "False"); ("Comment", "Comment"); ("Whitespace", "Whitespace")].
