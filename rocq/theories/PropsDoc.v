(** PropsDoc.v — C77: the grammar file lua.ungram and the trees the parser builds. *)
From Verif Require Import Base SyntaxKind Lexer Parser Grammar ParserTree Tree TreeSink GrammarSpec ParseSpec Grouping PropsLang Codegen GrammarDoc DocProofs DocConverse DocMatch.
Local Open Scope string_scope.
Local Open Scope nat_scope.
Local Open Scope list_scope.

(** * C77 The grammar file *)
(** Every node of every tree of a text without syntax errors is as the corrected file says, and a tree over the tokens of the
    text that is as the file says, grouped by the operator table, is the tree the parser builds. *)
Theorem C77_corrected_exactly : forall t tk lex_errs f, tokenize t = Ok (tk, lex_errs) ->
  ((exists g, parse_tokens t tk = Ok (g, []) /\ skel g = f) <->
   ((exists cs, f = [PNode KSourceFile cs] /\ conforms corrected (PNode KSourceFile cs) /\ ends_ok (PNode KSourceFile cs)) /\
    well_grouped f KEof /\ flat_map toks f = written tk)).
Proof. intros t tk le f H. rewrite (C73_exact_language _ _ _ f H). unfold reading. now rewrite doc_exact. Qed.
Print Assumptions C77_corrected_exactly.

(** The corrected file is lua.ungram but for fifteen rules that are wrong, five that say too little, and two new classes. *)
Theorem C77_rest_unchanged :
  length lua_grammar = 53 /\ length corrections = 15 /\ length sharpened = 5 /\
  (forall n, In n (map fst (corrections ++ sharpened)) -> In n (map fst lua_grammar)) /\
  forall n r, In (n, r) lua_grammar -> ~ In n (map fst (corrections ++ sharpened)) -> rule_of corrected_grammar n = Some r.
Proof.
  split; [vm_compute; reflexivity|]. split; [reflexivity|]. split; [reflexivity|]. split.
  - intros n H. vm_compute in H. vm_compute. tauto.
  - intros n r H N.
    assert (A : forallb (fun e => existsb (String.eqb (fst e)) (map fst (corrections ++ sharpened)) || match rule_of corrected_grammar (fst e) with Some r' => rule_eqb r' (snd e) | None => false end) lua_grammar = true) by (vm_compute; reflexivity).
    rewrite forallb_forall in A. specialize (A _ H). cbn [fst snd] in A. apply orb_true_iff in A as [A|A].
    + apply existsb_exists in A as (x & Hx & E). apply String.eqb_eq in E. subst x. contradiction.
    + destruct (rule_of corrected_grammar n) as [r'|]; [|discriminate]. f_equal. clear H N. revert r' r A.
      apply (rule_ind3 (fun a => forall b, rule_eqb a b = true -> a = b)).
      1-4,7: intros; destruct b; cbn [rule_eqb] in *; try discriminate; rewrite ?andb_true_iff, ?String.eqb_eq in *; try (f_equal; intuition auto; fail); f_equal; intuition auto.
      all: intros rs IH [ | | | |ys|ys| ] E; try discriminate; f_equal; cbn [rule_eqb] in E; revert ys E; induction IH as [|x xs Hx _ IHxs]; intros [|y ys] E; try discriminate; [reflexivity|]; apply andb_true_iff in E as [E1 E2]; f_equal; auto.
Qed.
Print Assumptions C77_rest_unchanged.

(** "The trees are as lua.ungram says" is false, for each of the fifteen rules on its own: there is a text without errors with a
    node that does not fit, and it fits once that rule, and no other, is corrected. *)
Fixpoint nodes (t : ptree) : list (kind * forest) := match t with PNode k cs => (k, cs) :: flat_map nodes cs | _ => [] end.
Definition one_correction (n : string) (r : rule) : doc := mkDoc (replaced [(n, r)] lua_grammar) (fun _ => true) (fun _ => true).
Definition witness (n : string) : text * kind :=
  let w (s : string) (k : kind) := (txt s, k) in
  if String.eqb n "MultiName" then w "local function f(a, ...) end" KMultiName
  else if String.eqb n "Stmt" then w "do end" KBlock
  else if String.eqb n "FunctionStatic" then w "function a.b() end" KFunctionStatic
  else if String.eqb n "IndexPath" then w "function a.b() end" KIndexPath
  else if String.eqb n "ParamList" then w "function f(a, ...) end" KParamList
  else if String.eqb n "ReturnStmt" then w "return a" KReturnStmt
  else if String.eqb n "GenericFor" then w "for a in b do end" KGenericFor
  else if String.eqb n "Block" then w "local a;" KBlock
  else if String.eqb n "Expr" then w "local a = (b)" KMultivalExpr
  else if String.eqb n "ArgList" then w "f(a)" KArgList
  else if String.eqb n "Literal" then w "local a = nil" KLiteral
  else if String.eqb n "TableExpr" then w "local a = {}" KTableExpr
  else if String.eqb n "KeyValue" then w "local a = {b = c}" KKeyValue
  else if String.eqb n "InfixExpr" then w "local a = b % c" KInfixExpr
  else w "local a = #b" KPrefixExpr.
Definition refutes (e : string * rule) : bool :=
  let d := one_correction (fst e) (snd e) in
  let (t, k) := witness (fst e) in
  shallow d &&
  match tokenize t with
  | Ok (tk, _) => match parse_tokens t tk with
    | Ok (g, []) => existsb (fun c => kind_eqb (fst c) k && negb (node_fitsb lua_doc k (snd c)) && node_fitsb d k (snd c)) (flat_map nodes (skel g))
    | _ => false end
  | _ => false
  end.
Theorem C77_refuted : forall n r, In (n, r) corrections -> exists t tk lex_errs g k cs,
  tokenize t = Ok (tk, lex_errs) /\ parse_tokens t tk = Ok (g, []) /\ In (k, cs) (flat_map nodes (skel g)) /\
  ~ node_fits lua_doc k cs /\ node_fits (one_correction n r) k cs.
Proof.
  assert (A : forallb refutes corrections = true) by (vm_compute; reflexivity). assert (SL : shallow lua_doc = true) by (vm_compute; reflexivity).
  rewrite forallb_forall in A. intros n r H. specialize (A _ H). unfold refutes in A. cbn [fst snd] in A. destruct (witness n) as [t k]. apply andb_true_iff in A as [SD A].
  destruct (tokenize t) as [[tk le]| |] eqn:T; try discriminate. destruct (parse_tokens t tk) as [[g [|? ?]]| |] eqn:P; try discriminate.
  apply existsb_exists in A as ([k' cs] & Hc & A). cbn [fst snd] in A. apply andb_true_iff in A as [A A3]. apply andb_true_iff in A as [A1 A2]. apply kind_eqb_eq in A1. subst k'.
  exists t, tk, le, g, k, cs. repeat split; auto.
  - intros F. apply (node_fitsb_ok _ _ _ SL) in F. rewrite F in A2. discriminate.
  - now apply (node_fitsb_ok _ _ _ SD).
Qed.
Print Assumptions C77_refuted.

(** A program with most constructs that meets the hypotheses of C77_corrected_exactly. *)
Example case_doc : match tokenize (txt "local a, b = {x = 1, [2] = 'y'; f}, nil
for k in pairs(a) do if k == 1 then a.x:m(...) elseif not k then break else return -k ^ 2, (a)[1] end end
function a.b.c(x, ...) end ; goto done ::done:: repeat local t until t") with
  Ok (tk, []) => match parse_tokens (txt "local a, b = {x = 1, [2] = 'y'; f}, nil
for k in pairs(a) do if k == 1 then a.x:m(...) elseif not k then break else return -k ^ 2, (a)[1] end end
function a.b.c(x, ...) end ; goto done ::done:: repeat local t until t") tk with
    Ok (g, []) => forallb (fun c => node_fitsb corrected (fst c) (snd c)) (flat_map nodes (skel g)) = true /\ length (flat_map nodes (skel g)) > 80
    | _ => False end
  | _ => False end.
Proof. vm_compute. split; [reflexivity|lia]. Qed.
