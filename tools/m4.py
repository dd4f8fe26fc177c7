MUTS=[]
def m(id,file,defn,edit,claims,*edits):
    MUTS.append(dict(id=id,file=file,edits=list(edits),claims=claims.split(),edit=edit,**{'def':defn}))
# loader
m('D01','Loader','load_entry','directories loaded as files too','C61',('(filter snd (fs_walk d root))','(fs_walk d root)'))
m('D02','Loader','load_entry','extension not checked','C61',('(filter is_lua (map fst','(filter (fun _ => true) (map fst'))
m('D03','Loader','extension','a leading dot counts as an extension','C61',('  | Some (EmptyString, _) => None\n',''))
m('D04','Loader','entry_jobs','progress counts from the wrong end','C63',('JProgress n_total (i + 1) version','JProgress n_total i version'))
m('D05','Loader','config_jobs','no initial progress message','C63',('JProgress (length (snd c)) 0 (fst c) :: entry_jobs','entry_jobs'))
m('D06','Loader','entry_jobs','last entry skipped','C61 C62',('  | r :: roots\' => JLoad r','  | [_] => []\n  | r :: roots\' => JLoad r'))
m('D07','Loader','rsplit_dot','split at the first dot','C61',('''    match rsplit_dot s' with
    | Some (a, b) => Some (String c a, b)
    | None => if Ascii.eqb c "." then Some (EmptyString, s') else None
    end''','''    if Ascii.eqb c "." then Some (EmptyString, s') else
    match rsplit_dot s' with
    | Some (a, b) => Some (String c a, b)
    | None => None
    end'''))
# typed accessors
m('F01','AstNodes','FunctionStatic_dot_token','asks for a colon','C66 C76',('FunctionStatic_dot_token (e : elem) : option elem := ast_token KDot e','FunctionStatic_dot_token (e : elem) : option elem := ast_token KColon e'))
m('F02','AstNodes','IfStmt_else_branch','returns the elseif branch','C66 C76',('IfStmt_else_branch (e : elem) : option elem := ast_child (is_kind KElseBranch) e','IfStmt_else_branch (e : elem) : option elem := ast_child (is_kind KElseIfBranch) e'))
m('F03','AstNodes','MultiName_names','finds references instead of names','C66 C76',('MultiName_names (e : elem) : list elem := ast_children (is_kind KName) e','MultiName_names (e : elem) : list elem := ast_children (is_kind KNameRef) e'))
m('F04','AstNodes','CallArgs_table_expr','finds argument lists','C66 C76',('CallArgs_table_expr (e : elem) : option elem := ast_child (is_kind KTableExpr) e','CallArgs_table_expr (e : elem) : option elem := ast_child (is_kind KArgList) e'))
# code generator
m('J01','Codegen','lower_rule','alternatives after the first lost','C76',('RSeq rs | RAlt rs =>\n      (fix go','RAlt [] => Ok []\n    | RAlt (r1 :: _) => lower_rule label r1\n    | RSeq rs =>\n      (fix go'))
m('J02','Codegen','lower_rule','optional parts get no accessor','C76',("| ROpt r' => lower_rule label r'","| ROpt r' => Ok []"))
m('J03','Codegen','lower_comma_list','trailing list finds all items','C76',('Some (n, rep, ManyTrailing)','Some (n, rep, Many)'))
m('J04','Codegen','method_name','{ and } swapped','C76',('''"'{'" then "l_curly"''','''"'{'" then "r_curly"'''))
m('J05','Codegen','gen_methods','commas get accessors','C76',('''negb (String.eqb s ",")''','''negb (String.eqb s ";")'''))
m('J06','Codegen','keyword_kind','suffix forgotten','C76',('(to_camel_case kw ++ "Kw")%string','(to_camel_case kw)'))
m('J07','Codegen','label_is_manually_implemented','op label not skipped','C76',('["lhs"; "rhs"; "op"; "table_sep"]','["lhs"; "rhs"; "table_sep"]'))
m('J08','Codegen','lower_rule','node repetition gives one child','C76',("| RRep (RNode n) => Ok [FNode (unwrap_or label (pluralize (to_snake_case n))) n Many]","| RRep (RNode n) => Ok [FNode (unwrap_or label (pluralize (to_snake_case n))) n Optional]"))
# test utilities
m('U01','TestUtils','extract_offset','marker left in the text','C78',('let? rhs := bslice t (pos + blen CURSOR_MARKER) (blen t) in','let? rhs := bslice t pos (blen t) in'))
m('U02','TestUtils','try_extract_range','range start and end swapped','C78',('Ok (Some (mkRange start end_, t2))','Ok (Some (mkRange end_ start, t2))'))
m('U03','TestUtils','try_extract_range','second marker searched in the original text','C78',('let? r2 := try_extract_offset t1 in','let? r2 := try_extract_offset t in'))
m('U04','TestUtils','update','never compares','C78',('if text_eqb (normalize old) (normalize contents) then','if false then'))
m('U05','TestUtils','normalize','lone CR dropped','C78',('if N.eqb c 13 && N.eqb d 10 then 10%N :: normalize s\'\'','if N.eqb c 13 then d :: normalize s\'\''))
m('U06','TestUtils','update','old contents not normalized','C78',('text_eqb (normalize old) (normalize contents)','text_eqb old (normalize contents)'))
m('U07','TestUtils','str_find','offset counted in characters','C78',('option_map (fun n => utf8_len c + n)','option_map (fun n => 1 + n)'))
# grammar against grouping, language, documentation
m('O01','Grammar','infix_loop','<= instead of < (left operators group right)','C72 C73',('if l_bp <? min_bp then ret l','if l_bp <=? min_bp then ret l'))
m('O02','Grammar','postfix_expr','literals can be called','C72 C73',('if b then c <- literal ;; ret (Some (c, false))','if b then c <- literal ;; ret (Some (c, true))'))
m('O03','Grammar','postfix_expr','names cannot be called','C20 C73',('if kind_eqb c KIdent then m <- name_ref ;; ret (Some (m, true))','if kind_eqb c KIdent then m <- name_ref ;; ret (Some (m, false))'))
m('O04','Grammar','return_stmt','no value ever','C20 C73',('b <- p_at (PSet EXPR_FIRST) ;;\n     if b then expr else ret tt).\n\n(** statements.rs:314','b <- p_at (PSet EXPR_FIRST) ;;\n     ret tt).\n\n(** statements.rs:314'))
m('O05','Grammar','LHS_FIRST','# cannot start an expression','C73',('ts_new [KNotKw; KHash; KMinus]','ts_new [KNotKw; KMinus]'))
m('O06','Grammar','CALL_FIRST','string arguments not accepted','C20 C73',('ts_new [KLBrace; KLParen; KStr]','ts_new [KLBrace; KLParen]'))
m('O07','Grammar','table_inner','semicolons do not separate fields','C20 C73',('Definition TABLE_SEP := ts_new [KComma; KSemicolon].','Definition TABLE_SEP := ts_new [KComma].'))
m('O08','Grammar','table_content','record key not wrapped in TableKey','C77',('(node_ KTableKey name_unchecked ;;','(name_unchecked ;;'))
m('O09','Grammar','local_stmt','local x = allowed without expression','C73',('b <- p_accept (PKind KEq) ;;\n     if b then expr else ret tt).\n\n(** statements.rs:207','p_accept (PKind KEq) ;;\n     b <- p_at (PSet EXPR_FIRST) ;; if b then expr else ret tt).\n\n(** statements.rs:207'))
m('O10','Grammar','while_stmt','do optional','C23 C73',('expr_single ;; p_expect KDoKw ;; block ;; p_expect KEndKw','expr_single ;; p_accept (PKind KDoKw) ;; block ;; p_expect KEndKw'))
m('O11','Grammar','function_expr','end optional','C23 C73',('param_list fuel ;; block ;; p_expect KEndKw).\n\n(** expressions.rs:359','param_list fuel ;; block ;; p_accept (PKind KEndKw) ;; ret tt).\n\n(** expressions.rs:359'))
m('O12','Grammar','goto_stmt','name not wrapped in a NameRef','C77 C66',('(p_bump (PKind KGotoKw) ;; name_ref)','(p_bump (PKind KGotoKw) ;; p_expect KIdent)'))
m('O13','Grammar','arg_list','empty argument list rejected','C20 C73',('(b <- p_at (PKind KRParen) ;; if b then ret tt else expr)','expr'))
m('O14','Grammar','prefix_binding_power','not binds more loosely (below comparison)','C58 C72',('(OMod, PInfix ALeft); (ONot, PPrefix); (OLen, PPrefix)','(ONot, PPrefix); (OMod, PInfix ALeft); (OLen, PPrefix)'))
m('O15','Grammar','stmt_body','semicolon not consumed after a statement','C20 C73',('  p_accept (PKind KSemicolon) ;; ret tt.\nEnd Open.','  ret tt.\nEnd Open.'))
m('O16','Grammar','index','bracket left open','C23 C73',('expr_single ;; p_expect KRBracket','expr_single ;; p_accept (PKind KRBracket) ;; ret tt'))
m('O17','Grammar','break_stmt','no node','C77',('Definition break_stmt : M unit := node_ KBreakStmt (p_bump (PKind KBreakKw)).','Definition break_stmt : M unit := p_bump (PKind KBreakKw).'))
# line index through C71, ide
m('I21','Ide','lsp_diags','start and end swapped','C71 C52',) if False else None
