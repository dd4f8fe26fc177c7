MUTS=[]
def m(id,file,defn,edit,claims,*edits):
    MUTS.append(dict(id=id,file=file,edits=list(edits),claims=claims.split(),edit=edit,**{'def':defn}))
# line endings
m('CL01','Lexer','is_whitespace','a carriage return is no white space','C89 C70',(' || (c =? 12)%N || (c =? 13)%N.',' || (c =? 12)%N.'))
m('CL02','Lexer','string_loop','a string also stops at a carriage return, as unclosed','C89 C70',('    if (c =? eof_char)%N then\n      Ok (Some ("Could not find closing delimiter `"','    if (c =? eof_char)%N || (c =? 13)%N then\n      Ok (Some ("Could not find closing delimiter `"'))
m('CL03','Validation','escape_ok','a backslash may escape a newline','C89 C24',('    (txt "abfnrtv" ++ [backslash; dquote; squote; lbr; rbr]).','    (txt "abfnrtv" ++ [newline; backslash; dquote; squote; lbr; rbr]).'))
m('CL04','LineIndex','li_loop','a carriage return begins a line too','C89 C42',('    if N.eqb c newline then\n      let? line','    if N.eqb c newline || N.eqb c 13%N then\n      let? line'))
# work and events
m('WO01','Event','walk','links are left in the events that were followed','C88 C22',('        let evs := list_set evs idx tombstone in\n        let acc','        let acc'))
m('WO02','Grammar','infix_loop','looks twenty times before every operator','C88',('    c <- p_current ;;\n    let (l_bp, r_bp) := infix_binding_power c in','    p_nth 0 ;; p_nth 0 ;; p_nth 0 ;; p_nth 0 ;; p_nth 0 ;; p_nth 0 ;; p_nth 0 ;; p_nth 0 ;; p_nth 0 ;; p_nth 0 ;; p_nth 0 ;; p_nth 0 ;; p_nth 0 ;; p_nth 0 ;; p_nth 0 ;; p_nth 0 ;; p_nth 0 ;; p_nth 0 ;; p_nth 0 ;; p_nth 0 ;;\n    c <- p_current ;;\n    let (l_bp, r_bp) := infix_binding_power c in'))
# grammar definitions not edited before
m('GR01','Grammar','name_r','a missing name is no error','C73 C74',('  if b then name_unchecked else p_err_recover "expected a name" recovery.','  if b then name_unchecked else ret tt.'))
m('GR02','Grammar','multi_name_r','a comma before ... ends the names although ... is not allowed','C73 C77',('            b <- p_at (PKind KTripleDot) ;;\n            if vararg && b then ret false','            b <- p_at (PKind KTripleDot) ;;\n            if b then ret false'))
m('GR03','Grammar','param_list','... may be followed by more','C73 C74',('        if c then ret tt else p_err_and_bump "Nothing can be after a vararg"','        if c then ret tt else multi_name_r fuel STMT_RECOVERY true'))
m('GR04','Grammar','label_stmt','the closing :: of a label is not read','C73 C77',('(label_delim ;; name_r STMT_RECOVERY ;; label_delim)','(label_delim ;; name_r STMT_RECOVERY)'))
m('GR05','Grammar','index_path','stops after the first dot','C73 C77',('            else name_ref_r recovery ;; ret true\n          else ret false)).','            else name_ref_r recovery ;; ret false\n          else ret false)).'))
m('GR06','Grammar','paren_expr','parentheses hold a list','C73 C77',('(p_expect KLParen ;; expr_bp LOWEST ;; p_expect KRParen)','(p_expect KLParen ;; expr_multi ;; p_expect KRParen)'))
m('GR07','Grammar','table_content','[k] without = is accepted','C73 C74 C77',('         (node_ KTableKey index ;;\n          p_expect KEq ;;\n          expr_single)','         (node_ KTableKey index ;;\n          b <- p_at (PKind KEq) ;;\n          if b then p_expect KEq ;; expr_single ;; ret tt else ret tt)'))
m('GR08','Grammar','call_args','a table argument gives no node of its own','C73 C77',('     else if kind_eqb c KLBrace then table_expr ;; ret tt','     else if kind_eqb c KLBrace then p_bump PAny'))
m('GR09','Grammar','arg_list','an empty list of arguments is an error','C73 C74',('     (b <- p_at (PKind KRParen) ;; if b then ret tt else expr) ;;','     expr ;;'))
m('GR10','Grammar','method_call_expr','arguments may be missing','C73 C74',('     if b then call_args else p_error "Expected call arguments").','     if b then call_args else ret tt).'))
m('GR11','Grammar','postfix_expr','nothing can be called after an index','C73 C72',('      lhs <- index_expr lhs ;; postfix_expr n\' lhs true','      lhs <- index_expr lhs ;; postfix_expr n\' lhs false'))
m('GR12','Grammar','lhs','the operand of a prefix operator is read with the weakest power','C72 C73',('    c <- node KPrefixExpr (p_bump PAny ;; expr_bp r_bp) ;;','    c <- node KPrefixExpr (p_bump PAny ;; expr_bp LOWEST) ;;'))
m('GR13','Grammar','atom_expr','function expressions are not accepted','C73',('      if kind_eqb c KFunctionKw then m <- function_expr ;; ret (Some (m, true))\n      else if','      if'))
m('GR14','Grammar','else_branch','else reads one statement','C73 C77',('node_ KElseBranch (p_bump (PKind KElseKw) ;; block)','node_ KElseBranch (p_bump (PKind KElseKw) ;; stmt)'))
