MUTS=[]
def m(id,file,defn,edit,claims,*edits):
    MUTS.append(dict(id=id,file=file,edits=list(edits),claims=claims.split(),edit=edit,**{'def':defn}))
# stack depth
m('DE01','Depth','if_stmt_d','the else branch of an if is not parsed','C86',('     (c <- p_current ;;\n      if kind_eqb c KElseifKw then elseif\n      else if kind_eqb c KElseKw then else_branch n stmt\n      else ret tt) ;;','     (c <- p_current ;;\n      if kind_eqb c KElseifKw then elseif\n      else ret tt) ;;'))
m('DE02','Depth','expr_d','operands of an operator take two activations','C86',("expr_bp_body n (stmt_d d') (expr_d d') min_bp end","expr_bp_body n (stmt_d d') (expr_d (pred d')) min_bp end"))
m('DE03','Depth','expr_d','a chain of operators takes stack','C86',("expr_bp_body n (stmt_d d') (expr_d d') min_bp end","expr_bp_body d' (stmt_d d') (expr_d d') min_bp end"))
m('DE05','Depth','stmt_d','a limit on nesting: an error instead of an overflow','C86',("  match d with 0 => out | S d' => stmt_body_d","  match d with 0 => p_err_and_bump \"nested too deeply\" | S d' => stmt_body_d"))
m('DE06','Depth','expr_d','a limit on the nesting of expressions: an error instead of an overflow','C86',("  match d with 0 => out | S d' => expr_bp_body","  match d with 0 => p_err_and_bump \"nested too deeply\" ;; ret None | S d' => expr_bp_body"))
m('DE07','Depth','root_d','the first statement already takes two activations','C86',('root n (stmt_d d).','root n (stmt_d (pred d)).'))
m('DE08','Depth','elseif_body','the else after an elseif is not parsed','C86',('     if kind_eqb c KElseifKw then elseif\n     else if kind_eqb c KElseKw then else_branch n stmt\n     else ret tt).','     if kind_eqb c KElseifKw then elseif\n     else ret tt).'))
m('DE09','Depth','parse_text_within','lexer errors dropped','C86',('Ok (g, perrs ++ lex_errs)','Ok (g, perrs)'))
# hash order and versions
m('HO01','HashOrder','after_any','only the first changed file is published','C85',('publish g (o_files o l)','publish g (firstn 1 (o_files o l))'))
m('HO02','HashOrder','maybe_update_any','only one open document is analysed','C85',('subscriptions (g_vfs g) (o_docs o (g_mem_docs g))','subscriptions (g_vfs g) (firstn 1 (o_docs o (g_mem_docs g)))'))
m('HO03','Server','publish','the version is that of the first open document','C85 C87 C52',('(aget string_dec p (g_mem_docs g))) g) l\'','(match g_mem_docs g with (_, z) :: _ => Some z | [] => None end)) g) l\''))
m('VE01','Server','did_close','the closing notice has no version (SV13 again)','C87',('send (OutDiagnostics u [] (aget string_dec p (g_mem_docs g))) (with_mem_docs','send (OutDiagnostics u [] None) (with_mem_docs'))
m('VE02','Server','did_change','the version of a change is not recorded','C87 C48',('Ok (with_vfs v (with_mem_docs (aset string_dec p version (g_mem_docs g)) g))\n    end','Ok (with_vfs v g)\n    end'))
m('VE03','Server','publish','no version','C87 C52',('(aget string_dec p (g_mem_docs g))) g) l\'','None) g) l\''))
m('VE04','Server','did_close','the notice lists the old diagnostics again','C87 C79 C64',('send (OutDiagnostics u [] (aget string_dec p (g_mem_docs g))) (with_mem_docs','send (OutDiagnostics u (match v_file_id (g_vfs g) p with Ok (Some f) => diagnostics_for (g_diagnostics g) f | _ => [] end) (aget string_dec p (g_mem_docs g))) (with_mem_docs'))
m('VE05','Server','did_open','opening again keeps the old version','C87 C48',('let g := with_vfs v (with_mem_docs (aset string_dec p version (g_mem_docs g)) g) in\n    if changed','let g := with_vfs v (with_mem_docs (aset string_dec p (match aget string_dec p (g_mem_docs g) with Some z => z | None => version end) (g_mem_docs g)) g) in\n    if changed'))
m('VE06','Server','did_close','an unmappable URI is answered with version 0','C87',('| None => send (OutDiagnostics u [] None) g','| None => send (OutDiagnostics u [] (Some 0%Z)) g'))
# reparse
m('RP01','Reparse','is_balanced','always balanced','C35',('[] => false | t :: _ => kind_eqb (t_kind t) KEndKw end','[] => true | _ => true end'))
m('RP02','Reparse','replace_path','the sibling before is replaced','C34 C35',("Ok (GNode k (firstn i cs ++ c' :: skipn (S i) cs))","Ok (GNode k (firstn (pred i) cs ++ c' :: skipn i cs))"))
m('RP03','Reparse','find_reparsable','the outermost block is reparsed','C35',('  match deeper with\n  | Some x => Some x\n  | None => if is_gnode (el_green e) && match reparser (el_kind e) with Some _ => true | None => false end\n            then Some ([], e) else None\n  end.','  if is_gnode (el_green e) && match reparser (el_kind e) with Some _ => true | None => false end\n  then Some ([], e) else deeper.'))
m('RP04','Reparse','covering','the element covering the start only','C34 C35',('let? (p, _) := covering (i_delete edit) root 0 in\n  match find_reparsable','let? (p, _) := covering (mkRange (i_start edit) (i_start edit)) root 0 in\n  match find_reparsable'))
m('RP05','Reparse','err_with','the new range is ignored','C36',('syntax_error := mkErr (e_msg e) r.','syntax_error := mkErr (e_msg e) (e_range e).'))
m('RP06','Reparse','reparse_block','lexer errors dropped','C35 C36',('Ok (Some (root\', errs ++ lex_errs, el_range n))','Ok (Some (root\', errs, el_range n))'))
m('RP07','Reparse','incremental_reparse','errors of the block reparse not merged','C36 C35',('    | Some (g, news, r) => let? m := merge_errors errors news r edit in Ok (Some (g, m, r))\n    | None => Ok None','    | Some (g, news, r) => Ok (Some (g, news, r))\n    | None => Ok None'))
m('RP08','Reparse','reparse_block','the old block text is parsed','C34 C35',('let? t := get_text_after_edit n edit in\n    let? (toks','let? _ := get_text_after_edit n edit in let t := green_text (el_green n) in\n    let? (toks'))
m('RP09','Reparse','reparse_token','strings are not checked for the kind','C35',('if negb (kind_eqb nk k) then Ok None','if negb (kind_eqb nk k) && negb (kind_eqb k KStr) then Ok None'))
m('RP10','Reparse','reparse_token','the error of the new token is dropped','C35 C36',('match nerr with Some x => [x] | None => [] end, el_range e','@nil syntax_error, el_range e'))
# hir
m('HI01','Hir','lower_multi_name','only the first name','C33',('mapr name_text (ast_children (is_kind KName) e)','mapr name_text (firstn 1 (ast_children (is_kind KName) e))'))
m('HI02','Hir','lower_local_assign','the item is given the next index','C33',('MLocalAssign (length (it_assigns s))','MLocalAssign (S (length (it_assigns s)))'))
m('HI03','Hir','ast_get','the next id','C32',('runwrap (nth_error m id)','runwrap (nth_error m (S id))'))
m('HI04','Hir','lower_params','parameters without vararg only','C33',('Ok (Some (mkParams ns match','Ok (match ast_token KTripleDot e with Some _ => None | None => Some (mkParams ns match'),('Some _ => true | None => false end))\n  end.\n(** lower.rs:90','Some _ => true | None => false end) end)\n  end.\n(** lower.rs:90'))
m('HI05','Hir','ast_id_map_query','files with errors too','C32 C33',('  | _ :: _ => Ok []\n  end.\n\n(** ** The item','  | _ :: _ => from_source false (root_elem (pa_green p))\n  end.\n\n(** ** The item'))
m('HI06','Hir','stmt_items','all statements','C33',('ast_children stmt_item_can_cast e','ast_children stmt_can_cast e'))
m('HI07','Hir','number','children numbered from 1','C32',('lnode := (list nat * elem)%type.','lnode := (list nat * elem)%type. '),('number (S i) p cs\'','number (S (S i)) p cs\''))
# codegen
m('CG01','Codegen','pluralize','es','C76',('(s ++ "s")%string','(s ++ "es")%string'))
m('CG02','Codegen','split_word','no boundary before an upper case letter','C76',('(match next_mode with MLower => is_upper next | _ => false end)','false'))
m('CG03','Codegen','map_insert','an earlier entry wins','C76',('Eq => (k, v) :: l\'','Eq => (k\', v\') :: l\''))
m('CG04','Codegen','gen_body','lists with a trailing separator give all children','C76',('| FNode _ ty Many => BChildren ty','| FNode _ ty Many | FNode _ ty ManyTrailing => BChildren ty'))
m('CG05','Codegen','gen_tokens','trivia get no token types','C76',('(k_tokens ks ++ k_literals ks ++ k_trivia ks)','(k_tokens ks ++ k_literals ks)'))
m('CG06','Codegen','lower_enum','a single alternative is an enum','C76',('match r with RAlt rs => variants_of rs | _ => None end','match r with RAlt rs => variants_of rs | RNode n => Some [n] | _ => None end'))
m('CG07','Codegen','gen_kinds','nodes before tokens','C76',('k_tokens ks ++ src_names src ++ k_trivia ks ++ ["__LAST"]','src_names src ++ k_tokens ks ++ k_trivia ks ++ ["__LAST"]'))
m('CG08','Codegen','rule_of','the last definition wins','C76',('find (fun d => String.eqb (fst d) n) g with','find (fun d => String.eqb (fst d) n) (rev g) with'))
