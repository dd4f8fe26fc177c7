MUTS=[]
def m(id,file,defn,edit,claims,*edits):
    MUTS.append(dict(id=id,file=file,edits=list(edits),claims=claims.split(),edit=edit,**{'def':defn}))
m('G01','Server','respond','pending id not removed','C51',('send (OutResponse id o) (with_incoming (adel rid_eq_dec id (g_incoming g)) g)','send (OutResponse id o) g'))
m('G02','Server','on_request','after shutdown requests get MethodNotFound','C51',('if g_shutdown g then respond (q_id q) (OError InvalidRequest) g','if g_shutdown g then respond (q_id q) (OError MethodNotFound) g'))
m('G03','Server','on_request','shutdown does not set the flag','C51',('OShutdownResult (with_shutdown true g)','OShutdownResult g'))
m('G04','Server','on_request','unknown methods are not answered','C51',('else respond (q_id q) (OError MethodNotFound) g','else g'))
m('G05','Server','on_request','completion task dropped','C51',('then with_tasks (g_tasks g ++ [TResponse (q_id q) OCompletionResult]) g','then g'))
m('G06','Server','on_request','completion answered immediately and queued','C51',('then with_tasks (g_tasks g ++ [TResponse (q_id q) OCompletionResult]) g','then respond (q_id q) OCompletionResult (with_tasks (g_tasks g ++ [TResponse (q_id q) OCompletionResult]) g)'))
m('G07','Server','handle_task','only the first task handled, rest dropped','C51 C52',('fold_left run_task (g_tasks g) (with_tasks [] g)','fold_left run_task (firstn 1 (g_tasks g)) (with_tasks [] g)'))
m('G08','Server','did_open','text not stored','C48 C52',('let? (v, changed) := set_file_contents (g_vfs g) p (Some (CText t)) in','let? (v, changed) := set_file_contents (g_vfs g) p (Some (CText [])) in'))
m('G09','Server','did_open','document not recorded as open','C48',('let g := with_vfs v (with_mem_docs (aset string_dec p version (g_mem_docs g)) g) in','let g := with_vfs v g in'))
m('G10','Server','did_open','unchanged text: no diagnostics update','C52',('if changed then Ok g else maybe_update_diagnostics g','Ok g'))
m('G11','Server','did_change','changes applied in reverse','C48',("apply_document_changes t cs in","apply_document_changes t (rev cs) in"))
m('G12','Server','did_change','unopened documents are edited','C48',('''    match aget string_dec p (g_mem_docs g) with
    | None => Ok g
    | Some _ =>
      let? id''','''    match Some tt with
    | None => Ok g
    | Some _ =>
      let? id'''))
m('G13','Server','did_change','new version not recorded','C52',('''Ok (with_vfs v (with_mem_docs (aset string_dec p version (g_mem_docs g)) g))
    end''','''Ok (with_vfs v g)
    end'''))
m('G14','Server','did_close','document stays open','C48 C53',('(with_mem_docs (adel string_dec p (g_mem_docs g)) g)\n','g\n'))
m('G15','Server','load_files','open documents overwritten by the loader','C48 C52',("| Some _ => load_files g l'","| Some _ => let? (v, _) := set_file_contents (g_vfs g) p c in load_files (with_vfs v g) l'"))
m('G16','Server','load_files','stops at an open document','C49 C48 C53',("| Some _ => load_files g l'","| Some _ => Ok g"))
m('G17','Server','process_changes','changes not applied to the database','C49 C52',('Ok (with_db (apply_change (g_db g) ch) (with_vfs v g), true)','Ok (with_vfs v g, true)'))
m('G18','Server','apply_change','a deletion keeps the text; only first change applied','C49',('| None => [] end) db) l db.','| None => [] end) db) (firstn 1 l) db.'))
m('G19','Server','process_changes','does not report a change','C52',('Ok (with_db (apply_change (g_db g) ch) (with_vfs v g), true)','Ok (with_db (apply_change (g_db g) ch) (with_vfs v g), false)'))
m('G20','Server','subscriptions','only the first open document gets diagnostics','C52',("    let? r := subscriptions v l' in\n    Ok (i :: r)","    Ok [i]"))
m('G21','Server','publish','published under no version','C52',('(aget string_dec p (g_mem_docs g))) g) l','None) g) l'))
m('G22','Server','publish','publishes empty diagnostics','C52',('(diagnostics_for (g_diagnostics g) f)','[]'))
m('G23','Server','complete_request','unknown ids ignored (fix of panic)','',('let? _ := runwrap (aget rid_eq_dec (s_id r) (g_outgoing g)) in','let? _ := Ok tt in'))
m('G24','Server','handle_vfs','only the first loader message handled','C53',("| VLoaded l :: ms' => let? g := load_files g l in handle_vfs g ms'","| VLoaded l :: ms' => load_files g l"))
m('G25','Server','after_event','diagnostics not published','C52',('match l with Some l => publish g l | None => Ok g end.','Ok g.'))
m('G26','Server','run','continues after exit','C51',('  | ELsp (MNot NExit) :: _ => Ok g\n',''))
m('G27','Server','update_configuration','version not incremented','',('let? n := uadd (g_config_version g) 1 in','let? n := uadd (g_config_version g) 0 in'))
m('G28','Server','config_update','null resets the configuration','',('JNull => c | JObj','JNull => [] | JObj'))
m('P01','Ptr','ptr_to_node','kind not compared','C31',('range_eqb (el_range e) (np_range p) && kind_eqb (el_kind e) (np_kind p)','range_eqb (el_range e) (np_range p)'))
m('P02','Ptr','ptr_chain','descends into the first child only','C31',("else go (off + green_len c) cs'","else []"))
m('P03','Ptr','contains_range','exclusive end','C31 C34',('(r_end b <=? r_end a)','(r_end b <? r_end a)'))
m('P04','Ptr','ptr_new','range starts at 0','C31 C32',('mkPtr (el_range e) (el_kind e)','mkPtr (mkRange 0 (green_len (el_green e))) (el_kind e)'))
m('R01','Reparse','is_balanced','blocks without end accepted','C35',('[] => false | t :: _ => kind_eqb (t_kind t) KEndKw','[] => true | t :: _ => true'))
m('R02','Reparse','merge_old','errors touching the range start dropped','C36',('if r_end (e_range e) <=? r_start r then','if r_end (e_range e) <? r_start r then'))
m('R03','Reparse','merge_old','later errors not shifted','C36',('Ok (err_with e er :: l)\n    else merge_old','Ok (e :: l)\n    else merge_old'))
m('R04','Reparse','merge_new','new errors not shifted','C36',("let? l := merge_new news' r in Ok (err_with e er :: l)","let? l := merge_new news' r in Ok (e :: l)"))
m('R05','Reparse','merge_errors','old errors dropped','C36',('Ok (a ++ b)','Ok b'))
m('R06','Reparse','reparse_token','kind not checked','C35',('if negb (kind_eqb nk k) then Ok None','if false then Ok None'))
m('R07','Reparse','reparse_token','newline deletion not refused','C35',('Ok (existsb (N.eqb 10) d)','Ok false'))
m('R08','Reparse','get_text_after_edit','edit not moved to the node','C34',('indel_apply (mkIndel (i_insert edit) (mkRange a b))','indel_apply (mkIndel (i_insert edit) (i_delete edit))'))
m('R09','Reparse','replace_path','siblings after the node dropped','C34',("Ok (GNode k (firstn i cs ++ c' :: skipn (S i) cs))","Ok (GNode k (firstn i cs ++ [c']))"))
m('R10','Reparse','reparse','full reparse of the old text','C35',('let? t := indel_apply edit (green_text (pa_green p)) in\n  source_file_parse t','let? t := Ok (green_text (pa_green p)) in\n  source_file_parse t'))
m('R11','Reparse','reparse_token','only one token text kept: numbers too','C35',('| KWhitespace | KComment | KIdent | KStr =>\n      let? stop','| KWhitespace | KComment | KIdent | KStr | KNumber =>\n      let? stop'))
m('R12','Reparse','merge_old','errors inside the range kept','C36',("    else merge_old olds' r edit","    else let? l := merge_old olds' r edit in Ok (e :: l)"))
m('H01','Hir','walk','matched nodes are descended at once (depth first)','C32',('if f e then ([(p, e)], lchildren (p, e))','if false then ([(p, e)], lchildren (p, e))'))
m('H02','Hir','bdfs_loop','next layer forgotten','C32',("let? l := bdfs_loop fuel' f (flat_map (fun n => snd (walk_node f n)) layer) in","let? l := Ok [] in"))
m('H03','Hir','has_ast_id','blocks get no id','C32',('|| kind_eqb (el_kind e) KBlock','|| false'))
m('H04','Hir','find_ptr','index not advanced','C32',("else find_ptr (S i) p m'","else find_ptr i p m'"))
m('H05','Hir','from_source','ids assigned in reverse','C32',('Ok (map (fun n => ptr_new (snd n)) (filter (fun n => has_ast_id (snd n)) l))','Ok (rev (map (fun n => ptr_new (snd n)) (filter (fun n => has_ast_id (snd n)) l)))'))
m('H06','Hir','from_source','root accepted (fix)','',('  else Panic.\nDefinition ptr_eqb','  else Ok [].\nDefinition ptr_eqb'))
m('H07','Hir','lower_items','items in reverse order','C33',('Ok (match o with Some x => x :: l | None => l end, s2)','Ok (match o with Some x => l ++ [x] | None => l end, s2)'))
m('H08','Hir','lower_function_content','method flag swapped','C33',('| KFunctionMethod => named true\n  | KFunctionStatic => named false','| KFunctionMethod => named false\n  | KFunctionStatic => named true'))
m('H09','Hir','lower_params','vararg never set','C33',('match ast_token KTripleDot e with Some _ => true | None => false end','false'))
m('H10','Hir','lower_mod_item','local functions lowered as assignments','C33',('| KLocalFunctionDefStmt => lower_local_function m e s','| KLocalFunctionDefStmt => lower_local_assign m e s'))
m('B01','BindingPowers','bp_loop','left associativity gives right powers','C58 C18 C19',('ALeft => (first, second) | ARight => (second, first)','ALeft => (second, first) | ARight => (first, second)'))
m('B02','BindingPowers','bp_loop','counter not advanced past the second power','C58',("bp_loop tbl second rest\n  | (id, PPrefix)","bp_loop tbl first rest\n  | (id, PPrefix)"))
m('B03','BindingPowers','bp_new','counter starts at 0','C58',('(repeat no_precs n) 1 kinds','(repeat no_precs n) 0 kinds'))
m('B04','BindingPowers','bp_loop','a prefix declaration erases the infix power','C58 C20 C18',('(fun p => mkPrecs (Some second) (pr_infix p) (pr_postfix p))','(fun p => mkPrecs (Some second) None (pr_postfix p))'))
m('B05','BindingPowers','get_postfix','returns the prefix power','C58',('match pr_postfix p with Some x','match pr_prefix p with Some x'))
m('T01','TokenSet','mask','shift by one less','C55',('N.shiftl 1 (kind_to_u16 k)','N.shiftl 1 (N.pred (kind_to_u16 k))'))
m('T02','TokenSet','ts_union','intersection','C55',('token_set := N.lor a b','token_set := N.land a b'))
m('T03','TokenSet','mask','64-bit shift','C55',('N.shiftl 1 (kind_to_u16 k)','N.shiftl 1 (N.modulo (kind_to_u16 k) 64)'))
m('A01','Accept','l_nth','closed range','C57',('(N.ltb (s_nth s n) b)','(N.leb (s_nth s n) b)'))
m('A02','Accept','while_loop','one character less','C57 C04',("if b then while_loop fuel' acc s' else Ok s'","if b then Ok s' else Ok s'"))
m('A03','Accept','count_loop','count starts at 1','C57 C07',("LWhile t' => count_loop (loop_fuel s) (l_accept t') 0 s","LWhile t' => count_loop (loop_fuel s) (l_accept t') 1 s"))
m('A04','Accept','LOr accept','failure consumes','C57',("if b then Ok (true, s') else go ts' s'","if b then Ok (true, s') else let? s'' := s_bump s' in go ts' s''"))
m('A05','Accept','LNot nth','matches at the end of input','C57 C11',("| LNot t' => negb (s_is_eof s) && negb (l_nth t' s n)","| LNot t' => negb (l_nth t' s n)"))
m('A06','Accept','LSeq nth','offsets not added','C57 C09',("l_nth t' s (i + n) && go ts' (S i)","l_nth t' s n && go ts' (S i)"))
m('A07','Accept','LRepeat accept','one too few','C57',("end) n s in\n        Ok (true, s')","end) (n - 1) s in\n        Ok (true, s')"))
m('A08','Accept','LAnd','any instead of all','C57',("| LAnd ts => forallb","| LAnd ts => existsb"))
m('A09','Accept','l_bump_then','returns the character before','C57 C02',('Ok (s_nth s\' 0, s\')','Ok (s_nth s 0, s\')'))
m('A10','Accept','s_bump','bump at the end is a no-op','C57',("  | [] => Panic\n  | _ :: r => Ok (mkSource","  | [] => Ok s\n  | _ :: r => Ok (mkSource"))
