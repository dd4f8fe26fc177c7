MUTS=[]
def m(id,file,defn,edit,claims,*edits):
    MUTS.append(dict(id=id,file=file,edits=list(edits),claims=claims.split(),edit=edit,**{'def':defn}))
m('AC01','Ast','fn_content_can_cast','a method is not function content','C33 C66',('match k with KFunctionMethod | KFunctionStatic | KName => true','match k with KFunctionStatic | KName => true'))
m('AC02','Ast','for_content_can_cast','a numeric for is not for content','C66',('match k with KNumericFor | KGenericFor => true','match k with KGenericFor => true'))
m('AC03','Ast','table_content_can_cast','a positional value is not table content','C66',('match k with KKeyValue | KPositionalValue => true','match k with KKeyValue => true'))
m('AC04','Ast','table_key_can_cast','an index is not a table key','C66',('match k with KIndex | KName => true','match k with KName => true'))
m('AC05','Ast','ast_token','the last such token','C66',('hd_error (filter (fun c => kind_eqb (el_kind c) k)\n              (filter (fun c => negb (is_gnode (el_green c))) (el_children_with_tokens e))).','hd_error (rev (filter (fun c => kind_eqb (el_kind c) k)\n              (filter (fun c => negb (is_gnode (el_green c))) (el_children_with_tokens e)))).'))
m('AC06','Ast','assign_rhs','the left side again','C66',('nth_error (ast_children (is_kind KMultivalExpr) e) 1.','nth_error (ast_children (is_kind KMultivalExpr) e) 0.'))
m('AC07','Ast','infix_lhs','the right side','C66',('Definition infix_lhs (e : elem) : option elem := nth_error (ast_children expr_can_cast e) 0.','Definition infix_lhs (e : elem) : option elem := nth_error (ast_children expr_can_cast e) 1.'))
m('AC08','Ast','infix_op_details','not is an operator too','C66 C29',('if kind_eqb (el_kind c) KNotKw then []\n                        else match','match'),('                             | Some o => [(c, o)] | None => [] end)\n','                             | Some o => [(c, o)] | None => [] end)\n'))
m('AC09','Ast','name_text','an empty text instead of a panic','C30',('  | GNode _ (GTok _ t :: _) => Ok t\n  | _ => Panic','  | GNode _ (GTok _ t :: _) => Ok t\n  | _ => Ok []'))
m('AC10','Ast','name_text','the text of the whole node, without its last character','C30 C33',('  | GNode _ (GTok _ t :: _) => Ok t\n  | _ => Panic','  | GNode _ (GTok _ t :: _) => Ok (removelast t)\n  | _ => Panic'))
m('AC11','Ast','literal_token','the first token, trivia or not','C11 C24',('find (fun c => negb (is_trivia (el_kind c)))','find (fun c => true)'))
m('AC12','Ast','literal_kind_of','a number is taken for a string','C11 C24',('| KNumber => Ok LKNumber','| KNumber => Ok LKStr'))
m('AC13','Ast','literal_kind_of','true and false swapped','C66',('| KTrueKw => Ok (LKBool true)\n  | KFalseKw => Ok (LKBool false)','| KTrueKw => Ok (LKBool false)\n  | KFalseKw => Ok (LKBool true)'))
m('AC14','Ast','multival_exprs','only the first expression','C27 C26 C29',('Definition multival_exprs (e : elem) : list elem := ast_children expr_can_cast e.','Definition multival_exprs (e : elem) : list elem := firstn 1 (ast_children expr_can_cast e).'))
m('AC15','Ast','descendants_at','the children of a node after the first are not visited','C24 C26 C27',('descendants_at off c ++ go (off + green_len c) cs\'','descendants_at off c ++ (if is_gnode c then [] else go (off + green_len c) cs\')'))
m('AC16','Ast','literal_kind_of','panic on nil','C11',('| KNilKw => Ok LKNil','| KNilKw => Panic'))
m('VL01','Validation','last_is','the first character','C24',('match rev t with [] => false | d :: _ => N.eqb c d end','match t with [] => false | d :: _ => N.eqb c d end'))
m('VL02','Validation','validate_literal','errors relative to the body','C24 C28',('unescape (S (length body)) 0 (el_off tok + offset) body','unescape (S (length body)) 0 (el_off tok) body'))
m('VL03','Validation','validate_literal','fuel one short','C24',('unescape (S (length body)) 0','unescape (pred (length body)) 0'))
m('VL04','Validation','validate_literal','an unterminated string is validated from its quote','C24',('    | None => Ok []\n    end\n  | _ => Ok []','    | None => Ok (unescape (S (length t)) 0 (el_off tok) t)\n    end\n  | _ => Ok []'))
m('VL05','Validation','source_file_parse','validation errors first','C54 C71',('Ok (mkParse g (errs ++ verrs))','Ok (mkParse g (verrs ++ errs))'))
m('TX01','TextEdit','check_disjoint','not sorted','C39 C37',('let s := sort_key l in (s, adjacent_ok s)','(l, adjacent_ok (sort_key l))'))
m('TX02','TextEdit','builder_calls','the last call is lost','C37 C39',("  | i :: is' => let? b := builder_indel b i in builder_calls b is'","  | [_] => Ok b\n  | i :: is' => let? b := builder_indel b i in builder_calls b is'"))
m('TX03','TextEdit','edit_apply','no special case for one edit','C37',('  | [i] => indel_apply i t\n  | _ =>','  | _ =>'))
m('TX04','TextEdit','edit_apply','the rest of the text is dropped','C37',('  | [] => let? s := bslice t prev (blen t) in Ok (buf ++ s)','  | [] => Ok buf'))
m('TX05','TextEdit','size_of','characters instead of bytes','C37 C38',('if fits_u32 (blen t) then Ok (blen t) else Panic','if fits_u32 (blen t) then Ok (length t) else Panic'))
m('TX06','TextEdit','edit_union','self is not extended','C39',('let? s := assert_disjoint (self ++ other) in Ok (s, inl tt)','let? s := assert_disjoint (self ++ other) in Ok (self, inl tt)'))
m('TX07','TextEdit','indel_offset','never negative','C38',('usub n (range_len (i_delete i)).','Ok (n - range_len (i_delete i)).'))
m('TX08','TextEdit','invalidates_offset','ends not included','C38',('(i_start i <=? o) && (o <=? i_end i)','(i_start i <? o) && (o <? i_end i)'))
m('SX01','Stdx','partition_point','the last element is not looked at','C44',('pp_loop (S (length slice)) slice pred 0 (length slice)','pp_loop (S (length slice)) slice pred 0 (pred_len slice)'),('Definition partition_point {T}','Definition pred_len {T} (l : list T) := pred (length l).\nDefinition partition_point {T}'))
m('SX02','Stdx','pp_loop','the bounds swapped','C44',('(mid + 1) right else pp_loop fuel\' slice pred left mid','left mid else pp_loop fuel\' slice pred (mid + 1) right'))
m('SX03','Stdx','normalize_step','.. at the root is kept','C59',("  | ParentDir => path_pop ret","  | ParentDir => match ret with [RootDir] => [RootDir; ParentDir] | _ => path_pop ret end"))
m('SX04','Stdx','normalize_step','. is kept','C59',('  | CurDir => ret','  | CurDir => ret ++ [CurDir]'))
m('SX05','Stdx','path_push','no separator','C59',('b ++ [47%N] ++ p','b ++ p'))
m('SX06','Stdx','components','dots inside a path are components','C59',('else if text_eqb p (txt ".") then [] else if','else if text_eqb p (txt ".") then [CurDir] else if'))
m('LX01','LineIndex','to_utf8','the wrong line','C42 C41 C43',('utf16_to_utf8_col li (lc_line lc) (lc_col lc) in Ok (mkLC (lc_line lc) col)','utf16_to_utf8_col li (S (lc_line lc)) (lc_col lc) in Ok (mkLC (lc_line lc) col)'))
m('LX02','LineIndex','to_utf16','no conversion','C41 C42 C71',('let? col := utf8_to_utf16_col li (lc_line lc) (lc_col lc) in Ok (mkLC (lc_line lc) col)','Ok lc'))
m('LX03','LineIndex','apply_document_changes','the first change is applied with an empty index','C43 C48',('let? li := li_new t in changes_loop t li None cs','let? li := li_new [] in changes_loop t li None cs'))
m('LX04','LineIndex','changes_loop','after a full text the old index counts as valid','C43 C48',('changes_loop (ce_text ch) li (Some 0) cs\'','changes_loop (ce_text ch) li None cs\''))
m('LX05','LineIndex','to_proto_range','an empty range at the start','C71 C54 C42',('let? e := to_proto_position li (r_end r) in Ok (s, e)','let? e := to_proto_position li (r_end r) in Ok (s, s)'))
m('VX01','Vfs','as_utf8','a file that is not UTF-8 counts as empty here already','C49 C53',('| CRaw _ => None end','| CRaw _ => Some [] end'))
m('VX02','Vfs','v_get','a missing file instead of a panic','C45',('runwrap (nth_error (v_data v) id).','Ok (match nth_error (v_data v) id with Some c => c | None => None end).'))
m('VX03','Vfs','resize','one slot too many','C45',('l ++ repeat None (n - length l)','l ++ repeat None (S n - length l)'))
m('VX04','Vfs','update','everything after the slot is dropped','C45 C49',("| _ :: l', 0 => x :: l'","| _ :: l', 0 => [x]"))
m('VX05','Vfs','v_iter','the first file is left out','C45 C46',('v_iter_from v (seq 0 (length (v_data v)))','v_iter_from v (seq 1 (length (v_data v) - 1))'))
m('VX06','Vfs','v_iter_from','deleted files are listed','C45',("    | None => v_iter_from v ids'","    | None => let? p := v_file_path v id in let? l := v_iter_from v ids' in Ok ((id, p) :: l)"))
m('VX07','Vfs','v_has_changes','always','C47',('match v_changes v with [] => false | _ => true end.','true.'))
m('VX08','Vfs','v_file_contents','the contents of the next file','C45',('let? c := v_get v id in runwrap c','let? c := v_get v (S id) in runwrap c'))
m('IX01','Ide','aset','the old value stays behind the new one','C60 C52',("if dec k k' then (k', v) :: l' else (k', v') :: aset","if dec k k' then (k', v') :: l' else (k', v') :: aset"))
m('IX02','Ide','adel','only ... nothing is deleted','C53 C64 C52',("if dec k k' then adel dec k l' else","if dec k k' then (k', v') :: adel dec k l' else"))
m('IX03','Ide','option_eqb','a missing source equals any','C60',('None, None => true | _, _ => false end','None, None => true | _, _ => true end'))
m('IX04','Ide','lc_eqb','columns not compared','C60 C52 C71',('(lc_line a =? lc_line b) && (lc_col a =? lc_col b)','(lc_line a =? lc_line b)'))
m('IX05','Ide','diagnostics_for','native diagnostics only... the check ones only','C60 C52',('match aget Nat.eq_dec f (co_native c) with Some l => l | None => [] end ++\n','[] ++\n'))
m('IX06','Ide','coll_take_changes','changes are not taken','C60',('(mkColl (co_native c) (co_check c) [], Some l)','(c, Some l)'))
m('PX01','Ptr','range_eqb','only starts compared','C31',('(r_start a =? r_start b) && (r_end a =? r_end b).','(r_start a =? r_start b).'))
m('PX02','Ptr','ptr_cast','always','C31',('if can_cast (np_kind p) then Some p else None','Some p'))
m('PX03','Ptr','ast_ptr_to_node','the kind is not checked','C31',('if can_cast (el_kind e) then Ok e else Panic','Ok e'))
m('RX01','Reparse','child_at_range','no child before the insertion point','C34 C35',('| None => pred (count_before r cs) end in','| None => count_before r cs end in'))
m('RX02','Reparse','get_text_after_edit','the insertion is lost','C34 C35',('indel_apply (mkIndel (i_insert edit) (mkRange a b)) (green_text (el_green e))','indel_apply (mkIndel [] (mkRange a b)) (green_text (el_green e))'))
m('RX03','Reparse','reparse_token','a deleted newline in a comment goes unnoticed','C35 C34',('Ok (existsb (N.eqb 10) d)','Ok false'))
m('RX04','Reparse','reparse_token','the error of the new token is dropped','C35 C36',('match nerr with Some x => [x] | None => [] end','[]'))
