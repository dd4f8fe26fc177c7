MUTS=[]
def m(id,file,defn,edit,claims,*edits):
    MUTS.append(dict(id=id,file=file,edits=list(edits),claims=claims.split(),edit=edit,**{'def':defn}))
# --- small libs (fast)
m('S01','Stdx','pp_loop','continue at mid instead of mid+1 after a true probe','C44 C40',('(mid + 1) right','mid right'))
m('S02','Stdx','pp_loop','upper bound becomes mid-1','C44',('pred left mid','pred left (mid - 1)'))
m('S03','Stdx','normalize_step','.. keeps the buffer unchanged','C59',('| ParentDir => path_pop ret','| ParentDir => ret'))
m('S04','Stdx','normalize_step','. is pushed instead of skipped','C59',('| CurDir => ret','| CurDir => ret ++ [CurDir]'))
m('S05','Stdx','path_pop','.. pops the root too','C59',('  | RootDir :: _ => cs\n','' ))
m('S06','Stdx','path_push','no separator added','C59',('else b ++ [47%N] ++ p','else b ++ p'))
m('S07','Stdx','part_component','.. treated as a normal name','C59',('then [ParentDir] else','then [Normal p] else'))
m('E01','TextEdit','key_leb','sort by end only','C37 C39',('(i_start a <? i_start b) || ((i_start a =? i_start b) && (i_end a <=? i_end b))','(i_end a <=? i_end b)'))
m('E02','TextEdit','adjacent_ok','touching ranges rejected (< instead of <=)','C39',('(i_end a <=? i_start b) && adjacent_ok','(i_end a <? i_start b) && adjacent_ok'))
m('E03','TextEdit','adjacent_ok','one byte of overlap accepted','C39 C37',('(i_end a <=? i_start b) && adjacent_ok','(i_end a <=? S (i_start b)) && adjacent_ok'))
m('E04','TextEdit','apply_loop','text between replacements dropped','C37',("then let? s := bslice t prev (i_start i) in Ok (buf ++ s) else Ok buf in","then let? s := bslice t prev (i_start i) in Ok buf else Ok buf in"))
m('E05','TextEdit','apply_loop','continues from the start of the deleted range','C37',("apply_loop t (buf ++ i_insert i) (i_end i) e'","apply_loop t (buf ++ i_insert i) (i_start i) e'"))
m('E06','TextEdit','offset_loop','offset at the end of a deletion counted as deleted','C38',('else if o <? i_end i then Ok None','else if o <=? i_end i then Ok None'))
m('E07','TextEdit','offset_loop','offset at the start of a replacement moved past it','C38',('if o <=? i_start i then Ok (Some r)','if o <? i_start i then Ok (Some r)'))
m('E08','TextEdit','offset_loop','only the first replacement is counted','C38',("offset_loop o r e'\n","Ok (Some r)\n"))
m('E09','TextEdit','indel_apply','inserts before instead of replacing','C37 C43 C34',('Some (a, _), Some (_, b) => Ok (a ++ i_insert i ++ b)','Some (a, b), Some _ => Ok (a ++ i_insert i ++ b)'))
m('E10','TextEdit','edit_union','failure keeps the union','C39',('else Ok (self, inr other)','else Ok (self ++ other, inr other)'))
m('E11','TextEdit','edit_union','self is not kept','C39',('let? s := assert_disjoint (self ++ other) in Ok (s, inl tt)','let? s := assert_disjoint other in Ok (s, inl tt)'))
m('E12','TextEdit','invalidates_offset','exclusive end','C38',('(i_start i <=? o) && (o <=? i_end i)','(i_start i <=? o) && (o <? i_end i)'))
m('E13','TextEdit','builder_finish','no disjointness check at the end','C39',('builder_finish (b : text_edit) : res text_edit := assert_disjoint b','builder_finish (b : text_edit) : res text_edit := Ok (fst (check_disjoint b))'))
m('L01','LineIndex','li_loop','newline offset recorded before the newline','C40 C42',('(newlines ++ [row]) (save_chars','(newlines ++ [row - 1]) (save_chars'))
m('L02','LineIndex','li_loop','column not reset at a newline','C41 C42',('(save_chars lines line chars) [] row 0 line','(save_chars lines line chars) [] row col line'))
m('L03','LineIndex','li_line_col','strict comparison at line starts','C40 C42',('(fun it => it <=? o)','(fun it => it <? o)'))
m('L04','LineIndex','u16c_len16','three-byte characters take two units','C41 C42',('if n =? 4 then 2 else 1','if 3 <=? n then 2 else 1'))
m('L05','LineIndex','to16_loop','characters ending at the column not counted','C41 C42',('if snd c <=? col then','if snd c <? col then'))
m('L06','LineIndex','to8_loop','a character starting at the column is counted','C41 C42',('if fst c <? col then','if fst c <=? col then'))
m('L07','LineIndex','save_chars','wide characters of the last line lost','C41 C42',('Ok (mkLI newlines (save_chars lines line chars))','Ok (mkLI newlines lines)'))
m('L08','LineIndex','covers','index considered valid on the edited line','C43',('Some to => line <? to','Some to => line <=? to'))
m('L09','LineIndex','changes_loop','full-text change keeps the index valid','C43',('changes_loop (ce_text ch) li (Some 0) cs','changes_loop (ce_text ch) li v cs'))
m('L10','LineIndex','changes_loop','validity follows the end line','C43',("changes_loop t' li (Some (lc_line s)) cs'","changes_loop t' li (Some (lc_line e)) cs'"))
m('L11','LineIndex','from_proto_offset','UTF-16 columns used as bytes','C42 C43',('let? lc := to_utf8 li p in li_offset li lc','li_offset li p'))
m('L12','LineIndex','to_proto_range','end position is the start','C42 C54',('let? e := to_proto_position li (r_end r) in','let? e := to_proto_position li (r_start r) in'))
m('V01','Vfs','set_file_contents','equal contents recorded as Modify','C45 C47',('Some b => if contents_eq_dec a b then Ok (v, false) else change Modify','Some b => change Modify'))
m('V02','Vfs','set_file_contents','deletion recorded as Modify','C47',('| Some _, None => change Delete','| Some _, None => change Modify'))
m('V03','Vfs','set_file_contents','modification not recorded','C47 C45',('then Ok (v, false) else change Modify','then Ok (v, false) else Ok (mkVfs (v_paths v) (update (v_data v) id c) (v_changes v), true)'))
m('V04','Vfs','set_file_contents','modification not stored','C45',('then Ok (v, false) else change Modify','then Ok (v, false) else Ok (mkVfs (v_paths v) (v_data v) (v_changes v ++ [(id, Modify)]), true)'))
m('V05','Vfs','intern','a known path is interned again','C46 C45',('match index_of p l with Some i => (l, i) | None => (l ++ [p], length l) end','(l ++ [p], length l)'))
m('V06','Vfs','v_file_id','deleted files still have an id','C45 C46',('Ok (match c with Some _ => Some id | None => None end)','Ok (Some id)'))
m('V07','Vfs','v_take_changes','changes are not cleared','C47',('(mkVfs (v_paths v) (v_data v) [], v_changes v)','(v, v_changes v)'))
m('V08','Vfs','v_iter_from','deleted files are listed','C45 C47',("| None => v_iter_from v ids'","| None => let? p := v_file_path v id in let? l := v_iter_from v ids' in Ok ((id, p) :: l)"))
m('V09','Vfs','set_file_contents','changes logged in reverse order','C47',('(v_changes v ++ [(id, k)]), true)','((id, k) :: v_changes v), true)'))
m('I01','Ide','ide_diagnostics','limit 127','C54',('firstn 128','firstn 127'))
m('I02','Ide','ide_diagnostics','missing prefix','C54',('(String.append "Syntax Error: " (e_msg e))','(e_msg e)'))
m('I03','Ide','are_diagnostics_equal','message not compared','C60',('&& String.eqb (ld_message a) (ld_message b)','&& true'))
m('I04','Ide','all_equal','length not compared','C60 C52',('(length b =? length a) && forallb','true && forallb'))
m('I05','Ide','set_native','changed file not recorded','C60 C52',('(co_check c) (set_insert f (co_changes c))','(co_check c) (co_changes c)'))
m('I06','Ide','coll_take_changes','changes not cleared','C60',('(mkColl (co_native c) (co_check c) [], Some l)','(c, Some l)'))
m('I07','Ide','diagnostics_for','native diagnostics omitted','C60 C52',('match aget Nat.eq_dec f (co_native c) with Some l => l | None => [] end ++','[] ++'))
m('I08','Ide','lsp_diags','wrong severity','C54',('match s with SevError => 1','match s with SevError => 2'))
m('I09','Ide','lsp_diags','only the first diagnostic is converted','C54 C52',("let? ds := lsp_diags li l' in","let? ds := Ok [] in"))
