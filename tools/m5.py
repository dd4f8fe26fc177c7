MUTS=[]
def m(id,file,defn,edit,claims,*edits):
    MUTS.append(dict(id=id,file=file,edits=list(edits),claims=claims.split(),edit=edit,**{'def':defn}))
# URIs
m('UR01','Uri','hex_value','lower-case hex digits not decoded','C79',('  else if (97 <=? n)%N && (n <=? 102)%N then Some (n - 87)%N\n',''))
m('UR02','Uri','must_encode','bytes above 127 left as they are','C79',('(127 <? N_of_ascii b)%N || set b','set b'))
m('UR03','Uri','to_file_path','any host accepted','C79',('if String.eqb h "localhost" then','if true then'))
m('UR04','Uri','wire_new','a close answers with the canonical URI','C79',('mkWD u ds ver :: flat_map wire_out rest','mkWD (match uri_of u with UFile p => url_of_path p | _ => u end) ds ver :: flat_map wire_out rest'))
m('UR05','Uri','is_component','single dots kept as components','C79',('''[] => false | ["."%char] => false''','''[] => false'''))
m('UR06','Uri','PATH_SEGMENT','the percent sign is not encoded','C79',('''"/"; "%"]%char''','''"/"]%char'''))
m('UR07','Uri','encode_byte','nibbles swapped','C79',('hex_digit (N.div (N_of_ascii b) 16); hex_digit (N.modulo (N_of_ascii b) 16)','hex_digit (N.modulo (N_of_ascii b) 16); hex_digit (N.div (N_of_ascii b) 16)'))
m('UR08','Uri','from_file_path','the root gets no segment','C79',('match components p with [] => [[]] | cs => map (percent_encode set) cs end','map (percent_encode set) (components p)'))
m('UR09','Uri','hex_digit','digits above 9 written in lower case','C79',('55 + n)%N','87 + n)%N'))
m('UR10','Uri','percent_decode','a malformed escape drops its percent sign','C79',('''        | _, _ => c :: percent_decode s'
''','''        | _, _ => percent_decode s'
'''))
m('UR11','Uri','wire_out','version dropped on the wire','C79',('[mkWD (url_of_path p) ds ver]','[mkWD (url_of_path p) ds None]'))
m('UR12','Uri','event_of','a change is taken for an opening of nothing','C79',('| WChange u v cs => ELsp (MNot (NChange (uri_of u) v cs))','| WChange u v cs => ELsp (MNot (NChange (uri_of u) (v + 1)%Z cs))'))
m('UR13','Uri','split_slash','separator kept in the component','C79',('if Ascii.eqb c "/" then cur :: split_slash [] p\'','if Ascii.eqb c "/" then cur :: split_slash [c] p\''))
# sessions
m('SE01','Session','session','exit handled as an ordinary notification','C82',("    | MNot NExit :: _ => Exited g\n",""))
m('SE02','Session','exit_status','disconnection gives status 0','C82',('Disconnected _ => Some 1','Disconnected _ => Some 0'))
m('SE03','Session','session','after the last message the server waits forever','C82',('| [] => Disconnected g','| [] => Running g'))
m('SE04','Session','session','exit is an error','C82',('| MNot NExit :: _ => Exited g','| MNot NExit :: _ => Disconnected g'))
m('SE05','Session','session','a turn of the task channel drops the tasks','C82',("match handle_event g ETask with Ok g' => session g' w s'","match handle_event (with_tasks [] g) ETask with Ok g' => session g' w s'"))
m('SE06','Session','session','only the first loader message of a turn is handled','C82',('handle_event g (EVfs m ms) with','handle_event g (EVfs m []) with'))
m('SE07','Session','initial_config','options ignored','C65 C83',('Some j => config_update [] j','Some j => []'))
m('SE08','Session','server_capabilities','full text synchronization announced','C83',('mkCaps true 2','mkCaps true 1'))
m('SE09','Session','server_capabilities','no completion triggers','C83',('(Some [":"; "."]%string)','None'))
m('SE10','Session','server_capabilities','open/close not announced','C83',('mkCaps true 2','mkCaps false 2'))
m('SE11','Session','session','a panic is taken for a normal end','C82',("match handle_event g (ELsp m) with Ok g' => session g' w' s' | _ => Crashed end","match handle_event g (ELsp m) with Ok g' => session g' w' s' | _ => Exited g end"))
m('SE12','Session','session','client messages skipped one by one after the first','C82',("Ok g' => session g' w' s' | _ => Crashed end\n    end\n","Ok g' => session g' (tl w') s' | _ => Crashed end\n    end\n"))
# paths
m('PA01','Paths','path_parent','trailing separators stay','C84',('Some (r :: trim_right (length rest) rest)','Some (r :: rest)'))
m('PA02','Paths','next_back_body','the last component is cut at the first separator','C84',("    let (rest, p) := match split_last t with Some ab => ab | None => ([], t) end in\n    match parse_single p with Some c => Some (rest, c)","    let (rest, p) := match split_first t with Some ab => ab | None => ([], t) end in\n    match parse_single p with Some c => Some (rest, c)"))
m('PA03','Paths','abs_join','joins by concatenation','C84',('runwrap (abs_try_from (path_push b p))','runwrap (abs_try_from (b ++ p))'))
m('PA04','Paths','iter_after','names not compared','C84',('if text_eqb a b then iter_after prefix\' rest else None','iter_after prefix\' rest'))
m('PA05','Paths','abs_pop','pop reports success on the root','C84',('None => (t, false)','None => (t, true)'))
m('PA06','Paths','abs_normalize_step','.. ignored','C84 C59',('ParentDir => fst (abs_pop ret)','ParentDir => ret'))
m('PA07','Paths','abs_strip_prefix','leading separators stay','C84',('let l := trim_left (length rest) rest in Some (trim_right (length l) l)','Some (trim_right (length rest) rest)'))
m('PA08','Paths','abs_strip_prefix','trailing separators stay','C84',('in Some (trim_right (length l) l)','in Some l'))
m('PA09','Paths','iter_after','a .. in the prefix matches nothing','C84',("                        | ParentDir, ParentDir => iter_after prefix' rest\n",""))
m('PA10','Paths','abs_try_from','relative paths accepted','C84',('abs_try_from (t : text) : option text := if is_absolute t then Some t else None','abs_try_from (t : text) : option text := Some t'))
m('PA11','Paths','abs_assert','relative paths accepted','C84',('if is_absolute t then Ok t else Panic','Ok t'))
m('PA12','Paths','parse_single','.. is an ordinary name','C84',('else if text_eqb p (txt "..") then Some ParentDir else Some (Normal p)','else Some (Normal p)'))
m('PA13','Paths','abs_normalize_step','names replace the path','C84',('| Normal s => path_push ret s','| Normal s => path_push (fst (abs_pop ret)) s'))
m('PA14','Paths','abs_parent','parent of the root is the root','C84',('| None => Ok None end','| None => Ok (Some t) end'))
m('PA15','Paths','body_components','only the first component','C84',("Some (c, rest) => c :: body_components fuel' rest","Some (c, rest) => [c]"))
# server
m('SV01','Server','config_from_json','wrong key','C65',('json_get "library" w','json_get "libraries" w'))
m('SV02','Server','config_update','an empty object resets the configuration','C62',('| JObj [] => c',''))
m('SV03','Server','config_update','the configuration is never replaced by a shorter one','C62',('| _ => config_from_json j end','| _ => match config_from_json j with [] => c | x => x end end'))
m('SV04','Server','collect_changes','undecodable files keep their bytes lost: deletion skipped','C49',('''    let? r := collect_changes v l' in
    Ok ((fst f, t) :: r)''','''    let? r := collect_changes v l' in
    Ok (match t with None => r | _ => (fst f, t) :: r end)'''))
m('SV05','Server','on_config_response','any element of the array','C62',('Some (JArr (j :: _)) => update','Some (JArr [j]) => update'))
m('SV06','Server','on_config_response','errors not checked','C62',('| false, Some (JArr','| _, Some (JArr'))
m('SV07','Server','did_change_configuration','request id not incremented','C62',('(S (g_next_id g)) g)','(g_next_id g) g)'))
m('SV08','Server','is_absolute','every string is absolute','C50',('match s with String c _ => Ascii.eqb c "/"%char | EmptyString => false end','true'))
m('SV09','Server','strings','non-strings are skipped','C62',('| _ :: _ => None',"| _ :: l' => strings l'"))
m('SV10','Server','update_configuration','the configuration is not stored','C62',('Ok (with_config c n (g_loads g ++ [(n, c)]) g)','Ok (with_config (g_config g) n (g_loads g ++ [(n, c)]) g)'))
m('SV11','Server','update_configuration','always reload','C62',('if list_eq_dec string_dec c (g_config g) then Ok','if false then Ok'))
m('SV12','Server','complete_request','the pending id stays','C50 C62',('(with_outgoing (adel rid_eq_dec (s_id r) (g_outgoing g)) (g_next_id g) g)','g'))
m('SV13','Server','did_close','version missing in the clearing notification','C52',('OutDiagnostics u [] (aget string_dec p (g_mem_docs g))) (with','OutDiagnostics u [] None) (with'))
m('SV14','Server','did_close','no clearing for documents','C64',('send (OutDiagnostics u [] (aget string_dec p (g_mem_docs g))) (with_mem_docs (adel string_dec p (g_mem_docs g)) g)','with_mem_docs (adel string_dec p (g_mem_docs g)) g'))
m('SV15','Server','did_close','all documents closed','C48',('(with_mem_docs (adel string_dec p (g_mem_docs g)) g)','(with_mem_docs [] g)'))
m('SV16','Server','on_notification','saving closes the document','C48 C64',('| NSave _ => Ok g','| NSave u => Ok (did_close u g)'))
m('SV17','Server','on_notification','malformed notifications ignored (a fix)','C50',('| NMalformed => Panic','| NMalformed => Ok g'))
m('SV18','Server','did_open','a version already known is kept','C52',('with_mem_docs (aset string_dec p version (g_mem_docs g)) g) in\n    if changed','with_mem_docs (match aget string_dec p (g_mem_docs g) with Some _ => g_mem_docs g | None => aset string_dec p version (g_mem_docs g) end) g) in\n    if changed'))
m('SV19','Server','handle_task','tasks stay in the queue','C51',('(with_tasks [] g)','g'))
m('SV20','Server','run_task','only the last file of a task gets its diagnostics','C52',('(fold_left (fun c fd => set_native c (fst fd) (snd fd)) l (g_diagnostics g))','(fold_left (fun c fd => set_native c (fst fd) (snd fd)) (firstn 1 l) (g_diagnostics g))'))
m('SV21','Server','respond','answers requests it was not asked','C51',('  | None => g\n  end.\n(** main_loop.rs:187','  | None => send (OutResponse id o) g\n  end.\n(** main_loop.rs:187'))
m('SV22','Server','on_request','bad shutdown parameters shut down','C51',('then respond (q_id q) OShutdownResult (with_shutdown true g)\n    else respond (q_id q) (OError InvalidParams) g','then respond (q_id q) OShutdownResult (with_shutdown true g)\n    else respond (q_id q) (OError InvalidParams) (with_shutdown true g)'))
m('SV23','Server','on_request','bad completion parameters not answered','C51',('[TResponse (q_id q) OCompletionResult]) g\n    else respond (q_id q) (OError InvalidParams) g','[TResponse (q_id q) OCompletionResult]) g\n    else g'))
m('SV24','Server','load_files','deletions ignored','C48 C49',("(v, _) := set_file_contents (g_vfs g) p c in load_files","(v, _) := (match c with None => Ok (g_vfs g, false) | _ => set_file_contents (g_vfs g) p c end) in load_files"))
m('SV25','Server','compute_diagnostics','the diagnostics of the last file stand for all','C52',('let? ds := publish_diagnostics t in',"let? ds := publish_diagnostics (match l' with [] => t | _ => [] end) in"))
# line index, vfs, ide
m('LI01','LineIndex','from_proto_range','start and end swapped','C42 C43',('let? s := from_proto_offset li s in\n  let? e := from_proto_offset li e in\n','let? e0 := from_proto_offset li s in\n  let? s := from_proto_offset li e in\n  let e := e0 in\n'))
m('LI02','LineIndex','to_proto_position','byte columns sent to the client','C42 C71',('let? lc := li_line_col li o in to_utf16 li lc','li_line_col li o'))
m('LI03','LineIndex','utf8_to_utf16_col','the wide characters of the previous line','C41 C42',('Definition utf8_to_utf16_col (li : line_index) (line col : nat) : res nat :=\n  match assoc line (li_utf16 li)','Definition utf8_to_utf16_col (li : line_index) (line col : nat) : res nat :=\n  match assoc (line - 1) (li_utf16 li)'))
m('LI04','LineIndex','is_ascii','DEL counted as wide','C41',('N.ltb c 128','N.ltb c 127'))
m('LI05','LineIndex','is_ascii','two-byte characters counted as ASCII','C41',('N.ltb c 128','N.ltb c 256'))
m('LI06','LineIndex','changes_loop','the index is never rebuilt','C43',('let? li := if covers v (lc_line e) then Ok li else li_new t in','let? li := Ok li in'))
m('LI07','LineIndex','changes_loop','a full change drops the later ones','C43',('| None => changes_loop (ce_text ch) li (Some 0) cs\'','| None => Ok (ce_text ch)'))
m('LI08','LineIndex','li_loop','carriage return ends a line','C40',('if N.eqb c newline then','if N.eqb c newline || N.eqb c 13 then'))
m('VF01','Vfs','intern','one more id than u32::MAX','C45 C46',('fits_u32 (S id)','fits_u32 id'))
m('VF02','Vfs','alloc_file_id','data grows by one too many','C45',('(id + 1))','(id + 2))'))
m('VF03','Vfs','index_of','prefixes are taken for the same path','C45 C46',('if String.eqb p q then Some 0','if String.prefix p q then Some 0'))
m('VF04','Vfs','v_file_contents','deleted files have empty contents','C45',('let? c := v_get v id in runwrap c','let? c := v_get v id in Ok (match c with Some c => c | None => CText [] end)'))
m('VF05','Vfs','set_file_contents','creation recorded as modification','C47',('| None, Some _ => change Create','| None, Some _ => change Modify'))
m('VF06','Vfs','cf_exists','modified files do not exist','C47 C49',('match snd c with Delete => false | _ => true end','match snd c with Create => true | _ => false end'))
m('VF07','Vfs','is_created_or_deleted','deletions forgotten','C47',('Create | Delete => true | Modify => false','Create => true | Delete | Modify => false'))
m('VF08','Vfs','v_has_changes','inverted','C47',('[] => false | _ => true end.\nDefinition v_take','[] => true | _ => false end.\nDefinition v_take'))
m('VF09','Vfs','v_len','counts the paths','C45',('length (v_data v).\n(** lib.rs:63','length (v_changes v).\n(** lib.rs:63'))
m('ID01','Ide','set_native','equal diagnostics are reported again','C60',('Some old => if all_equal ds old then c else put','Some old => put'))
m('ID02','Ide','set_insert','a changed file is listed twice','C60',('if existsb (Nat.eqb x) l then l else l ++ [x]','l ++ [x]'))
m('ID03','Ide','diagnostic_severity','hints for errors','C71 C54',('SevError => 1','SevError => 4'))
m('ID04','Ide','are_diagnostics_equal','ends of the ranges not compared','C60',('&& lc_eqb (snd (ld_range a)) (snd (ld_range b))',''))
m('ID05','Ide','lc_eqb','columns not compared','C60',('(lc_line a =? lc_line b) && (lc_col a =? lc_col b)','(lc_line a =? lc_line b)'))
m('ID06','Ide','publish_diagnostics','positions of the empty text','C71',('let? li := li_new t in\n  let? ds','let? li := li_new [] in\n  let? ds'))
# text edits
m('TE01','TextEdit','builder_indel','checked up to 15 only','C39',('length b <=? 16','length b <=? 15'))
m('TE02','TextEdit','total_len','lengths not checked','C37',('let? _ := rassert (m =? n) in\n',''))
m('TE03','TextEdit','key_leb','ties in insertion order','C39',('((i_start a =? i_start b) && (i_end a <=? i_end b))','(i_start a =? i_start b)'))
m('TE04','TextEdit','edit_insert','inserts after the next byte','C37 C39',('mkIndel s (mkRange o o)','mkIndel s (mkRange (S o) (S o))'))
m('TE05','TextEdit','edit_delete','replaces by a space','C37 C39',('build [mkIndel [] r]','build [mkIndel [32%N] r]'))
m('TE06','TextEdit','insert_key','unstable: equal keys reversed','C39 C37',('if key_leb x y then x :: l else','if key_leb x y && negb (key_leb y x) then x :: l else'))
m('TE07','TextEdit','indel_offset','length of the insertion only','C37',('usub n (range_len (i_delete i)).\n\n','usub n 0.\n\n'))
# stdx, loader
m('ST01','Stdx','components','a leading dot is dropped','C59',('(if text_eqb p (txt ".") then [CurDir] else part_component p)','(part_component p)'))
m('ST02','Stdx','split_sep','separators at the end make a name','C59',('| [] => [cur]\n  | c :: t\' => if N.eqb c 47 then cur ::','| [] => [cur ++ [46%N]]\n  | c :: t\' => if N.eqb c 47 then cur ::'))
m('ST03','Stdx','path_push','an absolute argument is appended','C59 C84',('if is_absolute p then p\n  else match b with','match b with'))
m('ST04','Stdx','render','components rendered in reverse','C59',("cs [].\n(** PathBuf::pop: Path","(rev cs) [].\n(** PathBuf::pop: Path"))
m('LO01','Loader','do_job','the loader sends nothing but progress','C61 C62',('JLoad r => HLoaded (load_entry d r)','JLoad r => HLoaded []'))
m('LO02','Loader','is_lua','files without extension too','C61',('| None => ""%string end','| None => "lua"%string end'))
m('LO03','Loader','file_name','the whole path','C61',("if Ascii.eqb c \"/\" then file_name p'\n","if Ascii.eqb c \"/\" then p\n"))
m('LO04','Loader','load_entry','unreadable files are not sent','C61',('map (fun p => (p, fs_read d p)) (filter is_lua','map (fun p => (p, fs_read d p)) (filter (fun p => match fs_read d p with Some _ => true | None => false end) (filter is_lua'),('(map fst (filter snd (fs_walk d root)))).','(map fst (filter snd (fs_walk d root))))).'))
m('LO05','Loader','config_jobs','entries loaded in reverse','C62 C63',('0 (snd c).','0 (rev (snd c)).'))
m('LO06','Loader','entry_jobs','progress before loading','C63',('JLoad r :: JProgress n_total (i + 1) version ::','JProgress n_total (i + 1) version :: JLoad r ::'))
m('LO07','Loader','step','a new configuration replaces the current jobs','C63 C62',('| St_take d s c : y_jobs s = [] ->','| St_take d s c : y_jobs s = y_jobs s ->'))
m('LO08','Loader','step','messages of the loader may overtake each other','C62 C61',('(y_chan s ++ [do_job d j])','(do_job d j :: y_chan s)'))
