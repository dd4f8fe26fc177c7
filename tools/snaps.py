import re,glob,os
base='/repo/crates/syntax/snapshots/'
out=['''(** Snapshots.v — fidelity tests of the model against the repository's own snapshot files
    (crates/syntax/snapshots). Generated from the *.lua and *.snap files; these are tests on
    literals, not theorems about all inputs: they tie the model to recorded outputs of the real
    program. *)
From Verif Require Import Base SyntaxKind Lexer Tree TreeSink Ast Validation.

(** The {:#?} dump of a tree: depth, kind, range, in preorder. *)
Fixpoint dump (d off : nat) (g : green) {struct g} : list (nat * kind * nat * nat) :=
  (d, green_kind g, off, off + green_len g) ::
  match g with
  | GTok _ _ => []
  | GNode _ cs =>
    (fix go (off : nat) (cs : list green) :=
       match cs with
       | [] => []
       | c :: cs' => dump (S d) off c ++ go (off + green_len c) cs'
       end) off cs
  end.
Definition show_errs (l : list syntax_error) : list (string * nat * nat) :=
  map (fun e => (e_msg e, r_start (e_range e), r_end (e_range e))) l.
Definition snap_parse (t : text) :=
  match source_file_parse t with
  | Ok p => Some (green_text (pa_green p), dump 0 0 (pa_green p), show_errs (pa_errors p))
  | _ => None
  end.
Definition snap_lex (t : text) :=
  match tokenize t with
  | Ok (toks, errs) => Some (map (fun t => (t_kind t, t_len t)) toks, show_errs errs)
  | _ => None
  end.
''']
def lit(s):
    assert all(ord(c)<128 for c in s),s
    parts=[]
    return '['+';'.join(str(ord(c)) for c in s)+']%N'
def cstr(s): return '"'+s.replace('"','""')+'"'
def unesc(s): return s.encode().decode('unicode_escape')
def errs(t):
    return [(unesc(m.group(1)),m.group(2),m.group(3)) for m in re.finditer(r'SyntaxError\(\s*"((?:[^"\\]|\\.)*)",\s*(\d+)\.\.(\d+),\s*\)',t)]
bad=0
for d in ['parser/ok','parser/err','lexer/ok','lexer/err']:
    for f in sorted(glob.glob(base+d+'/*.lua')):
        src=open(f,newline='').read().replace('\r\n','\n')
        snap=open(f[:-4]+'.snap').read().split('\n---\n',1)[1]
        nm=d.replace('/','_')+'_'+os.path.basename(f)[:-4]
        nm=re.sub(r'\W','_',nm)
        el=errs(snap)
        es='['+';\n   '.join('(%s, %s, %s)'%(cstr(m),a,b) for m,a,b in el)+']'
        if not all(ord(c)<128 for c in src):
            print('nonascii',f); 
        if d.startswith('parser'):
            tree=snap.split('\n====')[0]
            rows=[]
            for l in tree.split('\n'):
                m=re.match(r'^( *)(\w+)@(\d+)\.\.(\d+)',l)
                if not m:
                    if l.strip(): print('??',f,l)
                    continue
                rows.append('(%d,K%s,%s,%s)'%(len(m.group(1))//2,m.group(2),m.group(3),m.group(4)))
            out.append('Example snap_%s :\n  let t := %s in\n  snap_parse t = Some (t,\n  [%s],\n  %s%%string).\nProof. vm_compute. reflexivity. Qed.\n'%(nm,lit(src),';'.join(rows),es))
        else:
            rows=re.findall(r'Token \{\s*kind: (\w+),\s*len: (\d+),',snap)
            out.append('Example snap_%s :\n  snap_lex %s = Some (\n  [%s],\n  %s%%string).\nProof. vm_compute. reflexivity. Qed.\n'%(nm,lit(src),';'.join('(K%s,%s)'%r for r in rows),es))
open('/verif/rocq/theories/Snapshots.v','w').write('\n'.join(out))
