#!/usr/bin/env python3
"""mutation runner: usage mut.py muts.py [ids...]"""
import sys,os,re,shutil,subprocess,json,threading,time
from concurrent.futures import ThreadPoolExecutor,wait,FIRST_COMPLETED
SRC='/tmp/mut/base'; 
W=os.environ.get('MUTW','/tmp/mut/w'); NW=int(os.environ.get('NW','3')); TO=int(os.environ.get('TO','240'))
def deps():
    fs=[l.strip()[9:-2] for l in open('/tmp/mut/base/_CoqProject') if l.startswith('theories/')]
    out=subprocess.run(['coqdep','-Q','.','Verif']+[f+'.v' for f in fs],cwd=SRC,capture_output=True,text=True).stdout
    d={f:set() for f in fs}
    for l in out.splitlines():
        m=re.match(r'(\w+)\.vo\b.*?: (.*)',l)
        if m:
            for x in m.group(2).split():
                if x.endswith('.vo') and x[:-3] in d: d[m.group(1)].add(x[:-3])
    return fs,d
def coqc(f):
    p=subprocess.run(['timeout',str(TO),'coqc','-Q','.','Verif',f+'.v'],cwd=W,capture_output=True,text=True)
    return p.returncode,p.stdout,p.stderr
def strip_comments_pos(s):
    # blank out comments, preserving offsets
    out=list(s);i=0;d=0;n=len(s);instr=False
    while i<n:
        if d==0 and s[i]=='"': instr=not instr;i+=1;continue
        if not instr and s.startswith('(*',i):
            d+=1;out[i]=out[i+1]=' ';i+=2;continue
        if not instr and d>0 and s.startswith('*)',i):
            d-=1;out[i]=out[i+1]=' ';i+=2;continue
        if d>0 and s[i]!='\n': out[i]=' '
        i+=1
    return ''.join(out)
STMT=re.compile(r'(?m)^\s*(?:Local |Global |#\[.*?\] )*(Lemma|Theorem|Corollary|Example|Fact|Remark|Goal|Instance|Definition|Fixpoint|Program Definition)\s+([\w\']+)?')
def admit_at(f,off):
    """replace the proof containing char offset off by Admitted; returns name"""
    path=f'{W}/{f}.v'; s=open(path).read(); c=strip_comments_pos(s)
    ms=[m for m in re.finditer(r'(?m)\bProof\b[^.]*\.',c) if m.start()<=off]
    if not ms: return None
    p=ms[-1]
    e=re.compile(r'\b(Qed|Defined|Abort|Admitted)\s*\.').search(c,p.end())
    if not e or e.end()<off-1:
        return None
    st=[m for m in STMT.finditer(c) if m.start()<p.start()]
    name=st[-1].group(2)
    s=s[:p.start()]+'Admitted.'+s[e.end():]
    open(path,'w').write(s); return name
def remove_stmt_at(f,off):
    """remove statement containing off (error in statement itself)"""
    path=f'{W}/{f}.v'; s=open(path).read(); c=strip_comments_pos(s)
    st=[m for m in STMT.finditer(c) if m.start()<=off]
    if not st: return None
    m=st[-1]
    nx=[x for x in STMT.finditer(c) if x.start()>m.start()]
    end=nx[0].start() if nx else len(s)
    sect=re.search(r'(?m)^(End|Section|From|Print)\b',c[m.end():end])
    if sect: end=m.end()+sect.start()
    open(path,'w').write(s[:m.start()]+'\n'+s[end:]); return m.group(2)
def err_off(f,stderr):
    m=re.search(r'line (\d+), characters (\d+)-',stderr)
    if not m: return None
    lines=open(f'{W}/{f}.v','rb').read().split(b'\n')
    ln=int(m.group(1)); b=sum(len(x)+1 for x in lines[:ln-1])+int(m.group(2))
    return len(open(f'{W}/{f}.v','rb').read()[:b].decode('utf8','ignore'))
def timeout_off(f):
    p=subprocess.run(f'timeout {TO} coqc -time -Q . Verif {f}.v',shell=True,cwd=W,capture_output=True,text=True)
    cs=re.findall(r'Chars (\d+) - (\d+)',p.stdout)
    raw=open(f'{W}/{f}.v','rb').read()
    b=int(cs[-1][1])+2 if cs else 0
    return len(raw[:b].decode('utf8','ignore'))
def build(f,log):
    for it in range(60):
        rc,o,e=coqc(f)
        if rc==0: return True
        if rc==124: off=timeout_off(f); why='timeout'
        else:
            off=err_off(f,e); why=' '.join(e.split())[-160:]
        if off is None: log.append((f,'?',why)); return False
        n=admit_at(f,off)
        if n is None:
            if re.search(r'The reference (\S+) was not found',e):
                n=None
            n2=remove_stmt_at(f,off)
            if n2 is None: log.append((f,'??',why)); return False
            log.append((f,'(removed) '+n2,why))
        else: log.append((f,n,why))
        if f=='Snapshots': pass
    return False
def run(fs,d,mid,file,edits,skip=()):
    os.makedirs(W,exist_ok=True)
    for f in fs:
        for ext in ('.v','.vo','.glob','.vos','.vok'):
            a=f'{SRC}/{f}{ext}'
            if os.path.exists(a): shutil.copy2(a,f'{W}/{f}{ext}')
    path=f'{W}/{file}.v'; s=open(path).read()
    for old,new in edits:
        assert s.count(old)>=1,(mid,'not found',old)
        assert s.count(old)==1,(mid,'ambiguous',old,s.count(old))
        s=s.replace(old,new)
    open(path,'w').write(s)
    dirty={file}
    for f in fs:
        if d[f]&dirty: dirty.add(f)
    todo=[f for f in fs if f in dirty and f not in skip]
    # if skipped files are required, keep them
    for f in skip:
        assert not any(f in d[g] for g in fs),f
    log=[];done=set();running={};ok=True
    with ThreadPoolExecutor(NW) as ex:
        pend=list(todo)
        while pend or running:
            for f in list(pend):
                if len(running)<NW and not (d[f]&set(todo))-done:
                    pend.remove(f); running[ex.submit(build,f,log)]=f
            if not running: break
            dn,_=wait(list(running),return_when=FIRST_COMPLETED)
            for x in dn:
                f=running.pop(x)
                if x.result(): done.add(f)
                else: ok=False
    notbuilt=[f for f in todo if f not in done]
    # final assumptions
    man=json.load(open('/tmp/mut/base/MANIFEST.json'))
    thms=[];byt={}
    where={}
    for f in fs:
        for m in STMT.finditer(strip_comments_pos(open(f'{SRC}/{f}.v').read())):
            if m.group(2): where[m.group(2)]=f
    for c in man['claims']:
        for t in c['theorems']:
            t0=t.split('.')[-1]
            byt.setdefault(t0,[]).append(c['property'])
    failed={}
    direct={}
    for f,n,w in log: direct.setdefault(f,[]).append(n)
    check={}
    for t,ps in byt.items():
        f=where[t]
        if f in notbuilt: failed[t]=['file '+f+' not built']; continue
        if f not in dirty: continue
        if t in [x.replace('(removed) ','') for x in direct.get(f,[])]: failed[t]=['directly']; continue
        check.setdefault(f,[]).append(t)
    if log:
      out=[]
      for f,ts in check.items():
        fn=f'zzfin_{f}.v'
        with open(f'{W}/{fn}','w') as h:
            h.write(f'From Verif Require Import {f}.\n')
            for t in ts: h.write(f'Goal True. idtac "@@{t}". Abort.\nPrint Assumptions {t}.\n')
        p=subprocess.run(['coqc','-Q','.','Verif',fn],cwd=W,capture_output=True,text=True)
        if p.returncode: print('FINAL ERR',f,p.stderr[-300:])
        cur=None
        for l in p.stdout.splitlines():
            m=re.match(r'@@(\S+)',l)
            if m: cur=m.group(1); continue
            m=re.match(r'([A-Za-z_][\w.\']*)\s*(:|$)',l)
            if m and m.group(1) not in('Axioms','Closed') : failed.setdefault(cur,[]).append(m.group(1))
    return log,notbuilt,failed,byt
if __name__=='__main__':
    ns={}; exec(open(sys.argv[1]).read(),ns); muts=ns['MUTS']
    want=set(sys.argv[2:])
    fs,d=deps()
    for m in muts:
        if want and m['id'] not in want: continue
        t0=time.time()
        try:
            log,nb,failed,byt=run(fs,d,m['id'],m['file'],m['edits'],skip=('Snapshots',))
        except AssertionError as e:
            print(json.dumps({'id':m['id'],'assert':str(e)}),flush=True); continue
        props=sorted({p for t in failed for p in byt[t]})
        exp=m['claims']
        res={'id':m['id'],'def':m['def'],'edit':m['edit'],'claims':exp,'broken_lemmas':[f'{f}.{n}' for f,n,w in log],
             'why':[w for f,n,w in log][:6],'failed_theorems':sorted(failed),'failed_props':props,'missed':[c for c in exp if c not in props],'notbuilt':nb,'secs':int(time.time()-t0)}
        open('/tmp/mut/results.jsonl','a').write(json.dumps(res)+'\n')
        print(m['id'],'secs',res['secs'],'lemmas',len(log),'thms',len(failed),'props',props,'MISSED',res['missed'],'NB',nb,flush=True)
