#!/usr/bin/env python3
"""usage: mutate.py muts.json [--log]
muts.json: list of {def, file, old, new, claim, note?, tightened?}.  Each edit is applied alone
to a scratch copy (/tmp/mut) of the development and everything depending on it is rebuilt.
Whenever a lemma fails its proof is replaced by an admission (in the scratch copy only) and the
build goes on, so that all failing lemmas are found.  A property theorem counts as failed when
it fails itself or when Print Assumptions shows that it rests on a lemma that failed."""
import json,sys,subprocess,re,os,glob,time
muts=json.load(open(sys.argv[1])); log='--log' in sys.argv
D=os.environ.get('MUTDIR','/tmp/mut'); LIMIT=400
def sh(c,**k): return subprocess.run(c,shell=True,capture_output=True,text=True,**k)
HEAD=re.compile(r'^\s*(?:#\[.*\]\s*)?(?:Global\s+|Local\s+)?(Lemma|Theorem|Example|Corollary|Fact|Definition|Fixpoint|Instance)\s+([\w\']+)',re.M)
ADM='Admit'+'ted.'
def admit(f,line):
    """admit the statement around the line; returns its name or None"""
    s=open(f).read(); pos=0
    for _ in range(line-1): pos=s.index('\n',pos)+1
    eol=s.find('\n',pos); eol=len(s) if eol<0 else eol
    hs=[m for m in HEAD.finditer(s) if m.start()<eol]
    if not hs: return None
    m=hs[-1]
    if m.group(1) in ('Definition','Fixpoint','Instance'): return None
    p=re.compile(r'\bProof\b').search(s,m.start()); q=re.compile(r'\b(Qed|Defined)\.').search(s,m.start())
    if not p or not q or p.start()>q.start() or p.start()>=eol+1: return None
    open(f,'w').write(s[:p.start()]+ADM+s[q.end():])
    return m.group(2)
for m in muts:
    sh(f'rm -rf {D}; cp -a /verif/rocq {D}')
    p=f"{D}/theories/{m['file']}"
    s=open(p).read(); n=s.count(m['old'])
    if n!=1 and not m.get('all'):
        print('!!',m['def'],'pattern occurs',n,'times',flush=True); continue
    open(p,'w').write(s.replace(m['old'],m['new']))
    t=time.time(); failed=[]; stuck=[]
    for _ in range(60):
        r=sh(f'cd {D} && timeout 3600 make -k -j3 COQC="timeout {LIMIT} coqc" 2>&1')
        errs=sorted({(f,int(l)) for f,l in re.findall(r'File "\./(theories/\w+\.v)", line (\d+), characters [^\n]*\n(?=Error|[^W])',r.stdout)})
        if r.returncode==0: break
        # proofs that do not end: the statement after the last sentence done within the limit
        for f in sorted(set(re.findall(r'\[[^\]\n]*(theories/\w+)\.vo\] Error 124',r.stdout))):
            o=sh(f'cd {D} && timeout {LIMIT} coqc -time -Q theories Verif {f}.v 2>/dev/null').stdout
            c=[int(x) for x in re.findall(r'^Chars (?:\d+) - (\d+) ',o,re.M)]
            src=open(f'{D}/{f}.v','rb').read(); b=src[:c[-1] if c else 0].decode()
            errs.append((f+'.v',b.count('\n')+1+(1 if re.search(r'Qed\.\s*$',b) else 0)))
        if not errs: break
        prog=False
        seen=set()
        for f,l in errs:
            if f in seen or f in stuck: continue
            seen.add(f)
            a=admit(D+'/'+f,l)
            if a: failed.append(os.path.basename(f)+':'+a); prog=True
            else: stuck.append(f); failed.append(os.path.basename(f)+f':line {l} (statement)')
        if not prog: break
    names=[]
    files=[]
    for f in sorted(glob.glob(D+'/theories/*Props.v')):
        b=os.path.basename(f)[:-2]
        # only files rebuilt after the edit can be affected
        if os.path.exists(f+'o') and os.path.getmtime(f+'o')>t and 'theories/'+b+'.v' in open(D+'/_CoqProject').read():
            files.append(b); names+=[(b,x) for x in re.findall(r'^\s*Theorem (\w+)',open(f).read(),re.M)]
    adm={x.split(':')[1] for x in failed}
    broken=[]
    if failed:
        src='\n'.join(f'From Verif Require {b}.' for b in files)+'\n'
        for b,x in names: src+=f'Goal True. idtac "@@ {b}.{x}". exact I. Qed.\nPrint Assumptions {b}.{x}.\n'
        open(D+'/chk.v','w').write(src)
        o=sh(f'cd {D} && timeout 900 coqc -Q theories Verif chk.v').stdout
        cur=None; hit=set()
        for l in o.split('\n'):
            if l.startswith('@@ '): cur=l[3:]
            else:
                w=re.match(r'([\w\.\']+)',l)
                if w and w.group(1).split('.')[-1] in adm: hit.add(cur)
        broken=[x for b,x in names if f'{b}.{x}' in hit or x in adm]
        for f in stuck:   # files that could not be continued: everything depending on them is unknown
            broken.append('(not determined: '+os.path.basename(f)+' does not type-check)')
    print(json.dumps({"def":m['def'],"claim":m['claim'],"failed":failed,"theorems":broken,"s":round(time.time()-t)}),flush=True)
    if log:
        with open('/verif/seeded/LOG.jsonl','a') as g:
            g.write(json.dumps({"definition":m['def'],"file":m['file'],"edit":{"old":m['old'],"new":m['new']},"claim":m['claim'],
              "failed_lemmas":failed,"theorems_failed":broken,"survived":not failed,"note":m.get('note',''),"tightened":m.get('tightened',[])})+"\n")
