#!/usr/bin/env python3
"""Seeded-bug experiments.  usage: mutate.py WORKDIR [ids...]
For each mutant of /verif/seeded/mutants.py: copy the project to WORKDIR, apply the edit, rebuild.  A proof that
no longer checks is replaced by an appeal to the scratch axiom, and the build goes on; at the end
the reference graph of the .glob files tells which property theorems depend on a broken proof.  The rebuild stops as
soon as every expected property has failed.  One JSON line per mutant is
appended to /verif/seeded/LOG.jsonl."""
import sys,os,re,json,subprocess,shutil,glob,time
SRC=os.environ.get('SRC','/verif/rocq')
# dependence only through these lemmas (the state is well-formed after any history of operations) is counted separately:
# the theorem fails because the edited operation may have run earlier
CUT={('World2','reach_inv'),('World2','step_good')}
def sh(cmd,cwd=None,timeout=None):
    return subprocess.run(cmd,shell=True,cwd=cwd,stdout=subprocess.PIPE,stderr=subprocess.STDOUT,text=True,timeout=timeout)
def order(d):
    return re.findall(r'theories/\w+\.v',open(d+'/_CoqProject').read())
LEM=re.compile(r'^(?:Local |Global |#\[[^\]]*\] *)*(?:Theorem|Lemma|Corollary|Example|Fact|Remark|Instance) +(\w+)',re.M)
def using_map():
    f='/tmp/scr/using.json'
    key=sh('cat %s/theories/*.v | md5sum'%SRC).stdout
    if os.path.exists(f):
        j=json.load(open(f))
        if j['key']==key: return j['map']
    d='/tmp/scr/using'; shutil.rmtree(d,ignore_errors=True); shutil.copytree(SRC,d)
    sh('find . -name "*.vo*" -delete; find . -name "*.glob" -delete',d)
    out=''
    sh('coq_makefile -f _CoqProject -o Makefile',d)
    r=sh('make -j2 COQEXTRAFLAGS=\'-set "Suggest Proof Using"\'',d); out=r.stdout
    m={}
    for x in re.finditer(r'The proof of (\w+)\s+should start with[^:]*:\s*Proof using ?([^.]*)\.',out): m[x.group(1)]=' '.join(x.group(2).split())
    json.dump({'key':key,'map':m},open(f,'w')); return m
def enclosing(txt,line):
    pos=sum(len(l)+1 for l in txt.split('\n')[:line-1])
    last=None
    for m in LEM.finditer(txt):
        if m.start()<=pos: last=m
        else: break
    if not last: return None
    p=re.compile(r'^\s*Proof\b[^.]*\.',re.M).search(txt,last.end())
    if not p: return None
    q=re.compile(r'\b(Qed|Defined)\.').search(txt,p.end())
    if not q: return None
    return last.group(1),p.start(),p.end(),q.end(),pos
def graph():
    """references between proofs, from the .glob files of the unmodified build (a lower bound: uses through hints and
    tactics are not recorded)"""
    defs={}; 
    for f in order(SRC):
        mod=f[9:-2]; cur=None
        for l in open(SRC+'/'+f[:-2]+'.glob'):
            m=re.match(r'(prf|def|ind|rec|inst|class|thm) (\d+):\d+ (\S+) (\S+)$',l)
            if m:
                cur=(mod,m.group(4)); defs.setdefault(cur,set()); continue
            m=re.match(r'R\d+:\d+ Verif\.(\w+) <> (\S+) (thm|def|inst|prf)',l)
            if m and cur: defs[cur].add((m.group(1),m.group(2).split('.')[-1]))
    names=[n for (m,n) in defs if re.match(r'C\d\d_',n)]
    return {'defs':defs,'names':names}
def dependents(G,broken,cut=CUT):
    out=[]
    for (m,n) in G['defs']:
        if not re.match(r'C\d\d_',n): continue
        seen=set(); st=[(m,n)]
        while st:
            x=st.pop()
            if x in seen: continue
            seen.add(x)
            if x in cut: continue
            st+=G['defs'].get(x,())
        if any(b in seen for b in broken): out.append(n)
    return sorted(out)
def main():
    W=sys.argv[1]; ids=sys.argv[2:]
    ns={}; exec(open('/verif/seeded/mutants.py').read(),ns)
    um=using_map(); G=graph()
    for mu in ns['MUTANTS']:
        if ids and mu['id'] not in ids: continue
        if not ids and mu['id'] in done(): continue
        t0=time.time()
        d=W; shutil.rmtree(d,ignore_errors=True); shutil.copytree(SRC,d)
        sh('rm -f Makefile*; coq_makefile -f _CoqProject -o Makefile',d)
        p=d+'/theories/'+mu['file']; s=open(p).read()
        assert s.count(mu['old'])>=1,(mu['id'],s.count(mu['old']))
        k=mu.get('nth',0)
        if s.count(mu['old'])>1 and 'nth' not in mu: raise Exception(mu['id']+': ambiguous edit')
        i=-1
        for _ in range(k+1): i=s.index(mu['old'],i+1)
        s=s[:i]+mu['new']+s[i+len(mu['old']):]; open(p,'w').write(s)
        broken=[]; note=''; affected=[]; kept=[]; full=False
        for it in range(400):
            r=sh('timeout 5400 make -j%s COQEXTRAFLAGS=\'-set "Default Timeout=90"\''%os.environ.get('J','2'),d)
            if r.returncode==0: full=True; break
            errs=re.findall(r'File "\.?/?(theories/\w+\.v)", line (\d+), characters [^\n]*:\nError:([^\n]*\n[^\n]*)',r.stdout)
            if not errs: note='build stopped: '+r.stdout[-300:]; break
            bad=False
            for f,l,e in errs:
                fp=d+'/'+f; txt=open(fp).read(); en=enclosing(txt,int(l))
                if not en or en[4]>en[3]: note='not a proof: %s:%s %s'%(f,l,e); bad=True; break
                n,a,z,q,pos=en
                if txt[a:q].find('MUTANT')>=0: note='stub fails: %s %s %s'%(f,n,e); bad=True; break
                if pos<a: note='statement fails: %s %s %s'%(f,n,e); bad=True; break
                u=um.get(n)
                pr='Proof using %s. exact (MUTANT _). Qed.'%u if u is not None else 'Proof. exact (MUTANT _). Qed.'
                pr=pr.replace('MUTANT','MUTANT_'+n); k=[m.start() for m in LEM.finditer(txt) if m.start()<a][-1]
                open(fp,'w').write(txt[:k]+'Axiom MUTANT_%s : forall P : Prop, P.\n'%n+txt[k:a]+pr+txt[q:]); broken.append((f[9:-2],n))
            if bad: break
            affected=dependents(G,broken)
            if mu['expect'] and all(any(a.startswith(x) for a in affected) for x in mu['expect']): break
        affected=dependents(G,broken); every=dependents(G,broken,())
        kept=[n for n in G['names'] if n not in affected]
        broken=[n for _,n in broken]
        rec={'id':mu['id'],'definition':mu['def'],'edit':mu['edit'],'claim_broken':mu['claim'],'expected':mu['expect'],
             'broken_proofs':broken,'theorems_failed':affected,'failed_because_histories_are_unsound':len(every)-len(affected),'full_rebuild':full,'note':note,
             'missed':[x for x in mu['expect'] if not any(a.startswith(x) for a in every)],
             'theorems_tightened':[], 'seconds':int(time.time()-t0)}
        open('/verif/seeded/LOG.jsonl','a').write(json.dumps(rec)+'\n')
        print(mu['id'],'broken',broken,'missed',rec['missed'],'affected',len(affected),'kept',len(kept),note,flush=True)
def done():
    try: return {json.loads(l)['id'] for l in open('/verif/seeded/LOG.jsonl')}
    except FileNotFoundError: return set()
main()
