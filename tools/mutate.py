"""Run wrong programs against the theorems, in a scratch copy.

usage: mutate.py mutants.json out.jsonl [first [last]]

mutants.json: list of {file, definition, old, new, edit, claim}.  [old] must
occur exactly once in the file (or once after the string [after]).  Each mutant
is built with make -k; a proof that fails is replaced by Admitted and the build
goes on, so that in the end Print Assumptions tells which property theorems
depend on a proof that fails."""
import json,os,re,subprocess,sys,shutil,time
SRC=os.environ.get('MUTSRC','/verif/rocq'); W=os.environ.get('MUTDIR','/tmp/mut')
def sh(c,t=3000):
    p=subprocess.run(c,shell=True,stdout=subprocess.PIPE,stderr=subprocess.STDOUT,text=True,timeout=t)
    return p.stdout
def fresh():
    os.makedirs(W,exist_ok=True)
    sh(f'rm -rf {W} && cp -a {SRC} {W}')
    sh(f'cd {W} && coq_makefile -f _CoqProject -o Makefile')
def lighten(d):
    """leave out the computations of the concrete cases, on which no theorem depends"""
    for f in os.listdir(f'{d}/theories'):
        if not f.endswith('Check.v'): continue
        t=open(f'{d}/theories/{f}').read()
        t=re.sub(r'Proof\.(?:(?!\bProof\.).)*?\bQed\.','Proof. Admitted.',t,flags=re.S)
        open(f'{d}/theories/{f}','w').write(t)
def span(txt,line):
    """the Proof..Qed around a line (1-based), with the name of the lemma"""
    ls=txt.split('\n'); i=line-1
    j=i
    while j>=0 and not re.match(r'\s*Proof\b',ls[j]): j-=1
    k=j
    while k<len(ls) and not re.search(r'\b(Qed|Defined)\.\s*$',ls[k]): k+=1
    if j<0 or k<i: return None
    h=j
    while h>=0 and not re.match(r'\s*(Lemma|Theorem|Corollary|Example|Fact|Remark|Definition|Instance)\s',ls[h]): h-=1
    name=re.match(r'\s*\w+\s+(\w+)',ls[h]).group(1) if h>=0 else '?'
    return j,k,name
def run(m):
    fresh()
    f=f"{W}/theories/{m['file']}"
    s=open(f).read()
    st=s.index(m['after']) if 'after' in m else 0
    assert s[st:].count(m['old'])>=1, ('not found',m['definition'],m['old'])
    if 'after' not in m: assert s.count(m['old'])==1,('ambiguous',m['definition'],s.count(m['old']))
    s=s[:st]+s[st:].replace(m['old'],m['new'],1)
    open(f,'w').write(s)
    failed=[]; broken=[]
    for rnd in range(200):
        out=sh(f'cd {W} && make -k -j2 COQC="timeout 240 coqc" 2>&1')
        errs=re.findall(r'File "\./(theories/(\w+)\.v)", line (\d+), characters [\d-]+:\s*\nError',out)
        if not errs:
            if 'Error' in out:
                broken.append(out[-400:])
            break
        prog=False
        seen=set()
        for path,mod,line in errs:
            if path in seen: continue
            seen.add(path)
            t=open(f'{W}/{path}').read()
            sp=span(t,int(line))
            if sp is None: 
                if mod not in broken: broken.append(f'{mod}:{line}')
                continue
            j,k,name=sp
            ls=t.split('\n')
            ls[j:k+1]=['Proof. Admitted.']+['']*(k-j)
            open(f'{W}/{path}','w').write('\n'.join(ls))
            failed.append(name); prog=True
        if not prog: break
    props=depends(W,broken,SRC)
    try: base=json.load(open(f'{SRC}/baseline.json'))
    except OSError: base=[]
    return failed,[p for p in props if p not in base],broken
def same(a,b):
    try: return os.path.getmtime(a)==os.path.getmtime(b)
    except OSError: return False
def depends(W,broken,old=None):
    props=[]
    for pf in sorted(os.listdir(f'{W}/theories')):
        if not (pf.startswith('Properties') and pf.endswith('.v')): continue
        # not compiled again: nothing it depends on has changed
        if old and same(f'{W}/theories/{pf}o',f'{old}/theories/{pf}o'): continue
        t=open(f'{W}/theories/{pf}').read()
        t2='\n'.join(l for l in t.split('\n'))
        names=re.findall(r'^Print Assumptions (\w+)\.',t2,re.M)
        o=sh(f'cd {W} && timeout 600 coqc -Q theories Verif theories/{pf} 2>&1')
        chunks=re.findall(r'(Closed under the global context|Axioms:\n(?:.*\n)*?(?=Closed|Axioms:|\Z))',o)
        if len(chunks)!=len(names):
            broken.append(f'{pf}: not all compiled'); continue
        for n,c in zip(names,chunks):
            if c.startswith('Axioms'): props.append(n)
    return props
if __name__=='__main__':
    if sys.argv[1]=='--prepare':
        # mutate.py --prepare: build the copy the wrong programs start from
        assert SRC!='/verif/rocq','set MUTSRC to a scratch directory'
        sh(f'rm -rf {SRC} && cp -a /verif/rocq {SRC}'); lighten(SRC)
        print(sh(f'cd {SRC} && coq_makefile -f _CoqProject -o Makefile && make -j4 2>&1 | tail -5'))
        # theorems that rest on a concrete case: nothing can be said about them
        json.dump(depends(SRC,[]),open(f'{SRC}/baseline.json','w')); sys.exit()
    ms=json.load(open(sys.argv[1])); a=int(sys.argv[3]) if len(sys.argv)>3 else 0
    b=int(sys.argv[4]) if len(sys.argv)>4 else len(ms)
    for i in range(a,b):
        m=ms[i]; t0=time.time()
        try: failed,props,broken=run(m)
        except Exception as e: failed,props,broken=[],[],[repr(e)]
        r=dict(definition=m['file'][:-2]+'.'+m['definition'],edit=m['edit'],claim=m['claim'],
               lemmas=failed,theorems_failed=props,problems=broken,seconds=round(time.time()-t0))
        open(sys.argv[2],'a').write(json.dumps(r)+'\n')
        print(i,m['definition'],'|',m['edit'],'| claim',m['claim'],'| failed',props,'|',failed[:4],broken,flush=True)
