#!/usr/bin/env python3
"""Mutation tester. usage: mutate.py muts.json [--log]
Each mutation: {definition,file,old,new,edit,claim[,expect]}.  For each: copy the development to a scratch
directory, apply the edit, rebuild; each proof that fails is replaced by Admitted and the build continues;
finally Print Assumptions tells which property theorems rest on a failed proof."""
import sys,json,os,re,subprocess,shutil
SRC=os.environ.get('MUT_SRC','/verif/rocq'); W='/tmp/mut/rocq'
def build():
    r=subprocess.run('make COQEXTRAFLAGS=\'-set "Default Timeout=60"\' TIMECMD="timeout 900" -k -j2 2>&1',shell=True,cwd=W,capture_output=True,text=True)
    return r.returncode,r.stdout
def enclosing(path,line):
    L=open(path).read().split('\n')
    for i in range(line-1,-1,-1):
        m=re.match(r'\s*(?:#\[.*\]\s*)?(?:Local |Global )?(Lemma|Theorem|Example|Corollary|Fact|Remark|Instance)\s+([\w\']+)',L[i])
        if m: return i,m.group(2),L
        if re.match(r'\s*(Definition|Fixpoint|Record|Inductive|Require|From)\b',L[i]): return i,None,L
    return 0,None,L
def admit(path,line):
    i,name,L=enclosing(path,line)
    if name is None: return None
    txt='\n'.join(L[i:]); pre='\n'.join(L[:i])
    m=re.search(r'\bProof( using[^.]*)?\.',txt)
    e=re.search(r'\b(Qed|Defined)\.',txt)
    if not m or not e or e.start()<m.start(): return None
    txt=txt[:m.start()]+'Proof. Admitted.'+txt[e.end():]
    open(path,'w').write((pre+'\n' if i else '')+txt)
    return name
def run(m):
    shutil.rmtree(W,ignore_errors=True); os.makedirs('/tmp/mut',exist_ok=True)
    subprocess.run(['cp','-a',SRC,W],check=True)
    p=f"{W}/theories/{m['file']}"; s=open(p).read()
    if s.count(m['old'])!=m.get('count',1): return dict(error=f"pattern occurs {s.count(m['old'])} times")
    open(p,'w').write(s.replace(m['old'],m['new']))
    subprocess.run('coq_makefile -f _CoqProject -o Makefile >/dev/null',shell=True,cwd=W)
    admitted=[]; out=''
    for _ in range(40):
        rc,o=build(); out+=o
        if rc==0: break
        errs=re.findall(r'File "\./(theories/\w+\.v)", line (\d+), characters[^\n]*\nError',o)
        if not errs: return dict(error=o[-800:],admitted=admitted)
        # admit from last line to first in each file (line numbers stay valid; one error per file anyway)
        for f,l in errs:
            n=admit(f'{W}/{f}',int(l))
            if n is None: return dict(error=f'failure outside a proof at {f}:{l}: '+o[-600:],admitted=admitted)
            admitted.append(n)
    else: return dict(error='too many failures',admitted=admitted)
    # property theorems resting on admitted ones
    bad=set()
    for f in sorted(os.listdir(f'{W}/theories')):
        if not (f.startswith('Properties') and f.endswith('.v')): continue
        vo=f[:-2]+'.vo'   # modules that were not rebuilt cannot rest on a failed proof
        if os.path.exists(f'{SRC}/theories/{vo}') and os.path.getmtime(f'{W}/theories/{vo}')==os.path.getmtime(f'{SRC}/theories/{vo}'): continue
        s=open(f'{W}/theories/{f}').read()
        names=re.findall(r'^\s*Theorem\s+([\w\']+)',s,re.M)
        mod=f[:-2]
        q=f'From Verif Require Import {mod}.\n'+''.join(f'Redirect "/tmp/mut/o_{n}" Print Assumptions {n}.\n' for n in names)
        open('/tmp/mut/q.v','w').write(q)
        r=subprocess.run(['coqc','-Q',f'{W}/theories','Verif','/tmp/mut/q.v'],capture_output=True,text=True)
        if r.returncode: return dict(error=r.stderr[-500:],admitted=admitted)
        for n in names:
            t=open(f'/tmp/mut/o_{n}.out').read()
            if any(re.search(r'(^|\.|\s)'+re.escape(a)+r'\s*:',t,re.M) for a in admitted): bad.add(n)
    return dict(admitted=admitted,properties=sorted(bad))
muts=json.load(open(sys.argv[1]))
for m in muts:
    r=run(m)
    print('==',m['definition'],'|',m['edit'],'->',json.dumps(r),flush=True)
    if '--log' in sys.argv and 'error' not in r:
        e=dict(definition=m['definition'],edit=m['edit'],claim_broken=m['claim'],theorems_failed=r['properties'],
               failed_lemmas=r['admitted'],theorems_tightened=m.get('tightened',[]))
        if 'remark' in m: e['remark']=m['remark']
        open('/verif/seeded/LOG.jsonl','a').write(json.dumps(e)+'\n')
