"""usage: mut.py spec.json ; spec: list of {file, old, new, definition, claim}; logs to /tmp/w/mutout.jsonl"""
import sys,json,subprocess,shutil,os,re
SRC='/verif/rocq/theories'
def deps_order():
    return [l.split('/')[-1].strip() for l in open('/verif/rocq/_CoqProject') if l.strip().endswith('.v')]
def requires(f,d):
    t=open(os.path.join(d,f)).read()
    r=set()
    for m in re.finditer(r'From Verif Require (?:Import|Export) ([^.]*)\.',t):
        r|={x+'.v' for x in m.group(1).split()}
    return r
def run(spec):
    D='/tmp/mut/theories'
    shutil.rmtree('/tmp/mut',ignore_errors=True); os.makedirs('/tmp/mut')
    shutil.copytree(SRC,D)
    p=os.path.join(D,spec['file']); s=open(p).read()
    if s.count(spec['old'])<1: return {'error':'pattern not found'}
    n=spec.get('nth',0)
    parts=s.split(spec['old'])
    if s.count(spec['old'])>1 and 'nth' not in spec: return {'error':'ambiguous %d'%s.count(spec['old'])}
    s=spec['old'].join(parts[:n+1])+spec['new']+spec['old'].join(parts[n+1:])
    open(p,'w').write(s)
    order=deps_order()
    dirty={spec['file']}
    failed=[];badex=[];thm=[]
    for f in order:
        if f!=spec['file'] and not (requires(f,D)&dirty): continue
        dirty.add(f)
        for attempt in range(60):
            r=subprocess.run(['timeout','600','coqc','-Q','.','Verif',f],cwd=D,capture_output=True,text=True)
            if r.returncode==0: break
            m=re.search(r'File "[^"]*%s", line (\d+)'%re.escape(f),r.stderr)
            if not m: return {'error':r.stderr[-400:]}
            ln=int(m.group(1))
            lines=open(os.path.join(D,f)).read().split('\n')
            k=ln-1
            while k>=0 and not re.match(r'\s*(Lemma|Theorem|Example|Corollary|Fact|Definition|Fixpoint|Inductive|Record|Remark)\b',lines[k]): k-=1
            head=lines[k]; name=re.match(r'\s*\w+ (\w+)',head).group(1); kind=head.split()[0]
            if kind in('Definition','Fixpoint','Inductive','Record') : return {'error':'def broke: '+r.stderr[-300:]}
            # find Proof. ... Qed.
            a=k
            while not re.search(r'\bProof\b',lines[a]): a+=1
            b=a
            while not re.search(r'(Qed|Defined)\.',lines[b]): b+=1
            if ln-1<a or True:
                pass
            if ln-1<a:
                # statement fails: drop
                lines[k:b+1]=['(* dropped %s *)'%name]+['']*(b-k)
            elif kind=='Example':
                lines[k:b+1]=['']*(b-k+1); badex.append(name)
            else:
                pre=lines[a].split('Proof')[0]
                lines[a:b+1]=[pre+'Admitted.']+['']*(b-a)
                if f.endswith('Props.v'): thm.append(name)
            failed.append(name)
            open(os.path.join(D,f),'w').write('\n'.join(lines))
        if f.endswith('Props.v'):
            # parse print assumptions
            t=open(os.path.join(D,f)).read()
            names=re.findall(r'^Print Assumptions (\w+)\.',t,re.M)
            out=r.stdout
            blocks=re.split(r'(?=^Closed under|^Axioms:)',out,flags=re.M)
            blocks=[b for b in blocks if b.startswith(('Closed','Axioms'))]
            for nm,b in zip(names,blocks):
                if b.startswith('Axioms') and nm not in thm: thm.append(nm)
    return {'lemmas_failed':[x for x in failed if x not in badex],'theorems_failed':thm,'examples_failed':badex}
for sp in json.load(open(sys.argv[1])):
    r=run(sp); print(json.dumps({'def':sp['definition'],'edit':sp['old'][:60]+' => '+sp['new'][:60],**r}),flush=True)
    if 'error' not in r:
        with open('/tmp/w/mutout.jsonl','a') as fo:
            fo.write(json.dumps({'definition':sp['file']+': '+sp['definition'],'edit':sp['old']+'  ==>  '+sp['new'],'claim_broken':sp['claim'],'theorems_failed':r['theorems_failed'],'examples_failed':r['examples_failed'],'theorems_tightened':[]})+'\n')
