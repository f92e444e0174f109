import json,re,glob
# collects theorems by property prefix from *Props.v; notes in notes.json
names={}
for f in sorted(glob.glob('/verif/rocq/theories/*Props.v')):
    for m in re.finditer(r'^Theorem (C\d+)(_\w+)',open(f).read(),re.M):
        names.setdefault(m.group(1),[]).append(m.group(1)+m.group(2))
notes=json.load(open('/verif/tools/notes.json'))
claims=[]
for line in open('/verif/properties.jsonl'):
    p=json.loads(line)['id']
    n=notes.get(p,{})
    th=names.get(p,[])
    st=n.get('status') or ('proved' if th and not any(t.endswith(('_partial','_refuted')) for t in th) else ('partial' if th else 'partial'))
    if not th and n.get('status')!='not_applicable': 
        st='partial'; n={'note':n.get('note','not proved yet')}
    claims.append({"property":p,"status":st,"theorems":th,"note":n.get('note','')})
json.dump({"claims":claims},open('/verif/MANIFEST.json','w'),indent=1)
print({c['property']:(c['status'],len(c['theorems'])) for c in claims})
