import json,re,glob
props=[json.loads(l)['id'] for l in open('/verif/properties.jsonl')]
notes=json.load(open('/verif/tools/notes.json'))
thms={}
for f in sorted(glob.glob('/verif/rocq/theories/Properties*.v')):
    for m in re.finditer(r'^Theorem (C\d\d\w*)',open(f).read(),re.M):
        n=m.group(1); thms.setdefault(re.match(r'C\d+',n).group(0),[]).append(n)
claims=[]
for p in props:
    t=thms.get(p,[])
    n=notes.get(p,{})
    st=n.get('status') or ('proved' if t and not any(x.endswith('_partial') or x.endswith('_refuted') for x in t) else 'partial')
    if not t and not n: continue
    claims.append(dict(property=p,status=st,theorems=t,note=n.get('note','')))
json.dump({"claims":claims},open('/verif/MANIFEST.json','w'),indent=1)
print(len(claims), [ (c['property'],c['status']) for c in claims])
