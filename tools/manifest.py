import json,re,glob
# status per property; theorem names collected from files by prefix Cnn_
ths={}
for f in sorted(glob.glob('/verif/rocq/theories/*Props.v')):
    for m in re.finditer(r'^\s*Theorem (C\d\d+)_(\w+)',open(f).read(),re.M):
        ths.setdefault(m.group(1),[]).append(m.group(1)+"_"+m.group(2))
notes=json.load(open('/verif/tools/notes.json'))
props=[json.loads(l) for l in open('/verif/properties.jsonl')]
out=[]
for p in props:
    i=p['id']; t=ths.get(i,[])
    n=notes.get(i,{})
    st=n.get('status')
    if st is None: st='proved' if t and not any(x.endswith('_partial') or x.endswith('_refuted') for x in t) else 'partial'
    if not t:
        st='partial'; 
    note=n.get('note','' if t else 'not yet modelled')
    out.append(dict(property=i,status=st,theorems=t,note=note))
json.dump({"claims":out},open('/verif/MANIFEST.json','w'),indent=1)
print([(o['property'],o['status'],len(o['theorems'])) for o in out if o['theorems']])
print('missing',[o['property'] for o in out if not o['theorems']])
