# builds MANIFEST.json from theorem names Cnn_* in Prop*.v plus notes
import re,glob,json,collections
notes=json.load(open('/verif/tools/notes.json'))
th=collections.defaultdict(list)
for f in sorted(glob.glob('/verif/rocq/theories/Prop*.v')):
    for m in re.finditer(r'^(?:Theorem|Corollary|Lemma) (C\d\d)(_\w+)',open(f).read(),re.M):
        th[m.group(1)].append(m.group(1)+m.group(2))
claims=[]
for l in open('/verif/properties.jsonl'):
    c=json.loads(l)['id']
    if c not in th and c not in notes: continue
    n=notes.get(c,{})
    st=n.get('status') or ('partial' if any(x.endswith(('_partial','_refuted')) for x in th[c]) else 'proved')
    claims.append({"property":c,"status":st,"theorems":th[c],"note":n.get('note','')})
json.dump({"claims":claims},open('/verif/MANIFEST.json','w'),indent=1)
print(len(claims),sum(len(c['theorems']) for c in claims))
