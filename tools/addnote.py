import json,sys
p='/verif/tools/notes.json';n=json.load(open(p))
for k,v in json.load(sys.stdin).items(): n[k]={"note":v} if isinstance(v,str) else v
json.dump(n,open(p,'w'),indent=1)
