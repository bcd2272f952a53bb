# Convert the raw records of the mutation runner into seeded/LOG.jsonl:  mutlog.py o1.jsonl o2.jsonl ...
import sys,json,re,glob
thms={}
for f in glob.glob('/verif/rocq/theories/Prop*.v'):
    b=f.split('/')[-1][:-2]
    thms[b]=re.findall(r'^(?:Theorem|Corollary|Lemma)\s+(C\d+_\w+)',open(f).read(),re.M)
TIGHT={"any value written to an enumeration":["C43_set_enum (added)"],
 "create flag inverted":["C37_create (added)","C37_no_create (added)","C37_progress (added)"],
 "backslash newline kept by the shell (model of the shell)":["C36_continuation_refuted (added)"],
 "types of outer modules written without scope":["C39_renamed_refuted (added)","C39_absolute_nontrivial (added)","C39_scope_partial (added)"],
 "types of modules elsewhere written with the whole scope but no leading ::":["C39_scope_partial (added)"],
 "forward declaration of a declared name accepted":["C55_twice_refuted (added)"],
 "bytes of an enumeration copied":["C26_enum_cast (added)"]}
out=open('/verif/seeded/LOG.jsonl','w')
for o in sys.argv[1:]:
    for l in open(o):
        r=json.loads(l)
        ids=re.findall(r'C\d\d',r['claim'])
        dep=[t for b in r['blocked_prop_files'] for t in thms.get(b,[]) if t[:3] in ids]
        failed=r['failed'] or []
        out.write(json.dumps({"definition":r['file']+': '+r['definition'],"edit":r['edit'],"claim":r['claim'],
          "theorems_failed":failed,"claim_theorems_that_no_longer_build":dep,
          "theorems_tightened":TIGHT.get(r['edit'],[]) if not failed else []})+'\n')
