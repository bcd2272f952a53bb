import sys,json,subprocess,os,re,shutil,glob,time
muts=json.load(open(sys.argv[1])); out=sys.argv[2]; W=sys.argv[3] if len(sys.argv)>3 else '/tmp/mut/w'
done=set()
if os.path.exists(out):
    for l in open(out): done.add(json.loads(l)['key'])
def thm_at(f,line):
    ls=open(f).read().split('\n'); name='?'
    for i in range(min(line,len(ls))-1,-1,-1):
        m=re.match(r'\s*(?:Theorem|Lemma|Corollary|Example|Fact|Definition|Fixpoint)\s+(\w+)',ls[i])
        if m: return m.group(1)
    return name
for m in muts:
    key=m['file']+'|'+m['edit']
    if key in done: continue
    shutil.rmtree(W,ignore_errors=True); subprocess.run(['cp','-a','/tmp/mut/src',W],check=True)
    p=W+'/theories/'+m['file']; s=open(p).read()
    if s.count(m['old'])!=1:
        print('NOMATCH',s.count(m['old']),key,flush=True); continue
    open(p,'w').write(s.replace(m['old'],m['new']))
    bad=False
    for f2,o2,n2 in m.get('more',[]):
        p2=W+'/theories/'+f2; s2=open(p2).read()
        if s2.count(o2)!=1: print('NOMATCH2',s2.count(o2),key,flush=True); bad=True
        open(p2,'w').write(s2.replace(o2,n2))
    if bad: continue
    subprocess.run('coq_makefile -f _CoqProject -o Makefile >/dev/null',shell=True,cwd=W)
    t=time.time()
    r=subprocess.run('ulimit -v 6000000; timeout 1500 make -k -j1',shell=True,cwd=W,capture_output=True,text=True)
    txt=r.stdout+r.stderr
    failed=[]
    for mm in re.finditer(r'File "\./theories/(\w+)\.v", line (\d+), characters [^\n]*\nError',txt):
        failed.append(thm_at(W+'/theories/'+mm.group(1)+'.v',int(mm.group(2)))+' ('+mm.group(1)+'.v)')
    built={os.path.basename(x)[:-3] for x in glob.glob(W+'/theories/*.vo')}
    mt=lambda f:os.path.getmtime(f)
    # a .vo older than start is stale only if make did not rebuild: check with make -q per target
    blocked=[]
    for f in sorted(glob.glob(W+'/theories/Prop*.v')):
        b=os.path.basename(f)[:-2]
        q=subprocess.run(['make','-q','theories/'+b+'.vo'],cwd=W,capture_output=True)
        if q.returncode!=0: blocked.append(b)
    rec={'key':key,'file':m['file'],'definition':m['def'],'edit':m['edit'],'claim':m['claim'],'failed':failed,'blocked_prop_files':blocked,'secs':int(time.time()-t)}
    open(out,'a').write(json.dumps(rec)+'\n')
    print('SURVIVED' if not failed else 'killed',m['file'],m['edit'],failed[:3],flush=True)
