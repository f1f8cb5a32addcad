import re,os,sys,subprocess,shutil,json,random,hashlib
from concurrent.futures import ThreadPoolExecutor
SRC='/verif/rocq'
FAM={ 'Heap':['HeapModel'],'Sched':['SchedModel'],'Graph':['GraphModel','PyDict'],'State':['StateModel'],'Version':['VersionModel','Regex'],
 'Split':['SplitModel'],'Delim':['DelimModel'],'Lines':['LinesModel'],'Words':['WordsModel'],'IntWords':['IntWordsModel'],'Combine':['CombineModel'],
 'Pushback':['PushbackModel'],'Log':['LogModel'],'Filename':['FilenameModel']}
def extra():
    order=[l.strip() for l in open(SRC+'/_CoqProject') if l.strip().startswith('theories/')]
    return [os.path.basename(o)[:-2] for o in order]
ORDER=extra()
for o in ORDER:
    if o.endswith('Model') and o[:-5] not in FAM: FAM[o[:-5]]=[o]
def family_files(fam):
    pref=fam
    fs=[o for o in ORDER if re.match(r'^%s(Model|Spec|Proof|Props|Parse)\d*$'%pref,o)]
    if fam=='Graph': fs=['PyDict','PyDictProof']+fs
    if fam=='Version': fs=['Regex','RegexProof']+fs
    return fs
OPS=[(r'<=\?','<?'),(r'<\?','<=?'),(r'(?<![<>])=\?','<=?'),(r'&&','||'),(r'\|\|','&&'),(r'\btrue\b','false'),(r'\bfalse\b','true'),
 (r'\bnegb ','id '),(r'\bif ','if negb '),(r'\brev ','id '),(r'\bskipn\b','firstn'),(r'\bfirstn\b','skipn'),
 (r'(?<![\w.])0(?![\w.])','1'),(r'(?<![\w.])1(?![\w.])','0'),(r'(?<![\w.])1(?![\w.])','2'),(r' - ',' + '),(r' \+ ',' - '),
 (r'\bValueError\b','TypeError'),(r'\bRuntimeError\b','ValueError'),(r'\bIndexError\b','ValueError'),
 (r'\bhd\b','last'),(r'\bexistsb\b','forallb'),(r'\bforallb\b','existsb'),(r'\bfst\b','snd'),(r'\bsnd\b','fst'),(r'\bmax\b','min'),(r'\bmin\b','max'),
 (r'\bNat.max\b','Nat.min'),(r'\bNat.min\b','Nat.max'),(r'\bZ.max\b','Z.min'),(r'\bZ.min\b','Z.max'),(r'\bSome (\w+)\b','None'),(r'\+\+ \[(\w+)\]',''),(r'(\w+) :: (\w+)(?=[ )])(?! =>)',r'\2'),
 (r'\[\]','CONT'),]
def mask(src):
    # positions inside comments or strings are masked
    m=bytearray(len(src)); depth=0; i=0; instr=False
    while i<len(src):
        if not instr and src.startswith('(*',i): depth+=1; m[i]=m[i+1]=1; i+=2; continue
        if depth and src.startswith('*)',i): depth-=1; m[i]=m[i+1]=1; i+=2; continue
        if not depth and src[i]=='"': instr=not instr; m[i]=1; i+=1; continue
        if depth or instr: m[i]=1
        i+=1
    return m
def defname(src,pos):
    name='?'
    for mm in re.finditer(r'^\s*(?:Definition|Fixpoint|Record|Inductive|with|Let)\s+(\w+)',src,re.M):
        if mm.start()>pos: break
        name=mm.group(1)
    return name
def mutants(fam):
    out=[]
    for f in FAM[fam]:
        p=f'{SRC}/theories/{f}.v'; src=open(p).read(); m=mask(src)
        for pat,rep in OPS:
            if rep=='CONT': continue
            for mm in re.finditer(pat,src):
                if any(m[mm.start():mm.end()]): continue
                new=mm.expand(rep) if '\\' in rep else rep
                # ``if negb X'' needs parenthesised cond
                if pat==r'\bif ':
                    k=src.find(' then',mm.end())
                    if k<0: continue
                    cond=src[mm.end():k]
                    if len(cond)>200 or 'if ' in cond: continue
                    s2=src[:mm.end()]+'negb ('+cond+')'+src[k:]
                else: s2=src[:mm.start()]+new+src[mm.end():]
                line=src.count('\n',0,mm.start())+1
                out.append((f,defname(src,mm.start()),line,pat,new if pat!=r'\bif ' else 'if negb',s2, src.split('\n')[line-1].strip(), s2.split('\n')[line-1].strip()))
    return out
def lemma_at(path,line):
    name='?'
    for i,l in enumerate(open(path),1):
        if i>line: break
        mm=re.match(r'\s*(?:Lemma|Theorem|Example|Corollary|Definition|Fixpoint)\s+(\w+)',l)
        if mm: name=mm.group(1)
    return name
def run(work,fam,mut,timeout=400):
    f,dn,line,pat,new,s2,l0,l1=mut
    th=work+'/theories'
    files=family_files(fam)
    path=f'{th}/{f}.v'
    orig=open(path).read()
    open(path,'w').write(s2)
    res=dict(file=f,definition=dn,line=line,before=l0,after=l1)
    try:
        idx=files.index(f)
        for g in files[idx:]:
            try: r=subprocess.run(['coqc','-Q','theories','Verif',f'theories/{g}.v'],cwd=work,capture_output=True,text=True,timeout=timeout)
            except subprocess.TimeoutExpired:
                res.update(result='killed',where=g,lemma='(timeout)'); return res
            if r.returncode:
                mm=re.search(r'line (\d+)',r.stderr)
                if g==f: res.update(result='invalid'); return res
                res.update(result='killed',where=g,lemma=lemma_at(f'{th}/{g}.v',int(mm.group(1)) if mm else 0)); return res
        res.update(result='SURVIVED'); return res
    finally:
        open(path,'w').write(orig)
def main():
    fam=sys.argv[1]; n=int(sys.argv[2]); workers=int(sys.argv[3]) if len(sys.argv)>3 else 2
    ms=mutants(fam); random.seed(hash(fam)%1000 if len(sys.argv)<5 else int(sys.argv[4])); random.shuffle(ms); 
    print(fam,len(ms),'candidates',flush=True)
    ms=ms[:n]
    out=open(f'/tmp/mut/{fam}.jsonl','a')
    works=[]
    for w in range(workers):
        d=f'/tmp/mut/w_{fam}_{w}'; shutil.rmtree(d,ignore_errors=True); shutil.copytree(SRC,d,ignore=shutil.ignore_patterns('.git')); works.append(d)
    import queue,threading
    q=queue.Queue()
    for m in ms: q.put(m)
    lock=threading.Lock()
    def worker(d):
        # restore vo files after a mutant: keep pristine copies
        pr=d+'_pristine'; shutil.rmtree(pr,ignore_errors=True); shutil.copytree(d,pr)
        fs=family_files(fam)
        while True:
            try: m=q.get_nowait()
            except queue.Empty: break
            r=run(d,fam,m)
            for g in fs:
                s=f'{pr}/theories/{g}.vo'
                if os.path.exists(s): shutil.copy2(s,f'{d}/theories/{g}.vo')
            with lock:
                out.write(json.dumps(r)+'\n'); out.flush()
                if r['result']=='SURVIVED': print(r,flush=True)
        shutil.rmtree(pr); shutil.rmtree(d)
    ts=[threading.Thread(target=worker,args=(d,)) for d in works]
    [t.start() for t in ts]; [t.join() for t in ts]
    print('done',fam,flush=True)
main()
