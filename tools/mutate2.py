import re,os,sys,subprocess,shutil,json,random,hashlib
from concurrent.futures import ThreadPoolExecutor
SRC='/verif/rocq'
FAM={ 'Heap':['HeapModel'],'Sched':['SchedModel'],'Graph':['GraphModel','PyDict'],'State':['StateModel'],'Version':['VersionModel','Regex'],
 'Split':['SplitModel'],'Delim':['DelimModel'],'Lines':['LinesModel'],'Words':['WordsModel'],'IntWords':['IntWordsModel'],'Combine':['CombineModel'],
 'Pushback':['PushbackModel'],'Log':['LogModel'],'Filename':['FilenameModel']}
def extra():
    order=[l.strip() for l in open(SRC+'/_CoqProject') if l.strip().startswith('theories/')]
    return [os.path.basename(o)[:-2] for o in order]
ORDER=extra()
for o in ORDER:
    if o.endswith('Model') and o[:-5] not in FAM: FAM[o[:-5]]=[o]
def family_files(fam):
    pref=fam
    fs=[o for o in ORDER if re.match(r'^%s(Model|Spec|Proof|Props|Parse)\d*$'%pref,o)]
    if fam=='Graph': fs=['PyDict','PyDictProof']+fs
    if fam=='Version': fs=['Regex','RegexProof']+fs
    return fs
OPS=[(r'<=\?','<?'),(r'<\?','<=?'),(r'(?<![<>])=\?','<=?'),(r'&&','||'),(r'\|\|','&&'),(r'\btrue\b','false'),(r'\bfalse\b','true'),
 (r'\bnegb ','id '),(r'\bif ','if negb '),(r'\brev ','id '),(r'\bskipn\b','firstn'),(r'\bfirstn\b','skipn'),
 (r'(?<![\w.])0(?![\w.])','1'),(r'(?<![\w.])1(?![\w.])','0'),(r'(?<![\w.])1(?![\w.])','2'),(r' - ',' + '),(r' \+ ',' - '),
 (r'\bValueError\b','TypeError'),(r'\bRuntimeError\b','ValueError'),(r'\bIndexError\b','ValueError'),
 (r'\bhd\b','last'),(r'\bexistsb\b','forallb'),(r'\bforallb\b','existsb'),(r'\bfst\b','snd'),(r'\bsnd\b','fst'),(r'\bmax\b','min'),(r'\bmin\b','max'),
 (r'\bNat.max\b','Nat.min'),(r'\bNat.min\b','Nat.max'),(r'\bZ.max\b','Z.min'),(r'\bZ.min\b','Z.max'),(r'\bSome (\w+)\b','None'),(r'\+\+ \[(\w+)\]',''),(r'(\w+) :: (\w+)(?=[ )])(?! =>)',r'\2'),
 (r'\[\]','CONT'),]
def mask(src):
    # positions inside comments or strings are masked
    m=bytearray(len(src)); depth=0; i=0; instr=False
    while i<len(src):
        if not instr and src.startswith('(*',i): depth+=1; m[i]=m[i+1]=1; i+=2; continue
        if depth and src.startswith('*)',i): depth-=1; m[i]=m[i+1]=1; i+=2; continue
        if not depth and src[i]=='"': instr=not instr; m[i]=1; i+=1; continue
        if depth or instr: m[i]=1
        i+=1
    return m
def defname(src,pos):
    name='?'
    for mm in re.finditer(r'^\s*(?:Definition|Fixpoint|Record|Inductive|with|Let)\s+(\w+)',src,re.M):
        if mm.start()>pos: break
        name=mm.group(1)
    return name
def mutants(fam):
    out=[]
    for f in FAM[fam]:
        p=f'{SRC}/theories/{f}.v'; src=open(p).read(); m=mask(src)
        for pat,rep in OPS:
            if rep=='CONT': continue
            for mm in re.finditer(pat,src):
                if any(m[mm.start():mm.end()]): continue
                new=mm.expand(rep) if '\\' in rep else rep
                # ``if negb X'' needs parenthesised cond
                if pat==r'\bif ':
                    k=src.find(' then',mm.end())
                    if k<0: continue
                    cond=src[mm.end():k]
                    if len(cond)>200 or 'if ' in cond: continue
                    s2=src[:mm.end()]+'negb ('+cond+')'+src[k:]
                else: s2=src[:mm.start()]+new+src[mm.end():]
                line=src.count('\n',0,mm.start())+1
                out.append((f,defname(src,mm.start()),line,pat,new if pat!=r'\bif ' else 'if negb',s2, src.split('\n')[line-1].strip(), s2.split('\n')[line-1].strip()))
    return out

ATOM=r"[\w.']+"
def args_of(src,i):
    """src[i]=='(' : parse top-level application inside parens -> list of (start,end) of atoms, or None"""
    depth=0;j=i+1;parts=[];st=None
    n=len(src)
    while j<n:
        c=src[j]
        if depth==0 and c==')':
            if st is not None: parts.append((st,j))
            return parts,j
        if depth==0 and c.isspace():
            if st is not None: parts.append((st,j)); st=None
            j+=1; continue
        if st is None: st=j
        if c in '([{': depth+=1
        elif c in ')]}': depth-=1
        if depth<0: return None
        j+=1
    return None
def defs(src):
    ds=[(m.start(),m.group(1),m.group(2)) for m in re.finditer(r'^\s*(Definition|Fixpoint|Record|Inductive|with|Let|Section|End|Notation)\s+(\w+)',src,re.M)]
    return [(a,(ds[i+1][0] if i+1<len(ds) else len(src)),k,n) for i,(a,k,n) in enumerate(ds)]
def mutants2(fam):
    out=[]
    for f in FAM[fam]:
        p=f'{SRC}/theories/{f}.v'; src=open(p).read(); m=mask(src)
        def add(a,b,new,tag):
            if src[a:b]==new: return
            s2=src[:a]+new+src[b:]
            line=src.count('\n',0,a)+1
            l1=s2.split('\n')[line-1].strip()
            out.append((f,defname(src,a),line,tag,new,s2,src.split('\n')[line-1].strip(),l1))
        ctors=[]
        for mm in re.finditer(r'Inductive\s+\w+[^.]*?:=([^.]*)\.',src):
            cs=[x.strip() for x in re.sub(r'\(\*.*?\*\)','',mm.group(1),flags=re.S).split('|')]
            cs=[x for x in cs if re.fullmatch(r'\w+',x)]
            for i,c in enumerate(cs):
                if len(cs)>1: ctors.append((c,cs[(i+1)%len(cs)],mm.end()))
        for c,d,e in ctors:
            for mm in re.finditer(r'\b%s\b'%c,src):
                if mm.start()<e or m[mm.start()]: continue
                add(mm.start(),mm.end(),d,'ctor')
        for (a,b,k,n) in defs(src):
            if k not in('Definition','Fixpoint','with','Let'): continue
            body=src.find(':=',a,b)
            if body<0: continue
            names=set()
            for mm in re.finditer(r"\(([\w' ]+) :",src[a:body]): names|=set(mm.group(1).split())
            for mm in re.finditer(r"let (\w+) :=|fun (\w+)|\| (\w+) =>|let '\(([\w, ]+)\)|Some (\w+) =>|(\w+) :: (\w+) =>",src[body:b]):
                for g in mm.groups():
                    if g: names|=set(x.strip() for x in g.split(','))
            names=[x for x in names if re.fullmatch(r'\w+',x) and x!='_']
            names.sort()
            for mm in re.finditer(r'\bif ',src[body:b]):
                x=body+mm.end()
                if m[x]: continue
                kx=src.find(' then',x)
                cond=src[x:kx]
                if kx<0 or len(cond)>200 or 'if ' in cond: continue
                add(x,kx,'true','if true'); add(x,kx,'false','if false')
                # drop a conjunct / disjunct
                for op in (' && ',' || '):
                    if op in cond and cond.count(op)==1:
                        l,r=cond.split(op)
                        if l.count('(')==l.count(')'):
                            add(x,kx,l,'drop operand'); add(x,kx,r,'drop operand')
            i=src.find('(',body,b)
            while 0<=i<b:
                if not m[i] and not src.startswith('(*',i):
                    r=args_of(src,i)
                    if r:
                        parts,j=r
                        if 2<=len(parts)<=8 and j-i<300 and re.fullmatch(ATOM,src[parts[0][0]:parts[0][1]]) and not any(src[x:y] in ('fun','forall','match','let','if','=>',':',':=','++','::','+','-','&&','||','=?','<?','<=?','|',',','*') for x,y in parts):
                            for x,y in parts[1:]: add(i,j+1,src[x:y],'call->arg')
                            for q in range(1,len(parts)-1):
                                (x,y),(u,v)=parts[q],parts[q+1]
                                add(x,v,src[u:v]+src[y:u]+src[x:y],'swap args')
                i=src.find('(',i+1,b)
            for mm in re.finditer(r"([\w.']+|\([^()]*\)|\[[^\[\]]*\]) \+\+ ([\w.']+|\([^()]*\)|\[[^\[\]]*\])",src[body:b]):
                x=body+mm.start()
                if m[x]: continue
                add(x,body+mm.end(),mm.group(2)+' ++ '+mm.group(1),'swap ++'); add(x,body+mm.end(),mm.group(1),'drop ++'); add(x,body+mm.end(),mm.group(2),'drop ++')
            for mm in re.finditer(r'(?<![\w.])(\d+)(?![\w.])',src[body:b]):
                x=body+mm.start(); v=int(mm.group(1))
                if m[x] or v<2: continue
                add(x,x+len(mm.group(1)),str(v+1),'number'); add(x,x+len(mm.group(1)),str(v-1),'number')
            for mm in re.finditer(r'\blength\b (\w+)',src[body:b]):
                x=body+mm.start()
                if not m[x]: add(x,body+mm.end(),'S (length %s)'%mm.group(1) if src[x-1]!='(' else 'S (length %s)'%mm.group(1),'length+1')
            for mm in re.finditer(r'\bS (\w+)',src[body:b]):
                x=body+mm.start()
                if not m[x]: add(x,body+mm.end(),mm.group(1),'S n')
            for mm in re.finditer(r"let (\w+) :=",src[body:b]):
                x=body+mm.start()
                if m[x]: continue
                kx=src.find(' in',x); v=mm.group(1); e=src[body+mm.end():kx]
                if kx>0 and re.search(r'\b%s\b'%v,e): add(x,kx+3,'','drop let')
            arms=[(body+mm.start(2),body+mm.end(2)) for mm in re.finditer(r'^(\s*\|[^|\n]*=> )([^|\n]+?)(?=\s*(?:end.*)?$)',src[body:b],re.M)]
            for (x,y),(u,v) in zip(arms,arms[1:]):
                if not m[x] and not m[u] and src[x:y]!=src[u:v]:
                    add(x,y,src[u:v],'arm body'); add(u,v,src[x:y],'arm body')
            vs=[(body+mm.start(),body+mm.end()) for mm in re.finditer(r"\b(%s)\b"%'|'.join(map(re.escape,names)),src[body:b])] if names else []
            for x,y in vs:
                if m[x]: continue
                o=[w for w in names if w!=src[x:y]]
                random.shuffle(o)
                for w in o[:2]: add(x,y,w,'variable')
    # balance operators
    by={}
    for o in out: by.setdefault(o[3],[]).append(o)
    for v in by.values(): random.shuffle(v)
    res=[]
    while any(by.values()):
        for k in sorted(by):
            if by[k]: res.append(by[k].pop())
    return res

def lemma_at(path,line):
    name='?'
    for i,l in enumerate(open(path),1):
        if i>line: break
        mm=re.match(r'\s*(?:Lemma|Theorem|Example|Corollary|Definition|Fixpoint)\s+(\w+)',l)
        if mm: name=mm.group(1)
    return name
def run(work,fam,mut,timeout=400):
    f,dn,line,pat,new,s2,l0,l1=mut
    th=work+'/theories'
    files=family_files(fam)
    path=f'{th}/{f}.v'
    orig=open(path).read()
    open(path,'w').write(s2)
    res=dict(file=f,definition=dn,line=line,before=l0,after=l1)
    try:
        idx=files.index(f)
        for g in files[idx:]:
            try: r=subprocess.run(['coqc','-Q','theories','Verif',f'theories/{g}.v'],cwd=work,capture_output=True,text=True,timeout=timeout)
            except subprocess.TimeoutExpired:
                res.update(result='killed',where=g,lemma='(timeout)'); return res
            if r.returncode:
                mm=re.search(r'line (\d+)',r.stderr)
                if g==f: res.update(result='invalid'); return res
                res.update(result='killed',where=g,lemma=lemma_at(f'{th}/{g}.v',int(mm.group(1)) if mm else 0)); return res
        res.update(result='SURVIVED'); return res
    finally:
        open(path,'w').write(orig)
def main():
    fam=sys.argv[1]; n=int(sys.argv[2]); workers=int(sys.argv[3]) if len(sys.argv)>3 else 2
    random.seed(int(sys.argv[4])); ms=mutants2(fam)
    print(fam,len(ms),'candidates',flush=True)
    done=set()
    NV=[0]
    out=open(f'/tmp/mut/{fam}.jsonl','a')
    ms=ms[:n*8]
    works=[]
    for w in range(workers):
        d=f'/tmp/mut/w_{fam}_{w}'; shutil.rmtree(d,ignore_errors=True); shutil.copytree(SRC,d,ignore=shutil.ignore_patterns('.git')); works.append(d)
    import queue,threading
    q=queue.Queue()
    for m in ms: q.put(m)
    lock=threading.Lock()
    def worker(d):
        # restore vo files after a mutant: keep pristine copies
        pr=d+'_pristine'; shutil.rmtree(pr,ignore_errors=True); shutil.copytree(d,pr)
        fs=family_files(fam)
        while True:
            try: m=q.get_nowait()
            except queue.Empty: break
            if NV[0]>=n: break
            r=run(d,fam,m); r['op']=m[3]
            if r['result']!='invalid': NV[0]+=1
            for g in fs:
                s=f'{pr}/theories/{g}.vo'
                if os.path.exists(s): shutil.copy2(s,f'{d}/theories/{g}.vo')
            with lock:
                out.write(json.dumps(r)+'\n'); out.flush()
                if r['result']=='SURVIVED': print(r,flush=True)
        shutil.rmtree(pr); shutil.rmtree(d)
    ts=[threading.Thread(target=worker,args=(d,)) for d in works]
    [t.start() for t in ts]; [t.join() for t in ts]
    print('done',fam,flush=True)
main()
