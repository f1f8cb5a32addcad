"""Convert the raw results of tools/mutate.py (/tmp/mut/*.jsonl) into
/verif/seeded/LOG.jsonl.  The claim that an edit breaks is found by following,
textually, which property theorems (Cnn_...) depend on the lemma that stopped
proving.  Hand-written attempts live in tools/mut_hand.jsonl."""
import re,os,glob,json,sys
V='/verif'; TH=V+'/rocq/theories'
order=[l.strip() for l in open(V+'/rocq/_CoqProject') if l.strip().startswith('theories/')]
body={}
for o in order:
    src=open(V+'/rocq/'+o).read()
    ms=list(re.finditer(r'^\s*(?:Local\s+)?(?:Lemma|Theorem|Corollary|Example|Definition|Fixpoint|Inductive|Record|CoInductive|Fact|Remark)\s+(\w+)',src,re.M))
    for i,m in enumerate(ms):
        e=ms[i+1].start() if i+1<len(ms) else len(src)
        body.setdefault(m.group(1),(os.path.basename(o)[:-2],set()))[1].update(re.findall(r"[A-Za-z_][\w']*",src[m.end():e]))
users={}
for n,(f,b) in body.items():
    for t in b:
        if t in body and t!=n: users.setdefault(t,set()).add(n)
def up(n):
    seen={n}; st=[n]
    while st:
        x=st.pop()
        for y in users.get(x,()):
            if y not in seen: seen.add(y); st.append(y)
    return sorted(x for x in seen if re.match(r'^C\d+_',x))
titles={}
for l in open(V+'/properties.jsonl'):
    d=json.loads(l); titles[d['id']]=d['title']
HARMLESS=[tuple(x) for x in json.load(open(V+'/tools/mut_notes.json'))]
def note(f,after):
    for (ff,sub,n) in HARMLESS:
        if ff==f and sub in after: return n
    return None
out=[]
srcs={os.path.basename(o)[:-2]:open(V+'/rocq/'+o).read() for o in order}
def defname(f,before,line,given):
    src=srcs.get(f,''); ls=src.split('\n')
    cand=[i for i,l in enumerate(ls) if l.strip()==before]
    if not cand: return given
    i=min(cand,key=lambda i:abs(i+1-line)); pos=sum(len(l)+1 for l in ls[:i])+len(ls[i])
    name=given
    for mm in re.finditer(r'^\s*(?:Local\s+)?(?:Definition|Fixpoint|Record|Inductive|with)\s+(\w+)(?!.*=>)',src,re.M):
        if mm.start()>pos: break
        name=mm.group(1)
    return name
seen=set()
for p in sorted(glob.glob('/tmp/mut/*.jsonl')):
    fam=os.path.basename(p)[:-6]
    for l in open(p):
        r=json.loads(l)
        if r['result']=='invalid' or '=> id ' in r['after']: continue
        k=(r['file'],r['line'],r['before'],r['after'])
        if k in seen: continue
        seen.add(k)
        r['definition']=defname(r['file'],r['before'],r['line'],r['definition'])
        if r['result']=='killed':
            if r['lemma']=='(timeout)': lem=[]; thms=[r['where']+' (no longer terminates within the limit)']
            else: lem=up(r['lemma']); thms=[r['lemma']]
            src=lem or up(r['definition'])
            fams={body[c][0] for c in src}
            ids=sorted({c.split('_')[0] for c in src})
            own=[c for c in src if body[c][0].startswith(fam) or (fam=='Regex')] or src
            ids=sorted({c.split('_')[0] for c in own})
            out.append(dict(definition=r['file']+'.'+r['definition'],edit=r['before']+'   ~~>   '+r['after'],
              claim='; '.join(i+' '+titles.get(i,'') for i in ids[:3])+(' (and %d more)'%(len(ids)-3) if len(ids)>3 else ''),
              theorems_failed=thms+[c+' (depends on it)' for c in own[:6] if c not in thms],theorems_tightened=([r['lemma']] if r.get('tightened') else []),verdict='caught'))
        else:
            n=note(r['file'],r['after'])
            own=[c for c in up(r['definition']) if body[c][0].startswith(fam)]
            out.append(dict(definition=r['file']+'.'+r['definition'],edit=r['before']+'   ~~>   '+r['after'],
              claim=(n or {}).get('claim','none: '+(n or {}).get('why','not reviewed')),
              theorems_failed=[],theorems_tightened=(n or {}).get('tightened',[]),verdict=(n or {}).get('verdict','survived'),note=(n or {}).get('why','')))
hand=V+'/tools/mut_hand.jsonl'
if os.path.exists(hand):
    for l in open(hand):
        if l.strip(): out.append(json.loads(l))
os.makedirs(V+'/seeded',exist_ok=True)
with open(V+'/seeded/LOG.jsonl','w') as f:
    for r in out: f.write(json.dumps(r)+'\n')
print(len(out), sum(r.get('verdict')=='caught' for r in out), [ (r['definition'],r['edit']) for r in out if r.get('claim','').endswith('not reviewed')][:0])
for r in out:
    if r.get('claim','').endswith('not reviewed'): print(r['definition'],'|',r['edit'])
