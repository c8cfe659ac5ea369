#!/usr/bin/env python3
"""Mutation tests.  usage: mutate.py LISTFILE [id ...]
LISTFILE is a python file defining M = [dict(id, file, old, new, definition, edit, claim)].
Each mutant is applied to a scratch copy of /verif/rocq in /tmp/mut, rebuilt with make -k, and the
first failing theorem of every file is recorded in seeded/LOG.jsonl."""
import sys, os, re, json, subprocess, shutil
ROOT='/verif'
BASE=os.environ.get('MUTBASE','/tmp/mutbase')  # a built copy of the last good commit's rocq/
ns={}
exec(open(sys.argv[1]).read(), ns)
only=set(sys.argv[2:])
log=os.path.join(ROOT,'seeded','LOG.jsonl')
done=set()
if os.path.exists(log):
    for l in open(log):
        done.add(json.loads(l).get('id'))
def enclosing(path,line):
    name=None
    for i,l in enumerate(open(path),1):
        m=re.match(r'\s*(?:Local )?(Theorem|Lemma|Corollary|Example|Definition|Fixpoint|Fact|Remark|Instance)\s+(\S+)',l)
        if m: name=m.group(2).rstrip(':')
        if i>=line: return name
    return name
for m in ns['M']:
    if m['id'] in done or (only and m['id'] not in only): continue
    D='/tmp/mut'
    shutil.rmtree(D,ignore_errors=True)
    subprocess.run(['cp','-a',BASE,D],check=True)
    p=f"{D}/theories/{m['file']}"
    s=open(p).read()
    n=s.count(m['old'])
    k=m.get('nth',0)
    if n==0 or (n>1 and 'nth' not in m):
        print('BAD PATTERN',m['id'],n); continue
    parts=s.split(m['old'])
    s=m['old'].join(parts[:k+1])+m['new']+m['old'].join(parts[k+1:])
    open(p,'w').write(s)
    subprocess.run('coq_makefile -f _CoqProject -o Makefile',shell=True,cwd=D,check=True,stdout=subprocess.DEVNULL)
    try:
        r=subprocess.run('make -k -j3',shell=True,cwd=D,capture_output=True,text=True,timeout=2400)
        out=r.stdout+r.stderr
    except subprocess.TimeoutExpired as e:
        out=(e.stdout or b'').decode()+(e.stderr or b'').decode(); subprocess.run('pkill -f /tmp/mut',shell=True)
    if r.returncode!=0 and 'Error' not in out: print('BUILD TROUBLE',m['id'],out[-500:]); continue
    failed=[];blocked=[]
    for mm in re.finditer(r'File "\./theories/(\w+\.v)", line (\d+)',out):
        if 'Warning' in out[mm.end():mm.end()+60]: continue
        t=f"{mm.group(1)[:-2]}.{enclosing(D+'/theories/'+mm.group(1),int(mm.group(2)))}"
        if t not in failed: failed.append(t)
    files=[l.strip() for l in open(D+'/_CoqProject') if l.strip().endswith('.v')]
    for f in files:
        b=os.path.basename(f)[:-2]
        vo=f"{D}/{f}o"
        if (not os.path.exists(vo) or os.path.getmtime(vo)<os.path.getmtime(p)) and not any(t.startswith(b+'.') for t in failed):
            # stale or missing: blocked by a failed dependency, if it depends on it
            blocked.append(b)
    # only files depending on the mutated one can be stale
    dep=subprocess.run(['coqdep','-Q','theories','Verif']+files,cwd=D,capture_output=True,text=True).stdout
    g={}
    for l in dep.splitlines():
        mm=re.match(r'theories/(\w+)\.vo.*?:(.*)',l)
        if mm: g[mm.group(1)]=set(re.findall(r'theories/(\w+)\.vo\b',mm.group(2)))
    def reach(x,t,seen=None):
        seen=seen or set()
        if x in seen: return False
        seen.add(x)
        return x==t or any(reach(y,t,seen) for y in g.get(x,()))
    mf=m['file'][:-2]
    blocked=[b for b in blocked if reach(b,mf)]
    rec=dict(id=m['id'],definition=m['definition'],edit=m['edit'],claim=m['claim'],
             killed=bool(failed),failed=failed,files_blocked=blocked,tightened=[])
    print(json.dumps(rec),flush=True)
    with open(log,'a') as f: f.write(json.dumps(rec)+'\n')
