#!/usr/bin/env python3
"""Test the theorems against wrong programs, in a scratch copy.

usage: seed.py mutations.json out.jsonl [names...]
A mutation is {"name","file","def" (definition edited),"old","new","claim","breaks":[property ids]}.  The edit is applied to a scratch copy of
/verif/rocq, the copy is rebuilt, every proof that fails is replaced by Admitted and the build goes on; in the end
Print Assumptions tells which manifest theorems rest on a proof that failed.
"""
import json, os, re, subprocess, sys, time
BASE=os.environ.get('SEEDBASE','/tmp/seed/repo'); SRC=BASE+'/rocq'; W=os.environ.get('SEEDW','/tmp/seed/work')
def sh(c,t=None):
    try:
        r=subprocess.run(c,shell=True,capture_output=True,text=True,timeout=t); return r.stdout+r.stderr
    except subprocess.TimeoutExpired as e: return 'TIMEOUT'
def admit(f,off):
    """replace the proof around offset off (in bytes) by Admitted; returns the lemma's name or None"""
    b=open(f,'rb').read()
    start=b.rfind(b'Proof',0,off+6)
    if start<0: return None
    m=re.compile(rb'(Qed|Defined)\.').search(b,start)
    if not m or m.end()<off-2: return None
    names=re.findall(rb'(?:Lemma|Theorem|Example|Corollary|Remark|Instance|Fact)\s+([A-Za-z0-9_\']+)',b[:start])
    open(f,'wb').write(b[:start]+b'Admitted.'+b[m.end():])
    return names[-1].decode()
def run(m):
    sh(f'rm -rf {W} && cp -a {SRC} {W}')
    f=f'{W}/theories/{m["file"]}.v'; s=open(f).read()
    k=re.search(r'(Definition|Fixpoint|with) '+re.escape(m['def'])+r'\b',s).start()
    e=re.compile(r'\n(Definition|Fixpoint|\(\*\*)').search(s,k+5); e=e.start() if e else len(s)
    assert m['old'] in s[k:e],m['name']
    open(f,'w').write(s[:k]+s[k:e].replace(m['old'],m['new'],1)+s[e:])
    sh(f'cd {W} && coq_makefile -f _CoqProject -o Makefile')
    admitted=[]; stuck=[]
    for it in range(60):
        out=sh(f'cd {W} && nice make -k -j2 COQC="timeout 240 coqc" 2>&1',3600)
        errs=re.findall(r'File "\./theories/(\w+)\.v", line (\d+), characters (\d+)-(\d+):\nError',out)
        touts=re.findall(r'theories/(\w+)\.vo\] Error 124',out)
        prog=False
        for (F,l,c,_) in errs:
            p=f'{W}/theories/{F}.v'; b=open(p,'rb').read().split(b'\n')
            off=sum(len(x)+1 for x in b[:int(l)-1])+int(c)
            n=admit(p,off)
            if n is None: stuck.append((F,l))
            else: admitted.append(F+'.'+n); prog=True
        for F in touts:
            p=f'{W}/theories/{F}.v'
            o=sh(f'cd {W} && timeout 60 coqc -time -Q theories Verif theories/{F}.v 2>&1')
            cs=re.findall(r'Chars (\d+) - (\d+)',o)
            off=int(cs[-1][1])+2 if cs else 0
            n=admit(p,off)
            if n is None: stuck.append((F,'timeout'))
            else: admitted.append(F+'.'+n+' (timeout)'); prog=True
        if not prog: break
    man=json.load(open(BASE+'/MANIFEST.json'))
    props=sorted(x[:-3] for x in os.listdir(f'{W}/theories') if x.startswith('Prop') and x.endswith('.vo'))
    thms=[(c['property'],t) for c in man['claims'] for t in c['theorems']]
    seen=[];
    for _,t in thms:
        if t not in seen: seen.append(t)
    return admitted,stuck,sorted(assume(props,seen))
def assume(props,thms):
    """the theorems that rest on an axiom, found by bisection: Print Assumptions of a tuple costs as much as that of one theorem"""
    p=subprocess.Popen(['coqtop','-q','-Q','theories','Verif'],cwd=W,stdin=subprocess.PIPE,stdout=subprocess.PIPE,stderr=subprocess.STDOUT,text=True)
    n=[0]
    def ask(cmd):
        n[0]+=1
        p.stdin.write(cmd+f'\nGoal True. idtac "@@{n[0]}@@". Abort.\n'); p.stdin.flush()
        out=''
        while f'@@{n[0]}@@' not in out.replace('idtac',''):
            l=p.stdout.readline()
            if not l: raise RuntimeError('coqtop ended: '+out[-300:])
            out+=l
        return out
    ask('From Coq Require Import String.')
    for x in props: ask(f'From Verif Require Import {x}.')
    failed=set()
    def go(ts):
        if not ts: return
        o=ask(f'Definition tup_{n[0]} := '+'(' + ', '.join('@'+t for t in ts)+')'+f'.\nPrint Assumptions tup_{n[0]}.')
        if 'Closed under the global context' in o: return
        if len(ts)==1:
            failed.add(ts[0] + (' (not built)' if 'was not found' in o or 'Axioms' not in o else '')); return
        k=len(ts)//2; go(ts[:k]); go(ts[k:])
    for k in range(0,len(thms),24): go(thms[k:k+24])
    p.stdin.close(); p.kill()
    return failed
if __name__=='__main__':
    ms=json.load(open(sys.argv[1])); names=sys.argv[3:]
    done=set()
    if os.path.exists(sys.argv[2]):
        done={json.loads(l)['name'] for l in open(sys.argv[2])}
    for m in ms:
        if names and m['name'] not in names: continue
        if m['name'] in done: continue
        t=time.time()
        try: a,st,fl=run(m)
        except Exception as e: a,st,fl=[],[repr(e)],[]
        open(sys.argv[2],'a').write(json.dumps({'name':m['name'],'file':m['file'],'def':m['def'],'claim':m['claim'],'breaks':m['breaks'],'edit':'%s -> %s'%(m['old'],m['new']),'first_failures':a,'stuck':st,'failed':fl,'secs':int(time.time()-t)})+'\n')
