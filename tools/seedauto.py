import json,os,re,subprocess,sys,random,time
SRC='/tmp/seed/repo/rocq'; W='/tmp/seed/workC'
FILES=['CallModel','CursorModel','NodeModel','BfsModel','ClientModel','SizeModel','PanicModel','CmpModel','StackModel','WalkModel','IterModel','TupleModel','NotationModel','ThreadModel','MisuseModel','RcModel','RcCmpModel','RcExtModel','RcPanicModel','DebugModel','RcDropPanicModel','SplitModel','RcOwnModel','OwnModel','Machine']
def defs(s):
    # spans of definitions
    out=[]
    for m in re.finditer(r'(?m)^(Definition|Fixpoint|with|Program Definition|Record|Inductive)\s+(\w+)',s):
        if m.group(1) in('Record','Inductive'): continue
        e=re.compile(r'\n(?=\(\*\*|Definition|Fixpoint|with |Section|End|Local|Arguments|Implicit|Context|Record|Inductive|Notation|#)').search(s,m.end())
        out.append((m.group(2),m.start(),e.start() if e else len(s)))
    return out
RULES=[
 (r'(?<=[\s(])1(?=[\s);,])','0'),(r'(?<=[\s(])1(?=[\s);,])','2'),(r'(?<=[\s(])0(?=[\s);,])','1'),
 (r'\bFront\b','Back'),(r'\bBack\b','Front'),(r'\btrue\b','false'),(r'\bfalse\b','true'),
 (r'\bn_prev\b','n_next'),(r'\bn_next\b','n_prev'),(r'\bn_deg\b','n_desc'),(r'\bn_desc\b','n_deg'),
 (r'\.1\b','.2'),(r'\.2\b','.1'),(r'<\?','<=?'),(r'<=\?','<?'),(r'\bpop_front\b','pop_back'),(r'\bpush_back\b','push_front'),
 (r'\bhd\b','tl'),(r'\bfst\b','snd'),(r' \+ ',' - '),(r' - ',' + '),(r'\badd\b','sub'),(r'\bsub\b','add'),
 (r'Some (\w+) => ret \w+','None'),(r'negb ',''),(r'\bn_up\b','n_prev'),(r'&&','||'),(r'\|\|','&&'),
 (r'\bset_up\b','set_prev'),(r'\bset_prev\b','set_next'),(r'\bset_next\b','set_prev'),(r'\bset_deg\b','set_desc'),
 (r'\binc_sizes\b','dec_sizes'),(r'\bdec_sizes\b','inc_sizes'),(r'\bdeg\b','desc'),(r'\bdg\b','ds'),(r'\bds\b','dg'),
 (r'\bp\b','q'),(r'\bq\b','p'),(r'\(Some (\w+)\)',r'None'),(r'\bEPanic\b','EUB'),(r'\bdelete (\w+) env\b','env'),
 (r"\[\]",'l'),(r'(\w+) \+\+ (\w+)',r'\2 ++ \1'),(r'\bS (\w+)\b',r'\1'),(r'Nat\.eqb (\w+) (\w+)',r'negb (Nat.eqb \1 \2)'),
]
def muts(f):
    s=open(f'{SRC}/theories/{f}.v').read(); res=[]
    for n,a,b in defs(s):
        body=s[a:b]; k=body.find(':=')
        if k<0: continue
        # blank out comments
        bb=re.sub(r'\(\*.*?\*\)',lambda m:' '*len(m.group(0)),body,flags=re.S)
        # drop statement "stmt ;;"
        for m in re.finditer(r'(?m)(?<=[\n ])([a-z_]+(?: [^;\n!|]*?)?) ;;',bb):
            if m.start()>k: res.append((f,n,a+m.start(),a+m.end(),'ret tt ;;'))
        for pat,rep in RULES:
            for m in re.finditer(pat,bb):
                if m.start()>k: res.append((f,n,a+m.start(),a+m.end(),m.expand(rep)))
    return s,res
def sh(c,t=None):
    try:
        r=subprocess.run(c,shell=True,capture_output=True,text=True,timeout=t); return r.returncode,r.stdout+r.stderr
    except subprocess.TimeoutExpired: return 1,'TIMEOUT'
if __name__=='__main__':
    if sys.argv[1]=='count':
        for f in FILES: print(f,len(muts(f)[1]))
        sys.exit()
    out=sys.argv[1]; seed=int(sys.argv[2]); N=int(sys.argv[3]); files=sys.argv[4:] or FILES
    rnd=random.Random(seed); done=set()
    if os.path.exists(out):
        for l in open(out): d=json.loads(l); done.add((d['file'],d['def'],d['off'],d['new']))
    todo=[]
    per={}
    for f in files:
        s,r=muts(f); rnd.shuffle(r)
        # spread over definitions
        bydef={}
        for x in r: bydef.setdefault(x[1],[]).append(x)
        per[f]=(s,bydef)
    rounds=0
    while len(todo)<N and rounds<50:
        for f in files:
            s,bd=per[f]
            for d in list(bd):
                if bd[d]: todo.append(bd[d].pop())
        rounds+=1
    rnd.shuffle(todo)
    sh(f'rm -rf {W} && cp -a {SRC} {W}')
    for (f,n,a,b,new) in todo[:N]:
        if (f,n,a,new) in done: continue
        s=per[f][0]; p=f'{W}/theories/{f}.v'
        open(p,'w').write(s[:a]+new+s[b:])
        t=time.time()
        rc,o=sh(f'cd {W} && timeout 200 nice coqc -Q theories Verif theories/{f}.v 2>&1 | head -c 500',260)
        if 'Error' in o: res='illtyped'; who=''
        else:
            rc,o=sh(f'cd {W} && nice make -j1 COQC="timeout 300 coqc" 2>&1',3600)
            m=re.search(r'File "\./theories/(\w+)\.v", line (\d+), characters (\d+)-',o)
            if rc==0: res='SURVIVED'; who=''
            elif m and m.group(1)==f: res='illtyped'; who=''
            elif m:
                res='killed'
                lines=open(f'{W}/theories/{m.group(1)}.v').read().split('\n')[:int(m.group(2))]
                nm=re.findall(r'(?:Lemma|Theorem|Example|Corollary|Definition|Fixpoint)\s+(\w+)','\n'.join(lines))
                who=m.group(1)+'.'+(nm[-1] if nm else '?')
            else: res='killed'; who='timeout '+str(re.findall(r'theories/(\w+)\.vo\] Error',o))
        ln=s.count('\n',0,a)+1
        ctx=s[s.rfind('\n',0,a)+1:s.find('\n',b)].strip()
        json.dump(dict(file=f,**{'def':n},off=a,old=s[a:b],new=new,line=ln,ctx=ctx[:200],res=res,who=who,sec=int(time.time()-t)),open(out,'a')); open(out,'a').write('\n')
        # restore
        sh(f'rm -rf {W} && cp -a {SRC} {W}')
