#!/usr/bin/env python3
"""seedlog.py out.jsonl... : rewrite /verif/seeded/LOG.jsonl from the results of seed.py plus seeded/notes.json (theorems tightened)"""
import json, sys, os
notes=json.load(open('/verif/seeded/notes.json')) if os.path.exists('/verif/seeded/notes.json') else {}
out=[]
eq=json.load(open('/verif/seeded/equivalent.json'))
for f in sys.argv[1:]:
    for l in open(f):
        e=json.loads(l)
        first=[a for a in e['first_failures']]
        d={'name':e['name'],'definition':f"{e['file']}.v: {e['def']}",'edit':e['edit'],'claim':f"{', '.join(e['breaks'])}: {e['claim']}",
           'theorems_failed':e['failed'],'first_failing_lemmas':first[:8],'theorems_tightened':notes.get(e['name'],[])}
        if not e['failed'] and e['name'] in eq: d['claim']='none: '+eq[e['name']]
        out.append(json.dumps(d))
for f in ('/verif/seeded/auto1.jsonl','/verif/seeded/auto3.jsonl'):
    if not os.path.exists(f): continue
    for l in open(f):
        e=json.loads(l)
        if e['res']=='illtyped': continue
        key=f"{e['file']}:{e['def']}:{e['old']}:{e['new']}"
        d={'name':'auto','definition':f"{e['file']}.v: {e['def']}",'edit':f"line {e['line']}: {e['old']} -> {e['new']} in: {e['ctx']}",
           'claim':'found by the mechanical mutator: the definition no longer models the code','theorems_failed':[],
           'first_failing_lemmas':[e['who']] if e['who'] else [],'theorems_tightened':[]}
        if e['res']=='SURVIVED': d['claim']='none: '+eq.get(key,'NOT EXPLAINED')
        out.append(json.dumps(d))
open('/verif/seeded/LOG.jsonl','w').write('\n'.join(out)+'\n')
print(len(out))
