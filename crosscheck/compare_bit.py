import random,subprocess,re,sys
from collections import Counter
from bitsearch import F,UB
random.seed(int(sys.argv[1])); N=int(sys.argv[2])
def lit(l): return "mkLit %d %d %s"%(l[0],l[1],'true' if l[2] else 'false')
cases=[]
for _ in range(N):
    n=random.randint(2,8); doms=[random.randint(2,random.choice([2,3,5])) for _ in range(n)]
    neg=random.random(); cls=[]; w=random.choice([[1,2,3,4],[2,3],[3]]); few=random.random()<.8
    for _ in range(random.randint(1,10*n)):
        c=[]
        for _ in range(random.choice(w)):
            v=random.randint(1,n); c.append((v,random.randrange(doms[v-1]),random.random()>neg))
        if len({l[0] for l in c})>1 or not few or random.random()<.05: cls.append(c)
    if cls: cases.append((random.random()<.5,random.choice([0,0,0,1,2,3]),doms,cls))
src='''From Coq Require Import ZArith List. Import ListNotations. From Verif Require Import Spec Outcome State ModelBuild ModelSearch ModelBit Cases.
Open Scope Z_scope.
Definition st (x : outcome (breport * bst)) := match x with Ok (r,s) => (match br_verdict r with SAT => 1 | UNSAT => 2 | TIMEOUT => 3 end, [br_decisions r; br_units r; br_backtracks r; br_variables r; br_clauses r; br_restarts r],
  br_model r, match br_verified r with Some true => 1 | Some false => 0 | None => 2 end, bcl s) | OutOfFuel => (9,[],[],9,[]) | Undef OobAtom => (0,[],[],0,[]) | Undef OobClause => (0,[],[],1,[]) | _ => (0,[],[],2,[]) end.
'''
for (vs,rs,d,c) in cases:
    src+="Eval vm_compute in st (bsolve 3000 (mkBcfg %s true) never %d (mkProblem [%s] [%s])).\n"%(str(vs).lower(),rs,';'.join(map(str,d)),';'.join('['+';'.join(map(lit,k))+']' for k in c))
f='/tmp/dbit%s.v'%sys.argv[1]
open(f,'w').write(src)
o=subprocess.run(['coqc','-Q','/verif/rocq/theories','Verif',f],capture_output=True,text=True)
if o.returncode: print(o.stderr[:500])
out=re.findall(r'= \((.*?)\)\n\s+: ',o.stdout,re.S)
assert len(out)==len(cases),(len(out),len(cases))
bad=0; cnt=Counter(); bt=0
for case,t in zip(cases,out):
    got=eval('('+t.replace(';',',')+')')
    vs,rs,d,c=case; x=F(list(d),c,vs,rs)
    try: r=x.run(3000)
    except UB as e: r=str(e)
    if r in ('SAT','UNSAT'):
        exp=({'SAT':1,'UNSAT':2}[r],[x.decs,x.units,x.back,len(d),len(x.cl),x.rest],list(enumerate(x.cur)) if r=='SAT' else [],
             int(x.verify()) if r=='SAT' else 2,[k.atoms for k in x.cl]); bt+=x.back
    elif r=='LIMIT': exp=(9,[],[],9,[])
    else: exp=(0,[],[],{'OobAtom':0,'OobClause':1}.get(r,2),[])
    cnt[(r,vs,rs)]+=1
    if tuple(got)!=exp:
        bad+=1
        if bad<4: print('MISMATCH',case,'\nport',exp,'\ncoq',got)
print('bad',bad,'of',len(cases),'backtracks',bt,dict(cnt))
