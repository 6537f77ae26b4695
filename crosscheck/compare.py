import random,subprocess,re,sys
from search import run
random.seed(int(sys.argv[1])); N=int(sys.argv[2]); wild=len(sys.argv)>3
H=['BK','VSIDS','VSIDS_pos','Lazy']
def lit(l): return "mkLit %d %d %s"%(l[0],l[2],'true' if l[1] else 'false')
cases=[]
for _ in range(N):
    n=random.randint(1,7); doms=[random.randint(1 if wild and random.random()<.15 else 2,5) for _ in range(n)]
    m=random.randint(1,8*n); cls=[]
    neg=random.random()
    for _ in range(m):
        k=random.randint(1,4); c=[]
        if wild and random.random()<.01: k=0
        for _ in range(k):
            v=random.randint(1,n); x=random.randrange(doms[v-1]); e=random.random()>neg
            if (v,e,x) not in c or (wild and random.random()<.3): c.append((v,e,x))
        cls.append(c)
    mode=random.choice(['NonChrono']*5+['Chrono']); h=random.choice(H) if mode=='NonChrono' else random.choice(['BK','Lazy'])
    w=mode=='NonChrono' and random.random()<.5
    if w and h=='BK': h='VSIDS'
    rs=random.choice([0,0,1,2,3])
    cases.append((mode,h,w,rs,doms,cls))
src='''From Coq Require Import ZArith List. Import ListNotations. From Verif Require Import Spec Outcome State ModelBuild ModelSearch Observe Cases.
Open Scope Z_scope.
Definition st (x : outcome (report * state)) := match x with Ok (r,s) => (match r_verdict r with SAT => 1 | UNSAT => 2 | TIMEOUT => 3 end, [r_decisions r; r_units r; r_backtracks r; r_entails r; r_variables r; r_clauses r; r_restarts r],
  map (fun l => (lvar l, lval l)) (r_model r), match r_verified r with Some true => 1 | Some false => 0 | None => 2 end, map (fun l => (lvar l, (if leq l then 1 else 0), lval l)) (DST (tr s)), map (fun c => map (fun l => (lvar l, (if leq l then 1 else 0), lval l)) c) (cl s)) | OutOfFuel => (9,[],[],9,[],[]) | _ => (0,[],[],0,[],[]) end.
'''
for (mode,h,w,rs,d,c) in cases:
    src+="Eval vm_compute in st (solve 3000 %s (mkCfg %s %s true) never %d (mkProblem [%s] [%s])).\n"%(mode,h,str(w).lower(),rs,';'.join(map(str,d)),';'.join('['+';'.join(map(lit,k))+']' for k in c))
f='/tmp/diff%s.v'%sys.argv[1]
open(f,'w').write(src)
o=subprocess.run(['coqc','-Q','/verif/rocq/theories','Verif',f],capture_output=True,text=True)
if o.returncode: print(o.stderr[:500])
out=re.findall(r'= \((.*?)\)\n\s+: ',o.stdout,re.S)
assert len(out)==N,(len(out),N)
bad=0; from collections import Counter; cnt=Counter(); bt=0
for case,t in zip(cases,out):
    got=eval('('+t.replace(';',',')+',)')
    got=got[0] if len(got)==1 else got
    r=run(*case)
    if r[0]=='UNDEF': exp=(0,)
    else:
        exp=({'SAT':1,'UNSAT':2}[r[0]],r[1],r[2],{True:1,False:0,None:2}[r[3]],[(a,int(e),x) for a,e,x in r[4]],[[(a,int(e),x) for a,e,x in c] for c in r[5]])
    cnt[(exp[0],case[0],case[1],case[2])]+=1
    if exp[0]: bt+=exp[1][2]
    if (exp[0]==0 and got[0]!=0) or (exp[0]!=0 and tuple(got)!=tuple(exp)):
        bad+=1
        if bad<4: print('MISMATCH',case,'\nport',exp,'\ncoq',got, r if exp[0]==0 else '')
print('bad',bad,'of',N,'backtracks',bt,dict(cnt))
