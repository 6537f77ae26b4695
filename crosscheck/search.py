import sys
sys.setrecursionlimit(100000)
class Undef(Exception): pass
class Arr:
    def __init__(s,n,f): s.a=[f() for _ in range(max(n,0))]
    def __getitem__(s,i):
        if i<0 or i>=len(s.a): raise Undef("oob %d/%d"%(i,len(s.a)))
        return s.a[i]
    def __setitem__(s,i,v):
        if i<0 or i>=len(s.a): raise Undef("oob")
        s.a[i]=v
    def append(s,v): s.a.append(v)
    def __len__(s): return len(s.a)
class Rec:
    def __init__(s): s.c=None; s.next=None; s.prev=None; s.dead=False
def alive(r):
    if r is not None and r.dead: raise Undef("uaf")
    return r
class Var:
    def __init__(s,v,d):
        s.VAR=v; s.VAL=-1; s.D=d
        z=lambda x:(lambda:x)
        s.INDEX=Arr(d,z(-1)); s.LEVEL=Arr(d,z(-10)); s.ASSIGN=Arr(d,z(0)); s.CP=Arr(d,z(0)); s.CN=Arr(d,z(0))
        s.VS=Arr(d,z(0.0)); s.VN=Arr(d,z(0.0)); s.CID=Arr(d,z(-10)); s.WP=Arr(d,z(None)); s.WN=Arr(d,z(None))
        s.RP=Arr(d,list); s.RN=Arr(d,list)
    def add(s,c,d,f):
        t=Rec(); t.c=c
        if f:
            t.next=s.WP[d]
            if s.WP[d]: alive(t.next).prev=t
            s.WP[d]=t
        else:
            t.next=s.WN[d]
            if s.WN[d]: alive(t.next).prev=t
            s.WN[d]=t
    def remove(s,r,d,f):
        alive(r)
        if r.prev: alive(r.prev).next=r.next
        else:
            if f: s.WP[d]=r.next
            else: s.WN[d]=r.next
        if r.next: alive(r.next).prev=r.prev
        r.dead=True
class Clause:
    def __init__(s): s.A=[]; s.N=0; s.L=-1; s.W=[(-1,False,-1),(-1,False,-1)]
    def addAtom(s,a): s.A.append(a); s.N+=1
# literal = (var, eq, val)
class Formula:
    def __init__(s,heur,watch):
        s.V=Arr(0,None); s.C=Arr(0,None); s.LEV=0; s.UNITS=s.BT=s.DEC=s.ENT=0; s.UC=-1; s.CONF=False; s.CC=-1; s.DS=[]; s.RST=0
        s.WATCH=watch; s.H=heur; s.UL=[]
    def build(s,doms,clauses):
        s.V.append(Var(0,0)); s.V[0].VAL=0
        for i,d in enumerate(doms): s.V.append(Var(i+1,d))
        n=0
        for cl in clauses:
            c=Clause()
            for (v,e,x) in cl:
                c.addAtom((v,e,x))
                if e:
                    if s.H in('VSIDS','VSIDS_pos'): s.V[v].VS[x]+=1
                    elif s.H=='BK': s.V[v].CP[x]+=1
                    if not s.WATCH: s.V[v].RP[x].append(n)
                else:
                    if s.H=='VSIDS': s.V[v].VN[x]+=1
                    elif s.H=='BK': s.V[v].CN[x]+=1
                    elif s.H=='VSIDS_pos':
                        for j in range(s.V[v].D):
                            if j!=x: s.V[v].VS[j]+=1
                    if not s.WATCH: s.V[v].RN[x].append(n)
            s.C.append(c)
            if len(c.A)==1: s.UL.append(n)
            if s.WATCH:
                if not c.A: raise Undef("empty")
                w=c.A[0]; c.W[0]=w; s.V[w[0]].add(n,w[2],w[1])
                if len(c.A)>1:
                    w=c.A[1]; c.W[1]=w; s.V[w[0]].add(n,w[2],w[1])
            n+=1
    def verify(s):
        for c in s.C.a:
            sat=False
            for (v,e,x) in c.A:
                if s.V[v].ASSIGN[x]==(1 if e else -1): sat=True; break
            if not sat: return False
        return True
    def entail(s,v):
        flag=False; dv=-1
        for j in range(s.V[v].D):
            if s.V[v].ASSIGN[j]==0:
                if not flag: dv=j; flag=True
                else: flag=False; break
        return dv if flag else -1
    def chooseBK(s):
        mx=-2**31; tv=tx=-1; s.UC=-1
        for i in range(len(s.V)):
            V=s.V[i]
            if V.VAL==-1:
                for j in range(V.D):
                    if V.ASSIGN[j]==0:
                        t=V.CP[j]-V.CN[j]
                        if mx<t: mx=t; tv=i; tx=j
        return (tv,True,tx)
    def chooseVSIDS(s):
        mx=-1.0; tv=tx=-1; s.UC=-1; eq=False
        for i in range(len(s.V)):
            V=s.V[i]
            if V.VAL==-1:
                for j in range(V.D):
                    if V.ASSIGN[j]==0:
                        t=V.VS[j]
                        if mx<t: mx=t;tv=i;tx=j;eq=True
                        t=V.VN[j]
                        if mx<t: mx=t;tv=i;tx=j;eq=False
        return (tv,eq,tx)
    def choosePos(s):
        mx=-1.0; tv=tx=-1; s.UC=-1
        for i in range(len(s.V)):
            V=s.V[i]
            if V.VAL==-1:
                for j in range(V.D):
                    if V.ASSIGN[j]==0:
                        t=V.VS[j]
                        if mx<t: mx=t;tv=i;tx=j
        return (tv,True,tx)
    def reduce(s,v,eq,x):
        V=s.V[v]
        def setv(i,a):
            if s.H=='BK': V.CP[i]=0; V.CN[i]=0
            V.ASSIGN[i]=a; V.LEVEL[i]=s.LEV; V.CID[i]=s.UC; V.INDEX[i]=len(s.DS)-1
        if eq:
            s.DS.append((v,True,x))
            setv(x,1); V.VAL=x
            s.satisfy(v,True,x); s.removeLit(v,False,x)
            i=0
            while i<x and not s.CONF:
                if V.ASSIGN[i]==0:
                    setv(i,-1); s.satisfy(v,False,i); s.removeLit(v,True,i)
                i+=1
            i=x+1
            while i<V.D and not s.CONF:
                if V.ASSIGN[i]==0:
                    setv(i,-1); s.satisfy(v,False,i); s.removeLit(v,True,i)
                i+=1
        else:
            s.DS.append((v,False,x))
            setv(x,-1)
            s.satisfy(v,False,x); s.removeLit(v,True,x)
            ev=s.entail(v)
            if ev!=-1:
                s.ENT+=1; s.UC=-2; s.reduce(v,True,ev)
    def occ(s,v,eq,x): return s.V[v].RP[x] if eq else s.V[v].RN[x]
    def satisfy(s,v,eq,x):
        for k in list(s.occ(v,eq,x)):
            c=s.C[k]
            if c.L==-1:
                c.L=s.LEV; c.N=0
                if s.H=='BK':
                    for (a,e,b) in c.A:
                        if s.V[a].ASSIGN[b]==0:
                            if e: s.V[a].CP[b]-=1
                            else: s.V[a].CN[b]-=1
    def removeLit(s,v,eq,x):
        for k in list(s.occ(v,eq,x)):
            c=s.C[k]
            if c.L==-1:
                c.N-=1
                if c.N==1: s.UL.insert(0,k)
                if c.N==0: s.CONF=True; s.CC=k
    def unsatisfy(s,v,eq,x,level):
        for k in list(s.occ(v,eq,x)):
            c=s.C[k]
            if c.L>level:
                for (a,e,b) in c.A:
                    if s.V[a].LEVEL[b]>level or s.V[a].ASSIGN[b]==0:
                        c.N+=1
                        if s.H=='BK':
                            if e: s.V[a].CP[b]+=1
                            else: s.V[a].CN[b]+=1
                c.L=-1
    def addLit(s,v,eq,x):
        for k in list(s.occ(v,eq,x)):
            c=s.C[k]
            if c.L==-1:
                c.N+=1
                if s.H=='BK':
                    if eq: s.V[v].CP[x]+=1
                    else: s.V[v].CN[x]+=1
    def falsifies(s,l,d):
        if l[0]!=d[0]: return False
        if l[2]!=d[2] and (not l[1] or not d[1]): return False
        if l[2]==d[2] and l[1]==d[1]: return False
        return True
    def resolve(s,c,lit,r):
        res=Clause(); neg=(lit[0],not lit[1],lit[2])
        for a in c.A:
            if not s.falsifies(a,neg): res.addAtom(a)
        for a in r.A:
            if not s.falsifies(a,lit) and a not in res.A: res.addAtom(a)
        return res
    def potent(s,c):
        if len(c.A)==1: return True
        if s.WATCH:
            w=c.W[1]
            return s.V[w[0]].LEVEL[w[2]]<s.LEV
        flag=False
        for a in c.A:
            if s.V[a[0]].LEVEL[a[2]]==s.LEV:
                if flag: return False
                flag=True
        return flag
    def learn(s,c):
        c.N=0; s.C.append(c); cid=len(s.C)-1
        if s.WATCH:
            w=c.W[0]; s.V[w[0]].add(cid,w[2],w[1])
            if len(c.A)>1: w=c.W[1]; s.V[w[0]].add(cid,w[2],w[1])
        for (v,e,x) in c.A:
            if not s.WATCH:
                (s.V[v].RP if e else s.V[v].RN)[x].append(cid)
            if s.H=='VSIDS':
                if e: s.V[v].VS[x]+=1
                else: s.V[v].VN[x]+=1
            if s.H=='VSIDS_pos':
                if e: s.V[v].VS[x]+=1
                else:
                    for j in range(s.V[v].D):
                        if j!=x: s.V[v].VS[j]+=1
        for V in s.V.a:
            for j in range(V.D):
                if s.H=='VSIDS': V.VS[j]/=2; V.VN[j]/=2
                elif s.H=='VSIDS_pos': V.VS[j]/=2
    def btlevel(s,c):
        mx=-1
        for (v,e,x) in c.A:
            l=s.V[v].LEVEL[x]
            if s.LEV>l and mx<l: mx=l
        return mx if mx!=-1 else 0
    def undoDS(s):
        for i in range(len(s.DS)-1,-1,-1):
            if s.V[s.DS[i][0]].ASSIGN[s.DS[i][2]]==0: del s.DS[i]
    def undo(s,level):
        for i in range(1,len(s.V)):
            for j in range(s.V[i].D):
                if s.V[i].LEVEL[j]>level: s.addLit(i,s.V[i].ASSIGN[j]==-1,j)
        for i in range(1,len(s.V)):
            V=s.V[i]
            for j in range(V.D):
                if V.LEVEL[j]>level:
                    s.unsatisfy(i,V.ASSIGN[j]!=-1,j,level)
                    V.LEVEL[j]=-10; V.ASSIGN[j]=0; V.CID[j]=-10; V.VAL=-1
        s.undoDS()
    def wundo(s,level):
        for i in range(1,len(s.V)):
            V=s.V[i]
            for j in range(V.D):
                if V.LEVEL[j]>level:
                    V.VAL=-1; V.ASSIGN[j]=0; V.LEVEL[j]=-10; V.CID[j]=-10
        s.undoDS()
    def sat(s,l):
        a=s.V[l[0]].ASSIGN[l[2]]
        if a==(1 if l[1] else -1): return 1
        if a==0: return 2
        return 0
    def wfalsify(s,lit):
        V=s.V[lit[0]]
        cur=V.WP[lit[2]] if lit[1] else V.WN[lit[2]]
        while cur and not s.CONF:
            alive(cur)
            nxt=cur.next; c=s.C[cur.c]
            w1,w2=c.W
            if s.sat(w1)!=1:
                if len(c.A)>1 and s.sat(w2)==1: c.W[0]=w2; c.W[1]=w1
                else:
                    if w2==lit: c.W[0]=w2; c.W[1]=w1
                    s.swap(cur)
            cur=nxt
    def swap(s,cur):
        k=cur.c; c=s.C[k]; w1,w2=c.W; unit=True
        if len(c.A)>1 and s.sat(w2)==2:
            for l in c.A:
                if s.sat(l)!=0 and l!=w2:
                    s.V[w1[0]].remove(cur,w1[2],w1[1]); s.V[l[0]].add(k,l[2],l[1]); c.W[0]=l; unit=False; break
        else:
            s.CONF=True; s.CC=k; unit=False
        if unit: s.UL.insert(0,k)
    def wreduce(s,lit):
        v,eq,x=lit; V=s.V[v]
        def setv(i,a):
            V.ASSIGN[i]=a; V.LEVEL[i]=s.LEV; V.CID[i]=s.UC; V.INDEX[i]=len(s.DS)-1
        s.DS.append(lit)
        if eq:
            setv(x,1); V.VAL=x
            s.wfalsify((v,False,x))
            i=0
            while i<x and not s.CONF:
                if V.ASSIGN[i]==0: setv(i,-1); s.wfalsify((v,True,i))
                i+=1
            i=x+1
            while i<V.D and not s.CONF:
                if V.ASSIGN[i]==0: setv(i,-1); s.wfalsify((v,True,i))
                i+=1
        else:
            setv(x,-1); s.wfalsify((v,True,x))
            ev=s.entail(v)
            if ev!=-1: s.ENT+=1; s.UC=-2; s.wreduce((v,True,ev))
    def maxlit(s,c):
        ai=0;m=0
        for i,a in enumerate(c.A):
            d=s.V[a[0]].INDEX[a[2]]
            if m<d: m=d; ai=i
        return ai
    def assignW(s,c):
        w1=w2=(-1,False,-1); m=m2=-1
        for a in c.A:
            d=s.V[a[0]].INDEX[a[2]]
            if m<d: m2=m;m=d;w2=w1;w1=a
            elif m2<d: m2=d;w2=a
        c.W=[w1,w2]
    def analyze(s,c):
        while True:
            if s.potent(c): s.learn(c); return c
            if s.WATCH: lf=c.W[0]
            else:
                i=s.maxlit(c)
                if i>=len(c.A): raise Undef("maxlit")
                lf=c.A[i]
            v,x=lf[0],lf[2]; cid=s.V[v].CID[x]
            if cid==-1:
                i=s.V[v].INDEX[x]
                if i<0 or i>=len(s.DS): raise Undef("ds")
                f=s.DS[i]; r=Clause(); r.addAtom((f[0],True,f[2])); r.addAtom((f[0],False,f[2]))
            elif cid==-2:
                r=Clause()
                for j in range(s.V[v].D): r.addAtom((v,True,j))
            else: r=s.C[cid]
            res=s.resolve(c,lf,r)
            if s.WATCH: s.assignW(res)
            c=res
    def wprop(s):
        while not s.CONF and s.UL:
            s.UC=s.UL.pop(0); c=s.C[s.UC]
            if s.sat(c.W[0])==2: s.wreduce(c.W[0]); s.UNITS+=1
            elif len(c.A)>1 and s.sat(c.W[1])==2: s.wreduce(c.W[1]); s.UNITS+=1
    def prop(s):
        while not s.CONF and s.UL:
            s.UC=s.UL.pop(0); c=s.C[s.UC]
            if c.L==-1:
                for (v,e,x) in c.A:
                    if s.V[v].ASSIGN[x]==0: s.UNITS+=1; s.reduce(v,e,x); break
    def lazyW(s):
        for c in s.C.a:
            if s.sat(c.W[0])==2: return c.W[0]
        return (-1,False,-1)
    def lazy(s):
        for c in s.C.a:
            if c.L==-1:
                for l in c.A:
                    if s.sat(l)==2: return l
        return (-1,False,-1)
    def choose(s):
        if s.H=='VSIDS': return s.chooseVSIDS()
        if s.H=='VSIDS_pos': return s.choosePos()
        if s.H=='Lazy': return s.lazyW() if s.WATCH else s.lazy()
        if s.H=='BK': return (-1,False,-1) if s.WATCH else s.chooseBK()
    def nonchrono(s,rs):
        rc=rs
        while True:
            if s.CONF:
                if s.LEV==0: return 'UNSAT'
                l=s.analyze(s.C[s.CC])
                if s.WATCH:
                    if len(l.A)>1: s.LEV=s.V[l.W[1][0]].LEVEL[l.W[1][2]]
                    else: s.LEV=0
                else: s.LEV=s.btlevel(l)
                s.BT+=1; s.CONF=False
                U=s.wundo if s.WATCH else s.undo
                if s.BT==rc:
                    U(0); rc=s.BT+rs; s.RST+=1; s.UL=[]
                    if s.LEV==0: s.UL.append(len(s.C)-1)
                    s.LEV=0
                else:
                    U(s.LEV); s.UL=[len(s.C)-1]
            if s.UL: (s.wprop if s.WATCH else s.prop)()
            if not s.CONF:
                a=s.choose()
                if a[0]!=-1:
                    s.DEC+=1; s.LEV+=1; s.UC=-1
                    if s.WATCH: s.wreduce(a)
                    else: s.reduce(*a)
                else: return 'SAT'
    def chrono(s,level):
        s.LEV=level
        if s.UL: s.prop()
        if s.CONF:
            s.BT+=1; s.CONF=False; s.undo(s.LEV-1); s.UL=[]; s.LEV-=1; return 'UNSAT'
        a=s.chooseBK() if s.H=='BK' else s.lazy() if s.H=='Lazy' else (-1,False,-1)
        if a[0]!=-1:
            s.DEC+=1; s.LEV+=1
            s.reduce(*a)
            r=s.chrono(s.LEV)
            if r=='SAT': return r
            if s.LEV>=0:
                s.reduce(a[0],not a[1],a[2]); return s.chrono(s.LEV)
            return 'UNSAT'
        return 'SAT'
def run(mode,heur,watch,rs,doms,clauses):
    f=Formula(heur,watch)
    try:
        f.build(doms,clauses)
        v=f.nonchrono(rs) if mode=='NonChrono' else f.chrono(0)
        m=[(a,e,x) for (a,e,x) in f.DS if e] if v=='SAT' else []
        return (v,[f.DEC,f.UNITS,f.BT,f.ENT,len(f.V)-1,len(f.C),f.RST],[(a,x) for a,e,x in m], f.verify() if v=='SAT' else None, [tuple(a) for a in f.DS],[c.A for c in f.C.a])
    except Undef as e: return ('UNDEF',str(e))
