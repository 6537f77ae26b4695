# transcription of bitvec/Formula.cc, Variable.cc, Clause.cc

class UB(Exception): pass
class C:
    def __init__(s): s.atoms=[]; s.w=[(-1,0),(-1,0)]
    def add(s,l):
        for i,m in enumerate(s.atoms):
            if m[0]==l[0]: s.atoms[i]=(m[0],m[1]|l[1]); return
        s.atoms.append(l)
class F:
    def __init__(s,doms,clauses,vsids,restarts):
        s.dom=[0]+doms; s.cur=[(1<<d)-1 for d in s.dom]; s.nodes=[[] for _ in s.dom]; s.rec=[[] for _ in s.dom]
        s.sc=[[0.0]*d for d in s.dom]; s.cl=[]; s.ul=[]; s.uc=-1; s.conf=False; s.cc=-1; s.aix=0; s.level=0
        s.back=s.decs=s.units=s.rest=0; s.vsids=vsids; s.restarts=restarts
        for ls in clauses:
            c=C()
            for (v,d,e) in ls:
                c.add((v,1<<d) if e else (v,s.cur[v]&~(1<<d)))
            n=len(s.cl); s.cl.append(c)
            for (v,m) in c.atoms: s.bump(v,m)
            if len(c.atoms)==1: s.ul.append(n)
            c.w[0]=c.atoms[0]; s.rec[c.w[0][0]].insert(0,n)
            if len(c.atoms)>1: c.w[1]=c.atoms[1]; s.rec[c.w[1][0]].insert(0,n)
    def bump(s,v,m):
        for j in range(s.dom[v]):
            if m>>j&1: s.sc[v][j]+=1
    def v(s,x):
        if not 0<=x<len(s.dom): raise UB('OobAtom')
        return x
    def clause(s,n):
        if not 0<=n<len(s.cl): raise UB('OobClause')
        return s.cl[n]
    def sat(s,l):
        d=s.cur[s.v(l[0])]
        if d&~l[1]==0: return 1
        if d&l[1]==0: return 0
        return 2
    def node(s,l):
        for x in reversed(s.nodes[s.v(l[0])]):
            if x[3]&l[1]: return x
        return (-1,-1,-1,l[1])
    def update(s,v):
        for n in list(s.rec[v]):
            if s.conf: break
            c=s.cl[n]
            if s.sat(c.w[0])!=1:
                if s.sat(c.w[1])==1: c.w=[c.w[1],c.w[0]]
                else:
                    if c.w[1][0]==v: c.w=[c.w[1],c.w[0]]
                    if s.sat(c.w[0])==0: s.swap(v,n)
    def swap(s,v,n):
        c=s.cl[n]; a,b=c.w
        if s.sat(b)==2:
            for l in c.atoms:
                if s.sat(l)!=0 and l[0]!=b[0]:
                    if a[0]!=v: raise UB('BadList')
                    s.rec[v].remove(n); s.rec[l[0]].insert(0,n); c.w[0]=l; return
            s.ul.insert(0,n)
        else: s.conf=True; s.cc=n
    def reduce(s,l):
        v=s.v(l[0]); ch=s.cur[v]&~l[1]
        if ch:
            s.aix+=1; s.nodes[v].append((s.aix,s.level,s.uc,ch)); s.cur[v]&=l[1]; s.update(v)
    def prop(s):
        while not s.conf and s.ul:
            n=s.ul.pop(0); s.uc=n; c=s.clause(n)
            if s.sat(c.w[0])==2: s.reduce(c.w[0]); s.units+=1
            elif len(c.atoms)>1 and s.sat(c.w[1])==2: s.reduce(c.w[1]); s.units+=1
        if s.conf: s.ul=[]
    def learn(s,c,fresh):
        if not fresh: raise UB('Aliased')
        n=len(s.cl); s.cl.append(c); s.rec[s.v(c.w[0][0])].insert(0,n)
        if len(c.atoms)>1: s.rec[s.v(c.w[1][0])].insert(0,n)
        for (v,m) in c.atoms: s.bump(v,m)
        s.sc=[[x/2 for x in r] for r in s.sc]
    def analyze(s,c):
        fresh=False
        while True:
            if len(c.atoms)==1 or s.node(c.w[1])[1]<s.level:
                s.learn(c,fresh); return c
            a=c.w[0]; x=s.node(a); r=s.clause(x[2])
            q=C()
            for l in c.atoms:
                if l[0]!=a[0]: q.add(l)
            for l in r.atoms:
                if l[0]!=a[0]: q.add(l)
                elif l[1]&a[1]: q.add((a[0],l[1]&a[1]))
            w1=w2=(-1,0); m1=m2=-1
            for l in q.atoms:
                i=s.node(l)[0]
                if m1<i: m2=m1; m1=i; w2=w1; w1=l
                elif m2<i: m2=i; w2=l
            q.w=[w1,w2]; c=q; fresh=True
    def undo(s):
        for v in range(1,len(s.dom)):
            while s.nodes[v] and s.nodes[v][-1][1]>s.level:
                s.cur[v]|=s.nodes[v].pop()[3]; s.aix-=1
    def choose(s):
        if s.vsids:
            s.uc=-1; mx=-1; best=(-1,0)
            for v in range(len(s.dom)):
                if bin(s.cur[v]).count('1')>1:
                    for j in range(s.dom[v]):
                        if s.cur[v]>>j&1 and mx<s.sc[v][j]: mx=s.sc[v][j]; best=(v,1<<j)
            return best
        for c in s.cl:
            if s.sat(c.w[0])==2: return c.w[0]
        return (-1,0)
    def run(s,limit=10000):
        rc=s.restarts
        for it in range(limit):
            if s.conf:
                if s.level==0: return 'UNSAT'
                c=s.analyze(s.clause(s.cc))
                s.level=s.node(c.w[1])[1] if len(c.atoms)>1 else 0
                s.back+=1; s.conf=False
                s.undo()
                if s.back==rc:
                    rc=s.back+s.restarts; s.rest+=1; s.ul=[len(s.cl)-1] if s.level==0 else []; s.level=0
                else: s.ul=[len(s.cl)-1]
            if s.ul: s.prop()
            if not s.conf:
                l=s.choose()
                if l[0]!=-1:
                    s.decs+=1; s.level+=1; s.uc=-1; s.reduce(l)
                else: return 'SAT'
        return 'LIMIT'
    def verify(s): return all(any(s.cur[v]&~m==0 for v,m in c.atoms) for c in s.cl)
