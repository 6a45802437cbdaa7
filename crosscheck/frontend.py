from classes import *
class Err(Exception):
    def __init__(s,kind,reason,index=None): s.kind,s.reason,s.index=kind,reason,index
def u8len(s): return len(s.encode('utf-8','surrogatepass'))
FL=dict(CASELESS=1,DOTALL=2,MULTILINE=4,SINGLEMATCH=8,ALLOWEMPTY=16,UTF8=32,UCP=64,PREFILTER=128,SOM_LEFTMOST=256,COMBINATION=512,QUIET=1024)
class Mode_:
    def __init__(s,f=0):
        s.caseless=bool(f&1); s.dotall=bool(f&2); s.isp=False; s.multiline=bool(f&4); s.ucp=bool(f&64); s.utf8=bool(f&32)
    def copy(s):
        m=Mode_(); m.__dict__.update(s.__dict__); return m
class Seq:
    def __init__(s,ci=None): s.children=[]; s.alt=None; s.ci=ci; s.name=None
    def add_alternation(s):
        if s.alt is None: s.alt=Alt()
        q=Seq(); q.children,s.children=s.children,q.children
        s.alt.children.append(q)
    def finalize(s,p):
        if s.alt is not None:
            s.add_alternation()
            p.dassert(lambda: not s.children)
            a=s.alt; s.alt=None
            s.children.append(a)
class Alt:
    def __init__(s): s.children=[]
class Cls:
    def __init__(s,cr): s.cr=cr
def control_verb(i):
    if not i.startswith('(*'): return None
    r=i[2:]; k=0
    while k<len(r) and r[k]!=')': k+=1
    if k==0: return None
    if k==len(r): return None
    return r[k+1:], r[:k]
UNS=["NO_AUTO_POSSESS","NO_START_OPT","UTF16","UTF32","CR","LF","CRLF","ANYCRLF","ANY","BSR_ANYCRLF","BSR_UNICODE"]
def read_verbs(i,start,m):
    r=control_verb(i)
    if r is None: return i
    rest,v=r
    if v=='UCP': m.ucp=True
    elif v in('UTF8','UTF'): m.utf8=True
    elif v in UNS or v.startswith('LIMIT_MATCH=') or v.startswith('LIMIT_RECURSION='):
        raise Err('LocatedParse','Unsupported control verb %s at index %d'%(v,start+2))
    else: raise Err('LocatedParse','Unknown control verb %s at index %d'%(v,start+2))
    return rest
def lit_class(p,c,nocase):
    if ord(c)>0xff: raise Err('LocatedParse','Hexadecimal value is greater than \\xFF')
    n=from_char(p,ord(c)&255)
    if nocase: make_caseless(n)
    return Cls(BF(p)|n)
def parse(p,ptr,m):
    rest=read_verbs(ptr,0,m)
    mode=m.copy(); stack=[]; gi=1; cur=Seq(0)
    while rest:
        c=rest[0]; ts=rest
        if c=='(':
            q=Seq(gi); gi=p.add(32,gi,1)
            cur,q=q,cur
            stack.append((q,p.sub(p.w,u8len(ts),u8len(ptr)),mode))
        elif c==')':
            if not stack: raise Err('LocatedParse','Unmatched parentheses')
            q,_,md=stack.pop()
            cur,q=q,cur
            q.finalize(p)
            cur.children.append(q); mode=md
        elif c=='|': cur.add_alternation()
        else:
            if not ord(c)<128: raise P('PAssert')
            cur.children.append(lit_class(p,c,mode.caseless))
        rest=rest[1:]
    if stack: raise Err('Parse','Missing close parenthesis for group started at index %d.'%stack[-1][1])
    cur.finalize(p)
    return cur
class Vis:
    def pre_cls(s,c):pass
    def pre_alt(s,c):pass
    def pre_seq(s,c):pass
    def post(s):pass
def walk(p,v,c):
    if isinstance(c,Cls): v.pre_cls(c); v.post()
    elif isinstance(c,Alt):
        v.pre_alt(c)
        for x in c.children: walk(p,v,x)
        v.post()
    else:
        p.dassert(lambda: c.alt is None)
        v.pre_seq(c)
        for x in c.children: walk(p,v,x)
        v.post()
class Dump(Vis):
    def __init__(s): s.o=''; s.l=0
    def f(s): return '  '*s.l
    def pre_cls(s,c):
        s.o+=s.f()+'ASCII CLASS\n'+s.f()+'  '+describe_class(c.cr,256,'Text')+'\n'; s.l+=1
    def pre_alt(s,c): s.o+=s.f()+'ALTERNATION\n'; s.l+=1
    def pre_seq(s,c):
        s.o+=s.f()+'SEQUENCE'
        s.o+=' (capture index %d)'%c.ci if c.ci is not None else ' (not captured)'
        s.o+='\n'
        s.l+=1
        if not c.children: s.o+=s.f()+' <empty>\n'
    def post(s): s.l-=1
class NotLit(Exception): pass
class LitVis(Vis):
    def __init__(s): s.s=[]; s.nc=[]
    def push(s,p,c,nc):
        if nc: c=toupper(p,c)
        s.s.append(c); s.nc.append(nc)
    def pre_cls(s,c):
        w=c.cr.count()
        if w==1: s.push(c.cr.p,c.cr.find_first(),False)
        elif w==2 and is_caseless_char(c.cr): s.push(c.cr.p,c.cr.find_first(),True)
        else: raise NotLit()
    def pre_alt(s,c): raise NotLit()
def mixed(p,s,nc):
    cs=n=False
    for c,f in zip(s,nc):
        if not isalpha(p,c): continue
        if f: n=True
        else: cs=True
    return cs and n
class Trie:
    def __init__(s): s.c=[0]; s.reports=[set()]; s.kids=[[]]; s.edges=[]
    def add(s,l,r):
        u=0
        for c in l:
            for v in reversed(s.kids[u]):
                if s.c[v]==c: u=v; break
            else:
                n=len(s.c); s.c.append(c); s.reports.append(set()); s.kids.append([]); s.kids[u].append(n); s.edges.append((u,n)); u=n
        s.reports[u].add(r)
        return len(s.c)<=8000
class G:
    def __init__(s,**k):
        s.allow_literal=True; s.flood=False; s.shortcut=True; s.asw=True; s.lb=70; s.mp=10000; s.mlit=10000; s.lpc=8000000; s.lpl=16000; s.lrc=32000000
        s.__dict__.update(k)
class Ng:
    def __init__(s,p,g,n):
        s.p,s.g=p,g; s.minw=(1<<31)-1; s.ids=[]; s.ext={}; s.ex={}; s.ge=True
        s.poison=(not g.asw) or n>g.mp; s.nl=0; s.t=Trie(); s.tn=Trie(); s.som=False
        s.graphs=[]
    def internal(s):
        # every report made equals min_length 0
        if s.ids: return 0
        if len(s.ids)>=s.g.lrc: raise Err('ResourceLimit','Resource limit exceeded.')
        s.ids.append(0); return 0
    def add_literal(s,l,nc,idx,rep,hi,quiet):
        p=s.p
        p.dassert(lambda: len(l)>0)
        if not s.g.shortcut: return False
        if mixed(p,l,nc): return False
        if rep in s.ext:
            eh,ei=s.ext[rep]
            if eh!=hi:
                raise Err('Other','Expression (index %d) with match ID %d %s SINGLEMATCH whereas previous expression (index %d) with the same match ID did%s'%(idx,rep,'specified ' if hi else 'did not sepcify ',ei,' not.' if eh else '.'),idx)
        else: s.ext[rep]=(hi,idx)
        if not hi: s.ge=False
        if hi: s.ex.setdefault(rep,len(s.ex))
        i=s.internal()
        if len(l)>(1<<31)-2: raise Err('Other','depth overflow')
        s.minw=min(s.minw,len(l))
        if s.poison: return True
        if len(l)>s.g.lb: return True
        s.nl+=1
        if s.nl>s.g.mlit: s.poison=True; return True
        t=s.tn if any(nc) else s.t
        if not t.add(l,i): s.poison=True
        return True
    def add_expression(s,idx,e,f,rep):
        p=s.p
        if u8len(e)>s.g.lpl: raise Err('Other','Pattern length exceeds limit.')
        hi=bool(f&8); quiet=bool(f&1024)
        if f&(1024|256)==(1024|256): raise Err('Other','QUIET is not supported in combination with SOM_LEFTMOST.')
        m=Mode_(f & ~1024)
        root=parse(p,e,m)
        done=False
        if s.g.allow_literal:
            v=LitVis()
            try:
                walk(p,v,root); ok=True
            except NotLit: ok=False
            if ok and v.s: done=s.add_literal(v.s,v.nc,idx,rep,hi,quiet)
        if not done: s.graphs.append(build_graph(p,root))
def build_graph(p,root):
    full=(M64,)*4
    verts=[full,full,(0,)*4,(0,)*4]
    succ={}
    # connect_regions([start,start_ds],[start_ds])
    succ[0]=[1]; succ[1]=[1]
    def note(c):
        if isinstance(c,Cls): verts.append(tuple(c.cr.bits))
        else:
            for x in c.children: note(x)
    note(root)
    return verts
def compile_multi(p,exps,fs,ids,g):
    if not exps: raise Err('Other','Invalid parameter: expressions is empty')
    if len(exps)>g.lpc: raise Err('Other','Number of patterns too large')
    ng=Ng(p,g,len(exps))
    for i,(e,f,d) in enumerate(zip(exps,fs,ids)):
        try: ng.add_expression(i,e,f,d)
        except Err as x:
            p.dassert(lambda: x.index is None)
            x.index=i
            raise x
    return ng

# build_state.rs; a position is (pos, flags)
EPS=(1<<32)-2
class State:
    def __init__(s,p,sp,flags,succ): s.p=p; s.start,s.ds,s.acc,s.eod=sp; s.flags=list(flags); s.succ=succ
    def connect_regions(s,lasts,firsts):
        for l in lasts: s.connect_successors(l,list(firsts))
    def connect_successors(s,fr,to):
        s.p.dassert(lambda: fr[0]!=EPS)
        has=lambda f,x: f&x==x
        if fr[0]==s.ds:
            to=[e for e in to if not has(e[1],1)]
            if has(fr[1],1): to=[]
        elif fr[0]==s.start:
            to=[e for e in to if e[0]!=EPS or e[1]==0]
            to=[e for e in to if not has(e[1],0x11)]
        if fr[0]>=len(s.flags): raise P('PExpect')
        if has(s.flags[fr[0]],0x100): to=[e for e in to if e[0]!=s.eod]
        for i,e in enumerate(to):
            if e[0]==s.acc:
                s.flags.append(0); to[i]=(len(s.flags)-1,0); break
        d=s.succ.setdefault(fr[0],[])
        for e in to:
            if e not in d: d.append(e)
def round_up(p,w,a,m): return p.add(w,a,m)&(255^m)
def lit_order(a,b):
    for x,y in ((a[0],b[0]),(a[1],b[1])):
        if x!=y: return 0 if x<y else 2
    return 1
