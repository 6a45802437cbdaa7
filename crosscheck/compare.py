"""Compares the Coq model with a second, independent reading of the Rust text.

classes.py and frontend.py restate the code of /repo/src in Python, written from the
Rust text and not from the model.  This script draws random inputs, lets Coq evaluate
the model on them and prints the inputs on which the two differ.  It proves nothing;
it looks for slips in the transcription.  No code of /repo is run.

usage: compare.py SEED ROUNDS [all|bf|parse|connect|compile] [directory with the .vo files]
"""
import os, random, re, subprocess, sys, tempfile
from frontend import *
seed=int(sys.argv[1]); N=int(sys.argv[2]); R=random.Random(seed)
HDR='''From Verif Require Import Base ModelUtil ModelBitField ModelCharReach ModelDump ModelLiteral ModelReport ModelPetgraph ModelParser ModelNfa ModelSmallWrite ModelCompiler.
Local Open Scope N_scope.
Definition pn (w : panic) : N := match w with POverflow => 0 | PAssert => 1 | PDebugAssert => 2 | PIndex => 3 | PExpect => 4 | PCapacity => 5 | PUnimplemented => 6 end.
Definition enc {A} (f : A -> list N) (o : outcome A) : list N := match o with Ret a => 1 :: f a | Panic w => [2; pn w] | Diverge => [3] end.
Definition ebf (b : bitfield) := words b.
Definition en (n : N) := [n].
Definition eb (b : bool) := [if b then 1 else 0].
Definition eo (o : option N) := match o with Some n => [1; n] | None => [0] end.
Definition el (l : list N) := l.
Definition ep (x : N * N) := [fst x; snd x].
Definition ek (k : error_kind) : N := match k with EParse => 0 | ELocatedParse => 1 | EResourceLimit => 2 | EOther => 3 end.
Definition ee (e : compile_error) := ek (err_kind e) :: (match err_index e with Some i => [1; i] | None => [0] end) ++ err_reason e.
Definition er {A} (f : A -> list N) (r : result compile_error A) := match r with ROk a => 1 :: f a | RErr e => 0 :: ee e end.
Definition dump_of (p : profile) (x : component * parse_mode) : list N :=
  let m := snd x in
  eb (caseless m) ++ eb (dotall m) ++ eb (multiline m) ++ eb (ucp m) ++ eb (utf8 m) ++
  enc (fun r => match r with ROk s => 1 :: s | RErr _ => [0] end) (dump_tree p (fst x)).
Definition eng (n : ng) : list N :=
  let et t := node_count (lt_inner t) :: flat_map (fun v => tp_c v :: N.of_nat (List.length (tp_reports v)) :: tp_reports v) (nodes (lt_inner t)) ++ flat_map ep (edges (lt_inner t)) in
  [depth_val (ng_min_width n); N.of_nat (List.length (report_ids (ng_rm n)))] ++ eb (global_exhaust (ng_rm n))
  ++ flat_map ep (exhaust_map (ng_rm n))
  ++ flat_map (fun kv => [fst kv; if ei_highlander (snd kv) then 1 else 0; ei_first_index (snd kv)]) (external_map (ng_rm n))
  ++ eb (sw_poisoned (ng_smwr n)) ++ [sw_num_literals (ng_smwr n)] ++ et (sw_trie (ng_smwr n)) ++ et (sw_trie_nocase (ng_smwr n)).
Definition egr (x : expression_info * ng_holder) : list N :=
  flat_map (fun v => ebf (char_reach v)) (nodes (inner (snd x))) ++ flat_map ep (edges (inner (snd x))).
Definition bg (p : profile) (s : str) (f i : N) : list N :=
  enc (er (fun pe => enc egr (build_graph p pe))) (parsed_expression_new p 0 s f i).
Definition ec (c : comparison) : list N := [match c with Lt => 0 | Eq => 1 | Gt => 2 end].
Definition epos (x : position_info) := [pi_pos x; pi_flags x].
Definition ebs (b : build_state) := map assert_flags (nodes (inner (nb_graph (bs_builder b)))) ++ [77777] ++
  flat_map (fun kv => fst kv :: N.of_nat (List.length (snd kv)) :: flat_map epos (snd kv)) (bs_successors b).
Definition conn (p : profile) (a b c d : N) (fl : list N) (ls fs : list (N * N)) : list N :=
  let h := NgHolder (Graph (map (VertexProps cr_default []) fl) []) a b c d in
  let st := BuildState a b c d (NfaBuilder h (ExpressionInfo 0 0 false false false false SomNone false)) [] in
  let pi x := PositionInfo (fst x) (snd x) in
  enc ebs (let! s1 := connect_regions p st (map pi ls) (map pi fs) in connect_regions p s1 (map pi fs) (map pi ls)).
Definition cm (p : profile) (es : list str) (fs ids : list N) (g : grey) : list N :=
  let cc := CompileContext false false g in
  enc (er (fun n => eng n)) (add_all p (ng_new cc (N.of_nat (List.length es)) 0) 0 (zip3 es fs ids)) ++ [99999]
  ++ enc (er (fun _ => [])) (compile_multi_int p es fs ids Block g).
'''
PN=dict(POverflow=0,PAssert=1,PDebugAssert=2,PIndex=3,PExpect=4,PCapacity=5)
KN=dict(Parse=0,LocatedParse=1,ResourceLimit=2,Other=3)
def enc(f):
    try: return [1]+f()
    except P as e:
        return [3] if e.args[0]=='Diverge' else [2,PN[e.args[0]]]
def erse(f):
    try: return [1]+f()
    except Err as e: return [0,KN[e.kind]]+([1,e.index] if e.index is not None else [0])+[ord(c) for c in e.reason]
def S(s): return [ord(c) for c in s]
def L(l): return '['+'; '.join(map(str,l))+']'
def cb(b): return 'true' if b else 'false'
def coqbf(b): return '(BF %d %d %d %d)'%tuple(b.bits)
def randbf(p):
    b=BF(p); k=R.randrange(9)
    if k==0:
        b.bits=[R.getrandbits(64) for _ in range(4)]
    elif k==1:
        for _ in range(R.randrange(1,5)): b.set(R.randrange(256))
    elif k==2:
        for _ in range(R.randrange(1,4)):
            a=R.choice([0,9,63,64,65,127,128,191,192,250,252,R.randrange(256)]); c=R.choice([a,a+1,a+2,a+3,a+4,63,64,127,191,192,254,255])
            if a<=c<256: b.set_range(a,c)
    elif k==3:
        for cs in R.sample(["_0123456789abcdefghijklmnopqrstuvwxyzABCDEFGHIJKLMNOPQRSTUVWYXZ","0123456789","\t\n\x0b\x0c\r "],R.randrange(1,4)):
            for c in cs: b.set(ord(c))
        for _ in range(R.randrange(4)): b.flip(R.randrange(256))
    elif k==4:
        c=R.randrange(65,91); b.set(c); b.set(c^32)
        if R.random()<.3: b.flip(R.randrange(256))
    elif k==5:
        b=randbf(p); b=~b
    elif k==6:
        b.bits=[R.choice([0,M64,R.getrandbits(64),1,1<<63]) for _ in range(4)]
    elif k==7:
        for _ in range(R.randrange(10,120)): b.set(R.randrange(256))
    return b
cases=[]
def case(coq,exp): cases.append((coq,exp))
def opt(x): return [0] if x is None else [1,x]
def randstr(ch,n): return ''.join(R.choice(ch) for _ in range(n))
def randpat():
    k=R.randrange(6)
    if k==0: return randstr('ab',R.randrange(1,6))
    if k==1: return randstr('aAbZ0-_|()',R.randrange(0,8))
    if k==2: return R.choice(['(*UTF8)','(*UCP)','(*UTF)','(*CR)','(*LIMIT_MATCH=1)','(*FOO)','(*)','(*UTF8','(*ANY)','(*é)','(*LIMIT_MATCH)'])+randstr('ab|()',R.randrange(4))
    if k==3: return randstr('abcdefgXYZ 09.\n\t',R.randrange(1,20))
    if k==4: return randstr('a|()',R.randrange(0,12))
    return randstr('abé中(',R.randrange(1,5))
def runbf(p,pn):
    b=randbf(p); c=randbf(p); n=R.choice([0,1,63,64,65,127,128,191,192,254,255,R.randrange(256)]); B=coqbf(b); C=coqbf(c)
    def mut(f):
        d=b.clone(); f(d); return list(d.bits)
    ops=[('cr_set %s %s %d'%(pn,B,n),'ebf',lambda: mut(lambda d:d.set(n))),
     ('cr_reset %s %s %d'%(pn,B,n),'ebf',lambda: mut(lambda d:d.reset(n))),
     ('cr_flip %s %s %d'%(pn,B,n),'ebf',lambda: mut(lambda d:d.flip(n))),
     ('cr_test %s %s %d'%(pn,B,n),'eb',lambda:[int(b.test(n))]),
     ('cr_find_first %s %s'%(pn,B),'eo',lambda: opt(b.find_first())),
     ('cr_find_last %s %s'%(pn,B),'eo',lambda: opt(b.find_last())),
     ('cr_find_next %s %s %d'%(pn,B,n),'eo',lambda: opt(b.find_next(n))),
     ('cr_find_nth %s %s %d'%(pn,B,n),'eo',lambda: opt(b.find_nth(n))),
     ('cr_is_alphabetic %s %s'%(pn,B),'eb',lambda: [int(is_alphabetic(b))]),
     ('cr_is_caseless_char %s %s'%(pn,B),'eb',lambda: [int(is_caseless_char(b))]),
     ('cr_is_bit5_insensitive %s %s'%(pn,B),'eb',lambda: [int(is_bit5(b))]),
     ('cr_is_ascii %s %s'%(pn,B),'eb',lambda: [int(is_ascii(b))]),
     ('cr_is_utf8_start %s %s'%(pn,B),'eb',lambda: [int(is_utf8_start(b))]),
     ('cr_display %s %s'%(pn,B),'el',lambda: display(b)),
     ('make_caseless %s %s'%(pn,B),'ebf',lambda: mut(make_caseless)),
     ('make_and_cmp_mask %s %s'%(pn,B),'ep',lambda: list(make_and_cmp(b))),
     ('Ret (cr_count %s)'%B,'en',lambda:[b.count()]),
     ('Ret (cr_none %s)'%B,'eb',lambda:[int(b.none())]),
     ('Ret (cr_all %s)'%B,'eb',lambda:[int(b.all())]),
     ('Ret (cr_and %s %s)'%(B,C),'ebf',lambda:(b&c).bits),
     ('Ret (cr_or %s %s)'%(B,C),'ebf',lambda:(b|c).bits),
     ('Ret (cr_xor %s %s)'%(B,C),'ebf',lambda:(b^c).bits),
     ('Ret (cr_not %s)'%B,'ebf',lambda:(~b).bits),
     ('Ret (cr_is_subset_of %s %s)'%(B,C),'eb',lambda:[int(is_subset(b,c))]),
     ('Ret (cr_overlaps %s %s)'%(B,C),'eb',lambda:[int(not (b&c).none())])]
    m=R.choice([n,255,64,63,R.randrange(256)])
    ops.append(('cr_set_range %s %s %d %d'%(pn,B,n,m),'ebf',lambda: mut(lambda d:d.set_range(n,m))))
    v=[R.randrange(256) for _ in range(R.choice([31,32,33]))]
    ops.append(('fill_bitvector %s %s %s'%(pn,B,L(v)),'el',lambda: fill_bitvector(b,v)))
    for ml in (1,2,R.randrange(1,40),256,0):
        o=R.choice(['Text','Dot'])
        ops.append(('describe_class %s %s %d %s'%(pn,B,ml,o),'el',lambda ml=ml,o=o: S(describe_class(b,ml,o))))
    for q,e,f in ops: case('enc %s (%s)'%(e,q),enc(f))
def runparse(p,pn):
    s=randpat(); f=R.choice([0,1,2,4,32,64,1|4,R.randrange(2048)])
    def go():
        m=Mode_(f); root=parse(p,s,m)
        def d():
            v=Dump(); walk(p,v,root); return [1]+S(v.o)
        return [int(m.caseless),int(m.dotall),int(m.multiline),int(m.ucp),int(m.utf8)]+enc(d)
    case('enc (er (dump_of %s)) (parse %s %s (mode_new %d))'%(pn,pn,L(S(s)),f),enc(lambda: erse(go)))
    def g():
        if f&1280==1280: raise Err('Other','QUIET is not supported in combination with SOM_LEFTMOST.')
        m=Mode_(f&~1024); root=parse(p,s,m)
        v=build_graph(p,root)
        # an accept successor never arises; the three fake edges only
        return enc(lambda:[x for t in v for x in t]+[0,1,1,1,2,3])
    case('bg %s %s %d 7'%(pn,L(S(s)),f),enc(lambda: erse(g)))
def runcompile(p,pn):
    n=R.randrange(0,7)
    es=[randpat() if R.random()<.4 else randstr('abA',R.randrange(1,5)) for _ in range(n)]
    fs=[R.choice([0,1,8,9,0,8,R.randrange(2048)]) for _ in range(max(0,n+R.choice([0,0,0,-1,1])))]
    ids=[R.randrange(3) for _ in range(max(0,n+R.choice([0,0,0,-1,1])))]
    if R.random()<.5: fs=[(x&~8)|(8 if d else 0) for x,d in zip(fs,ids)]
    k=dict(allow_literal=R.random()<.9,shortcut=R.random()<.9,asw=R.random()<.9,lb=R.choice([70,2,1]),mp=R.choice([10000,2]),mlit=R.choice([10000,1,2]),lpc=R.choice([8000000,3,6]),lpl=R.choice([16000,4,8]),lrc=R.choice([32000000,1,0]))
    g=G(**k)
    cg='(Grey %s false %s %s %d %d %d %d %d %d)'%(cb(g.allow_literal),cb(g.shortcut),cb(g.asw),g.lb,g.mp,g.mlit,g.lpc,g.lpl,g.lrc)
    def tr(t): return [len(t.c)]+[x for i in range(len(t.c)) for x in [t.c[i],len(t.reports[i])]+sorted(t.reports[i])]+[x for e in t.edges for x in e]
    def eng(x): return [x.minw,len(x.ids),int(x.ge)]+[v for kv in x.ex.items() for v in kv]+[v for k_,(h,i) in x.ext.items() for v in (k_,int(h),i)]+[int(x.poison),x.nl]+tr(x.t)+tr(x.tn)
    def adds():
        ng=Ng(p,g,len(es))
        for i,(e,f,d) in enumerate(zip(es,fs,ids)):
            try: ng.add_expression(i,e,f,d)
            except Err as x:
                p.dassert(lambda: x.index is None)
                x.index=i; raise x
        return eng(ng)
    a=enc(lambda: erse(adds)); c=enc(lambda: erse(lambda:(compile_multi(p,es,fs,ids,g),[])[1]))
    case('cm %s [%s] %s %s %s'%(pn,'; '.join(L(S(e)) for e in es),L(fs),L(ids),cg),a+[99999]+c)
def LP(l): return '['+'; '.join('(%d, %d)'%x for x in l)+']'
def runconnect(p,pn):
    n=R.randrange(4,8); fl=[R.choice([0,0,256,257,16]) for _ in range(n)]
    sp=[0,1,2,3]
    def pos(): return (R.choice(sp+[R.randrange(n),R.randrange(n),EPS,n]) if R.random()<.97 else n+3, R.choice([0,0,1,16,17,256]))
    ls=[pos() for _ in range(R.randrange(4))]; fs=[pos() for _ in range(R.randrange(5))]
    def go():
        s=State(p,sp,fl,{}); s.connect_regions(ls,fs); s.connect_regions(fs,ls)
        return s.flags+[77777]+[v for k,d in s.succ.items() for v in [k,len(d)]+[y for e in d for y in e]]
    case('conn %s 0 1 2 3 %s %s %s'%(pn,L(fl),LP(ls),LP(fs)),enc(go))
def runmisc(p,pn):
    w=R.choice([8,16,32,64]); a=R.choice([0,1,15,16,255,(1<<w)-1,(1<<w)-16,R.getrandbits(w)])%(1<<w); n=R.choice([0,1,2,16,64,128,R.randrange(256)])
    case('enc en (round_up_16 %s %d %d)'%(pn,w,a),enc(lambda:[round_up(p,w,a,15)]))
    case('enc en (round_up_cache_line %s %d %d)'%(pn,w,a),enc(lambda:[round_up(p,w,a,63)]))
    case('enc en (round_up_n %s %d %d %d)'%(pn,w,a,n),enc(lambda:[round_up(p,w,a,p.sub(8,n,1))]))
    case('enc en (round_down_n %s %d %d)'%(pn,a,n),enc(lambda:[a&(255^p.sub(8,n,1))]))
    def lt():
        v=LitVis()
        for _ in range(R.randrange(4)): v.push(p,R.choice([65,97,66,98,48,255]),R.random()<.5)
        return v.s,v.nc
    x,y=lt(),lt()
    if R.random()<.4: y=(x[0],[not t for t in x[1]])
    cl=lambda v:'(Literal %s [%s])'%(L(v[0]),'; '.join(map(cb,v[1])))
    case('ec (lit_cmp %s %s)'%(cl(x),cl(y)),[lit_order(x,y)])
    case('eb (lit_eq %s %s)'%(cl(x),cl(y)),[int(x[0]==y[0])])
    case('eb (mixed_sensitivity (lit_iter %s))'%cl(x),[int(mixed(p,*x))])
for i in range(N):
    pn=R.choice(list(PROFS)); p=PROFS[pn]
    w=sys.argv[3] if len(sys.argv)>3 else 'all'
    if w in('all','bf'): runbf(p,pn)
    if w in('all','parse'): runparse(p,pn); runparse(p,pn)
    if w in('all','connect'): runconnect(p,pn); runconnect(p,pn); runmisc(p,pn)
    if w in('all','compile'): runcompile(p,pn); runcompile(p,pn)
out=HDR
out+='Definition neqb (x : N * (list N * list N)) := negb (str_eqb (fst (snd x)) (snd (snd x))).\n'
CH=200
for k in range(0,len(cases),CH):
    out+='Definition cs%d := [\n%s].\n'%(k,';\n'.join('(%d, (%s, %s))'%(k+j,c,L(e)) for j,(c,e) in enumerate(cases[k:k+CH])))
    out+='Eval vm_compute in filter neqb cs%d.\n'%k
d=tempfile.mkdtemp()
open(d+'/X.v','w').write(out)
r=subprocess.run(['coqc','-Q',sys.argv[4] if len(sys.argv)>4 else os.path.join(os.path.dirname(os.path.abspath(__file__)),'../rocq/theories'),'Verif',d+'/X.v'],capture_output=True,text=True)
print(len(cases),'cases'); 
o=r.stdout.replace('= []','').replace(': list (N * (list N * list N))','').split()
print(r.stderr[:2000]); print(' '.join(o)[:3000] or 'all agree')
for m in list(re.finditer(r'\((\d+), \(',' '.join(o)))[:6]: print(cases[int(m.group(1))])
