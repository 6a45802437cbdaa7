"""Second reading of /repo/src, straight from the Rust text, in Python."""
class P(Exception): pass
class Ctx: pass
M64=(1<<64)-1
class Prof:
    def __init__(s,oc,da,w): s.oc,s.da,s.w=oc,da,w
    def add(s,w,a,b):
        r=a+b
        if r>>w:
            if s.oc: raise P('POverflow')
            r&=(1<<w)-1
        return r
    def sub(s,w,a,b):
        r=a-b
        if r<0:
            if s.oc: raise P('POverflow')
            r&=(1<<w)-1
        return r
    def mul(s,w,a,b):
        r=a*b
        if r>>w:
            if s.oc: raise P('POverflow')
            r&=(1<<w)-1
        return r
    def shl(s,w,a,n):
        if n>=w:
            if s.oc: raise P('POverflow')
            n%=w
        return (a<<n)&((1<<w)-1)
    def dassert(s,f):
        if s.da and not f(): raise P('PDebugAssert')
PROFS={'dev':Prof(True,True,64),'release':Prof(False,False,64),'dev32':Prof(True,True,32),'release32':Prof(False,False,32),
       '(Profile true false W64)':Prof(True,False,64),'(Profile false true W32)':Prof(False,True,32)}
def tz(x):
    n=0
    while not (x>>n)&1: n+=1
    return n
def lz(x): return 64-x.bit_length()

class BF:
    def __init__(s,p,bits=(0,0,0,0)): s.p=p; s.bits=list(bits)
    def clone(s): return BF(s.p,s.bits)
    def mask(s,n): return s.p.shl(64,1,n%64)
    def reset(s,n): s.bits[n//64]&=M64^s.mask(n)
    def set(s,n): s.bits[n//64]|=s.mask(n)
    def test(s,n): return (s.bits[n//64]&s.mask(n))!=0
    def flip(s,n): s.bits[n//64]^=s.mask(n)
    def set_range(s,fr,to):
        p=s.p
        if not fr<=to: raise P('PAssert')
        if fr//64==to//64:
            block=p.shl(64,M64,fr%64)
            if to%64!=63:
                block&=p.sub(64,s.mask(p.add(8,to,1)),1)
            s.bits[fr//64]|=block
            return
        i=fr
        if i%64!=0:
            s.bits[i//64]|=p.shl(64,M64,i%64)
            i=(p.add(p.w,i,p.sub(8,64,1)))&(255^p.sub(8,64,1))
        while p.add(p.w,i,64)<=p.add(p.w,to,1):
            s.bits[i//64]=M64
            i=p.add(p.w,i,64)
        if i<=to:
            p.dassert(lambda: p.add(p.w,p.sub(p.w,to,i),1)<64)
            s.bits[i//64]|=p.sub(64,s.mask((to+1)&255),1)
    def count(s): return sum(bin(x).count('1') for x in s.bits)
    def none(s): return not any(s.bits)
    def all(s): return all(x==M64 for x in s.bits)
    def find_first(s):
        p=s.p
        for i,b in enumerate(s.bits):
            if b: return p.add(8,p.mul(8,i,64),tz(b))
    def find_last(s):
        p=s.p
        for i in (3,2,1,0):
            b=s.bits[i]
            if b: return p.sub(8,p.add(8,p.mul(8,i,64),63),lz(b))
    def find_next(s,last):
        p=s.p
        li=last//64; w=s.bits[li]
        if last%64!=63:
            w&=p.shl(64,M64,p.add(8,last%64,1))
            if w: return p.add(8,p.mul(8,li,64),tz(w))
        li=p.add(8,li,1)
        if li>4: raise P('PIndex')
        for i,b in enumerate(s.bits[li:]):
            if b: return p.add(8,p.mul(8,p.add(8,li,i),64),tz(b))
    def find_nth(s,n):
        p=s.p; sm=0
        for i,b in enumerate(s.bits):
            block=b; after=p.add(32,sm,bin(b).count('1'))
            if after>n:
                for _ in range(sm,n):
                    p.dassert(lambda: block>0)
                    block&=p.sub(64,block,1)
                p.dassert(lambda: block>0)
                bit=p.add(8,p.mul(8,i,64),tz(block))
                p.dassert(lambda: s.test(bit))
                return bit
            sm=after
        p.dassert(lambda: s.count()<=n)
        return None
    def __and__(s,o): return BF(s.p,[a&b for a,b in zip(s.bits,o.bits)])
    def __or__(s,o): return BF(s.p,[a|b for a,b in zip(s.bits,o.bits)])
    def __xor__(s,o): return BF(s.p,[a^b for a,b in zip(s.bits,o.bits)])
    def __invert__(s): return BF(s.p,[a^M64 for a in s.bits])
    def it(s):
        n=s.find_first()
        while n is not None:
            yield n
            n=s.find_next(n)
def from_char(p,c): b=BF(p); b.set(c); return b
def from_range(p,a,b_): b=BF(p); b.set_range(a,b_); return b
def from_bytes(p,l):
    b=BF(p)
    for x in l: b.set(x)
    return b
def tolower(p,c): return p.add(8,c,0x20) if 65<=c<=90 else c
def toupper(p,c): return p.sub(8,c,0x20) if 97<=c<=122 else c
def isalpha(p,c): return tolower(p,c)!=toupper(p,c)
def is_alphabetic(b):
    if b.none(): return False
    for x in b.it():
        if not isalpha(b.p,x): return False
    return True
def is_caseless_char(b):
    if b.count()!=2: return False
    f=b.find_first(); s=b.find_next(f)
    return f==toupper(b.p,s)
def is_bit5(b):
    for x in b.it():
        if not b.test(x^0x20): return False
    return True
def is_subset(a,b): return (a&b).bits==a.bits
def is_ascii(b): return (b & ~from_range(b.p,0,0x7f)).none()
def is_utf8_start(b): return (b & from_range(b.p,0,0xc0-1)).none()
def display(b): return list(b.it())
def make_caseless(b):
    for c in range(ord('A'),ord('Z')+1):
        if b.test(c) or b.test(tolower(b.p,c)):
            b.set(c); b.set(tolower(b.p,c))
def fill_bitvector(b,bits):
    if len(bits)<32: raise P('PIndex')
    bits=list(bits)
    for i in range(32): bits[i]=0
    for x in b.it(): bits[x//8]|=b.p.shl(8,1,x&8)
    return bits
def make_and_cmp(b):
    lo,hi=0xff,0
    for x in b.it(): hi|=x; lo&=x
    return ((lo^hi)^255,lo)

def bs(o): return '\\\\' if o=='Dot' else '\\'
def dchar(c,o):
    if 0x21<=c<0x7f and c!=0x5c:
        if chr(c) in '^-[].': return bs(o)+chr(c)
        if o=='Dot' and chr(c) in '"\'': return '\\'+chr(c)
        return chr(c)
    if c==9: return bs(o)+'t'
    if c==10: return bs(o)+'n'
    if c==13: return bs(o)+'r'
    return bs(o)+'x'+('%2x'%c)
def drange(p,a,b,o):
    if a==b: return dchar(a,o)
    if p.sub(8,b,a)<4:
        r=''
        n=0
        while True:
            r+=dchar(a,o)
            a=p.add(8,a,1)
            if a>b: break
            n+=1
            if n>2000: raise P('Diverge')
        return r
    return dchar(a,o)+'-'+dchar(b,o)
def mnem(cr,o):
    p=cr.p
    for cs,l in (("_0123456789abcdefghijklmnopqrstuvwxyzABCDEFGHIJKLMNOPQRSTUVWYXZ",'w'),("0123456789",'d'),("\x09\x0a\x0b\x0c\x0d\x20",'s')):
        w=from_bytes(p,cs.encode())
        if is_subset(w,cr): return bs(o)+l, cr&~w
    return None
def contig(cr):
    f=cr.find_first()
    if f is None: return None
    last=f
    while True:
        c=cr.find_next(last)
        if c is None: break
        if c!=cr.p.add(8,last,1): return None
        last=c
    return f,last
def dci(cr,ml,o):
    p=cr.p; i=0; out=''
    r=contig(cr)
    if r is not None: return drange(p,r[0],r[1],o),2
    while True:
        m=mnem(cr,o)
        if m is None: break
        out+=m[0]
        i=p.add(p.w,i,1)
        if i==ml: return out+'...]',ml
        cr=m[1]
    if cr.none(): return out,i
    cs=cr.find_first()
    if cs is not None:
        cl=cs
        while True:
            c=cr.find_next(cl)
            if c is None: break
            if c!=p.add(8,cl,1):
                out+=drange(p,cs,cl,o)
                cs=c
                i=p.add(p.w,i,1)
                if i==ml: return out+'...]',ml
            cl=c
        if cl==0xff:
            out+=drange(p,cs,cl,o)
            i=p.add(p.w,i,1)
    return out,i
def describe_class(cr,ml,o):
    if cr.all(): return '<any>'
    if cr.none(): return '<empty>'
    if cr.count()==1: return dchar(cr.find_first(),o)
    n=~cr
    if n.count()==1: return '[^'+dchar(n.find_first(),o)+']'
    out,cnt=dci(cr,ml,o)
    neg,_=dci(n,ml,o)
    if len(out)<=len(neg):
        return '['+out+']' if cnt>1 else out
    return '[^'+neg+']'
