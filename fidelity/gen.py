import random, sys
from port import *
seed = int(sys.argv[1]); n = int(sys.argv[2]); random.seed(seed)
alphas = [[97,98],[97,98,65],[97,66,98,32],[97,98,47,49,65],[97,98,99,32,47,95,49,66],[97,233,201,224,101,69],[97,32],
 [97,0x4e00,98,0x1f600,160,65],[49,50,97,47,178],[233,101,69,97,9],[199,67,99,769,231],[97,98,99,100,101],
 [97,58,44,59,124,92,64,91,96,123],[97,0x161,65,98,0x141],[97,98,33,36,94,39,124,32,92],[0x7f,0x80,97],
 [0x1e9e,0x24b6,97,0x2184,0x2c2f,65,0x250,0xc0,0x184,0x192,102]]
def rnd_any(): return random.choice([random.randrange(32,127), random.randrange(0xa0,0x260), random.randrange(0x1d00,0x2200), random.randrange(0x1f300,0x1f400)])
def chars(al, n): return [random.choice(al) if random.random() < .95 else rnd_any() for _ in range(n)]
def flipc(c): return c ^ 32 if asc_alpha(c) and random.random() < .25 else c
def embed(al, t):
    junk = lambda: chars(al, random.randrange(4))
    k = random.randrange(6)
    if k == 0: return chars(al, random.randrange(12))
    if k == 1: return junk()+[flipc(c) for c in t]+junk()
    if k == 2: return [32]*random.randrange(3)+[flipc(c) for c in t]+[32]*random.randrange(3)
    if k == 3:
        r = junk()
        for c in t: r += [flipc(c)]+junk()
        return r
    if k == 4: return junk()+[flipc(c) for c in t]+junk()+[flipc(c) for c in t]+junk()
    r = []
    for _ in range(random.randrange(1, 30)): r += junk()+[flipc(c) for c in t]
    return r
def decorate(t):
    pre = random.choice(["","","'","^","!","!'","!^","'^","!!"]); post = random.choice(["","","","$","$$"," ","\\ "])
    return [ord(c) for c in pre]+t+[ord(c) for c in post]
fi = open(f"in{seed}.txt","w"); fo = open(f"exp{seed}.txt","w")
def show(cs): return " ".join(map(str, cs)) if cs else "-"
total = 0
while total < n:
    win = random.random() < .1
    uc = UC(win); algo = random.randrange(2)
    m = (V1 if algo == 0 else V2)(uc); ps = Parser(uc)
    fi.write(f"new {algo} {int(win)}\n")
    for _ in range(random.randrange(1, 12)):
        if random.random() < .5:
            m.case = random.randrange(3); fi.write(f"case {m.case}\n")
        if random.random() < .5:
            m.norm = random.random() < .6; fi.write(f"norm {int(m.norm)}\n")
        if random.random() < .5:
            k = random.randrange(3); m.scheme = mk_scheme(k, uc); fi.write(f"scheme {k}\n")
        al = random.choice(alphas)
        ts = [chars(al, random.randrange(0, 6)) for _ in range(random.choice([1,1,1,2,2,3,5]))]
        if random.random() < .02: ts.append(chars(al, random.randrange(60, 140)))
        kind = random.random()
        if kind < .3: q = ts[0]; ext = random.random() < .5
        else:
            q = []; ext = random.random() < .93
            for i, t in enumerate(ts):
                if i: q += [ord(c) for c in random.choice([" "," | ","  "," |","| "," | | "])]
                q += decorate(t)
        c = []
        for t in random.sample(ts, random.randrange(1, len(ts)+1)): c += embed(al, t)
        if random.random() < .1: c = chars(al, random.randrange(8))
        c = c[:400]
        init = random.choice([[],[],[(7,9)],[(0,1),(1,2)],[(5,3),(0,100)]])
        R = random.random() < .8
        try:
            qq = ps.parse(q) if ext else ps.parse_not_extended(q)
        except RustPanic:
            fi.write(f"q {'e' if ext else 'r'} {show(q)}\n"); fo.write("panic-parse\n"); total += 1
            break
        fi.write(f"q {'e' if ext else 'r'} {show(q)}\n"); fo.write("parsed\n")
        rs = list(init)
        try:
            d = m.distance(R, qq, c, rs)
            out = f"{'none' if d is None else d} {rs if R else ''}"
        except RustPanic:
            out = "panic"
        fi.write(f"d {int(R)} {show(c)} / {show([x for r in init for x in r])}\n"); fo.write(out.replace(", ",",").strip()+"\n")
        total += 1
        if out == "panic": break
