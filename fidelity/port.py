# Direct transcription of /repo/src (Rust) into Python, made from the Rust text.
import re, random, sys, json
class RustPanic(Exception): pass
def usize(x):
    if x < 0 or x > 2**64-1: raise RustPanic("usize overflow")
    return x
def idx(v, i):
    if i < 0 or i >= len(v): raise RustPanic("index")
    return v[i]
def setidx(v, i, x):
    if i < 0 or i >= len(v): raise RustPanic("index")
    v[i] = x
def sl(v, a, b):
    if a < 0 or a > b or b > len(v): raise RustPanic("slice")
    return v[a:b]
I64MAX = 2**63-1; I64MIN = -2**63
def i64(x):
    if x > I64MAX or x < I64MIN: raise RustPanic("i64 overflow")
    return x
def sat_sub(a, b): return max(I64MIN, min(I64MAX, a-b))
# --- std char (test instance for the Unicode properties)
class UC:
    def __init__(self, windows): self.windows = windows
    def lower(self, c): return 224 <= c <= 255 and c != 247
    def upper(self, c): return 192 <= c <= 222 and c != 215
    def numeric(self, c): return c in (178, 179)
    def alpha(self, c): return (192 <= c <= 255 and c not in (215, 247)) or c in (170, 0x4e00)
    def white(self, c): return c in (133, 160, 0x2003)
def is_ascii(c): return c < 128
def asc_lower(c): return 97 <= c <= 122
def asc_upper(c): return 65 <= c <= 90
def asc_digit(c): return 48 <= c <= 57
def asc_ws(c): return c in (0x20, 0x09, 0x0a, 0x0c, 0x0d)
def asc_alpha(c): return asc_lower(c) or asc_upper(c)
def is_uppercase(uc, c): return asc_upper(c) if is_ascii(c) else uc.upper(c)
def len_utf8(c): return 1 if c < 0x80 else 2 if c < 0x800 else 3 if c < 0x10000 else 4
def encode(cs): return b"".join(chr(c).encode("utf-8") for c in cs)
def decode(b): return [ord(ch) for ch in b.decode("utf-8")]
# --- normalize.rs
src = open("/repo/src/normalize.rs", encoding="utf-8").read()
def batch(name):
    m = re.search(r"const %s: \[\(char, char\); (\d+)\] = \[(.*?)\n\];" % name, src, re.S)
    items = []
    for a, b in re.findall(r"\(\s*'((?:\\u\{[0-9a-fA-F]+\})|(?:\\.)|.)'\s*,\s*'((?:\\u\{[0-9a-fA-F]+\})|(?:\\.)|.)'\s*\)", m.group(2)):
        f = lambda x: int(x[3:-1], 16) if x.startswith("\\u") else ord(x)
        items.append((f(a), f(b)))
    assert len(items) == int(m.group(1)), (name, len(items), m.group(1))
    return items
def linearize(b, n):
    first = b[0][0]; out = [0]*n; ai = bi = 0
    while ai < n:
        raw = first + ai
        if b[bi][0] == raw: out[ai] = b[bi][1]; bi += 1
        else: out[ai] = raw
        ai += 1
    return out
B = [batch("FIRST_BATCH"), batch("SECOND_BATCH"), batch("THIRD_BATCH")]
BS = [b[0][0] for b in B]; BE = [b[-1][0] for b in B]
BL = [linearize(B[i], BE[i]-BS[i]+1) for i in range(3)]
def is_normalized(c): return not any(BS[i] <= c <= BE[i] for i in range(3))
def normalize(c):
    if is_normalized(c): return c
    if c <= BE[0]: return BL[0][c-BS[0]]
    if c <= BE[1]: return BL[1][c-BS[1]]
    return BL[2][c-BS[2]]
# --- utils.rs
def asc_to_lower(c): return c+32 if asc_upper(c) else c
def eq_ign(a, b): return asc_to_lower(a) == asc_to_lower(b)
def norm_cand(q, c): return normalize(c) if is_normalized(q) else c
def char_eq(sens, norm):
    if not sens and not norm: return eq_ign
    if sens and not norm: return lambda a, b: a == b
    if not sens: return lambda a, b: eq_ign(a, norm_cand(a, b))
    return lambda a, b: a == norm_cand(a, b)
def flip(c): return c ^ 0x20
# --- candidate.rs
class Cand:
    def __init__(self, asc, data): self.asc = asc; self.d = data
    def char(self, i): return idx(self.d, i)
    def chars_from(self, o): return sl(self.d, o, len(self.d))
    def char_len(self): return len(self.d)
    def find_first_from(self, o, ch, sens, eq):
        if self.asc:
            if not is_ascii(ch): return None
            s = sl(self.d, o, len(self.d))
            ns = [ch] if sens or not asc_alpha(ch) else [ch, flip(ch)]
            for i, x in enumerate(s):
                if x in ns: return i+o
            return None
        s = sl(self.d, o, len(self.d))
        for i, x in enumerate(s):
            if eq(ch, x): return i+o
        return None
    def find_last(self, ch, sens, eq): return self.find_last_from(len(self.d), ch, sens, eq)
    def find_last_from(self, e, ch, sens, eq):
        if self.asc:
            if not is_ascii(ch): return None
            s = sl(self.d, 0, e)
            ns = [ch] if sens or not asc_alpha(ch) else [ch, flip(ch)]
            for i in range(len(s)-1, -1, -1):
                if s[i] in ns: return i
            return None
        s = sl(self.d, 0, e)
        for i in range(len(s)-1, -1, -1):
            if eq(ch, s[i]): return i
        return None
    def leading(self):
        n = 0
        for x in self.d:
            if x != 32: break
            n += 1
        return n
    def trailing(self):
        n = 0
        for x in reversed(self.d):
            if x != 32: break
            n += 1
        return n
    def matches_from(self, o, ch, sens, eq):
        s = sl(self.d, o, len(self.d))
        if self.asc:
            if not is_ascii(ch): return
            ns = [ch] if sens or not asc_alpha(ch) else [ch, flip(ch)]
            for i, x in enumerate(s):
                if x in ns: yield o+i
            return
        off = 0; hay = s
        while True:
            f = None
            for i, x in enumerate(hay):
                if eq(ch, x): f = i; break
            if f is None: return
            hay = hay[f+1:]
            r = off+f
            off = r+1
            yield o+r
    def slice(self, a, b): return Cand(self.asc, sl(self.d, a, b))
    def to_byte_offset(self, o):
        if self.asc: return o
        return sum(len_utf8(c) for c in sl(self.d, 0, o))
    def to_byte_range(self, a, b):
        if self.asc: return (a, b)
        cs = sl(self.d, 0, b)
        # by_ref().map().take(a) consumes min(a, len)
        start = sum(len_utf8(c) for c in cs[:a])
        end = start + sum(len_utf8(c) for c in cs[a:])
        return (start, end)
# --- matched_ranges.rs
def rust_binary_search(v, key):
    # std: any correct binary search; entries strictly increasing in start or std's (1.7x) algorithm
    size = len(v); left = 0; right = size
    while left < right:
        mid = left + size//2
        if v[mid][0] == key: return (True, mid)
        if v[mid][0] < key: left = mid+1
        else: right = mid
        size = right-left
    return (False, left)
class MR:
    def __init__(self, ranges): self.r = ranges; self.n = len(ranges)
    def insert(self, new):
        r = self.r; n = self.n
        ok, i = rust_binary_search(r[n:], new[0])
        if ok:
            cur = r[n+i]
            nxt = r[n+i+1] if n+i+1 < len(r) else None
            if cur[1] >= new[1]: return
            if nxt is not None and new[1] >= nxt[0]:
                r[n+i] = (cur[0], nxt[1])
                del r[n+i+1]
                return
            r[n+i] = (cur[0], new[1])
            return
        if i == 0:
            if n >= len(r): r.append(new); return
            f = r[n]
            if new[1] >= f[0]: r[n] = (new[0], f[1])
            else: r.insert(n, new)
            return
        if i == len(r)-n:
            l = r[-1]
            if new[0] <= l[1]: r[-1] = (l[0], max(l[1], new[1]))
            else: r.append(new)
            return
        p = r[n+i-1]; x = r[n+i]
        a = new[0] <= p[1]; b = new[1] >= x[0]
        if a and b:
            r[n+i-1] = (p[0], x[1]); del r[n+i]
        elif a and not b:
            if new[1] > p[1]: r[n+i-1] = (p[0], new[1])
        elif b: r[n+i] = (new[0], x[1])
        else: r.insert(n+i, new)
# --- scheme.rs / scoring.rs
WS, NW, DE, LO, UP, LE, NU = range(7)
def delim_default(c): return chr(c) in "/,:;|"
def mk_scheme(name, uc):
    if name == 0: return dict(w=10, d=9, init=WS, isd=delim_default)
    if name == 1: return dict(w=8, d=9, init=DE, isd=lambda c: c == 47 or c == (92 if uc.windows else 47))
    return dict(w=8, d=8, init=WS, isd=delim_default)
def char_class(uc, c, s):
    if is_ascii(c):
        if asc_lower(c): return LO
        if asc_upper(c): return UP
        if asc_digit(c): return NU
        if asc_ws(c): return WS
        return DE if s["isd"](c) else NW
    if uc.lower(c): return LO
    if uc.upper(c): return UP
    if uc.numeric(c): return NU
    if uc.alpha(c): return LE
    if uc.white(c): return WS
    return DE if s["isd"](c) else NW
MATCH=16; BOUNDARY=8; NON_WORD=8; CAMEL=7; CONSEC=4; MULT=2; GS=3; GE=1
def compute_bonus(p, n, s):
    if n == NW: return NON_WORD
    if n == WS: return s["w"]
    if n == UP and p == LO: return CAMEL
    if n == NU and p != NU: return CAMEL
    if p == WS: return s["w"]
    if p == DE: return s["d"]
    if p == NW: return BOUNDARY
    return 0
# --- query.rs
FUZZY, EXACT, PREFIX, SUFFIX, EQUAL = range(5)
class Pat:
    def __init__(self, uc, text, mt, inv):
        self.text = text; self.mt = mt; self.inv = inv
        self.up = any(is_uppercase(uc, c) for c in text)
        n = 0
        for c in text:
            if c != 32: break
            n += 1
        self.lead = n
        n = 0
        for c in reversed(text):
            if c != 32: break
            n += 1
        self.trail = n
def pat_parse(uc, t):
    inv = False; mt = FUZZY
    if t and t[0] == ord('!'): inv = True; mt = EXACT; t = t[1:]
    if t and t[-1] == ord('$') and len(t) > 1: mt = SUFFIX; t = t[:-1]
    if t and t[0] == ord("'"):
        mt = EXACT if not inv else FUZZY
        t = t[1:]
    elif t and t[0] == ord('^'):
        mt = EQUAL if mt == SUFFIX else PREFIX
        t = t[1:]
    if not t: return None
    return Pat(uc, t, mt, inv)
# --- parser.rs
class Parser:
    def __init__(self, uc): self.uc = uc; self.chars = [0]*64; self.pats = 64; self.conds = 64
    def words(self, q):
        b = encode(q)
        alloc = [0]
        def strip(b):
            n = 0
            while n < len(b) and b[n] == 32: n += 1
            return b[n:]
        def push(x):
            for c in decode(x):
                setidx(self.chars, alloc[0], c); alloc[0] += 1
        s0 = strip(b)
        while s0:
            prev = alloc[0]; wend = 0; s = s0
            while True:
                o = s.find(b' ')
                if o == 0: break
                if o > 0 and s[o-1] == 0x5c:
                    push(s[:o-1]); push(b' ')
                    s = s[o+1:]; wend += o+1
                elif o > 0:
                    push(s[:o]); wend += o; break
                else:
                    push(s); wend += len(s); break
            s0 = strip(s0[wend:])
            yield list(self.chars[prev:alloc[0]])
    def parse(self, q):
        n = len(encode(q))
        if len(self.chars) < n: self.chars += [0]*(n-len(self.chars))
        mc = n//2+1
        self.conds = max(self.conds, mc); self.pats = max(self.pats, mc)
        conds = []; nalloc = 0
        words = self.words(q)
        nxt = None
        while True:
            cur = []
            if nxt is not None:
                nalloc += 1
                if nalloc > self.pats: raise RustPanic("pats")
                cur.append(nxt); nxt = None; lfo = True
            else: lfo = False
            for w in words:
                if w != [ord('|')]:
                    p = pat_parse(self.uc, w)
                    if p is None: continue
                    if lfo: nxt = p; break
                    nalloc += 1
                    if nalloc > self.pats: raise RustPanic("pats")
                    cur.append(p); lfo = True
                    continue
                lfo = False
            if not cur: break
            if len(conds) >= self.conds: raise RustPanic("conds")
            conds.append(cur)
        if len(conds) == 1 and len(conds[0]) == 1 and conds[0][0].mt == FUZZY:
            return ("N", conds[0][0])
        return ("E", conds)
    def parse_not_extended(self, q):
        for i, c in enumerate(q): setidx(self.chars, i, c)
        return ("N", Pat(self.uc, list(self.chars[:len(q)]), FUZZY, False))
# --- fzf.rs
def compute_score(R, uc, pat, cand, a, b, eq, s, mr):
    in_gap = False; first = True; fb = 0; cons = 0
    brs = cand.to_byte_offset(a) if R else 0
    bo = 0
    prev = s["init"] if a == 0 else char_class(uc, cand.char(a-1), s)
    it = iter(pat.text)
    try: pc = next(it)
    except StopIteration: raise RustPanic("empty")
    score = 0
    for ch in cand.slice(a, b).d:
        cl = char_class(uc, ch, s)
        if eq(pc, ch):
            score += MATCH
            bonus = compute_bonus(prev, cl, s)
            if cons == 0: fb = bonus
            else:
                if bonus >= BOUNDARY and bonus > fb: fb = bonus
                bonus = max(bonus, fb, CONSEC)
            score += bonus*MULT if first else bonus
            if R:
                st = brs+bo; mr.insert((st, st+len_utf8(ch)))
            in_gap = False; first = False; cons += 1
            try: pc = next(it)
            except StopIteration: break
        else:
            score -= GE if in_gap else GS
            in_gap = True; cons = 0; fb = 0
        prev = cl
        if R: bo += len_utf8(ch)
    return score
def exact_match(R, uc, pat, cand, eq, s, mr):
    if not pat.text: return 0
    best = -1; bs = be = 0; matched = False
    prev = s["init"]; so = 0
    while True:
        cso = so; bst = 0; cb = 0; pi = 0
        chars = cand.chars_from(so); pos = 0; outer = False
        while pos < len(chars):
            off = pos; ch = chars[pos]; pos += 1
            pc = idx(pat.text, pi)
            cl = char_class(uc, ch, s)
            if eq(pc, ch):
                if pi == 0:
                    bst = cso+off; so += off+1
                    cb = compute_bonus(prev, cl, s)
                pi += 1
                if pi == len(pat.text):
                    matched = True
                    if cb > best: best = cb; bs = bst; be = cso+off+1
                    if cb >= BOUNDARY: outer = True
                    break
            elif pi > 0: break
            prev = cl
        if outer: break
        if pos >= len(chars): break
    if not matched: return None
    sc = compute_score(False, uc, pat, cand, bs, be, eq, s, mr)
    if R: mr.insert(cand.to_byte_range(bs, be))
    return sc
def ign_lead(p, c):
    n = c.leading()
    return None if p.lead > n else n-p.lead
def ign_trail(p, c):
    n = c.trailing()
    return None if p.trail > n else n-p.trail
def prefix_match(R, uc, pat, cand, eq, s, mr):
    if not pat.text: return 0
    ls = ign_lead(pat, cand)
    if ls is None: return None
    cs = cand.chars_from(ls)
    # zip(candidate, pattern.by_ref()): the candidate side is asked first
    k = 0
    for ch in cs:
        if k >= len(pat.text): break
        pc = pat.text[k]; k += 1
        if not eq(pc, ch): return None
    if k < len(pat.text): return None
    a, b = ls, ls+len(pat.text)
    sc = compute_score(False, uc, pat, cand, a, b, eq, s, mr)
    if R: mr.insert(cand.to_byte_range(a, b))
    return sc
def suffix_match(R, uc, pat, cand, eq, s, mr):
    if not pat.text: return 0
    t = ign_trail(pat, cand)
    if t is None: return None
    up = usize(cand.char_len()-t)
    cs = cand.slice(0, up).d[::-1]; pt = pat.text[::-1]; k = 0
    for ch in cs:
        if k >= len(pt): break
        pc = pt[k]; k += 1
        if not eq(pc, ch): return None
    if k < len(pt): return None
    a, b = usize(up-len(pat.text)), up
    sc = compute_score(False, uc, pat, cand, a, b, eq, s, mr)
    if R: mr.insert(cand.to_byte_range(a, b))
    return sc
def equal_match(R, uc, pat, cand, eq, s, mr):
    if not pat.text: return 0
    ls = ign_lead(pat, cand)
    if ls is None: return None
    if ls == cand.char_len(): return None
    t = ign_trail(pat, cand)
    if t is None: return None
    a, b = ls, usize(cand.char_len()-t)
    if max(0, b-a) < len(pat.text): return None
    cs = cand.slice(a, b).d; k = 0; j = 0
    # zip(pattern.by_ref(), candidate.by_ref()): the pattern side is asked first
    while k < len(pat.text):
        pc = pat.text[k]; k += 1
        if j >= len(cs): break
        ch = cs[j]; j += 1
        if not eq(pc, ch): return None
    if k < len(pat.text) or j < len(cs): return None
    sc = compute_score(False, uc, pat, cand, a, b, eq, s, mr)
    if R: mr.insert(cand.to_byte_range(a, b))
    return sc
SENS, INSENS, SMART = range(3)
class Metric:
    def __init__(self, uc):
        self.uc = uc; self.slab = [0]*128; self.case = SMART; self.norm = False; self.scheme = mk_scheme(0, uc)
    def alloc_chars(self, cs):
        n = len(encode(cs))
        if n > len(self.slab): self.slab += [0]*(n-len(self.slab))
        for i, c in enumerate(cs): setidx(self.slab, i, c)
        return self.slab[:len(cs)]
    def sens(self, pat): return {SENS: True, INSENS: False, SMART: pat.up}[self.case]
    def score(self, R, pat, cand, mr):
        eq = char_eq(self.sens(pat), self.norm)
        R2 = False if pat.inv else R
        if pat.mt == FUZZY: sc = self.fuzzy(R2, pat, cand, mr)
        else:
            f = {EXACT: exact_match, PREFIX: prefix_match, SUFFIX: suffix_match, EQUAL: equal_match}[pat.mt]
            sc = f(R2, self.uc, pat, cand, eq, self.scheme, mr)
        if sc is not None and not pat.inv: return sc
        if sc is None and pat.inv: return 0
        return None
    def distance(self, R, q, c, ranges):
        kind, x = q
        if (kind == "E" and not x) or (kind == "N" and not x.text): return 0
        cand = Cand(True, list(c)) if all(is_ascii(ch) for ch in c) else Cand(False, self.alloc_chars(c))
        mr = MR(ranges)
        if kind == "N": return self.fuzzy(R, x, cand, mr)
        tot = 0
        for cond in x:
            got = None
            for p in cond:
                got = self.score(R, p, cand, mr)
                if got is not None: break
            if got is None: return None
            tot = i64(tot+got)
        return tot
class V1(Metric):
    def fuzzy(self, R, pat, cand, mr):
        sens = self.sens(pat); eq = char_eq(sens, self.norm)
        if not pat.text: return None
        end = 0
        for pc in pat.text:
            f = cand.find_first_from(end, pc, sens, eq)
            if f is None: return None
            end = f+1
        st = end
        for pc in reversed(pat.text):
            st = cand.find_last_from(st, pc, sens, eq)
            if st is None: raise RustPanic("unwrap")
        return compute_score(R, self.uc, pat, cand, st, end, eq, self.scheme, mr)
class V2(Metric):
    def __init__(self, uc):
        super().__init__(uc)
        self.bonus = [[0, False] for _ in range(128)]; self.idxs = [0]*128
        self.sm = [0]*256; self.cm = [0]*256
    def fuzzy(self, R, pat, cand, mr):
        uc = self.uc; s = self.scheme
        sens = self.sens(pat); eq = char_eq(sens, self.norm)
        if len(pat.text) == 1:
            best = 0; pos = 0
            for o in cand.matches_from(0, pat.text[0], sens, eq):
                prev = s["init"] if o == 0 else char_class(uc, cand.char(o-1), s)
                b = compute_bonus(prev, char_class(uc, cand.char(o), s), s)
                sc = MATCH+b*MULT
                if sc > best: best = sc; pos = o
            if best == 0: return None
            if R:
                st = cand.to_byte_offset(pos); mr.insert((st, st+len_utf8(cand.char(pos))))
            return best
        # matches
        n = len(pat.text)
        if n > len(self.idxs): self.idxs += [0]*(n-len(self.idxs))
        mo = self.idxs
        pi = 0; last = 0
        while True:
            f = cand.find_first_from(last, idx(pat.text, pi), sens, eq)
            if f is None: return None
            mo[pi] = f; last = f+1
            if pi+1 < n: pi += 1
            else: break
        l = cand.find_last(pat.text[pi], sens, eq)
        if l is None: raise RustPanic("unwrap")
        lmo = l+1
        fo = mo[0]
        sbo = cand.to_byte_offset(fo) if R else 0
        init = s["init"] if fo == 0 else char_class(uc, cand.char(fo-1), s)
        c = cand.slice(fo, lmo)
        W = c.char_len(); H = n
        if W > len(self.bonus): self.bonus += [[0, False] for _ in range(W-len(self.bonus))]
        for i in range(W): self.bonus[i][1] = False
        def bonus_at(i):
            if i < 0 or i >= W: raise RustPanic("bonus")
            b = self.bonus[i]
            if b[1]: return b[0]
            prev = init if i == 0 else char_class(uc, c.char(i-1), s)
            b[0] = compute_bonus(prev, char_class(uc, c.char(i), s), s) & 255; b[1] = True
            return b[0]
        for i in range(n): mo[i] = usize(mo[i]-fo)
        if H*W == 0: raise RustPanic("debug_assert")
        for m in (self.sm, self.cm):
            if H*W > len(m): m += [0]*(H*W-len(m))
            for i in range(H*W): m[i] = 0
        S = self.sm; C = self.cm; L = H*W
        def rg(m, r, i):
            if i < 0 or i >= W: raise RustPanic("row")
            return m[r*W+i]
        def rs(m, r, i, v):
            if i < 0 or i >= W: raise RustPanic("row")
            m[r*W+i] = v
        ms = 0; prevs = 0; mcol = 0; col = 0; pen = GS
        for o in c.matches_from(0, pat.text[0], sens, eq):
            pen = GS
            for k in range(col+1, o):
                v = sat_sub(prevs, pen); rs(S, 0, k, v); prevs = v; pen = GE
            col = o
            rs(C, 0, col, 1)
            v = MATCH+bonus_at(col)*MULT
            rs(S, 0, col, v)
            if v > ms: ms = v; mcol = col
            prevs = v
        for k in range(col+1, W):
            v = sat_sub(prevs, pen); rs(S, 0, k, v); prevs = v; pen = GE
        cell = mcol
        for r in range(1, H):
            pc = pat.text[r]
            fm = mo[r]; col = fm; pen = GS
            for o in c.matches_from(fm, pc, sens, eq):
                pen = GS
                for k in range(col+1, o):
                    rs(S, r, k, sat_sub(rg(S, r, k-1), pen)); pen = GE
                col = o
                left = sat_sub(rg(S, r, col-1), pen)
                ul = i64(rg(S, r-1, col-1)+MATCH)
                b = bonus_at(col)
                cons = rg(C, r-1, col-1)+1
                if cons > 1:
                    fb = bonus_at(usize(col+1-cons))
                    if b >= BOUNDARY and b > fb: cons = 1
                    else: b = max(CONSEC, fb, b)
                if ul+b < left: cons = 0; ul += bonus_at(col)
                else: ul += b
                v = max(left, ul)
                if v > ms: ms = v; cell = r*W+col
                rs(C, r, col, cons); rs(S, r, col, v)
            for k in range(col+1, W):
                rs(S, r, k, sat_sub(rg(S, r, k-1), pen)); pen = GE
        if R:
            prefer = True; cc = cell; col = cell % W; row = cell // W
            def at(m, i):
                if i < 0 or i >= L: raise RustPanic("cell")
                return m[i]
            while True:
                fc = col == 0; fr = row == 0
                sleft = 0 if fc else at(S, usize(cc-1))
                sul = 0 if fc or fr else at(S, usize(cc-W-1))
                ptm = prefer
                dr = cc+W+1
                prefer = at(C, cc) > 1 or (dr < L and C[dr] > 0)
                v = at(S, cc)
                if v > sul and (v > sleft or v == sleft and ptm):
                    bo = c.to_byte_offset(col)+sbo
                    ch = c.char(col)
                    mr.insert((bo, bo+len_utf8(ch)))
                    if fr or fc: break
                    row = usize(row-1); cc = usize(cc-W-1)
                elif fc: break
                else: cc = usize(cc-1)
                col = usize(col-1)
        return ms
