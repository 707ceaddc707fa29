#!/usr/bin/env python3
"""Translate /repo/src/time/calendars/*.rs into Gallina, one file per calendar.

Reads the Rust as text, parses the small subset of Rust the calendars are
written in, and writes rocq/theories/Cal_<name>.v.  Every generated definition
cites the lines it comes from.  An unknown construct is a hard error, so
nothing is skipped silently.  Run by hand; the outputs are committed."""
import os, re, sys
SRC = '/repo/src/time/calendars'
OUT = os.path.join(os.path.dirname(__file__), '..', 'rocq', 'theories')

TOK = re.compile(r'''\s+|//[^\n]*|(?P<num>\d[\d_]*(?:usize|u32|i32|i64)?)|(?P<id>[A-Za-z_]\w*!?)|(?P<op>\.\.=|\.\.|::|->|=>|==|!=|<=|>=|&&|\|\||[-+*/%!<>=&|(){}\[\],;:.#_'])''')

class T:
    def __init__(s, k, v, line): s.k, s.v, s.line = k, v, line
    def __repr__(s): return f'{s.v}@{s.line}'

def lex(text):
    toks, pos, line = [], 0, 1
    while pos < len(text):
        m = TOK.match(text, pos)
        if not m: raise SyntaxError(f'lex error line {line}: {text[pos:pos+30]!r}')
        if m.group('num'): toks.append(T('num', m.group('num'), line))
        elif m.group('id'):
            v = m.group('id')
            # "!=" must not be glued to an identifier
            if v.endswith('!') and text[m.end():m.end()+1] == '=':
                toks.append(T('id', v[:-1], line)); pos = m.end() - 1
                continue
            toks.append(T('id', v, line))
        elif m.group('op'): toks.append(T('op', m.group('op'), line))
        line += text.count('\n', pos, m.end()); pos = m.end()
    return toks

class P:
    def __init__(s, toks, name): s.t, s.i, s.name = toks, 0, name
    def peek(s, k=0): return s.t[s.i+k].v if s.i+k < len(s.t) else None
    def next(s): s.i += 1; return s.t[s.i-1]
    def line(s): return s.t[s.i].line
    def err(s, m=''): raise SyntaxError(f'{s.name}:{s.t[s.i].line}: unexpected {s.t[s.i].v!r} {m}')
    def eat(s, v):
        if s.peek() != v: s.err(f'expected {v!r}')
        return s.next()
    def opt(s, v):
        if s.peek() == v: s.next(); return True
        return False
    # ---- items
    def items(s):
        fns, statics, enums, struct = [], [], [], None
        while s.i < len(s.t):
            v = s.peek()
            if v == '#': s.next(); s.balanced('[', ']')
            elif v == 'use':
                while s.next().v != ';': pass
            elif v == 'pub': s.next()
            elif v == 'enum':
                s.next(); n = s.next().v; s.eat('{'); alts = []
                while not s.opt('}'): alts.append(s.next().v); s.opt(',')
                enums.append((n, alts))
            elif v == 'struct':
                s.next(); struct = s.next().v
                if s.opt(';'): pass
                else: s.balanced('{', '}')
            elif v == 'impl':
                s.next()
                while s.peek() != '{': s.next()
                s.eat('{')
                while not s.opt('}'):
                    s.opt('pub'); fns.append(s.fn())
            elif v == 'fn': fns.append(s.fn())
            elif v == 'static': statics.append(s.static())
            elif v == 'lazy_static':
                s.next(); s.eat('::'); s.next(); s.eat('{'); statics.append(s.lazy()); s.eat('}')
            else: s.err('item')
        return fns, statics, enums, struct
    def balanced(s, a, b):
        s.eat(a); n = 1
        while n:
            v = s.next().v
            n += (v == a) - (v == b)
    def num(s):
        m = re.match(r'\d[\d_]*', s.next().v); return int(m.group(0).replace('_', ''))
    def static(s):
        l0 = s.line(); s.eat('static'); n = s.next().v; s.eat(':')
        if s.peek() == '[':            # static X: [u32; 179] = [ ... ];
            s.next(); s.next(); s.eat(';'); ln = s.num(); s.eat(']'); s.eat('=')
            s.eat('['); xs = []
            while not s.opt(']'): xs.append(s.num()); s.opt(',')
            assert len(xs) == ln, (n, len(xs), ln)
            l1 = s.line(); s.eat(';'); return ('array', n, xs, l0, l1)
        # pub static X: Lazy<HashSet<(u32,u32,i32)>> = Lazy::new(|| { HashSet::from([ ... ]) });
        while s.peek() != '=': s.next()
        s.eat('='); s.eat('Lazy'); s.eat('::'); s.eat('new'); s.eat('('); s.eat('||'); s.eat('{')
        s.eat('HashSet'); s.eat('::'); s.eat('from'); s.eat('('); xs = s.tuples(); s.eat(')'); s.eat('}'); s.eat(')')
        l1 = s.line(); s.eat(';'); return ('set', n, xs, l0, l1)
    def tuples(s):
        s.eat('['); xs = []
        while not s.opt(']'):
            s.eat('('); t = [s.num()]
            while s.opt(','):
                if s.peek() == ')': break
                t.append(s.num())
            s.eat(')'); s.opt(','); xs.append(tuple(t))
        return xs
    def lazy(s):
        l0 = s.line(); s.eat('static'); s.eat('ref'); n = s.next().v
        while s.peek() != '{': s.next()
        s.eat('{')
        s.eat('use')
        while s.next().v != ';': pass
        for v in ['let','mut','map','=','HashMap','::','new','(',')',';']: s.eat(v)
        xs = []
        while s.peek() == 'map' and s.peek(1) == '.':
            for v in ['map','.','insert','(']: s.eat(v)
            y = s.num(); s.eat(',')
            for v in ['HashSet','::','from_iter','(']: s.eat(v)
            ts = s.tuples(); s.eat(')'); s.eat(')'); s.eat(';'); xs.append((y, ts))
        s.eat('map'); s.eat('}'); l1 = s.line(); s.eat(';')
        # HashMap::insert overwrites: keep the last entry of a duplicated key
        d = {}
        for y, ts in xs: d[y] = ts
        return ('map', n, list(d.items()), l0, l1)
    def fn(s):
        l0 = s.line(); s.eat('fn'); n = s.next().v; s.eat('('); params = []
        while not s.opt(')'):
            if s.opt('&'): s.eat('self')
            else:
                p = s.next().v; s.eat(':'); ty = ''
                depth = 0
                while depth or s.peek() not in (',', ')'):
                    v = s.next().v; depth += (v in '(<') - (v in ')>'); ty += v
                params.append((p, ty))
            s.opt(',')
        s.eat('->'); ret = ''
        while s.peek() != '{': ret += s.next().v
        b = s.block(); l1 = s.t[s.i-1].line
        return dict(name=n, params=params, ret=ret, body=b, l0=l0, l1=l1)
    # ---- statements: ('let',pat,e) ('if',c,blk,blk|None) ('ret',e) ('expr',e) ; block = list
    def block(s):
        s.eat('{'); out = []
        while not s.opt('}'):
            if s.peek() == 'let':
                s.next()
                if s.opt('('):
                    pat = []
                    while not s.opt(')'): pat.append(s.next().v); s.opt(',')
                else: pat = s.next().v
                s.eat('='); e = s.expr(); s.eat(';'); out.append(('let', pat, e))
            elif s.peek() == 'return':
                s.next(); e = s.expr(); s.opt(';'); out.append(('ret', e))
            elif s.peek() == 'if': out.append(s.iff())
            else:
                e = s.expr(); assert s.peek() == '}', s.err('tail'); out.append(('expr', e))
        return out
    def iff(s):
        s.eat('if')
        if s.opt('let'):
            s.eat('Some'); s.eat('('); v = s.next().v; s.eat(')'); s.eat('=')
            mp = s.next().v; s.eat('.'); s.eat('get'); s.eat('('); s.eat('&'); k = s.expr(); s.eat(')')
            s.eat('&&'); s.eat(v); s.eat('.'); s.eat('contains'); s.eat('('); s.eat('&'); t = s.expr(); s.eat(')')
            c = ('mapget', mp, k, t)
        else: c = s.expr()
        a = s.block(); b = None
        if s.opt('else'): b = [s.iff()] if s.peek() == 'if' else s.block()
        return ('if', c, a, b)
    # ---- expressions, Rust precedence
    def expr(s): return s.binl(['||'], lambda: s.binl(['&&'], s.cmp))
    def binl(s, ops, sub):
        a = sub()
        while s.peek() in ops:
            o = s.next().v; a = ('bin', o, a, sub())
        return a
    def cmp(s):
        a = s.bor()
        if s.peek() in ('==', '!=', '<', '>', '<=', '>='):
            o = s.next().v; a = ('bin', o, a, s.bor())
        return a
    def bor(s): return s.binl(['|'], lambda: s.binl(['&'], s.add))
    def add(s): return s.binl(['+', '-'], s.mul)
    def mul(s): return s.binl(['*', '%'], s.unary)
    def unary(s):
        if s.opt('!'): return ('not', s.unary())
        if s.opt('&'): return s.unary()
        return s.cast()
    def cast(s):
        a = s.postfix()
        while s.peek() == 'as': s.next(); a = ('as', a, s.next().v)
        return a
    def postfix(s):
        a = s.atom()
        while True:
            if s.peek() == '.':
                s.next(); m = s.next().v
                if s.peek() == '(': a = ('call', a, m, s.args())
                else: a = ('field', a, m)
            elif s.peek() == '[':
                s.next(); i = s.expr(); s.eat(']'); a = ('index', a, i)
            else: return a
    def args(s):
        s.eat('('); xs = []
        while not s.opt(')'): xs.append(s.expr()); s.opt(',')
        return xs
    def atom(s):
        t = s.t[s.i]
        if t.k == 'num':
            return ('num', s.num())
        if t.v == '(':
            s.next(); a = s.expr()
            if s.peek() in ('..', '..='):
                o = s.next().v; b = s.expr(); s.eat(')'); return ('range', o, a, b)
            if s.peek() == ',':
                xs = [a]
                while s.opt(','):
                    if s.peek() == ')': break
                    xs.append(s.expr())
                s.eat(')'); return ('tuple', xs)
            s.eat(')'); return a
        if t.v == 'matches!':
            s.next(); s.eat('('); e = s.expr_no_bar(); s.eat(','); ps = s.pats(); s.opt(','); s.eat(')')
            return ('match', e, [(ps, ('bool', True)), ([('_',)], ('bool', False))])
        if t.v == 'match':
            s.next(); e = s.postfix(); s.eat('{'); arms = []
            while not s.opt('}'):
                ps = s.pats(); s.eat('=>')
                b = s.block() if s.peek() == '{' else s.expr()
                s.opt(','); arms.append((ps, b))
            return ('match', e, arms)
        if t.v == 'if':
            return ('ifexpr', s.iff())
        if t.v in ('true', 'false'): s.next(); return ('bool', t.v == 'true')
        if t.k == 'id':
            s.next()
            if s.peek() == '::':
                path = [t.v]
                while s.opt('::'): path.append(s.next().v)
                if s.peek() == '(': return ('pcall', path, s.args())
                return ('path', path)
            if s.peek() == '(': return ('fcall', t.v, s.args())
            return ('var', t.v)
        s.err('atom')
    def expr_no_bar(s): return s.postfix()
    def pats(s):
        ps = [s.pat()]
        while s.opt('|'): ps.append(s.pat())
        return ps
    def pat(s):
        if s.opt('_'): return ('_',)
        t = s.t[s.i]
        if t.k == 'num': return ('num', s.num())
        if s.opt('('):
            xs = []
            while not s.opt(')'): xs.append(s.pat()); s.opt(',')
            return ('tup', xs)
        if t.v == '_': s.next(); return ('_',)
        if t.k == 'id':
            s.next(); path = [t.v]
            while s.opt('::'): path.append(s.next().v)
            if s.opt('('):
                p = s.pat(); s.eat(')'); return ('con', path[-1], p)
            return ('con', path[-1], None)
        s.err('pat')

WD = {'Mon', 'Tue', 'Wed', 'Thu', 'Fri', 'Sat', 'Sun'}

class Gen:
    def __init__(s, name, fns, statics, enums, struct):
        s.n = name; s.fns = {f['name']: f for f in fns}; s.order = []
        s.statics = {x[1]: x for x in statics}; s.enums = enums; s.struct = struct
        s.out = []; s.sig = {}; s.tmp = 0
    def q(s, f): return f'{s.n}_{f}'
    # expression -> (text, type, partial)
    def fresh(s): s.tmp += 1; return f'v{s.tmp}'
    def pure(s, r):
        if r[2]: raise SyntaxError(f'{s.n}: partial where pure needed: {r[0]}')
        return r[0]
    def out1(s, r): return r[0] if r[2] else f'Ok {r[0]}' if re.fullmatch(r'\w+', r[0]) else f'Ok {s.paren(r[0])}'
    def lift2(s, f, a, b, ty):
        """strict binary operation: evaluate a, then b"""
        if not a[2] and not b[2]: return (f(a[0], b[0]), ty, False)
        x = y = None; pre = ''
        if a[2]: x = s.fresh(); pre += f'do {x} <- {a[0]}; '
        else: x = a[0]
        if b[2]: y = s.fresh(); pre += f'do {y} <- {b[0]}; '
        else: y = b[0]
        return (f'({pre}Ok {f(x, y)})', ty, True)
    def e(s, x, env):
        k = x[0]
        if k == 'num': return (str(x[1]), 'Z', False)
        if k == 'bool': return ('true' if x[1] else 'false', 'bool', False)
        if k == 'var':
            if x[1] in env: return (x[1], env[x[1]], False)
            if x[1] in s.statics: return (s.q(x[1]), 'static', False)
            raise SyntaxError(f'{s.n}: unbound {x[1]}')
        if k == 'path':
            if x[1][0] == 'Weekday' and x[1][1] in WD: return (x[1][1], 'weekday', False)
            raise SyntaxError(f'path {x}')
        if k == 'not':
            a = s.e(x[1], env)
            return (f'(onot {a[0]})', 'bool', True) if a[2] else (f'(negb {a[0]})', 'bool', False)
        if k == 'bin':
            o = x[1]; a = s.e(x[2], env); b = s.e(x[3], env)
            if o in ('&&', '||'):
                if not a[2] and not b[2]: return s.logic(o, x, env)
                if o == '||':
                    xs = [s.e(y, env) for y in s.chain('||', x)]
                    return ('(oany [' + ';\n     '.join(s.out1(y) for y in xs) + '])', 'bool', True)
                return (f"({'oand' if o == '&&' else 'oor'} {s.paren(s.out1(a))} {s.paren(s.out1(b))})", 'bool', True)
            if o in ('&', '|'):
                assert a[1] == b[1] == 'bool'
                return s.lift2(lambda p, q: f"({p} {o*2} {q})", a, b, 'bool')
            if o in ('==', '!='):
                assert a[1] == b[1], (s.n, x, a, b)
                f = {'Z': lambda p, q: f'({p} =? {q})', 'weekday': lambda p, q: f'(weekday_eqb {p} {q})'}[a[1]]
                g = f if o == '==' else (lambda p, q: f'(negb {f(p, q)})')
                return s.lift2(g, a, b, 'bool')
            if o in ('<', '<=', '>', '>='):
                assert a[1] == b[1] == 'Z'
                return s.lift2({'<': lambda p, q: f'({p} <? {q})', '<=': lambda p, q: f'({p} <=? {q})',
                                '>': lambda p, q: f'({q} <? {p})', '>=': lambda p, q: f'({q} <=? {p})'}[o], a, b, 'bool')
            if o in ('+', '-') and a[1] == 'date' and b[1] == 'dur':
                assert not a[2]
                return (f"(add_days {a[0]} ({'-' if o == '-' else ''}{b[0]}))", 'date', True)
            if o in ('+', '-'):
                assert a[1] == b[1] == 'Z', (s.n, x)
                if o == '-':   # u32/usize subtraction: the generator only meets small literals
                    assert x[3][0] == 'num' and (x[3][1] <= 81 or x[2][0] == 'as' or x[2] == ('var', 'y')), (s.n, x)
                return s.lift2(lambda p, q: f'({p} {o} {q})', a, b, 'Z')
            if o == '%': return s.lift2(lambda p, q: f'(Z.rem {p} {q})', a, b, 'Z')
            raise SyntaxError(str(x))
        if k == 'as': return s.e(x[1], env)
        if k == 'index':
            arr = s.e(x[1], env); i = s.e(x[2], env); assert arr[1] == 'static' and not i[2]
            assert x[2][0] == 'bin' and x[2][1] == '-' and x[2][2][0] == 'as'
            return (f'(table_index {arr[0]} {i[0]})', 'Z', True)
        if k == 'call':
            o, m, args = x[1], x[2], x[3]
            if m == 'contains' and o[0] == 'range':
                a = s.e(o[2], env); b = s.e(o[3], env); v = s.e(args[0], env)
                assert a[1] == b[1] == v[1] == 'Z' and not (a[2] or b[2] or v[2])
                up = '<=?' if o[1] == '..=' else '<?'
                return (f'(({a[0]} <=? {v[0]}) && ({v[0]} {up} {b[0]}))', 'bool', False)
            if m == 'contains':
                st = s.e(o, env); v = s.e(args[0], env)
                assert st[1] in ('HashSet<(u32,u32,i32)>', 'static') and not v[2]
                return (f'(set_contains {v[0]} {st[0]})', 'bool', False)
            if o == ('var', 'self'):
                if m in ('easter_monday', 'orthodox_easter_monday'):
                    a = s.e(args[0], env); return (f'({m} {a[0]})', 'Z', True)
                if m == 'is_weekend':
                    a = s.e(args[0], env); assert a[1] == 'date' and not a[2]
                    return (f'(is_weekend {a[0]})', 'bool', False)
                if m == 'naive_date_to_dkmy': return ('dkmy', 'dkmy', False)
                return s.callfn(m, args, env)
            if m in ('day', 'month', 'year', 'weekday', 'ordinal'):
                a = s.e(o, env); assert a[1] == 'date' and not a[2]
                f = 'weekday_of' if m == 'weekday' else m
                return (f'({f} {a[0]})', 'weekday' if m == 'weekday' else 'Z', False)
            raise SyntaxError(f'{s.n}: call {x}')
        if k == 'fcall': return s.callfn(x[1], x[2], env)
        if k == 'pcall':
            if x[1] in (['Duration', 'days'],):
                a = s.e(x[2][0], env); return (a[0], 'dur', False)
            raise SyntaxError(str(x))
        if k == 'tuple':
            xs = [s.e(y, env) for y in x[1]]; assert not any(y[2] for y in xs)
            return ('(' + ', '.join(y[0] for y in xs) + ')', ('tup', [y[1] for y in xs]), False)
        if k == 'mapget':
            key = s.e(x[2], env); t = s.e(x[3], env)
            return (f'(map_contains {key[0]} {t[0]} {s.q(x[1])})', 'bool', False)
        if k == 'match': return s.match(x, env)
        if k == 'ifexpr': return s.blk([x[1]], env)
        if k == 'field' and x == ('field', ('var', 'self'), 'market'): return ('market', 'market', False)
        raise SyntaxError(f'{s.n}: {x}')
    def chain(s, o, x):
        return s.chain(o, x[2]) + s.chain(o, x[3]) if x[0] == 'bin' and x[1] == o else [x]
    def logic(s, o, x, env):
        xs = [s.e(y, env)[0] for y in s.chain(o, x)]
        if o == '&&': return ('(' + ' && '.join(s.unparen(y, '||') for y in xs) + ')', 'bool', False)
        sep = '\n     || ' if len(xs) > 3 else ' || '
        return ('(' + sep.join(s.unparen(y, '') for y in xs) + ')', 'bool', False)
    def unparen(s, t, keep):
        # drop the outer parentheses of a comparison (and of a conjunction inside ||)
        if t.startswith('(') and t.endswith(')') and s.bal(t):
            u = t[1:-1]; depth = 0; top = ''
            for c in u:
                depth += (c == '(') - (c == ')')
                if depth == 0: top += c
            if keep == '||' and '||' in top: return t
            if ' then ' in u or '&&' not in top: return t
            return u
        return t
    def paren(s, t): return t if t.startswith('(') and t.endswith(')') and s.bal(t) else f'({t})'
    def bal(s, t):
        d = 0
        for i, c in enumerate(t):
            d += (c == '(') - (c == ')')
            if d == 0 and i < len(t) - 1: return False
        return True
    def callfn(s, m, args, env):
        f = s.fns[m]; s.emit(f)
        ty, part, mk = s.sig[m]
        ps = []; pre = ''
        if mk: ps.append('market'); s.usesmarket = True
        for a in args:
            r = s.e(a, env)
            if r[2]: v = s.fresh(); pre += f'do {v} <- {r[0]}; '; ps.append(v)
            else: ps.append(r[0])
        call = f"({s.q(m)} {' '.join(ps)})"
        if pre: return (f'({pre}{call if part else "Ok " + call})', ty, True)
        return (call, ty, part)
    def pattest(s, p, v, ty):
        """boolean test of pattern p against the (pure) text v, or None if it always matches"""
        if p[0] == '_': return None
        if p[0] == 'num': return f'({v} =? {p[1]})'
        if p[0] == 'con' and p[1] in WD: return f'(weekday_eqb {v} {p[1]})'
        raise SyntaxError(str(p))
    def match(s, x, env):
        scr, arms = x[1], x[2]
        if scr == ('field', ('var', 'self'), 'market'):
            s.usesmarket = True
            rs = []
            for ps, b in arms:
                r = s.blk(b, env) if isinstance(b, list) else s.e(b, env)
                pt = ' | '.join('None' if p == ('con', 'None', None) else '_' if p == ('_',) else f'Some {s.q(p[2][1])}' for p in ps)
                rs.append((pt, r))
            part = any(r[2] for _, r in rs)
            t = 'match market with\n' + ''.join(f'  | {pt} => {s.out1(r) if part else r[0]}\n' for pt, r in rs) + '  end'
            return (t, rs[0][1][1], part)
        if scr[0] == 'tuple': comps = [s.e(y, env) for y in scr[1]]
        else: comps = [s.e(scr, env)]
        assert not any(c[2] for c in comps)
        conds = []
        for ps, b in arms:
            alts = []
            for p in ps:
                if p == ('_',): alts = None; break
                sub = p[1] if p[0] == 'tup' else [p]
                assert len(sub) == len(comps)
                ts = [t for t in (s.pattest(q, c[0], c[1]) for q, c in zip(sub, comps)) if t]
                alts.append('(' + ' && '.join(ts) + ')')
            r = s.blk(b, env) if isinstance(b, list) else s.e(b, env)
            conds.append((None if alts is None else '(' + '\n   || '.join(alts) + ')', r))
        assert conds[-1][0] is None
        if [c[1][0] for c in conds] == ['true', 'false']: return (conds[0][0], 'bool', False)
        part = any(c[1][2] for c in conds)
        t = ''
        for c, r in conds[:-1]: t += f'if {c} then {s.out1(r) if part else r[0]}\n  else '
        t += s.out1(conds[-1][1]) if part else conds[-1][1][0]
        return (f'({t})', conds[0][1][1], part)
    def blk(s, b, env):
        """block with continuation-free translation; returns (text,type,partial)"""
        return s.stmts(b, dict(env))
    def stmts(s, b, env):
        if not b: raise SyntaxError(f'{s.n}: block falls through')
        st, rest = b[0], b[1:]
        if st[0] == 'ret': return s.e(st[1], env)   # code after a return is dead
        if st[0] == 'expr':
            if rest: raise SyntaxError(f'{s.n}: tail expression before a continuation')
            return s.e(st[1], env)
        if st[0] == 'let':
            pat, ex = st[1], st[2]
            if isinstance(pat, list):
                assert ex == ('call', ('var', 'self'), 'naive_date_to_dkmy', [('var', 'date')]) and len(pat) == 5
                t = ''
                for v, f, ty in zip(pat, ['day', 'weekday_of', 'month', 'year', 'ordinal'], ['Z', 'weekday', 'Z', 'Z', 'Z']):
                    if not v.startswith('_'): env[v] = ty; t += f'let {v} := {f} date in '
                r = s.stmts(rest, env)
                return (t.rstrip() + '\n  ' + r[0], r[1], r[2])
            r0 = s.e(ex, env); env[pat] = r0[1]
            r = s.stmts(rest, env)
            if r0[2]: return (f'do {pat} <- {r0[0]};\n  {s.out1(r)}', r[1], True)
            return (f'let {pat} := {r0[0]} in\n  {r[0]}', r[1], r[2])
        if st[0] == 'if':
            c, a, el = st[1], st[2], st[3]
            rc = s.e(c, env); ra = s.stmts(a + rest, dict(env))
            rb = s.stmts((el or []) + rest, dict(env))
            part = ra[2] or rb[2] or rc[2]
            ta = s.out1(ra) if part else ra[0]; tb = s.out1(rb) if part else rb[0]
            if rc[2]:
                v = s.fresh(); return (f'do {v} <- {rc[0]};\n  if {v} then {ta} else\n  {tb}', ra[1], True)
            return (f'if {rc[0]}\n  then {ta} else\n  {tb}', ra[1], part)
        raise SyntaxError(str(st))
    def emit(s, f):
        n = f['name']
        if n in s.sig: return
        s.sig[n] = None
        env = {}; ps = ''
        for p, ty in f['params']:
            t = {'NaiveDate': 'date', 'u32': 'Z', 'i32': 'Z', 'Weekday': 'weekday'}.get(ty)
            if ty == '&HashSet<(u32,u32,i32)>': env[p] = 'HashSet<(u32,u32,i32)>'; ps += f' ({p} : list (Z * Z * Z))'
            elif ty == 'HashSet<(u32,u32,i32)>' : env[p] = ty; ps += f' ({p} : list (Z * Z * Z))'
            else:
                assert t, ty
                env[p] = t; ps += f' ({p} : {t})'
        old = getattr(s, 'usesmarket', False), s.tmp; s.usesmarket = False; s.tmp = 0
        r = s.stmts(f['body'], env)
        mk = s.usesmarket; s.usesmarket = old[0]; s.tmp = old[1]
        part = r[2]
        if n == 'is_business_day' and not part: r = (f'Ok (\n  {r[0]})', r[1], True); part = True
        rt = {'bool': 'bool', 'u32': 'Z'}[f['ret']]
        if part: rt = f'outcome {rt}'
        mkp = f' (market : option {s.n}_market)' if mk else ''
        s.out.append(f"(** src/time/calendars/{s.n}.rs:{f['l0']}-{f['l1']}  {s.struct}::{n} *)\n"
                     f"Definition {s.q(n)}{mkp}{ps} : {rt} :=\n  {r[0]}.\n")
        s.sig[n] = (r[1], part, mk)
    def run(s, lines):
        h = [f'(** {s.struct} calendar (src/time/calendars/{s.n}.rs), generated from the Rust text by\n'
             '    tools/calendars.py.  [||], [&&] are Rust\'s short-circuit operators; [oor], [oand]\n'
             '    the same when an operand can panic.  Integers are unbounded: the only\n'
             '    subtractions are of literals at most 81 from Easter-table entries, which are\n'
             '    at least 82 (Cal_base.v, [easter_bounds]), so nothing wraps. *)\n'
             'From Coq Require Import ZArith Bool List.\nImport ListNotations.\n'
             'From Verif Require Import Outcome Date Calendar Cal_base.\nOpen Scope Z_scope.\n']
        for en, alts in s.enums:
            l = next(i for i, x in enumerate(lines, 1) if f'enum {en}' in x)
            h.append(f'(** src/time/calendars/{s.n}.rs:{l}-{l+len(alts)+1}  enum {en} *)\n'
                     f'Inductive {s.n}_market : Set := ' + ' | '.join(s.q(a) for a in alts) + '.\n')
        for k, n, xs, l0, l1 in s.statics.values():
            h.append(f'(** src/time/calendars/{s.n}.rs:{l0}-{l1}  {n} *)')
            if k == 'array':
                h.append(f'Definition {s.q(n)} : list Z :=\n  [' + '; '.join(map(str, xs)) + '].\n')
            elif k == 'set':
                h.append(f'Definition {s.q(n)} : list (Z * Z * Z) :=\n  [' + '; '.join('(%d, %d, %d)' % t for t in xs) + '].\n')
            else:
                h.append(f'Definition {s.q(n)} : list (Z * list (Z * Z)) :=\n  [' + ';\n   '.join(
                    f'({y}, [' + '; '.join('(%d, %d)' % t for t in ts) + '])' for y, ts in xs) + '].\n')
        for f in s.fns.values(): s.emit(f)
        return '\n'.join(h) + '\n' + '\n'.join(s.out)

def wrap(text):
    out = []
    for l in text.split('\n'):
        while len(l) > 100:
            k = max(l.rfind(' || ', 0, 100), l.rfind(' && ', 0, 100) if l.rfind(' || ', 0, 100) < 40 else 0, l.rfind('; ', 0, 100), l.rfind(' let ', 0, 100))
            if k <= 8: k = l.rfind(' ', 0, 100)
            if k <= 8: break
            if l[k:k+2] == '; ': k += 1
            out.append(l[:k].rstrip()); l = '     ' + l[k:].lstrip()
        out.append(l)
    return '\n'.join(out)

def shipped(names):
    T = OUT; cons = []
    for n in names:
        t = open(f'{T}/Cal_{n}.v').read()
        m = re.search(r'Inductive \w+_market : Set :=([^.]*)\.', t)
        cons.append((n, re.search(r'\(\*\* (\w+) calendar', t).group(1), bool(m)))
    head = '''(** The shipped calendars as one type, so that a statement can quantify over
    all of them.  Generated by tools/calendars.py together with the Cal_* files. *)
From Verif Require Import Outcome Date Calendar %s.

(** The structs implementing [Calendar] in src/time/calendars/*.rs (JointCalendar,
    which contains other calendars, is [Calendar.joint]). *)
Inductive shipped : Set :=
| WeekendsOnly
%s.

(** [is_business_day] of each (the dynamic dispatch of [Box<dyn Calendar>],
    src/time/calendars.rs:160-202). *)
Definition shipped_calendar (s : shipped) : calendar :=
  match s with
  | WeekendsOnly => weekends_only
%s
  end.
''' % ('\n  '.join('Cal_' + n for n in names),
      '\n'.join(f'| {st} (m : option {n}_market)' if b else f'| {st}' for n, st, b in cons),
      '\n'.join(f'  | {st} m => {n}_is_business_day m' if b else f'  | {st} => {n}_is_business_day' for n, st, b in cons))
    open(T + '/Shipped.v', 'w').write(head)

def main():
    names = sorted(f[:-3] for f in os.listdir(SRC) if f.endswith('.rs') and f not in ('jointcalendar.rs', 'weekendsonly.rs'))
    for n in names:
        src = open(f'{SRC}/{n}.rs').read(); src = src.split('#[cfg(test)]')[0]
        g = Gen(n, *P(lex(src), n).items())
        t = wrap(g.run(src.split('\n')))
        p = f'{OUT}/Cal_{n}.v'
        if not os.path.exists(p) or open(p).read() != t: open(p, 'w').write(t)
    # the two Easter tables of src/time/calendars.rs
    src = open(f'{SRC}/../calendars.rs').read(); t = ('(** Easter Monday tables, generated from src/time/calendars.rs by tools/calendars.py. *)\n'
        'From Coq Require Import ZArith List.\nImport ListNotations.\nOpen Scope Z_scope.\n')
    for nm in ('EASTER_MONDAY', 'ORTHODOX_EASTER_MONDAY'):
        i = src.index(f'static {nm}:'); j = src.index('];', i) + 2
        k, n, xs, l0, l1 = P(lex(src[i:j]), nm).static(); a = src.count('\n', 0, i)
        t += f'\n(** src/time/calendars.rs:{a+l0}-{a+l1}  {nm} *)\nDefinition {nm} : list Z :=\n  [' + '; '.join(map(str, xs)) + '].\n'
    open(f'{OUT}/Cal_easter.v', 'w').write(wrap(t))
    shipped(names)
    print(len(names), ' '.join(names))
if __name__ == '__main__': main()
