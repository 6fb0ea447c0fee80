#!/usr/bin/env python3
"""Reads the classes of /repo/soapy as text and prints, as Coq, what each method
does to the attributes of its own object: the model file
rocq/theories/Model/AttrsCode.v is the output of this script.

    python3 tools/extract_attrs.py > rocq/theories/Model/AttrsCode.v

Translation (names as in Model/Attrs.v):
  self.a read / self.a = e      Get a / (e) ; Put a
  self.m(args)                  (args) ; Inv m
  super(K, self).m(args)        (args) ; Sup K m
  K.m(self, args)               (args) ; Own K m
  x, bound nowhere              Undef x
  if / and / or / x if c else y Or, Cond (tests of ATOMS), IfHas (hasattr and
                                tests of an attribute against 0, None, False)
  for / while / comprehension   Loop
  try / except / finally        Try
  return / raise / break        Ret / Rse / Brk
Everything else (arithmetic, array work, other objects) only evaluates its
parts.  A parameter with a True/False default that is only tested is resolved
at calls that pass a literal; the method then has one variant per value.
"""
import ast, builtins, os, sys
R = '/repo/soapy'
FILES = ['DM.py', 'LGS.py', 'atmosphere.py', 'lineofsight.py', 'reconstruction.py',
         'scienceinstrument.py', 'simulation.py', 'wfs/wfs.py', 'wfs/shackhartmann.py',
         'wfs/gradient.py', 'wfs/pyramid.py', 'wfs/extendedshackhartmann.py', 'wfs/zernike.py',
         'wfs/shackhartmann_legacy.py']
SKIPCLS = {'Phase', 'InfinitePhaseScreen', 'DelayBuffer'}
BI = set(dir(builtins)) | {'__file__', '__name__', '__doc__'}
# tests whose outcome is fixed by the configuration of the object
ATOMS = ['config.lgs', 'config.lgs.uplink', 'config.GSHeight != 0',
         'config.lgs.elongationDepth != 0', 'config.infinite',
         'config.sim.nSci > 0', 'config.sim.simName != None', 'config.sim.saveWfe',
         'config.sim.saveStrehl', 'config.sim.saveInstPsf', 'config.sim.saveInstScieField']
ALIAS = [('self.lgsConfig', 'self.config.lgs'), ('self.wfsConfig', 'self.config'),
         ('self.dmConfig', 'self.config')]
SKIP = ('Skip',)
RENAME = {('wfs/zernike.py', 'Zernike'): 'ZernikeWFS'}   # two classes are called Zernike
class Cls: pass
classes = {}
def modnames(tree):
    s = set()
    def top(body):
        for n in body:
            if isinstance(n, (ast.FunctionDef, ast.ClassDef)): s.add(n.name)
            elif isinstance(n, (ast.Import, ast.ImportFrom)):
                for a in n.names:
                    if a.name == '*': raise Exception('import *')
                    s.add((a.asname or a.name).split('.')[0])
            elif isinstance(n, ast.Assign):
                for t in n.targets:
                    for x in ast.walk(t):
                        if isinstance(x, ast.Name): s.add(x.id)
            if not isinstance(n, (ast.FunctionDef, ast.ClassDef)):
                for f in ('body', 'orelse', 'finalbody'): top(getattr(n, f, []))
            for h in getattr(n, 'handlers', []): top(h.body)
            if isinstance(n, ast.For):
                for x in ast.walk(n.target):
                    if isinstance(x, ast.Name): s.add(x.id)
    top(tree.body)
    # exec("x = ...", globals()) binds x in the module
    for n in ast.walk(tree):
        if isinstance(n, ast.Call) and isinstance(n.func, ast.Name) and n.func.id == 'exec':
            assert len(n.args) == 2 and ast.dump(n.args[1]) == ast.dump(ast.parse('globals()').body[0].value)
            c = next(x for x in ast.walk(n.args[0]) if isinstance(x, ast.Constant))
            s.add(c.value.split('=')[0].strip())
    return s
GETTERS = set()
def seq(l):
    out = []
    for x in l:
        if x == SKIP: continue
        if x[0] == 'Seq': out += x[1]
        else: out.append(x)
    res = []; known = set()
    for x in out:
        if x[0] in ('Get', 'Put') and x[1] not in GETTERS:
            if x[0] == 'Get' and x[1] in known: continue
            if x[0] == 'Put' and ('Put', x[1]) in known: continue
            known.add(x[1])
            if x[0] == 'Put': known.add(('Put', x[1]))
        res.append(x)
        if x[0] in ('Ret', 'Rse', 'Brk'): break
    if not res: return SKIP
    if len(res) == 1: return res[0]
    return ('Seq', res)
def either(a, b): return a if a == b else ('Or', a, b)
def loop(b): return SKIP if b == SKIP else ('Loop', b)
FLAGS = set()       # (attribute, kind) tested somewhere
def flag(a, k): return {'nz': a + ' != 0', 'nn': a + ' is not None', 't': a + ' is true'}[k]
class Fn:
    def __init__(s, fn, glob, cls, fixed, file):
        s.file = file
        s.glob = glob; s.cls = cls; s.root = ROOT[cls]; s.fixed = fixed; s.self = fn.args.args[0].arg; s.loc = set()
        # locals known to be true: `if not x: x = <true literal>` at the top level, not stored again
        s.truthy = set()
        for n in fn.body:
            if isinstance(n, ast.If) and isinstance(n.test, ast.UnaryOp) and isinstance(n.test.op, ast.Not) \
                    and isinstance(n.test.operand, ast.Name) and len(n.body) == 1 and not n.orelse \
                    and isinstance(n.body[0], ast.Assign) and isinstance(n.body[0].value, ast.Constant) and n.body[0].value.value:
                x = n.test.operand.id
                if sum(isinstance(y, ast.Name) and y.id == x and isinstance(y.ctx, ast.Store) for y in ast.walk(fn)) == 1:
                    s.truthy.add(x)
        for n in ast.walk(fn):
            if isinstance(n, ast.arg): s.loc.add(n.arg)
            if isinstance(n, ast.Name) and isinstance(n.ctx, (ast.Store, ast.Del)): s.loc.add(n.id)
            if isinstance(n, ast.ExceptHandler) and n.name: s.loc.add(n.name)
            if isinstance(n, (ast.FunctionDef, ast.ClassDef)) and n is not fn: s.loc.add(n.name)
            if isinstance(n, (ast.Import, ast.ImportFrom)):
                for a in n.names: s.loc.add((a.asname or a.name).split('.')[0])
    def isself(s, e): return isinstance(e, ast.Name) and e.id == s.self
    def selfattr(s, e): return e.attr if isinstance(e, ast.Attribute) and s.isself(e.value) else None
    def call(s, e, m):
        # which variant of m?
        ps = PARAMS.get((s.root, m))
        if ps is None: return [m]
        names = list(ps['all'])
        vals = {}
        for i, a in enumerate(e.args):
            if isinstance(a, ast.Starred): return [m]
            if i < len(names): vals[names[i]] = a
        for k in e.keywords:
            if k.arg is None: return [m]
            vals[k.arg] = k.value
        combos = ['']
        for p in ps['bool']:
            v = vals.get(p)
            if v is None: o = [ps['default'][p]]
            elif isinstance(v, ast.Constant) and (v.value is None or isinstance(v.value, bool)): o = [bool(v.value)]
            elif isinstance(v, ast.Name) and v.id in s.truthy: o = [True]
            else: o = [True, False]
            combos = [c + ('[%s=%s]' % (p, x)) for c in combos for x in o]
        return [m + c for c in combos]
    def calls(s, kind, e, m, *k):
        vs = s.call(e, m)
        r = (kind,) + k + (vs[-1],)
        for v in reversed(vs[:-1]): r = ('Or', (kind,) + k + (v,), r)
        return r
    def arg(s, a):
        # a bound method handed over as a callback may be called
        n = s.selfattr(a)
        if n is not None and (s.root, n) in METHODS: return seq([('Get', n), ('Loop', ('Inv', n))])
        return s.E(a)
    def E(s, e):
        if e is None or isinstance(e, ast.Constant): return SKIP
        if isinstance(e, ast.Name):
            if isinstance(e.ctx, ast.Load) and e.id not in s.loc and e.id not in s.glob and e.id not in BI:
                return ('Undef', e.id)
            return SKIP
        if isinstance(e, ast.Attribute):
            if s.isself(e.value):
                if isinstance(e.ctx, ast.Load): return ('Get', e.attr)
                raise Exception('store')
            return s.E(e.value)
        if isinstance(e, ast.Call):
            f = e.func
            args = [s.arg(a) for a in e.args] + [s.arg(k.value) for k in e.keywords]
            if isinstance(f, ast.Name) and f.id in ('hasattr', 'getattr') and s.isself(e.args[0]):
                return seq(args[1:])
            if isinstance(f, ast.Attribute):
                if s.isself(f.value):
                    if (s.root, f.attr) in BOUND:
                        r = None
                        for b in sorted(BOUND[s.root, f.attr]):
                            r = s.calls('Inv', e, b) if r is None else ('Or', s.calls('Inv', e, b), r)
                        return seq([('Get', f.attr)] + args + [r])
                    if (s.root, f.attr) not in METHODS: return seq([('Get', f.attr)] + args)
                    return seq(args + [s.calls('Inv', e, f.attr)])
                v = f.value
                if isinstance(v, ast.Call) and isinstance(v.func, ast.Name) and v.func.id == 'super':
                    k = cname(s.file, v.args[0].id) if v.args else s.cls
                    return seq(args + [s.calls('Sup', e, f.attr, k)])
                if e.args and s.isself(e.args[0]):
                    k = CLSALIAS.get((s.file, ast.unparse(v))) or CLSALIAS.get(ast.unparse(v).split('.')[-1])
                    if k:
                        e2 = ast.Call(func=e.func, args=e.args[1:], keywords=e.keywords)
                        return seq(args + [s.calls('Own', e2, f.attr, k)])
            return seq([s.E(f)] + args)
        if isinstance(e, ast.BoolOp):
            r = s.E(e.values[-1])
            for v in reversed(e.values[:-1]):
                r = s.test(v, r, SKIP) if isinstance(e.op, ast.And) else s.test(v, SKIP, r)
            return r
        if isinstance(e, ast.IfExp): return s.test(e.test, s.E(e.body), s.E(e.orelse))
        if isinstance(e, (ast.ListComp, ast.SetComp, ast.GeneratorExp, ast.DictComp)):
            r = seq([s.E(e.key), s.E(e.value)] if isinstance(e, ast.DictComp) else [s.E(e.elt)])
            for g in reversed(e.generators):
                r = seq([s.E(g.iter), loop(seq([s.E(c) for c in g.ifs] + [r]))])
            return r
        if isinstance(e, ast.Lambda): return loop(s.E(e.body))
        l = []
        for c in ast.iter_child_nodes(e):
            if isinstance(c, (ast.expr_context, ast.operator, ast.cmpop, ast.unaryop, ast.boolop)): continue
            l.append(s.E(c) if isinstance(c, ast.expr) else
                     seq([s.E(x) for x in ast.iter_child_nodes(c) if isinstance(x, ast.expr)]))
        return seq(l)
    def test(s, t, a, b):
        """if t then a else b"""
        if a == b: return seq([s.E(t), a])
        if isinstance(t, ast.UnaryOp) and isinstance(t.op, ast.Not): return s.test(t.operand, b, a)
        if isinstance(t, ast.BoolOp) and s.special(t):
            r = t.values[0]
            rest = t.values[1] if len(t.values) == 2 else ast.BoolOp(op=t.op, values=t.values[1:])
            if isinstance(t.op, ast.And): return s.test(r, s.test(rest, a, b), b)
            return s.test(r, a, s.test(rest, a, b))
        if isinstance(t, ast.Name) and t.id in s.fixed: return a if s.fixed[t.id] else b
        if isinstance(t, ast.Compare) and isinstance(t.left, ast.Name) and t.left.id in s.fixed \
                and isinstance(t.comparators[0], ast.Constant) and isinstance(t.comparators[0].value, bool):
            v = s.fixed[t.left.id] == t.comparators[0].value
            if isinstance(t.ops[0], (ast.Is, ast.Eq)): return a if v else b
        if isinstance(t, ast.Constant): return a if t.value else b
        if isinstance(t, ast.Call) and isinstance(t.func, ast.Name) and t.func.id == 'hasattr' \
                and s.isself(t.args[0]):
            return ('IfHas', t.args[1].value, a, b)
        at = s.atom(t)
        if at:
            n, pos = at
            return seq([s.E(t), ('Cond', n, a, b) if pos else ('Cond', n, b, a)])
        fl = s.flagtest(t)
        if fl:
            n, k, pos = fl
            FLAGS.add((n, k))
            x = ('IfHas', flag(n, k), either(a, b), b if pos else a)
            return seq([('Get', n), x])
        return seq([s.E(t), either(a, b)])
    def special(s, t):
        if isinstance(t, ast.BoolOp): return any(s.special(v) for v in t.values)
        if isinstance(t, ast.UnaryOp) and isinstance(t.op, ast.Not): return s.special(t.operand)
        if isinstance(t, ast.Name): return t.id in s.fixed
        return bool(s.atom(t) or s.flagtest(t) or (isinstance(t, ast.Call) and isinstance(t.func, ast.Name)
                    and t.func.id == 'hasattr'))
    def atom(s, t):
        x = ast.unparse(t)
        for p, q in ALIAS:
            if x == p or x.startswith(p + '.') or x.startswith(p + ' '): x = q + x[len(p):]
        if x.startswith('self.'): x = x[5:]
        else: return None
        if x.endswith(' == True'): x = x[:-8]
        if x in ATOMS: return x, True
        if x.endswith(' == 0') and x[:-5] + ' != 0' in ATOMS: return x[:-5] + ' != 0', False
        return None
    def flagtest(s, t):
        n = s.selfattr(t)
        if n is not None and n in FALSY: return n, 't', True
        if isinstance(t, ast.Compare) and len(t.ops) == 1 and isinstance(t.comparators[0], ast.Constant):
            n = s.selfattr(t.left); v = t.comparators[0].value; o = t.ops[0]
            if n in FALSY:
                if v is None and isinstance(o, (ast.Is, ast.IsNot, ast.Eq, ast.NotEq)):
                    return n, 'nn', isinstance(o, (ast.IsNot, ast.NotEq))
                if type(v) is int and v == 0 and isinstance(o, (ast.Eq, ast.NotEq)):
                    return n, 'nz', isinstance(o, ast.NotEq)
        return None
    def store(s, a, value):
        l = [('Put', a)]
        for k in ('nz', 'nn', 't'):
            if (a, k) in FLAGS0:
                if isinstance(value, ast.Constant):
                    v = value.value
                    if k == 'nz' and type(v) in (int, float) and v == 0: continue
                    if k == 'nn' and v is None: continue
                    if k == 't' and not v: continue
                l.append(('Put', flag(a, k)))
        return l
    def T(s, t, value=None):
        if isinstance(t, (ast.Tuple, ast.List)): return seq([s.T(x) for x in t.elts])
        if isinstance(t, ast.Starred): return s.T(t.value)
        if isinstance(t, ast.Subscript): return seq([s.E(t.value), s.E(t.slice)])
        if s.selfattr(t) is not None: return seq(s.store(t.attr, value))
        if isinstance(t, ast.Attribute): return s.E(t.value)
        return SKIP
    def B(s, b): return seq([s.S(x) for x in b])
    def S(s, n):
        if isinstance(n, ast.Expr): return s.E(n.value)
        if isinstance(n, ast.Assign): return seq([s.E(n.value)] + [s.T(t, n.value) for t in n.targets])
        if isinstance(n, ast.AugAssign):
            t = n.target
            if s.selfattr(t) is not None:
                return seq([('Get', t.attr), s.E(n.value)] + s.store(t.attr, None))
            return seq([s.T(t), s.E(n.value)])
        if isinstance(n, ast.If): return s.test(n.test, s.B(n.body), s.B(n.orelse))
        if isinstance(n, (ast.For, ast.While)):
            if isinstance(n, ast.For): h = [s.E(n.iter)]; b = seq([s.T(n.target), s.B(n.body)])
            else: h = [s.E(n.test)]; b = seq([s.B(n.body), s.E(n.test)])
            r = loop(b)
            if isinstance(n, ast.For) and r != SKIP and ast.unparse(n.iter) in (
                    'range(self.config.sim.nSci)', 'xrange(self.config.sim.nSci)'):
                r = ('Cond', 'config.sim.nSci > 0', r, SKIP)
            r = seq(h + [r])
            if n.orelse: r = seq([r, either(s.B(n.orelse), SKIP)])
            return r
        if isinstance(n, ast.Try):
            r = seq([s.B(n.body), s.B(n.orelse)])
            ca = cn = False; hs = None
            for h in n.handlers:
                names = [x.id for x in ast.walk(h.type) if isinstance(x, ast.Name)] if h.type is not None else ['Exception']
                if 'AttributeError' in names or 'Exception' in names: ca = True
                if 'NameError' in names or 'Exception' in names: cn = True
                hb = s.B(h.body)
                hs = hb if hs is None else either(hs, hb)
            if hs is not None: r = ('Try', ca, cn, r, hs)
            if n.finalbody:
                f = s.B(n.finalbody)
                r = seq([('Try', True, True, r, seq([f, ('Rse',)])), f])
            return r
        if isinstance(n, ast.With): return seq([s.E(i.context_expr) for i in n.items] + [s.B(n.body)])
        if isinstance(n, ast.Return): return seq([s.E(n.value), ('Ret',)])
        if isinstance(n, ast.Raise): return seq([s.E(n.exc), ('Rse',)])
        if isinstance(n, (ast.Break, ast.Continue)): return ('Brk',)
        if isinstance(n, ast.Assert): return s.E(n.test)
        if isinstance(n, ast.FunctionDef): return loop(s.B(n.body))
        if isinstance(n, (ast.Pass, ast.Import, ast.ImportFrom, ast.Global)): return SKIP
        if isinstance(n, ast.Delete):
            for t in n.targets:
                if s.selfattr(t) is not None: raise Exception('del self.' + t.attr)
            return SKIP
        raise Exception(type(n).__name__)
# ---- first pass: names
trees = {}
CLSALIAS = {}; METHODS = set(); PARAMS = {}; BOUND = {}; FALSY = set(); FLAGS0 = set(); ROOT = {}; BASE = {}
def cname(f, n): return RENAME.get((f, n), n)
def decs(m): return [ast.unparse(d) for d in m.decorator_list]
for f in FILES:
    t = trees[f] = ast.parse(open(os.path.join(R, f)).read())
    for n in t.body:
        if isinstance(n, ast.ClassDef):
            CLSALIAS[f, n.name] = cname(f, n.name)
            if (f, n.name) not in RENAME: CLSALIAS[n.name] = n.name
    for n in t.body:
        if isinstance(n, ast.Assign) and isinstance(n.value, ast.Name) and n.value.id in CLSALIAS:
            for x in n.targets: CLSALIAS[f, x.id] = CLSALIAS[x.id] = CLSALIAS[n.value.id]
for f in FILES:
    for n in trees[f].body:
        if isinstance(n, ast.ClassDef) and n.name not in SKIPCLS:
            bs = [ast.unparse(b) for b in n.bases]
            BASE[cname(f, n.name)] = [CLSALIAS.get((f, b)) or CLSALIAS.get(b.split('.')[-1]) for b in bs if b != 'object']
def mro(n):
    if n == 'LearnAndApplyLTAO':
        # class LearnAndApplyLTAO(LearnAndApply, MVM_SeparateDMs): C3 linearisation
        return ['LearnAndApplyLTAO', 'LearnAndApply', 'MVM', 'MVM_SeparateDMs', 'Reconstructor']
    bs = BASE[n]
    if not bs: return [n]
    if bs[0] is None or len(bs) > 1: raise Exception('bases of ' + n)
    return [n] + mro(bs[0])
for n in BASE: ROOT[n] = mro(n)[-1]
def meths():
    for f in FILES:
        for n in trees[f].body:
            if isinstance(n, ast.ClassDef) and n.name not in SKIPCLS:
                for m in n.body:
                    if isinstance(m, ast.FunctionDef): yield ROOT[cname(f, n.name)], m
for r, m in meths():
    d = decs(m)
    if 'property' in d or any(x.endswith('.setter') for x in d): GETTERS.add(m.name)
    elif m.args.args: METHODS.add((r, m.name))
boolp = {}
for r, m in meths():
    if (r, m.name) not in METHODS or m.name == '__init__': continue
    a = m.args; ns = [x.arg for x in a.args][1:]
    df = dict(zip(ns[::-1], a.defaults[::-1]))
    bs = {}
    for p in ns:
        if p in df and isinstance(df[p], ast.Constant) and (isinstance(df[p].value, bool) or (df[p].value is None and
                any(isinstance(x, ast.If) and isinstance(x.test, ast.Name) and x.test.id == p for x in ast.walk(m)) and
                not any(isinstance(x, ast.Compare) and any(isinstance(y, ast.Name) and y.id == p for y in ast.walk(x)) for x in ast.walk(m)))):
            stores = any(isinstance(x, ast.Name) and x.id == p and isinstance(x.ctx, ast.Store) for x in ast.walk(m))
            tested = any(isinstance(x, (ast.If, ast.IfExp)) and any(isinstance(y, ast.Name) and y.id == p for y in ast.walk(x.test)) for x in ast.walk(m))
            if not stores and tested: bs[p] = bool(df[p].value)
    boolp.setdefault((r, m.name), []).append((ns, bs))
for mn, l in boolp.items():
    allb = {}
    for ns, bs in l: allb.update(bs)
    if allb:
        names = max((ns for ns, _ in l), key=len)
        # a method whose redefinitions disagree on the parameters is left alone
        if all(ns == names[:len(ns)] for ns, _ in l):
            PARAMS[mn] = {'all': names, 'bool': sorted(allb), 'default': allb}
for r, m in meths():
    sn = m.args.args[0].arg if m.args.args else None
    for x in ast.walk(m):
        if isinstance(x, ast.Assign):
            for t in x.targets:
                if isinstance(t, ast.Attribute) and isinstance(t.value, ast.Name) and t.value.id == sn:
                    if isinstance(x.value, ast.Constant) and not x.value.value and x.value.value != '': FALSY.add(t.attr)
                    if isinstance(x.value, ast.Attribute) and isinstance(x.value.value, ast.Name) and x.value.value.id == sn and (r, x.value.attr) in METHODS:
                        BOUND.setdefault((r, t.attr), set()).add(x.value.attr)
def variants(r, m):
    ps = PARAMS.get((r, m))
    if not ps: return [{}]
    r = [{}]
    for p in ps['bool']: r = [dict(v, **{p: x}) for v in r for x in (True, False)]
    return r
def build():
    classes.clear()
    for f in FILES:
        g = modnames(trees[f])
        for n in trees[f].body:
            if not isinstance(n, ast.ClassDef) or n.name in SKIPCLS: continue
            c = Cls(); c.name = cname(f, n.name); c.file = f; c.line = n.lineno; c.end = n.end_lineno
            c.bases = [ast.unparse(b) for b in n.bases]
            c.meth = {}; c.get = {}; c.set = {}; c.attrs = []; c.lines = {}
            for m in n.body:
                if isinstance(m, ast.FunctionDef):
                    d = decs(m)
                    if 'staticmethod' in d or 'classmethod' in d or not m.args.args:
                        c.attrs.append(m.name); continue
                    if 'property' in d:
                        c.get[m.name] = Fn(m, g, cname(f, n.name), {}, f).B(m.body); c.lines['get', m.name] = (m.lineno, m.end_lineno)
                    elif any(x.endswith('.setter') for x in d):
                        c.set[m.name] = Fn(m, g, cname(f, n.name), {}, f).B(m.body); c.lines['set', m.name] = (m.lineno, m.end_lineno)
                    else:
                        vs = variants(ROOT[cname(f, n.name)], m.name)
                        names = []
                        for v in vs:
                            nm = m.name + ''.join('[%s=%s]' % (p, v[p]) for p in sorted(v))
                            c.meth[nm] = Fn(m, g, cname(f, n.name), v, f).B(m.body); names.append(nm)
                            c.lines['meth', nm] = (m.lineno, m.end_lineno)
                        if len(vs) > 1:
                            r = ('Inv', names[-1])
                            for x in reversed(names[:-1]): r = ('Or', ('Inv', x), r)
                            c.meth[m.name] = r; c.lines['meth', m.name] = (m.lineno, m.end_lineno)
                elif isinstance(m, ast.Assign):
                    for x in m.targets: c.attrs.append(x.id)
            classes[c.name] = c
build(); FLAGS0 = set(FLAGS); build()

# ---- checks on the source the translation relies on
for c in classes.values():
    for d in (c.meth, c.get, c.set):
        for b in d.values():
            def walk(x):
                if x[0] == 'Put' and (ROOT[c.name], x[1]) in METHODS: raise Exception('instance attribute shadows method ' + x[1])
                if x[0] == 'Own' and x[1] not in mro(c.name): raise Exception('Own ' + x[1])
                for y in x[1:]:
                    if isinstance(y, tuple): walk(y)
                    if isinstance(y, list):
                        for z in y: walk(z)
            walk(b)
# ---- Coq
def q(x): return '"' + x + '"'
def coq(t, ind):
    k = t[0]; nl = '\n' + ' ' * ind
    if k in ('Skip', 'Ret', 'Rse', 'Brk'): return k
    if k in ('Get', 'Put', 'Inv', 'Undef'): return k + ' ' + q(t[1])
    if k in ('Sup', 'Own'): return '%s %s %s' % (k, q(t[1]), q(t[2]))
    if k == 'Seq':
        l = [par(x, ind) for x in t[1]]
        out = ''; line = ''
        for i, x in enumerate(l):
            x = x + (' ;;' if i < len(l) - 1 else '')
            if '\n' in x or len(line) + len(x) > 90 - ind:
                out += (line + nl if line else ''); line = ''
            line += (' ' if line else '') + x
            if '\n' in x and i < len(l) - 1: out += line + nl; line = ''
        return out + line
    i2 = ind + 3; nl2 = '\n' + ' ' * (ind + 2)
    if k == 'Or': return 'Or' + nl2 + par(t[1], i2) + nl2 + par(t[2], i2)
    if k in ('Cond', 'IfHas'): return '%s %s' % (k, q(t[1])) + nl2 + par(t[2], i2) + nl2 + par(t[3], i2)
    if k == 'Loop': return 'Loop' + nl2 + par(t[1], i2)
    if k == 'Try': return 'Try %s %s' % (str(t[1]).lower(), str(t[2]).lower()) + nl2 + par(t[3], i2) + nl2 + par(t[4], i2)
    raise Exception(k)
def par(t, ind):
    return coq(t, ind) if t[0] in ('Skip', 'Ret', 'Rse', 'Brk') else '(' + coq(t, ind + 1) + ')'
def ident(c, kind, m):
    return (kind[0] if kind != 'meth' else 'm') + '_' + c + '_' + ''.join(ch if ch.isalnum() else '_' for ch in m.replace('__init__', 'init').replace('=True', '_1').replace('=False', '_0')).strip('_')
def emit(out):
    out.append("""(** What every method of the simulation's classes does to the attributes of its
    own object.  GENERATED by tools/extract_attrs.py from the text of /repo; the
    language is that of Model/Attrs.v.  Each definition cites the lines of the
    method it stands for; the script's header says what is kept and what is
    dropped. *)
From Coq Require Import List String Bool.
From Verif Require Import Model.Attrs.
Import ListNotations.
Open Scope string_scope.
""")
    for n, c in classes.items():
        out.append('(** ** %s: soapy/%s, lines %d-%d *)\n' % (n, c.file, c.line, c.end))
        tab = {}
        for kind in ('meth', 'get', 'set'):
            tab[kind] = []
            for m, b in getattr(c, kind).items():
                i = ident(n, kind, m)
                l = c.lines[kind, m]
                out.append('(* soapy/%s:%d-%d %s%s *)\nDefinition %s : stmt :=\n  %s.\n' % (
                    c.file, l[0], l[1], {'meth': '', 'get': 'property ', 'set': 'setter of '}[kind], m, i, coq(b, 2)))
                tab[kind].append('(%s, %s)' % (q(m), i))
        def tb(l):
            if not l: return '[]'
            return '[ ' + ';\n      '.join(l) + ' ]'
        out.append('(* soapy/%s:%d-%d *)\nDefinition cls_%s : cls :=\n  {| c_name := %s;\n     c_meth := %s;\n     c_get := %s;\n     c_set := %s;\n     c_attrs := [%s] |}.\n' % (
            c.file, c.line, c.end, n, q(n), tb(tab['meth']), tb(tab['get']), tb(tab['set']), '; '.join(q(x) for x in c.attrs)))
    out.append('(** ** Method resolution order of every class *)\n')
    for n, c in classes.items():
        out.append('(* soapy/%s:%d *)\nDefinition %s : mro :=\n  [%s].\n' % (c.file, c.line, 'mro_' + n, '; '.join('cls_' + k for k in mro(n))))
    # public methods in resolution order
    for n, c in classes.items():
        ms = []
        for k in mro(n):
            for m in classes[k].meth:
                if m not in ms and not m.startswith('_') and '[' not in m: ms.append(m)
        ms = ['Inv ' + q(x) for x in ms]
        ps = []
        for k in mro(n):
            for kind, w in (('get', 'Get '), ('set', 'Put ')):
                for x in getattr(classes[k], kind):
                    if w + q(x) not in ps: ps.append(w + q(x))
        ms += ps
        out.append('(* soapy/%s:%d-%d: what a user of %s can do with it: call its methods, use its properties *)\nDefinition public_%s : list stmt :=\n  [%s].\n' % (
            c.file, c.line, c.end, n, n, ';\n   '.join('; '.join(x for x in ms[i:i + 4]) for i in range(0, len(ms), 4))))
if __name__ == '__main__':
    o = []
    emit(o)
    print('\n'.join(o))
