"""Translate the unit tests in /repo/tests (read as text, never executed) into
Coq examples about the model: rocq/theories/Conformance.v.

Each test becomes one boolean that the model must compute to true.  Tests the
translator does not understand are listed in a comment at the end of the file.
"""
import ast, os, sys
from fractions import Fraction

ROOT = '/repo/tests'
OUT = '/verif/rocq/theories/Conformance.v'

class Skip(Exception):
    pass

def coq_str(s):
    if all(32 <= ord(c) < 127 for c in s):
        return '(lit "%s")' % s.replace('"', '""')
    return '[%s]' % '; '.join(str(ord(c)) for c in s)

def num(x):
    f = Fraction(x)
    return '(NFin %s %d %d)' % ('true' if f < 0 else 'false', abs(f.numerator), f.denominator)

RELS = dict(EQ='REq', NE='RNe', GT='RGt', GE='RGe', LT='RLt', LE='RLe', LIKE='RLike', NOT_LIKE='RNotLike',
            REGEXP='RRegexp', IN='RIn', NOT_IN='RNotIn', IS='RIs', IS_NOT='RIsNot',
            NOT_EQUAL_TO='RNe', GRATHER_THAN='RGt', LESS_THAN='RLt', LESS_THAN_OR_EQUAL_TO='RLe',
            EQUAL_TO='REq', GRATHER_THAN_OR_EQUAL_TO='RGe')
AGG = dict(Avg='FAvg', Count='FCount', Max='FMax', Min='FMin', Sum='FSum')
JOIN = dict(join='JInner', inner_join='JInner', left_join='JLeft', right_join='JRight', full_join='JFull')
J3 = dict(join='J3Inner', inner_join='J3Inner', left_join='J3Left', right_join='J3Right')
OPTS = dict(sql_cache='OSqlCache', sql_no_cache='OSqlNoCache', all='OAll', distinct='ODistinct',
            distinctrow='ODistinctrow', sql_small_result='OSmall', sql_big_result='OBig',
            sql_buffer_result='OBuffer', sql_calc_found_rows='OCalc', straight_join='OStraight', high_priority='OHigh')
OUTF = dict(into_outfile='OFile', fields_terminated_by='OFields', lines_terminated_by='OLines', optionally_enclosed_by='OEncl')
EXC = dict(InvalidArgumentException=['EInvalidArgument'], InvalidQueryException=['EInvalidQuery'],
           SqlPuzzleException=['ESqlPuzzle', 'EInvalidArgument', 'EInvalidQuery', 'EConfirmDelete', 'EConfirmUpdate'],
           ConfirmDeleteAllException=['EConfirmDelete'], ConfirmUpdateAllException=['EConfirmUpdate'])
FIXTURES = dict(select=('sel', 'empty_select'), insert=('ins', 'empty_insert'), update=('upd', 'empty_update'),
                delete=('del', 'empty_delete'), tables=('tabs', 'NoTables'), where=('where', 'NoParts'),
                having=('having', 'NoParts'), order_by=('order', 'NoOrders'), group_by=('group', 'NoOrders'),
                columns=('cols', 'NoColumns'), values=('vals', 'NoParts'), limit=('limit', '(MkLimits None None)'),
                select1=('sel1', None), select2=('sel2', None))
STR = dict(val='text E %s', sel='text E (VSelect %s)', ins='text E (VInsert %s)', upd='text E (VUpdate %s)',
           tabs='tables_str E (text E) [] %s', where='conds_str (text E) (lit "WHERE") %s',
           having='conds_str (text E) (lit "HAVING") %s', order='orders_str E (text E) (lit "ORDER BY") %s',
           group='orders_str E (text E) (lit "GROUP BY") %s', cols='columns_str E (text E) %s',
           vals='values_str (text E) [] %s', limit='Ok (limit_str %s)')
STR['del'] = 'text E (VDelete %s)'
WRAP = dict(sel='(VSelect %s)', ins='(VInsert %s)', upd='(VUpdate %s)')
WRAP['del'] = '(VDelete %s)'
BACKENDS = dict(mysql='BMySql', postgresql='BPostgres', sqlite='BSqlite')
EQ = dict(tabs='list_eq (table_eq (py_eq E))', where='list_eq (py_eq E)', having='list_eq (py_eq E)',
          order='list_eq (ord_eq (py_eq E))', group='list_eq (ord_eq (py_eq E))', cols='list_eq (pair_eq (py_eq E))',
          vals='list_eq (py_eq E)', limit='limits_eqv')
ISSET = dict(tabs='negb (is_nilb %s)', where='negb (is_nilb %s)', having='negb (is_nilb %s)', order='negb (is_nilb %s)',
             group='negb (is_nilb %s)', vals='negb (is_nilb %s)', limit='limit_set %s', cols='(let _ := %s in true)')

class Obj:            # a Python object: mutable cell holding a Coq state term
    def __init__(self, kind, term): self.kind, self.term = kind, term

class Test:
    def __init__(self):
        self.lets, self.conj, self.n, self.env = [], [], 0, {}
        self.raises = None
    def let(self, term):
        self.n += 1
        v = 'x%d' % self.n
        self.lets.append((v, term))
        return v
    def outcome(self, term):      # term : res _
        if self.raises is None:
            self.conj.append('is_ok (%s)' % term)
        else:
            self.pending.append(term)
    def res(self, term, default='VNone'):
        v = self.let(term)
        self.outcome(v)
        return '(get %s %s)' % (default, v)
    def val(self, o):
        if o.kind == 'val': return o.term
        if o.kind in WRAP: return WRAP[o.kind] % o.term
        raise Skip('as value: ' + o.kind)
    def vals(self, nodes):
        return '[%s]' % '; '.join(self.val(self.expr(a)) for a in nodes)
    def kwds(self, kws):
        items = []
        for k in kws:
            if k.arg is None:
                d = self.env.get(k.value.id) if isinstance(k.value, ast.Name) else None
                if d is None or not hasattr(d, 'items'): raise Skip('**')
                items += [(kk.value, self.val(self.expr(vv))) for kk, vv in d.items]
            else:
                items.append((k.arg, self.val(self.expr(k.value))))
        return '[%s]' % '; '.join('(%s, %s)' % (coq_str(k), v) for k, v in items)
    def expr(self, e):
        if isinstance(e, ast.Constant):
            v = e.value
            if v is None: return Obj('val', 'VNone')
            if v is True: return Obj('val', '(VBool true)')
            if v is False: return Obj('val', '(VBool false)')
            if isinstance(v, int): return Obj('val', '(VInt %d)' % v)
            if isinstance(v, float): return Obj('val', '(VFloat %s)' % num(v))
            if isinstance(v, str): return Obj('val', '(VStr %s)' % coq_str(v))
            if isinstance(v, bytes): return Obj('val', '(VBytes [%s])' % '; '.join(map(str, v)))
        if isinstance(e, ast.Name):
            if e.id in self.env: return self.env[e.id]
            raise Skip('name ' + e.id)
        if isinstance(e, (ast.List, ast.Tuple)):
            return Obj('val', '(VSeq %s %s)' % ('KList' if isinstance(e, ast.List) else 'KTuple', self.vals(e.elts)))
        if isinstance(e, ast.Dict):
            o = Obj('val', '(VDict [%s])' % '; '.join('(%s, %s)' % (self.val(self.expr(k)), self.val(self.expr(v)))
                                                    for k, v in zip(e.keys, e.values)))
            o.items = list(zip(e.keys, e.values))
            return o
        if isinstance(e, ast.GeneratorExp):
            src = e.generators[0].iter
            o = self.expr(src)
            for k in ('KTuple', 'KRange', 'KList'):
                if o.term.startswith('(VSeq ' + k): return Obj('val', o.term.replace(k, 'KGen', 1))
            raise Skip('gen')
        if isinstance(e, ast.BinOp) and isinstance(e.op, (ast.BitAnd, ast.BitOr)):
            l, r = self.val(self.expr(e.left)), self.val(self.expr(e.right))
            op = 'OpAnd' if isinstance(e.op, ast.BitAnd) else 'OpOr'
            return Obj('val', self.res('py_binop %s %s %s' % (op, l, r)))
        if isinstance(e, ast.Call): return self.call(e)
        raise Skip(ast.dump(e)[:60])
    def call(self, e):
        f = e.func
        if isinstance(f, ast.Name) or (isinstance(f, ast.Attribute) and self.is_module(f.value)):
            name = f.id if isinstance(f, ast.Name) else f.attr
            return self.construct(name, e)
        if isinstance(f, ast.Attribute):
            o = self.expr(f.value)
            return self.method(o, f.attr, e)
        raise Skip('call')
    def is_module(self, v):
        while isinstance(v, ast.Attribute): v = v.value
        return isinstance(v, ast.Name) and v.id in ('sqlpuzzle', 'decimal', 'datetime')
    def construct(self, name, e):
        a, k = e.args, e.keywords
        if name in RELS:
            if name in ('IN', 'NOT_IN'): return Obj('val', self.res('mk_in %s %s' % (RELS[name], self.vals(a))))
            return Obj('val', self.res('mk_rel %s %s' % (RELS[name], self.val(self.expr(a[0])))))
        if name in ('customsql', 'C'): return Obj('val', self.res('mk_custom W %s' % self.val(self.expr(a[0]))))
        if name in ('V', 'SqlValue', 'sqlvalue'): return Obj('val', '(VSqlV %s)' % self.val(self.expr(a[0])))
        if name in ('R', 'SqlReference', 'sqlreference'): return Obj('val', '(VSqlR %s)' % self.val(self.expr(a[0])))
        if name == 'Q': return Obj('val', self.res('mk_Q W %s %s' % (self.vals(a), self.kwds(k))))
        if name == 'Not': return Obj('val', self.res('mk_Not W %s %s' % (self.vals(a), self.kwds(k))))
        if name in ('Exists', 'exists'): return Obj('val', '(VExists %s)' % self.val(self.expr(a[0])))
        if name in ('select', 'Select'): return Obj('sel', self.res('mk_select W %s %s' % (self.vals(a), self.kwds(k)), 'empty_select'))
        if name == 'select_from': return Obj('sel', self.res('mk_select_from W %s %s' % (self.vals(a), self.kwds(k)), 'empty_select'))
        if name == 'insert': return Obj('ins', 'empty_insert')
        if name == 'insert_into': return Obj('ins', self.res('mk_insert_into W %s' % self.val(self.expr(a[0])), 'empty_insert'))
        if name == 'update': return Obj('upd', self.res('mk_update W %s' % self.val(self.expr(a[0])), 'empty_update'))
        if name == 'delete': return Obj('del', self.res('mk_delete W %s' % self.vals(a), 'empty_delete'))
        if name == 'delete_from': return Obj('del', self.res('mk_delete_from W %s %s' % (self.vals(a), self.kwds(k)), 'empty_delete'))
        if name == 'Union':
            t = 'UUnion'
            if len(a) > 2:
                n = a[2].id if isinstance(a[2], ast.Name) else a[2].attr
                t = dict(UNION='UUnion', UNION_ALL='UAll')[n]
            return Obj('val', self.res('mk_union %s %s %s' % (t, self.val(self.expr(a[0])), self.val(self.expr(a[1])))))
        if name in AGG:
            t = 'mk_agg %s %s' % (AGG[name], self.val(self.expr(a[0])) if a else 'VNone')
            if len(a) > 1: t = 'agg_distinct (%s) %s' % (t, self.val(self.expr(a[1])))
            return Obj('val', '(%s)' % t)
        if name == 'Concat': return Obj('val', self.res('mk_concat W %s' % self.vals(a)))
        if name == 'GroupConcat': return Obj('val', self.res('mk_group_concat W %s' % self.vals(a)))
        if name == 'Convert':
            return Obj('val', self.res('mk_convert W %s %s' % (self.val(self.expr(a[0])), self.val(self.expr(a[1])) if len(a) > 1 else 'VNone')))
        if name == 'Decimal': return Obj('val', '(VDec %s)' % num(a[0].value))
        if name == 'date': return Obj('val', '(VDate (Build_date %s))' % ' '.join(str(x.value) for x in a))
        if name == 'datetime':
            n = [x.value for x in a] + [0] * (7 - len(a))
            return Obj('val', '(VDatetime (Build_date %d %d %d) (Build_time %d %d %d %d))' % tuple(n))
        if name == 'range': return Obj('val', '(VSeq KRange [%s])' % '; '.join('VInt %d' % i for i in range(*[x.value for x in a])))
        if name in ('set', 'frozenset'):
            l = self.expr(a[0]).term.replace('KList', 'KSet' if name == 'set' else 'KFrozenset', 1) if a else '(VSeq KSet [])'
            return Obj('val', l)
        raise Skip('constructor ' + name)
    def step(self, o, term):      # term : state * outcome
        v = self.let(term)
        o.term = '(fst %s)' % v
        self.outcome('(snd %s)' % v)
        return o
    def method(self, o, m, e):
        a, k = e.args, e.keywords
        if m == 'copy': return Obj(o.kind, o.term)
        A = lambda: self.vals(a)
        K = lambda: self.kwds(k)
        one = lambda: self.val(self.expr(a[0]))
        opt = lambda d: one() if a else d
        if o.kind == 'sel':
            simple = dict(columns='SColumns', from_='SFrom', from_tables='SFrom', on='SOn', where='SWhere', having='SHaving',
                          group_by='SGroupBy', order_by='SOrderBy')
            if m in simple: op = '%s %s %s' % (simple[m], A(), K())
            elif m in JOIN: op = 'SJoin %s %s' % (JOIN[m], one())
            elif m == 'from_table': op = 'SFromTable %s %s' % (one(), self.val(self.expr(a[1])) if len(a) > 1 else 'VNone')
            elif m == 'limit': op = 'SLimit %s %s' % (one(), self.val(self.expr(a[1])) if len(a) > 1 else 'VNone')
            elif m == 'offset': op = 'SOffset %s' % one()
            elif m in OUTF: op = 'SOut %s %s' % (OUTF[m], one())
            elif m in OPTS: op = 'SOpt %s %s' % (OPTS[m], opt('(VBool true)'))
            elif m == 'for_update': op = 'SForUpdate %s' % opt('(VBool true)')
            else: raise Skip('sel.' + m)
            return self.step(o, 'sel_step W %s (%s)' % (o.term, op))
        if o.kind == 'ins':
            if m == 'into': op = 'IInto %s' % one()
            elif m == 'values': op = 'IValues %s %s' % (A(), K())
            elif m == 'on_duplicate_key_update': op = 'IOnDup %s %s' % (A(), K())
            elif m == 'ignore': op = 'IIgnore %s' % opt('(VBool true)')
            else: raise Skip('ins.' + m)
            return self.step(o, 'ins_step W %s (%s)' % (o.term, op))
        if o.kind == 'upd':
            if m == 'table': op = 'UTable %s' % one()
            elif m in ('set', 'where', 'on'): op = '%s %s %s' % (dict(set='USet', where='UWhere', on='UOn')[m], A(), K())
            elif m in J3: op = 'UJoin %s %s' % (J3[m], one())
            elif m == 'allow_update_all': op = 'UAllow'
            elif m == 'forbid_update_all': op = 'UForbid'
            elif m == 'ignore': op = 'UIgnore %s' % opt('(VBool true)')
            else: raise Skip('upd.' + m)
            return self.step(o, 'upd_step W %s (%s)' % (o.term, op))
        if o.kind == 'del':
            if m == 'delete': op = 'DDelete %s' % A()
            elif m in ('from_', 'from_tables', 'where', 'on'):
                op = '%s %s %s' % (dict(from_='DFrom', from_tables='DFrom', where='DWhere', on='DOn')[m], A(), K())
            elif m in J3: op = 'DJoin %s %s' % (J3[m], one())
            elif m == 'allow_delete_all': op = 'DAllow'
            elif m == 'forbid_delete_all': op = 'DForbid'
            elif m == 'ignore': op = 'DIgnore %s' % opt('(VBool true)')
            else: raise Skip('del.' + m)
            return self.step(o, 'del_step W %s (%s)' % (o.term, op))
        if o.kind == 'tabs':
            if m == 'set': return self.step(o, 'tables_set W %s %s %s' % (o.term, A(), K()))
            if m in JOIN: return self.step(o, 'tables_join W %s %s %s' % (JOIN[m], o.term, one()))
            if m == 'on': return self.step(o, 'tables_on W %s %s %s' % (o.term, A(), K()))
        if o.kind in ('where', 'having') and m == 'where':
            return self.step(o, 'conds_where W KWhere %s %s %s' % (o.term, A(), K()))
        if o.kind in ('order', 'group') and m in ('order_by', 'group_by'):
            return self.step(o, 'orders_add W %s %s %s' % (o.term, A(), K()))
        if o.kind == 'cols' and m == 'columns': return self.step(o, 'columns_add W %s %s %s' % (o.term, A(), K()))
        if o.kind == 'vals' and m == 'set': return self.step(o, 'values_set W %s %s %s' % (o.term, A(), K()))
        if o.kind == 'limit' and m == 'limit':
            return self.step(o, 'set_limit %s %s %s' % (o.term, one(), self.val(self.expr(a[1])) if len(a) > 1 else 'VNone'))
        if o.kind == 'limit' and m == 'offset': return self.step(o, 'set_offset %s %s' % (o.term, one()))
        if o.kind == 'val':
            if m == 'distinct':
                o.term = '(agg_distinct %s %s)' % (o.term, opt('(VBool true)')); return o
            if m == 'order_by': return self.step(o, 'gc_order_by W %s %s' % (o.term, A()))
            if m == 'separator': return self.step(o, 'gc_separator %s %s' % (o.term, one()))
            if m == 'to': return self.step(o, 'convert_to W %s %s' % (o.term, one()))
        raise Skip('%s.%s' % (o.kind, m))
    def strof(self, o):
        return STR[o.kind] % o.term
    def check(self, e):           # boolean Coq term for a Python assertion
        if isinstance(e, ast.UnaryOp) and isinstance(e.op, ast.Not): return 'negb (%s)' % self.check(e.operand)
        if isinstance(e, ast.Compare):
            l, r = e.left, e.comparators[0]
            neg = isinstance(e.ops[0], ast.NotEq)
            if isinstance(e.ops[0], (ast.Eq, ast.NotEq)):
                if self.is_str(l) and isinstance(r, ast.Constant) and isinstance(r.value, str):
                    t = 'says (%s) %s' % (self.strof(self.expr(l.args[0])), coq_str(r.value))
                elif self.is_str(l) and self.is_str(r):
                    t = 'same_text (%s) (%s)' % (self.strof(self.expr(l.args[0])), self.strof(self.expr(r.args[0])))
                elif isinstance(l, ast.Call) and isinstance(l.func, ast.Name) and l.func.id == 'parser':
                    opts = dict((kk.value, vv.value) for kk, vv in zip(l.args[0].keys, l.args[0].values))
                    o = 'MkPopts %d %d %s %s' % (opts.get('min_items', 1), opts.get('max_items', 1),
                        str(opts.get('allow_dict', False)).lower(), str(opts.get('allow_list', False)).lower())
                    want = '[%s]' % '; '.join(self.vals(x.elts) for x in r.elts)
                    t = 'parses (parse_args W (%s) %s %s) %s' % (o, self.vals(l.args[1:]), self.kwds(l.keywords), want)
                else:
                    lo, ro = self.expr(l), self.expr(r)
                    if lo.kind in EQ and ro.kind == lo.kind: t = 'yes (%s %s %s)' % (EQ[lo.kind], lo.term, ro.term)
                    else: t = 'yes (py_eq E %s %s)' % (self.val(lo), self.val(ro))
                return 'negb (%s)' % t if neg else t
            if isinstance(e.ops[0], ast.In) and self.is_str(r):
                return 'contains %s (%s)' % (coq_str(l.value), self.strof(self.expr(r.args[0])))
        if isinstance(e, ast.Attribute) and e.attr == 'is_set':
            o = self.expr(e.value)
            return ISSET[o.kind] % o.term
        if isinstance(e, ast.Call) and isinstance(e.func, ast.Attribute) and e.func.attr == 'has':
            o = self.expr(e.func.value)
            if o.kind not in ('sel', 'ins', 'upd', 'del'): raise Skip('has')
            v = self.val(self.expr(e.args[1])) if len(e.args) > 1 else 'VNone'
            return 'yes (%s_has W %s %s %s)' % (o.kind, o.term, coq_str(e.args[0].value), v)
        raise Skip('assert ' + ast.dump(e)[:80])
    def is_str(self, e):
        return isinstance(e, ast.Call) and isinstance(e.func, ast.Name) and e.func.id == 'str'
    def stmt(self, s):
        if isinstance(s, ast.Expr):
            if isinstance(s.value, ast.Constant): return
            if self.is_str(s.value):
                self.outcome(self.strof(self.expr(s.value.args[0]))); return
            if isinstance(s.value, ast.Call) and isinstance(s.value.func, ast.Name) and s.value.func.id == 'parser':
                l = s.value
                opts = dict((kk.value, vv.value) for kk, vv in zip(l.args[0].keys, l.args[0].values))
                o = 'MkPopts %d %d %s %s' % (opts.get('min_items', 1), opts.get('max_items', 1),
                    str(opts.get('allow_dict', False)).lower(), str(opts.get('allow_list', False)).lower())
                self.outcome('parse_args W (%s) %s %s' % (o, self.vals(l.args[1:]), self.kwds(l.keywords))); return
            self.expr(s.value); return
        if isinstance(s, ast.Assign):
            self.env[s.targets[0].id] = self.expr(s.value); return
        if isinstance(s, ast.Assert):
            self.conj.append(self.check(s.test)); return
        if isinstance(s, ast.With):
            c = s.items[0].context_expr
            if isinstance(c.func, ast.Attribute) and c.func.attr == 'raises':
                x = c.args[0]
                n = x.id if isinstance(x, ast.Name) else x.attr
                if n not in EXC: raise Skip('raises ' + n)
                self.raises, self.pending = n, []
                for t in s.body: self.stmt(t)
                self.raises = None
                if not self.pending: raise Skip('nothing can raise')
                self.conj.append('first_error [%s] [%s]' % ('; '.join(EXC[n]), '; '.join('err_of (%s)' % p for p in self.pending)))
                return
            raise Skip('with')
        raise Skip(type(s).__name__)

examples, skipped = [], []
def do_fn(path, fn, prefix):
    t = Test()
    backend = 'BSql'
    local_fixture = None
    for a in fn.args.args:
        if a.arg == 'self': continue
        if a.arg in BACKENDS: backend = BACKENDS[a.arg]
        elif a.arg in ('select1', 'select2'):
            o = Obj('sel', 'empty_select')
            t.env[a.arg] = t.step(o, 'sel_step W %s (SFrom [VStr (lit "t%s")] [])' % (o.term, a.arg[-1]))
        elif a.arg in FIXTURES:
            t.env[a.arg] = Obj(*FIXTURES[a.arg])
        else: raise Skip('fixture ' + a.arg)
    for s in fn.body: t.stmt(s)
    if not t.conj: raise Skip('no assertion')
    body = ''.join('let %s := %s in\n    ' % l for l in t.lets)
    body += '\n    && '.join('(%s)' % c for c in t.conj)
    name = prefix + fn.name
    examples.append('(* %s: %s *)\nExample %s :\n  let E := env0 %s in let W := pure_world E in\n    %s = true.\nProof. vm_compute. reflexivity. Qed.\n'
                    % (path, fn.name, name, backend, '(' + body + ')'))

for d, _, files in sorted(os.walk(ROOT)):
    for fname in sorted(files):
        if not fname.startswith('test_') or not fname.endswith('.py'): continue
        path = os.path.join(d, fname)
        tree = ast.parse(open(path).read())
        prefix = 't_' + fname[5:-3] + '_'
        for node in tree.body:
            fns = []
            if isinstance(node, ast.FunctionDef): fns = [(node, prefix)]
            if isinstance(node, ast.ClassDef):
                fns = [(x, prefix + node.name + '_') for x in node.body if isinstance(x, ast.FunctionDef)]
            for fn, p in fns:
                if not fn.name.startswith('test'): continue
                try: do_fn(path[len('/repo/'):], fn, p)
                except Skip as ex: skipped.append('%s %s%s: %s' % (path[len('/repo/'):], p, fn.name, ex))

HEAD = '''(** Generated by tools/gen_conformance.py from the unit tests of /repo (read as
    text).  These are tests of the model on literals, not theorems: they check
    that the model computes what the repository's own tests expect. *)
From Verif Require Import Base NumFmt Value Backend Eq Render ParseArgs Build Queries.
Open Scope N_scope.

Definition env0 (b : backend) : env :=
  MkEnv b (fun _ => None) (fun c => [c]) (fun c => [c]) (fun _ => true).
Definition NoTables : list (table val) := [].
Definition NoParts : list val := [].
Definition NoOrders : list (val * sortd) := [].
Definition NoColumns : list (val * val) := [].
Definition get {A} (d : A) (x : res A) : A := match x with Ok a => a | Err _ => d end.
Definition yes (x : res bool) : bool := match x with Ok b => b | Err _ => false end.
Definition says (x : res str) (s : str) : bool := match x with Ok t => seqb t s | Err _ => false end.
Definition same_text (x y : res str) : bool := match x, y with Ok a, Ok b => seqb a b | _, _ => false end.
Fixpoint sub_of (w s : str) : bool :=
  seqb w (firstn (List.length w) s) || match s with [] => false | _ :: r => sub_of w r end.
Definition contains (w : str) (x : res str) : bool := match x with Ok t => sub_of w t | Err _ => false end.
Definition limits_eqv (a b : limits) : res bool := Ok (limits_eqb a b).
Definition parses (x : res (list (list val))) (want : list (list val)) : bool :=
  match x with
  | Ok l => yes (list_eq (list_eq (py_eq (env0 BSql))) l want)
  | Err _ => false
  end.
Definition err_of {A} (x : res A) : option exn := match x with Ok _ => None | Err e => Some e end.
Definition exn_eqb (a b : exn) : bool :=
  match a, b with
  | EInvalidArgument, EInvalidArgument | EInvalidQuery, EInvalidQuery | ESqlPuzzle, ESqlPuzzle
  | EConfirmDelete, EConfirmDelete | EConfirmUpdate, EConfirmUpdate | ETypeError, ETypeError
  | EAttributeError, EAttributeError | EException, EException => true
  | _, _ => false
  end.
Fixpoint first_error (want : list exn) (l : list (option exn)) : bool :=
  match l with
  | [] => false
  | None :: r => first_error want r
  | Some e :: _ => existsb (exn_eqb e) want
  end.

'''
with open(OUT, 'w') as f:
    f.write(HEAD)
    f.write('\n'.join(examples))
    f.write('\n(* Tests not translated (%d of %d):\n' % (len(skipped), len(skipped) + len(examples)))
    for s in skipped: f.write('   %s\n' % s.replace('(*', '( *').replace('"', "'"))
    f.write('*)\n')
print(len(examples), 'examples', len(skipped), 'skipped')
