#!/usr/bin/env python3
"""Generate rocq/theories/Conform_*.v from /repo/spec/tests (see Conform.v).
One Example per group of the suite.  Groups using left-recursive macros are left out:
the model does not cover them (Engine.v, DESIGN.md)."""
import json, glob, os, re
LEFT_OUT = set(json.load(open(os.path.join(os.path.dirname(__file__), 'conform_left_out.json'))))
OUT = os.path.join(os.path.dirname(__file__), '..', 'rocq', 'theories')
def L(s):
    b = s.encode('utf-8', 'surrogatepass').split(b'\0')[0]
    return '[' + ';'.join(str(x) for x in b) + ']%N' if b else '[]'
B = lambda x: 'true' if x else 'false'
P = lambda l: '[' + '; '.join(l) + ']'
OPS = {'add': 'Add', 'subtract': 'Sub', 'multiply': 'Mul', 'divide': 'Div'}
def act(a):
    o = a['op']
    if o == 'token_to_number': return 'ANumber'
    if o == 'token_to_string': return 'AString'
    if o == 'choice': return 'AChoice'
    if o == 'size': return 'ASize'
    if o == 'passthrough': return 'APass %d' % a.get('index', 0)
    if o == 'choice_op':
        cs = ['(%s, (%s, %d, %d))' % (k, OPS[c['binary']], c['left'], c['right']) for k, c in a['cases'].items() if k != 'default']
        return 'ACases %s %d' % (P(cs), a['cases']['default']['passthrough'])
    if o == 'reduce': return 'AReduce %s' % P(['(%s, %s)' % (L(k), OPS[v]) for k, v in a['step']['operators'].items()])
    raise Exception(o)
def upd(s):
    (v, e), = s['set'].items()
    if isinstance(e, bool): return 'SetFlag %s' % B(e)
    m = re.match(r'(\w+) ([+-]) (\d+)$', e); assert m and m[1] == v
    return 'Count (%s%s)%%Z' % (m[2] if m[2] == '-' else '', m[3])
def check(c, vs):
    (p, k), = c.items()
    if p == 'token_number': return 'Between %s %s' % ((k['eq'],) * 2 if 'eq' in k else tuple(k['between']))
    if p == 'token_string': return 'NotIn %s' % P([L(w) for w in vs[k['not_in']]['init']])
    if p == 'sv' and k == {'matches': '^[A-Z]+$'}: return 'Upper'
    raise Exception(p)
groups = cases = 0
for i, d in enumerate(sorted(os.listdir('/repo/spec/tests'))):
    out = []
    for f in sorted(glob.glob('/repo/spec/tests/%s/*.json' % d)):
        for g in json.load(open(f)):
            nm = '%s_%s' % (os.path.basename(f)[:-5], g['name'])
            if g['name'] in LEFT_OUT: continue
            nm = re.sub(r'\W', '_', nm)
            if g.get('peg_meta_test'):
                it = g['cases_by_rule'].items() if 'cases_by_rule' in g else [(g['rule'], g['cases'])]
                es = ['conf_meta %s %s' % (L(r), P(['(%s, %s)' % (L(c['input']), B(c['match'])) for c in cs])) for r, cs in it]
                cases += sum(len(cs) for _, cs in it)
            else:
                key = '%s %s %s' % (B(g.get('left_recursion', True)), L(g.get('start_rule', '')), L(g['grammar']))
                es = []
                if g.get('grammar_compiles'): es.append('conf_accepted ' + key); cases += 1
                cs = g.get('cases', []) if not g.get('grammar_compiles') else []
                cases += len(cs)
                if any(c.get('grammar_error') for c in cs): es.append('conf_rejected ' + key)
                cs = [c for c in cs if not c.get('grammar_error')]
                xs = []
                for c in cs:
                    err = c.get('expected_errors', [c['expected_error']] if 'expected_error' in c else [])
                    o = lambda e, k: '(Some %d)' % e[k] if k in e else 'None'
                    errs = P(['(%s, %s, %s)' % (o(e, 'line'), o(e, 'col'), '(Some %s)' % L(e['message']) if 'message' in e else 'None') for e in err])
                    val = c.get('expected_value', c.get('expected_state', {}).get('depth'))
                    tr = c.get('expected_trace', c.get('expected_trace_prefix'))
                    trs = 'None' if tr is None else '(Some (%s, %s))' % (B('expected_trace' in c), P(['(%s, %s)' % (B(t.startswith('enter_')), L(t.split('_', 1)[1])) for t in tr]))
                    xs.append('{| x_match := %s; x_ast := %s; x_whole := %s; x_errs := %s; x_value := %s; x_trace := %s; x_input := %s |}' % (
                        '(Some %s)' % B(c['match']) if 'match' in c else 'None', '(Some %s)' % L(c['expected_ast']) if 'expected_ast' in c else 'None',
                        B('expected_errors' in c), errs, '(Some (%d)%%Z)' % val if val is not None else 'None', trs, L(c['input'])))
                if xs:
                    pk = B(g.get('packrat', False))
                    if 'ast' in g: one = '(conf_ast %s %s)' % (pk, B(g['ast'].get('optimize', False)))
                    elif any(k in g for k in ('actions', 'handlers', 'trace')):
                        A = g.get('actions', {}); H = g.get('handlers', {}); T = g.get('trace', {'rules': [], 'events': []}); V = g.get('vars', {})
                        acts = ['(%s, %s)' % (L(a['operator_rule']), 'AString') for a in A.values() if 'operator_rule' in a] + ['(%s, %s)' % (L(r), act(a)) for r, a in A.items()]
                        en = ['(%s, %s)' % (L(r), upd(h['enter'])) for r, h in H.items() if 'enter' in h] + ['(%s, Record_)' % L(r) for r in T['rules'] if 'enter' in T['events']]
                        le = ['(%s, %s)' % (L(r), upd(h['leave'])) for r, h in H.items() if 'leave' in h] + ['(%s, Record_)' % L(r) for r in T['rules'] if 'leave' in T['events']]
                        pr = ['(%s, (%s, %s, %s))' % (L(r), B('when' in h['predicate']), check(h['predicate']['check'], V), L(h['predicate']['error'])) for r, h in H.items() if 'predicate' in h]
                        flag = any(v['type'] == 'bool' and v['init'] for v in V.values())
                        one = '(conf_case %s {| h_act := %s; h_enter := %s; h_leave := %s; h_pred := %s; h_flag := %s |})' % (pk, P(acts), P(en), P(le), P(pr), B(flag))
                    else: one = '(conf_case %s no_hooks)' % pk
                    es.append('conf_group %s %s\n  %s' % (key, one, P(xs)))
            if not es: continue
            groups += 1
            out.append('Example %s : %s = true.\nProof. vm_compute. reflexivity. Qed.' % (nm, ' && '.join('(%s)' % e for e in es)))
    open(os.path.join(OUT, 'Conform_%s.v' % d), 'w').write(
        '(** Generated by tools/mkconform.py from /repo/spec/tests/%s: tests of the model, see Conform.v. *)\n'
        'From Coq Require Import NArith ZArith.\nFrom Verif Require Import Base Conform.\n' % d + '\n'.join(out) + '\n')
print(groups, 'groups', cases, 'cases')
