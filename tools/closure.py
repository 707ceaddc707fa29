#!/usr/bin/env python3
"""Write rocq/theories/Closure1.v ...: one closure certificate per shipped
calendar and market (see Closure.v).  Usage: closure.py [probe]"""
import re, os, sys
T = os.path.join(os.path.dirname(__file__), '..', 'rocq', 'theories')
KS = {}  # (name, market) -> bound
kf = os.path.join(os.path.dirname(__file__), 'closure_bounds.txt')
if os.path.exists(kf):
    for l in open(kf):
        a, b = l.split(); KS[a] = int(b)
names = sorted(f[4:-2] for f in os.listdir(T) if f.startswith('Cal_') and f.endswith('.v') and f not in ('Cal_base.v', 'Cal_easter.v'))
variants = []
for n in names:
    if n == 'israel': continue
    t = open(f'{T}/Cal_{n}.v').read()
    defs = re.findall(r'^Definition (\w+)', t, re.M)
    st = re.search(r'\(\*\* (\w+) calendar', t).group(1)
    m = re.search(r'Inductive \w+_market : Set :=([^.]*)\.', t)
    stat = [d for d in defs if re.match(r'%s_[A-Z]' % n, d)]
    fns = [d for d in defs if d not in stat]
    ms = [x.strip() for x in m.group(1).split('|')] if m else [None]
    for k in ms:
        variants.append((n, st, k, fns))
def head(ns):
    return ('(** Closure certificates (generated by tools/closure.py). *)\nFrom Coq Require Import ZArith Bool List.\n'
    'From Verif Require Import Outcome Date Calendar CalendarSpec Cal_base ShippedFacts Closure ClosureView Shipped.\n'
    + ''.join(f'From Verif Require Import Cal_{n}.\n' for n in ns) + 'Open Scope Z_scope.\n\n')
def case(v, probe):
    n, st, k, fns = v
    tag = k or n
    app = f'{n}_is_business_day' if not k else f'({n}_is_business_day (Some {k}))'
    s = (f'Definition view_{tag} : view_t := ltac:(\n  let t := eval cbv beta iota zeta delta [{" ".join(fns)} is_weekend] in {app} in mkview t).\n')
    if probe:
        s += f'Definition p_{tag} := Eval vm_compute in probe view_{tag}. Print p_{tag}.\n'
        return s
    K = KS[tag]
    s += (f'Lemma closure_{tag} : closes_at_most {K} {app}.\n'
          f'Proof. apply (view_sound view_{tag} {K}); [reflexivity | vm_compute; reflexivity | vm_compute; reflexivity]. Qed.\n\n')
    return s
if 'probe' in sys.argv:
    print(head(names))
    print('Fixpoint first (l : list nat) (F : view_t) : nat := match l with nil => 999 | cons k l => if walk_years F year_env k 299 1901 Tue 0 then k else first l F end%nat.\n'
          'Definition probe := first (6::7::8::9::10::11::12::13::14::15::16::17::18::19::20::21::22::23::24::25::nil)%list%nat.')
    for v in variants: print(case(v, True))
else:
    G = 4
    for g in range(G):
        vs = variants[g::G]
        open(f'{T}/Closure{g+1}.v', 'w').write(head(sorted({v[0] for v in vs})) + ''.join(case(v, False) for v in vs))
