#!/usr/bin/env python3
"""Compare the generated calendars with the expected arrays in the Rust tests.

Writes a Coq file that evaluates every calendar on the dates of the Rust unit
tests and prints the calendars that disagree.  A sanity check of the
translation, not part of the build.  Usage: conformance.py > x.v; coqc -Q theories Verif x.v"""
import re, os
SRC = '/repo/src/time/calendars'
names = sorted(f[:-3] for f in os.listdir(SRC) if f.endswith('.rs') and f not in ('jointcalendar.rs', 'weekendsonly.rs'))
print('From Coq Require Import ZArith Bool List. Import ListNotations. From Verif Require Import Outcome Date Calendar',
      ' '.join('Cal_' + n for n in names), '. Open Scope Z_scope.')
print('''Definition ok (c : calendar) (y m d : Z) (l : list bool) : bool :=
 let n := of_ymd y m d in
 (fix go (n : Z) l := match l with [] => true | b :: l => match c n with Ok b' => Bool.eqb b b' && go (n+1) l | _ => false end end) n l.''')
tot = 0; skipped = []
for n in names:
    t = open(f'{SRC}/{n}.rs').read()
    if '#[cfg(test)]' not in t: skipped.append(n); continue
    t = t.split('#[cfg(test)]')[1]
    arrs = {}
    for m in re.finditer(r'let (\w+)(?::[^=]*)? = (?:vec!)?\[((?:\s*(?:true|false),?)+)\s*\]', t):
        pass
    got = 0
    for part in re.split(r'#\[test\]', t)[1:]:
        arr = {m.group(1): re.findall('true|false', m.group(2)) for m in re.finditer(r'let (\w+)(?::[^=]*)? = (?:vec!)?\[((?:\s*(?:true|false),?)+)\s*\]', part)}
        for m in re.finditer(r'from_ymd_opt\((\d+), (\d+), (\d+)\)(.*?)assert_eq!\((.*?)\);', part, re.S):
            body = m.group(4) + m.group(5)
            a = [v for k, v in arr.items() if re.search(r'\b%s\[' % k, body)]
            if not a: continue
            mk = re.search(r'Some\((?:\w+::)*(\w+)\)', part)
            fn = f'{n}_is_business_day'
            c = fn
            if 'market' in open(f'/verif/rocq/theories/Cal_{n}.v').read():
                c = f"({fn} {'(Some %s_%s)' % (n, mk.group(1)) if mk else 'None'})"
            print(f'Eval vm_compute in ({len(a[0])}, ok {c} {m.group(1)} {m.group(2)} {m.group(3)} [' + ';'.join(a[0]) + ']).')
            got += 1; tot += 1
    if not got: skipped.append(n)
print('(* vectors:', tot, 'no vectors:', skipped, '*)')
