#!/usr/bin/env python3
"""reg.py FILE...: add theories to _CoqProject; NOTE lines as Cxx=note set notes.json; then regenerate MANIFEST.json."""
import sys, json, os, subprocess
root = os.path.dirname(os.path.dirname(os.path.abspath(__file__)))
cp = f'{root}/rocq/_CoqProject'
s = open(cp).read()
n = json.load(open(f'{root}/tools/notes.json'))
for a in sys.argv[1:]:
    if '=' in a and a[0] == 'C' and a[1:3].isdigit():
        k, v = a.split('=', 1)
        n.setdefault(k, {})['note'] = v
    else:
        l = f'theories/{a}.v'
        if l not in s.split('\n'):
            s = s.rstrip('\n') + '\n' + l + '\n'
open(cp, 'w').write(s)
json.dump(n, open(f'{root}/tools/notes.json', 'w'), indent=1)
subprocess.run([sys.executable, f'{root}/tools/manifest.py'], check=True)
