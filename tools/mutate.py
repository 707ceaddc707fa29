#!/usr/bin/env python3
"""Mutation testing of the theorems.

usage: mutate.py mutants.json [--log] [--fast] [--keep-base]

mutants.json: list of {file, old, new, claim, note}.  For each mutant a scratch
copy of /verif/rocq is edited and rebuilt.  When a proof breaks, its lemma is
replaced by Admitted in the scratch copy and the build goes on, so that the
Print Assumptions output of every P_ theorem shows whether it still has a
proof.  A mutant is killed when some P_ theorem lost its proof.  With --log a
line per mutant is appended to seeded/LOG.jsonl.
"""
import sys, os, re, json, subprocess, shutil
root = os.path.dirname(os.path.dirname(os.path.abspath(__file__)))
W = os.environ.get('MUT_DIR', '/tmp/mut/rocq')   # one directory per worker
FAST = '--fast' in sys.argv   # stop at the first theorem that breaks; 60 s per sentence
BASE = '/tmp/mut/base'   # snapshot taken once, so that work in /verif can go on
HEAD = re.compile(r'^\s*(?:(?:Local|Global|#\[\w+\])\s+)?(Theorem|Lemma|Corollary|Example|Fact|Instance)\s+(\w+)')

def fresh():
    os.makedirs('/tmp/mut', exist_ok=True)
    shutil.rmtree(W, ignore_errors=True)
    subprocess.run(['cp', '-a', BASE, W], check=True)

def admit(path, line):
    src = open(path).read().split('\n')
    i = min(line - 1, len(src) - 1)
    while i >= 0 and not HEAD.match(src[i]):
        i -= 1
    if i < 0: return None
    name = HEAD.match(src[i]).group(2)
    j = i
    while j < len(src) and not re.search(r'\b(Qed|Defined|Admitted)\.', src[j]): j += 1
    if j >= len(src) or line - 1 > j: return None
    text = '\n'.join(src[i:j + 1])
    if 'Admitted.' in text: return None
    m = re.search(r'\bProof\b[^.]*\.', text)
    if not m: return None
    if i + text[:m.start()].count('\n') > line - 1: return None   # the statement itself broke
    new = text[:m.start()] + 'Admitted.' + '\n' * text[m.start():].count('\n')
    src[i:j + 1] = new.split('\n')
    open(path, 'w').write('\n'.join(src))
    return name

def build(only):
    broken, dead = [], []
    subprocess.run(['coq_makefile', '-f', '_CoqProject', '-o', 'Makefile'], cwd=W, stdout=subprocess.DEVNULL, check=True)
    outs = {}
    for _ in range(60):
        p = subprocess.run(['make', '-k', '-j4', f'COQEXTRAFLAGS=-set "Default Timeout={60 if FAST else 150}"'] + [f'theories/{o}.vo' for o in only], cwd=W, capture_output=True, text=True)
        p_all = p.stdout + p.stderr
        errs = re.findall(r'File "\./(theories/\w+\.v)", line (\d+), characters[^\n]*\n(?:Error|.*?\nError)', p_all)
        errs = [(f, int(l)) for f, l in errs]
        if not errs:
            if p.returncode != 0: dead.append('make: ' + p_all[-300:])
            break
        progress = False
        for f, l in sorted(set(errs)):
            n = admit(f'{W}/{f}', l)
            if n: broken.append(f'{os.path.basename(f)[:-2]}.{n}'); progress = True
            else: dead.append(f'{f}:{l}')
        if not progress: break
        if FAST and any(re.match(r'P_\w+\.C\d+_(?!\w*witness)', b) for b in broken): break
    return broken, sorted(set(dead))

def dependents(mod):
    """The files that need mod, directly or not."""
    req = {}
    for f in os.listdir(W + '/theories'):
        if f.endswith('.v'):
            src = open(f'{W}/theories/{f}').read()
            req[f[:-2]] = {w for m in re.findall(r'From Verif Require (?:Import |Export )?([\w\s]+)\.', src) for w in m.split()}
    out = {mod}
    while True:
        new = {f for f in req if req[f] & out} | out
        if new == out: return out
        out = new

def failed_theorems(broken, only):
    """P_ theorems that lost their proof: broken themselves or depending on a broken lemma."""
    if FAST and any(re.match(r'P_\w+\.C\d+_(?!\w*witness)', b) for b in broken):
        return [b.split('.')[1] for b in broken if re.match(r'P_\w+\.C\d+_(?!\w*witness)', b)]
    bad = []
    bn = {b.split('.')[1] for b in broken}
    for f in sorted(os.listdir(W + '/theories')):
        if not (f.startswith('P_') and f.endswith('.v')): continue
        if only and f[:-2] not in only: continue
        src = open(f'{W}/theories/{f}').read()
        names = re.findall(r'^Theorem\s+(C\d+_\w+)', src, re.M)
        if not os.path.exists(f'{W}/theories/{f}o') or os.path.getmtime(f'{W}/theories/{f}o') < os.path.getmtime(f'{W}/theories/{f}'):
            bad += [n + ' (file not built)' for n in names if True]; continue
        if not bn: continue
        scr = W + '_q.v'
        open(scr, 'w').write(f'From Verif Require {f[:-2]}.\n' + ''.join(
            f'Goal True. idtac "@@{n}". Abort.\nPrint Assumptions {f[:-2]}.{n}.\n' for n in names))
        o = subprocess.run(['coqc', '-Q', 'theories', 'Verif', scr], cwd=W, capture_output=True, text=True).stdout
        for blk in o.split('@@')[1:]:
            n, _, rest = blk.partition('\n')
            used = {re.split(r'[\s:]', l.strip())[0].split('.')[-1] for l in rest.split('\n') if l.strip()}
            if used & bn: bad.append(n.strip())
    return bad

def main():
    muts = json.load(open(sys.argv[1])); log = '--log' in sys.argv
    os.makedirs('/tmp/mut', exist_ok=True)
    if '--keep-base' not in sys.argv:
        shutil.rmtree(BASE, ignore_errors=True)
        subprocess.run(['cp', '-a', f'{root}/rocq', BASE], check=True)
    for m in muts:
        fresh()
        path = f'{W}/theories/{m["file"]}'
        s = open(path).read()
        if s.count(m['old']) < 1:
            print('NOT FOUND', m['file'], m['old'][:60]); continue
        s = s.replace(m['old'], m['new'], 1 if not m.get('all') else -1)
        open(path, 'w').write(s)
        only = m.get('only') or [f for f in sorted(dependents(m['file'][:-2])) if f.startswith('P_')]
        broken, dead = build(only)
        bad = failed_theorems(broken, only)
        if dead and not bad:
            print('INVALID', m['note'], dead, flush=True); continue
        print(('KILLED' if bad else 'SURVIVED'), m['file'], '|', m['note'], '|', m['claim'], '|', bad, '| broken lemmas', broken[:6], '| dead', dead[:3], flush=True)
        if log:
            with open(f'{root}/seeded/LOG.jsonl', 'a') as fh:
                fh.write(json.dumps({'definition': m.get('def', m['file']), 'file': m['file'], 'edit': {'from': m['old'], 'to': m['new']}, 'bug': m['note'],
                    'claim_broken': m['claim'], 'theorems_failed': bad, 'lemmas_failed': broken, 'theorems_tightened': m.get('tightened', [])}) + '\n')
main()
