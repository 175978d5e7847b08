#!/usr/bin/env python3
"""Mutation testing of the theorems.
usage: mutate.py mutants_file.py [-j N]   (mutants_file defines M = [(id, file, definition, old, new, claim), ...])
For each mutant: scratch copy of /verif/rocq, edit the model, recompile every dependent file;
a Lemma/Theorem/Example whose proof no longer checks is admitted so the rest can be checked;
then Print Assumptions tells which property theorems rest on a broken lemma.
Appends one JSON line per mutant to /verif/seeded/LOG.jsonl."""
import sys, os, re, shutil, subprocess, json, concurrent.futures as cf, fcntl
ROOT = os.environ.get('MUT_ROOT', '/verif/rocq')
def order():
    return [l.strip()[len('theories/'):-2] for l in open(ROOT + '/_CoqProject') if l.strip().endswith('.v')]
def deps(d, m):
    t = open(f'{d}/{m}.v').read(); out = set()
    for l in re.findall(r'From Verif Require (?:Import|Export)?\s*([^.]*)\.', t): out |= set(l.split())
    return out
START = re.compile(r'^\s*(?:Local |Global |#\[[^\]]*\] )*(Lemma|Theorem|Corollary|Example|Fact|Remark|Instance|Proposition|Add Parametric|Add Ring|Definition|Fixpoint|Program)\b\s*([\w\']*)')
def admit(path, line):
    L = open(path).read().split('\n'); i = line - 1; end_line = i
    # find the start
    while i >= 0:
        m = START.match(L[i])
        if m and m.group(1) not in ('Definition', 'Fixpoint'): break
        if m: break
        i -= 1
    if i < 0: return None
    name = m.group(2) or f'{m.group(1)}@{i+1}'; kind = m.group(1)
    # find Proof. after i and Qed/Defined
    j = i; pr = None
    while j < len(L):
        if pr is None and re.search(r'\bProof\b', L[j]): pr = j
        if re.search(r'\b(Qed|Defined|Admitted)\.', L[j]): break
        if j > i and START.match(L[j]) : return (name, None)
        j += 1
    if pr is None or j >= len(L) or not (i <= line - 1 <= j): return (name, None)
    if line - 1 < pr: return (name, None)
    head = L[pr][:re.search(r'\bProof\b', L[pr]).start()]
    L[pr:j + 1] = [head + ' Admitted.'] + [''] * (j - pr)
    open(path, 'w').write('\n'.join(L))
    return (name, kind)
def run(mut):
    mid, mfile, definition, old, new, claim = mut
    d0 = f'/tmp/mut/{mid}'; shutil.rmtree(d0, ignore_errors=True); shutil.copytree(ROOT + '/theories', d0)
    p = f'{d0}/{mfile}.v'; t = open(p).read()
    if t.count(old) != 1: return mut, {'error': f'old text occurs {t.count(old)} times'}
    open(p, 'w').write(t.replace(old, new))
    dirty = {mfile}; broken = []; hard = []
    for m in order():
        if m not in dirty and not (deps(d0, m) & dirty): continue
        dirty.add(m)
        if deps(d0, m) & set(h[0] for h in hard): hard.append((m, 'depends on a file that does not compile')); continue
        for attempt in range(80):
            r = subprocess.run(['timeout', '240', 'coqc', '-w', 'none', '-Q', '.', 'Verif', m + '.v'], cwd=d0, capture_output=True, text=True)
            if r.returncode == 0: break
            g = re.search(r'File "[^"]*", line (\d+)', r.stderr)
            if r.returncode == 124: hard.append((m, 'timeout')); break
            if not g: hard.append((m, r.stderr[-300:])); break
            if m == mfile and mfile.endswith('_Model'): hard.append((m, r.stderr[-400:])); break
            a = admit(f'{d0}/{m}.v', int(g.group(1)))
            if a is None or a[1] is None: hard.append((m, f'{a} ' + r.stderr[-400:])); break
            broken.append(a[0])
        else: hard.append((m, 'too many attempts'))
    failed = []; props = [m for m in order() if m.endswith('_Properties') and m in dirty]
    dead = set(h[0] for h in hard)
    for m in props:
        ths = re.findall(r'^(?:Theorem|Corollary)\s+(C\d\d_\w+)', open(f'{d0}/{m}.v').read(), re.M)
        if m in dead: failed += [x + ' (file not compiled)' for x in ths]; continue
        open(f'{d0}/Chk.v', 'w').write(f'From Verif Require Import {m}.\n' + ''.join(f'Check {x}.\nPrint Assumptions {x}.\n' for x in ths))
        r = subprocess.run(['timeout', '300', 'coqc', '-w', 'none', '-Q', '.', 'Verif', 'Chk.v'], cwd=d0, capture_output=True, text=True)
        cur = None; secs = {}
        for l in r.stdout.split('\n'):
            g = re.match(r'(?:\w+\.)?(C\d\d_\w+)\s*(:|$)', l)
            if g and g.group(1) in ths and g.group(1) not in secs: cur = g.group(1); secs[cur] = ''
            if cur: secs[cur] += l + '\n'
        for x in ths:
            s = secs.get(x, '')
            ax = s[s.find('Axioms:'):] if 'Axioms:' in s else ''
            if x in broken or any(re.search(r'(^|[\s.])' + re.escape(b) + r'\b', ax) for b in broken): failed.append(x)
    shutil.rmtree(d0, ignore_errors=True)
    return mut, {'broken_lemmas': broken, 'failed': failed, 'hard': hard}
def main():
    ns = {}; exec(open(sys.argv[1]).read(), ns)
    done = set()
    if os.path.exists('/verif/seeded/LOG.jsonl'):
        for l in open('/verif/seeded/LOG.jsonl'):
            if l.strip(): done.add(json.loads(l).get('id'))
    only = sys.argv[3:] if len(sys.argv) > 3 else None
    muts = [m for m in ns['M'] if (m[0] in only if only else m[0] not in done)]
    os.makedirs('/tmp/mut', exist_ok=True)
    n = int(sys.argv[2]) if len(sys.argv) > 2 else 2
    with cf.ThreadPoolExecutor(n) as ex:
        for mut, r in ex.map(run, muts):
            pass
            print(mut[0], 'ERR ' + r['error'] if 'error' in r else f"failed={r['failed']} hard={[(h[0], h[1][-200:]) for h in r['hard']]}", flush=True)
            if 'error' in r: continue
            with open('/verif/seeded/LOG.jsonl', 'a') as f:
                f.write(json.dumps({'id': mut[0], 'definition': f'{mut[1]}.{mut[2]}', 'edit': f'{mut[3]!r} -> {mut[4]!r}', 'claim_broken': mut[5],
                    'theorems_failed': r['failed'], 'broken_lemmas': r['broken_lemmas'], 'not_compiled': [h[0] for h in r['hard']], 'theorems_tightened': []}) + '\n')
main()
