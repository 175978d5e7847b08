#!/usr/bin/env python3
"""Screen of small mechanical mutants of every definition of the model.
usage: automutate.py NPROC PER_DEFINITION SEED [Model files ...]   (env MUT_ROOT: a built copy of /verif/rocq)
For each mutant the dependent files are recompiled until a proof no longer checks (killed) or all
compile (survived).  Mutants that do not type-check are skipped.  One JSON line per mutant goes to
/verif/seeded/SCREEN.jsonl; survivors are to be looked at (equivalent, or a theorem is too weak)."""
import sys, os, re, shutil, subprocess, json, random, concurrent.futures as cf, hashlib
ROOT = os.environ.get('MUT_ROOT', '/tmp/snap')
OUT = '/verif/seeded/SCREEN.jsonl'
ORDER = [l.strip()[len('theories/'):-2] for l in open(ROOT + '/_CoqProject') if l.strip().endswith('.v')]
SRC = {m: open(f'{ROOT}/theories/{m}.v').read() for m in ORDER}
DEPS = {}
for m in ORDER:
    s = set()
    for l in re.findall(r'From Verif Require (?:Import|Export)?\s*([^.]*)\.', SRC[m]): s |= set(l.split())
    DEPS[m] = s
# topological order
TOPO = []; seen = set()
def visit(m):
    if m in seen or m not in DEPS: return
    seen.add(m)
    for x in sorted(DEPS[m]): visit(x)
    TOPO.append(m)
for m in ORDER: visit(m)
OPS = [(r'<\?', '<=?'), (r'<=\?', '<?'), (r'\bNat\.ltb\b', 'Nat.leb'), (r'\bNat\.leb\b', 'Nat.ltb'), (r'&&', '||'), (r'\|\|', '&&'),
  (r'\bnegb\b', '(fun b : bool => b)'), (r'\btrue\b', 'false'), (r'\bfalse\b', 'true'), (r'\bfst\b', 'snd'), (r'\bsnd\b', 'fst'),
  (r'\bAssertionError\b', 'ValueError'), (r'\bValueError\b', 'TypeError'), (r'\bKeyError\b', 'IndexError'), (r'\bTypeError\b', 'ValueError'), (r'\bIndexError\b', 'KeyError'),
  (r'\bRltb\b', 'Rleb'), (r'\bRleb\b', 'Rltb'), (r' \+ ', ' - '), (r' - ', ' + '), (r' \* ', ' + '), (r' / ', ' * '), (r'\b0\b', '1'), (r'\b1\b', '2'), (r'\b1\b', '0'), (r'\b2\b', '3'),
  (r'\bS (\w+)\b', r'\1'), (r'\brev\b', ''), (r'\bUp\b', 'Down'), (r'\bDown\b', 'Up'), (r'\bCreator\b', 'Annihilator'), (r'\bAnnihilator\b', 'Creator'),
  (r'\bRmin\b', 'Rmax'), (r'\bmin\b', 'max'), (r'\bmax\b', 'min'), (r'\bvadd\b', 'vsub'), (r'\bvsub\b', 'vadd'), (r'\bcos\b', 'sin'), (r'\bsin\b', 'cos'), (r'\bCadd\b', 'Csub'),
  (r'\bSome\b', 'Some'), (r'\bif (\w+) then\b', r'if negb \1 then'), (r'\bexistsb\b', 'forallb'), (r'\bforallb\b', 'existsb'), (r'\bhd\b', 'last'),
  (r'\bZ\.ltb\b', 'Z.leb'), (r'\bZ\.leb\b', 'Z.ltb'), (r'\bZ\.land\b', 'Z.lor'), (r'\bZ\.lor\b', 'Z.land'), (r'\bZ\.lxor\b', 'Z.lor'), (r'\bZ\.shiftl\b', 'Z.shiftr'), (r'\bCconj\b', ''), (r'\bopp\b', 'abs'), (r'"([^"]+)"', r'"\1x"'),
  (r'\b(\w+) \+\+ (\w+)\b', r'\2 ++ \1'), (r'\bcombine (\w+) (\w+)\b', r'combine \2 \1'), (r'\bnth (\w+)\b', r'nth (S \1)'), (r'\bfirstn\b', 'skipn'), (r'\bskipn\b', 'firstn'), (r'\((\w+), (\w+)\)', r'(\2, \1)'),
  (r'\bxorb\b', 'orb'), (r'\bZ\.div\b', 'Z.modulo'), (r'\bZ\.modulo\b', 'Z.div'), (r'\bseq 0\b', 'seq 1'), (r'\bfold_left\b', 'fold_left'), (r'\b(\w+) :: (\w+)\b', r'\2'), (r'\bfilter (\w+) ', r'filter (fun z => negb (\1 z)) '), (r' =\? (\w+)', r' =? S \1'), (r'\bPy_mod\b', 'Py_div'), (r'\brepeat (\w+) (\w+)\b', r'repeat \1 (S \2)'), (r'\b(\w+) (\w+) (\w+)\b', r'\1 \3 \2')]
DEF = re.compile(r'^(?:  )?(?:Definition|Fixpoint)\s+([\w\']+)', re.M)
STOP = re.compile(r'^(?:  )?(?:Definition|Fixpoint|Inductive|Record|Section|End|Variable|Hypothesis|Notation|Local|Arguments|Ltac|Lemma|Theorem|Existing|Canonical|Declare|Bind|Delimit|Open|Import|From|Require|Coercion|Scheme|Context|#)|\(\*', re.M)
def definitions(m):
    t = SRC[m]
    for g in DEF.finditer(t):
        e = STOP.search(t, g.end()); end = e.start() if e else len(t)
        body_start = t.find(':=', g.end())
        if body_start < 0 or body_start > end: continue
        yield g.group(1), body_start + 2, end
def mutants(m):
    t = SRC[m]; out = []
    for name, a, b in definitions(m):
        c = []
        for pat, rep in OPS:
            for g in re.finditer(pat, t[a:b]):
                new = g.expand(rep)
                if new == g.group(0): continue
                s = t[:a + g.start()] + new + t[a + g.end():]
                ctx = t[max(a, a + g.start() - 30):a + g.end() + 30].replace('\n', ' ')
                c.append((m, name, g.group(0), new, ctx, a + g.start(), s))
        out.append(c)
    return out
def run(x):
    m, name, old, new, ctx, pos, s, mid = x
    d = f'/tmp/mut/{mid}'; shutil.rmtree(d, ignore_errors=True); os.makedirs(d)
    try:
        src = ROOT + '/theories'
        for f in os.listdir(src):
            if f.endswith('.vo') or f.endswith('.v'): os.symlink(f'{src}/{f}', f'{d}/{f}')
        def coqc(k, to):
            for e in ('.vo', '.vok', '.vos', '.glob'):
                if os.path.lexists(f'{d}/{k}{e}'): os.unlink(f'{d}/{k}{e}')
            return subprocess.run(['timeout', str(to), 'coqc', '-w', 'none', '-noglob', '-Q', '.', 'Verif', k + '.v'], cwd=d, capture_output=True, text=True)
        os.unlink(f'{d}/{m}.v'); open(f'{d}/{m}.v', 'w').write(s)
        if coqc(m, 120).returncode: return x, 'ill-typed', ''
        dirty = {m}
        for k in TOPO:
            if k == m or not (DEPS[k] & dirty): continue
            dirty.add(k)
            r = coqc(k, 600)
            if r.returncode:
                if r.returncode == 124: return x, 'killed', f'{k}: time out'
                g = re.search(r'line (\d+)', r.stderr); ln = int(g.group(1)) if g else 0
                names = re.findall(r'^\s*(?:Lemma|Theorem|Corollary|Example|Fact|Definition|Fixpoint|Program Definition|Instance)\s+([\w\']+)', '\n'.join(SRC[k].split('\n')[:ln]), re.M)
                return x, 'killed', f'{k}.{names[-1] if names else "?"}'
        return x, 'survived', ''
    finally: shutil.rmtree(d, ignore_errors=True)
def main():
    n, per, seed = int(sys.argv[1]), int(sys.argv[2]), int(sys.argv[3]); files = sys.argv[4:] or [m for m in ORDER if m.endswith('_Model')]
    done = set()
    if os.path.exists(OUT):
        for l in open(OUT): done.add(json.loads(l)['id'])
    rnd = random.Random(seed); jobs = []
    for m in files:
        for c in mutants(m):
            rnd.shuffle(c)
            for x in c[:per]:
                mid = hashlib.sha1((x[0] + x[6]).encode()).hexdigest()[:10]
                if mid not in done: jobs.append(x + (mid,))
    rnd.shuffle(jobs); print(len(jobs), 'mutants', flush=True); os.makedirs('/tmp/mut', exist_ok=True)
    tot = {}
    with cf.ThreadPoolExecutor(n) as ex:
        for f in cf.as_completed([ex.submit(run, j) for j in jobs]):
            x, st, why = f.result(); tot[st] = tot.get(st, 0) + 1
            if st != 'killed' and st != 'ill-typed' or sum(tot.values()) % 50 == 0: print(tot, st, x[0], x[1], x[2], '->', x[3], '|', x[4], flush=True)
            if st == 'ill-typed': continue
            with open(OUT, 'a') as o: o.write(json.dumps({'id': x[7], 'definition': f'{x[0]}.{x[1]}', 'edit': f'{x[2]!r} -> {x[3]!r}', 'context': x[4], 'result': st, 'first_broken': why}) + '\n')
    print(tot)
main()
