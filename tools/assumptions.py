#!/usr/bin/env python3
"""Write ASSUMPTIONS.md: what Print Assumptions lists for every theorem of MANIFEST.json (needs a finished build)."""
import json, os, re, subprocess, collections
R='/verif/rocq'
names=[t for c in json.load(open('/verif/MANIFEST.json'))['claims'] for t in c['theorems']]
names=list(dict.fromkeys(names))
where={}
for f in sorted(os.listdir(R+'/theories')):
    if f.endswith('.v'):
        for m in re.finditer(r'^\s*(?:Theorem|Corollary)\s+(\w+)',open(f'{R}/theories/{f}').read(),re.M):
            where.setdefault(m.group(1),f[:-2])
mods=list(dict.fromkeys(where[n.split('.')[-1]] for n in names))
src='\n'.join(f'From Verif Require {m}.' for m in mods)+'\n'
for n in names:
    src+=f'Print Assumptions {where[n.split(".")[-1]]}.{n}.\n'
open('/tmp/assume.v','w').write(src)
out=subprocess.run(['coqc','-Q',R+'/theories','Verif','/tmp/assume.v'],capture_output=True,text=True)
if out.returncode: raise SystemExit(out.stderr)
blocks=re.split(r'^(?=Axioms:|Closed under)',out.stdout,flags=re.M)[1:]
assert len(blocks)==len(names),(len(blocks),len(names))
by=collections.OrderedDict()
for n,b in zip(names,blocks):
    ax=tuple(sorted(set(re.findall(r'^([A-Za-z_][\w.]*)\s*(?::|$)',b,re.M))-{'Axioms','Closed'}))
    by.setdefault(ax,[]).append(n)
with open('/verif/ASSUMPTIONS.md','w') as f:
    f.write('# Axioms behind each theorem\n\nGenerated by tools/assumptions.py from `Print Assumptions` (Coq 8.16.1).\n')
    for ax,ns in sorted(by.items(),key=lambda p:len(p[0])):
        f.write('\n## '+(', '.join(ax) if ax else 'Closed under the global context (no axioms)')+f'\n\n{len(ns)} theorems: '+', '.join(ns)+'\n')
    print({a:len(n) for a,n in by.items()})
