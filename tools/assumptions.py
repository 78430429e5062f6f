#!/usr/bin/env python3
"""Print Assumptions for every theorem of the manifest; writes ASSUMPTIONS.md (run after a build)."""
import json,subprocess,re,os
root=os.path.join(os.path.dirname(os.path.abspath(__file__)),'..')
m=json.load(open(root+'/MANIFEST.json'))
thms=[]
for c in m['claims']:
    for t in c['theorems']:
        if t not in thms: thms.append(t)
mods=[l.strip()[9:-2] for l in open(root+'/rocq/_CoqProject') if l.strip().startswith('theories/')]
where={}
for f in mods:
    for l in open(f'{root}/rocq/theories/{f}.v'):
        g=re.match(r'\s*(?:Theorem|Lemma|Example|Corollary|Definition)\s+(\w+)',l)
        if g: where.setdefault(g.group(1),f)
src="".join(f"Require Verif.{f}.\n" for f in mods)
for t in thms: src+=f'Check tt. Eval compute in 0. Print Assumptions Verif.{where[t]}.{t}.\n'
open('/tmp/assum.v','w').write(src)
out=subprocess.run(['coqc','-R','theories','Verif','/tmp/assum.v'],cwd=root+'/rocq',capture_output=True,text=True)
if out.returncode: raise SystemExit(out.stderr)
parts=re.split(r'tt\s*\n?\s*: unit\s*\n\s*= 0\s*\n?\s*: nat\s*\n',out.stdout)[1:]
assert len(parts)==len(thms),(len(parts),len(thms))
groups={}
for t,p in zip(thms,parts):
    if 'Closed under the global context' in p: key=()
    else: key=tuple(sorted(set(re.findall(r'^([A-Za-z_][\w\.\']*)\s*(?=:|$)',p,re.M))-{'Axioms'}))
    groups.setdefault(key,[]).append(t)
with open(root+'/ASSUMPTIONS.md','w') as f:
    f.write("# Print Assumptions for every theorem of MANIFEST.json\n\nGenerated by tools/assumptions.py from a built tree.\n")
    for k,ts in sorted(groups.items(),key=lambda kv:len(kv[0])):
        f.write("\n## "+("Closed under the global context" if not k else "Axioms: "+", ".join(k))+f" ({len(ts)} theorems)\n\n")
        f.write(", ".join(f"`{where[t]}.{t}`" for t in ts)+"\n")
for k,ts in groups.items(): print(k,len(ts))
