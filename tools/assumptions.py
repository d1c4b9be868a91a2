#!/usr/bin/env python3
"""Prints, grouped by axiom set, what Print Assumptions lists for each claimed theorem.
Run after a build; splices the result into DESIGN.md between the ASSUMPTIONS markers."""
import re,os,sys,subprocess,json,tempfile
root=os.path.dirname(os.path.dirname(os.path.abspath(__file__)))
files=[l.strip() for l in open(root+'/rocq/_CoqProject') if l.strip().startswith('theories/')]
names=[];mods=[]
for f in files:
    t=open(f'{root}/rocq/{f}').read()
    ns=re.findall(r'^Theorem (C\d+_[A-Za-z0-9_\']+)',t,re.M)
    if ns:
        mod=os.path.basename(f)[:-2]; mods.append(mod)
        names+=[(mod,n) for n in ns]
# --new: only theorems that DESIGN.md does not list yet
old={}
if '--new' in sys.argv:
    t=open(root+'/DESIGN.md').read(); t=t[t.index('<!-- ASSUMPTIONS -->'):t.index('<!-- /ASSUMPTIONS -->')]
    for l in t.split('\n'):
        m=re.match(r'\* (.*?) \(\d+ theorems\): (.*)\.$',l)
        if m: old[tuple(re.findall(r'`([^`]*)`',m.group(1)))]=[x for x in m.group(2).split(', ') if x in {n for _,n in names}]
    done={x for v in old.values() for x in v}
    names=[(m,n) for m,n in names if n not in done]; mods=sorted({m for m,_ in names})
src='From Verif Require '+' '.join(mods)+'.\n'+''.join(f'Print Assumptions {m}.{n}.\n' for m,n in names)
d=tempfile.mkdtemp(); open(d+'/a.v','w').write(src)
out=subprocess.run(['coqc','-Q',root+'/rocq/theories','Verif',d+'/a.v'],capture_output=True,text=True).stdout
blocks=re.split(r'^(?=Closed under the global context|Axioms:)',out,flags=re.M)[1:]
assert len(blocks)==len(names),(len(blocks),len(names))
g={}
for (m,n),b in zip(names,blocks):
    ax=tuple(sorted(set(re.findall(r'^([A-Za-z_][A-Za-z0-9_.\']*)(?= *:|$)',b.replace('Axioms:',''),re.M)))) if b.startswith('Axioms') else ()
    g.setdefault(ax,[]).append(n)
for ax,ns in old.items(): g[ax]=g.get(ax,[])+ns
s=''
for ax,ns in sorted(g.items(),key=lambda x:(len(x[0]),x[0])):
    s+='* '+(', '.join(f'`{a}`' for a in ax) if ax else 'no axioms ("Closed under the global context")')+f' ({len(ns)} theorems): '
    s+=', '.join(sorted(ns))+'.\n'
p=root+'/DESIGN.md'; t=open(p).read()
a,b='<!-- ASSUMPTIONS -->','<!-- /ASSUMPTIONS -->'
if a in t:
    t=t[:t.index(a)+len(a)]+'\n'+s+t[t.index(b):]; open(p,'w').write(t)
for ax,ns in g.items(): print(len(ns),ax)
