#!/usr/bin/env python3
"""Compile every Properties*.v (build first) and write ASSUMPTIONS.md: what Print Assumptions lists per theorem."""
import re,subprocess,glob,os,collections
root=os.path.dirname(os.path.dirname(os.path.abspath(__file__)))
rows=[]
for f in sorted(glob.glob(root+'/rocq/theories/Properties*.v')):
    names=re.findall(r"^Print Assumptions ([A-Za-z_0-9']+)\.",open(f).read(),re.M)
    m=os.path.basename(f)[:-2]
    d='/tmp/assum'; os.makedirs(d,exist_ok=True)
    t=d+'/Query.v'
    open(t,'w').write(f'From Verif Require Import {m}.\n'+''.join(f'Print Assumptions {n}.\n' for n in names))
    out=subprocess.run(['coqc','-Q',root+'/rocq/theories','Verif',t],stdout=subprocess.PIPE,stderr=subprocess.STDOUT,text=True).stdout
    blocks=[];cur=None
    for l in out.split('\n'):
        if l.startswith('Axioms:') or l.startswith('Closed under'): cur=[];blocks.append(cur)
        elif cur is not None and re.match(r"^[A-Za-z_][\w.']*( |$)",l): cur.append(l.split()[0])
    assert len(blocks)==len(names),(m,len(blocks),len(names),out[-500:])
    for n,b in zip(names,blocks): rows.append((m,n,frozenset(b)))
sets=collections.OrderedDict()
for m,n,b in rows: sets.setdefault(b,[]).append((m,n))
with open(root+'/ASSUMPTIONS.md','w') as o:
    o.write('# What Print Assumptions lists\n\nGenerated by tools/assumptions.py. Theorems with the same list are grouped.\n')
    for b,ns in sorted(sets.items(),key=lambda x:len(x[0])):
        o.write('\n## '+(', '.join(f'`{a}`' for a in sorted(b)) if b else 'Nothing (closed under the global context)')+'\n\n')
        by=collections.OrderedDict()
        for m,n in ns: by.setdefault(m,[]).append(n)
        for m,l in by.items(): o.write(f'* {m}: '+', '.join(l)+'\n')
print(len(rows),'theorems',len(sets),'groups')
