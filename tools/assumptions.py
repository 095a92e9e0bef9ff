#!/usr/bin/env python3
"""Regenerates the table of Print Assumptions in DESIGN.md (run in /verif after a build)."""
import re,glob,subprocess,os,tempfile
rows={}
for f in sorted(glob.glob('rocq/theories/Prop_*.v')):
    src=open(f).read()
    names=re.findall(r'^Print Assumptions (\w+)',src,re.M)
    mod=os.path.basename(f)[:-2]
    d=tempfile.mkdtemp()
    t=os.path.join(d,'A.v')
    open(t,'w').write('From Verif Require Import %s.\n'%mod+''.join('Print Assumptions %s.%s.\n'%(mod,n) for n in names))
    out=subprocess.run(['coqc','-Q','rocq/theories','Verif',t],stdout=subprocess.PIPE,stderr=subprocess.STDOUT,text=True).stdout
    ch=re.split(r'^(Axioms:|Closed under the global context)',out,flags=re.M)[1:]
    assert len(ch)==2*len(names),(f,len(ch),len(names),out[:300])
    for n,h,b in zip(names,ch[::2],ch[1::2]):
        ax=tuple(sorted({a.split('.')[-1] for a in re.findall(r'^([A-Za-z_][\w.]*)(?:\s*:|\s*$)',b,re.M)})) if h=='Axioms:' else ()
        rows.setdefault(ax,[]).append(n)
out='## Print Assumptions, theorem by theorem\n\nGenerated by tools/assumptions.py.\n\n'
for ax in sorted(rows,key=lambda a:(len(a),a)):
    out+='* **%s**: %s\n'%(', '.join('`%s`'%a for a in ax) or 'closed under the global context',', '.join(sorted(rows[ax])))
s=open('DESIGN.md').read()
i=s.find('## Print Assumptions, theorem by theorem')
if i>=0:
    j=s.find('\n## ',i+5); s=s[:i]+(s[j+1:] if j>=0 else '')
open('DESIGN.md','w').write(s.rstrip('\n')+'\n\n'+out)
for ax in rows: print(ax,len(rows[ax]))
