#!/usr/bin/env python3
"""Collect the output of Print Assumptions in theories/Props and write the table in DESIGN.md
between the markers.  With file names: only these are compiled, the other entries are kept."""
import re,subprocess,glob,os,collections,sys
os.chdir('/verif/rocq')
groups=collections.OrderedDict()
only=sys.argv[1:]
if only:
    d=open('/verif/DESIGN.md').read()
    part=d[d.index('<!-- assumptions -->'):d.index('<!-- /assumptions -->')]
    gone=set(n for f in only for n in re.findall(r'^Print Assumptions (\S+)\.',open(f).read(),re.M))
    for l in part.splitlines()[1:]:
        m=re.match(r'\* \*\*(.*?)\*\* \(\d+ theorems\): (.*)',l)
        groups[tuple(re.findall(r'`([^`]*)`',m.group(1)))]=[n for n in m.group(2).split(', ') if n not in gone]
for f in only or sorted(glob.glob('theories/Props/*.v')):
    src=open(f).read()
    names=re.findall(r'^Print Assumptions (\S+)\.',src,re.M)
    out=subprocess.run(['coqc','-Q','theories','Verif',f],capture_output=True,text=True).stdout
    blocks=re.split(r'^(?=Closed under the global context|Axioms:)',out,flags=re.M)[1:]
    assert len(blocks)==len(names),(f,len(blocks),len(names))
    for n,b in zip(names,blocks):
        ax=tuple(sorted(set(re.findall(r'^([A-Za-z_][\w.]*)\s*:',b,re.M))-{'Axioms'}))
        full={'classic':'Classical_Prop.classic','sig_forall_dec':'ClassicalDedekindReals.sig_forall_dec','sig_not_dec':'ClassicalDedekindReals.sig_not_dec'}
        ax=tuple(sorted(full.get(a,a) for a in ax))
        k=next((g for g in groups if sorted(g)==list(ax)),ax)
        groups.setdefault(k,[]).append(n)
lines=[]
for ax,ns in sorted(groups.items(),key=lambda x:len(x[0])):
    lines.append('* **%s** (%d theorems): %s'%(', '.join('`%s`'%a for a in ax) or 'no axioms (closed under the global context)',len(ns),', '.join(ns)))
d=open('/verif/DESIGN.md').read()
b,e='<!-- assumptions -->','<!-- /assumptions -->'
i,j=d.index(b),d.index(e)
open('/verif/DESIGN.md','w').write(d[:i+len(b)]+'\n'+'\n'.join(lines)+'\n'+d[j:])
for a in groups: print(len(groups[a]),a)
