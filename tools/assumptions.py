#!/usr/bin/env python3
"""Print, for every theorem named in MANIFEST.json, what Print Assumptions lists; grouped by set. Run after building rocq/."""
import json,os,re,subprocess,tempfile
root=os.path.join(os.path.dirname(os.path.abspath(__file__)),'..'); th=os.path.join(root,'rocq','theories')
names=[t for c in json.load(open(os.path.join(root,'MANIFEST.json')))['claims'] for t in c['theorems']]
where={}
for f in sorted(os.listdir(os.path.join(th,'Props'))):
    if f.endswith('.v'):
        for m in re.finditer(r'^\s*(?:Theorem|Corollary|Lemma)\s+(C\d\d_\w+)',open(os.path.join(th,'Props',f)).read(),re.M): where[m.group(1)]=f[:-2]
src=''.join('From Verif Require Props.%s.\n'%m for m in sorted(set(where[n] for n in names)))
for n in names: src+='Goal True. idtac "@@ %s". exact I. Qed.\nPrint Assumptions %s.%s.\n'%(n,where[n],n)
d=tempfile.mkdtemp(); open(d+'/A.v','w').write(src)
out=subprocess.run(['coqc','-Q',th,'Verif',d+'/A.v'],capture_output=True,text=True)
assert out.returncode==0,out.stderr[-2000:]
groups={}
for blk in out.stdout.split('@@ ')[1:]:
    n,rest=blk.split('\n',1)
    ax=() if 'Closed under' in rest else tuple(sorted(set(re.findall(r'^([A-Za-z_][\w.]*)\s*(?::|$)',rest,re.M))-{'Axioms','Section'}))
    groups.setdefault(ax,[]).append(n)
for ax,ns in sorted(groups.items(),key=lambda x:len(x[0])):
    print('* **%s**: %s\n'%(', '.join(ax) if ax else 'closed under the global context (no axiom)',', '.join(ns)))
