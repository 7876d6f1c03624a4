#!/usr/bin/env python3
"""Regenerates the per-property table of DESIGN.md (between the markers)."""
import json,os,re,glob
here=os.path.dirname(os.path.abspath(__file__)); R=here+'/../'
ns={}; exec(open(here+'/design_how.py').read(),ns); HOW=ns['HOW']
M=json.load(open(R+'MANIFEST.json'))['claims']
where={}
for f in glob.glob(R+'rocq/theories/Prop*.v'):
    for m in re.finditer(r'^Theorem\s+(C\d+_\w+)',open(f).read(),re.M): where[m.group(1)]=os.path.basename(f)
rows=['| Property | Status | Modelled | Proof | Theorems |','|---|---|---|---|---|']
for c in M:
    h=HOW.get(c['property'],('?','?'))
    if h[0]=='?': print('no HOW for',c['property'])
    fs=sorted({where[t] for t in c['theorems']})
    rows.append(f"| {c['property']} | {c['status']} | {h[0]} | {h[1]} | {', '.join(fs)}: {', '.join(c['theorems'])} |")
s=open(R+'DESIGN.md').read()
a,b='<!-- table -->','<!-- /table -->'
i,j=s.index(a)+len(a),s.index(b)
open(R+'DESIGN.md','w').write(s[:i]+'\n'+'\n'.join(rows)+'\n'+s[j:])
print(len(M),'rows')
