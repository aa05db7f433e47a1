#!/usr/bin/env python3
"""Add or replace one entry of MANIFEST.json: claim.py C01 proved thm1,thm2 "note" """
import json,sys
p='/verif/MANIFEST.json'; d=json.load(open(p))
pid,st,th,note=sys.argv[1:5]
d['claims']=[c for c in d['claims'] if c['property']!=pid]
d['claims'].append({"property":pid,"status":st,"theorems":[t for t in th.split(',') if t],"note":note})
d['claims'].sort(key=lambda c:c['property'])
json.dump(d,open(p,'w'),indent=1); open(p,'a').write('\n')
