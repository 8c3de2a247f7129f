#!/usr/bin/env python3
"""Append seeded-bug results (from the scratch mutation runner) to seeded/LOG.jsonl."""
import json,sys
out=[];seen=set()
for f in sys.argv[1:]:
    for l in open(f):
        r=json.loads(l)
        k=(r['definition'],r['edit'])
        if k in seen: continue
        seen.add(k)
        out.append(dict(definition='%s (theories/%s)'%(r['definition'],r['file']),edit=r['edit'],claim_broken=r['claim'],
          theorems_failed=r['theorems_failed'],first_failures=r['first_failures'],theorems_tightened=r.get('tightened',[]),note=r.get('note','')))
open('/verif/seeded/LOG.jsonl','w').write(''.join(json.dumps(o)+'\n' for o in out))
print(len(out))
