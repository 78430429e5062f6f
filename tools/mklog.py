#!/usr/bin/env python3
"""append mutation results (output of the scratch harness) to seeded/LOG.jsonl"""
import json,sys
tight=json.loads(sys.argv[2]) if len(sys.argv)>2 else {}
out=open('/verif/seeded/LOG.jsonl','a')
for l in open(sys.argv[1]):
    r=json.loads(l)
    if r.get('rc')=='NO MATCH' or 'NO MATCH' in json.dumps(r): continue
    out.write(json.dumps({"definition":r['file']+' '+r['definition'],"edit":r['old']+'  ==>  '+r['new'],"claim":r['claim'],
      "theorems_failed":{"first_failing":r.get('fails'),"headline_theorems_lost":r.get('lost')},
      "theorems_tightened":tight.get(r['definition'],[])})+'\n')
