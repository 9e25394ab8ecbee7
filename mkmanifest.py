#!/usr/bin/env python3
"""Regenerates MANIFEST.json from the table below (id -> status, theorems, note)."""
import json,os
here=os.path.dirname(os.path.abspath(__file__))
T={}
def c(i,st,th,note): T[i]=dict(property=i,status=st,theorems=th.split(),note=note)
exec(open(os.path.join(here,'manifest_table.py')).read())
json.dump({"claims":[T[k] for k in sorted(T)]},open(os.path.join(here,'MANIFEST.json'),'w'),indent=1)
