#!/usr/bin/env python3
"""Writes /verif/MANIFEST.json from the table below (one entry per property)."""
import json
P, Q = "proved", "partial"
T = {}
def claim(pid, status, theorems, note=""):
    T[pid] = {"property": pid, "status": status, "theorems": theorems, "note": note}
exec(open(__file__.replace("mk_manifest.py", "claims.py")).read())
json.dump({"claims": [T[k] for k in sorted(T)]}, open("/verif/MANIFEST.json", "w"), indent=1)
print(len(T), "claims")
