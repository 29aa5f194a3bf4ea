#!/usr/bin/env python3
"""Append the results of mutate.py to seeded/LOG.jsonl.

usage: seedlog.py out.jsonl [notes.json]
notes.json: {"<definition>|<edit number in out.jsonl>": {"tightened": [...], "note": "..."}}
"""
import json, os, sys
root = os.path.dirname(os.path.dirname(os.path.abspath(__file__)))
notes = json.load(open(sys.argv[2])) if len(sys.argv) > 2 else {}
with open(f"{root}/seeded/LOG.jsonl", "a") as log:
    for i, line in enumerate(open(sys.argv[1])):
        d = json.loads(line)
        n = notes.get(str(i), {})
        r = {"definition": d["def"], "edit": f"{d['old'].strip()}  ==>  {d['new'].strip()}",
             "claim_broken": d["claim"],
             "proofs_broken": [f"{a}.{b}" for a, b in d.get("failed", [])],
             # theorems whose proof is broken or rests on a broken proof
             "theorems_failed": d.get("hit", []), "theorems_tightened": n.get("tightened", [])}
        if d.get("error"): r["error"] = d["error"]
        if n.get("note"): r["note"] = n["note"]
        log.write(json.dumps(r) + "\n")
