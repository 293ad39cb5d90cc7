#!/usr/bin/env python3
"""Rebuild MANIFEST.json from the theorem names in rocq/theories/P*.v and the notes below."""
import json, re, glob, os
root = os.path.dirname(os.path.dirname(os.path.abspath(__file__)))
notes = json.load(open(os.path.join(root, "tools", "notes.json")))
thms = {}
for f in sorted(glob.glob(os.path.join(root, "rocq", "theories", "P*.v"))):
    for m in re.finditer(r"^Theorem\s+((C\d\d)_\w+)", open(f).read(), re.M):
        thms.setdefault(m.group(2), []).append(m.group(1))
claims = []
for line in open(os.path.join(root, "properties.jsonl")):
    pid = json.loads(line)["id"]
    if pid not in thms:
        continue
    status, note = notes.get(pid, ["proved", ""])
    claims.append({"property": pid, "status": status, "theorems": thms[pid], "note": note})
json.dump({"claims": claims}, open(os.path.join(root, "MANIFEST.json"), "w"), indent=1)
print(len(claims), "claims,", sum(len(c["theorems"]) for c in claims), "theorems; partial:",
      [c["property"] for c in claims if c["status"] != "proved"])
