#!/usr/bin/env python3
"""Regenerate MANIFEST.json from the theorem names in the Prop*.v files."""
import json, re, glob, os
root = os.path.dirname(os.path.dirname(os.path.abspath(__file__)))
thms = {}
for f in sorted(glob.glob(root + "/rocq/theories/Prop*.v")):
    for name in re.findall(r"^Theorem\s+(C\d\d\w*)", open(f).read(), re.M):
        thms.setdefault(name.split("_")[0], []).append(name)
notes = json.load(open(root + "/tools/notes.json"))
claims = []
for line in open(root + "/properties.jsonl"):
    d = json.loads(line)
    ts = thms.get(d["id"], [])
    n = notes.get(d["id"], {})
    st = n.get("status") or ("partial" if (not ts or any(t.endswith("_partial") for t in ts)) else "proved")
    note = n.get("note", "" if ts else "not yet proved")
    claims.append({"property": d["id"], "status": st, "theorems": ts, "note": note})
json.dump({"claims": claims}, open(root + "/MANIFEST.json", "w"), indent=1)
print(len(claims), "claims;", sum(1 for c in claims if c["status"] == "proved"), "proved;",
      "without theorem:", [c["property"] for c in claims if not c["theorems"]])
