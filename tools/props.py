"""Source of /verif/properties.jsonl and /verif/MANIFEST.json.

Run `python3 tools/props.py` from /verif after editing.  The theorem names are
checked against the text of rocq/theories/Props before the manifest is written.
"""
import json
import re
import sys
from pathlib import Path

ROOT = Path(__file__).resolve().parent.parent
P = []


def prop(id, title, statement, quantifier, why, anchors, theorems=(), status=None, note=""):
    P.append(dict(id=id, title=title, statement=statement, quantifier=quantifier,
                  why=why, anchors=anchors, theorems=list(theorems), status=status, note=note))


exec((ROOT / "tools" / "props_data.py").read_text())

with open(ROOT / "properties.jsonl", "w") as f:
    for p in P:
        f.write(json.dumps(dict(id=p["id"], title=p["title"], statement=p["statement"],
                                quantifier=p["quantifier"], why_tests_cant=p["why"],
                                anchors=p["anchors"])) + "\n")

text = "\n".join(q.read_text() for q in sorted((ROOT / "rocq" / "theories" / "Props").rglob("*.v")))
names = set(re.findall(r"^(?:Theorem|Corollary)\s+([A-Za-z0-9_']+)", text, re.M))
claims, used, bad = [], set(), []
for p in P:
    if not p["theorems"]:
        continue
    for t in p["theorems"]:
        if t not in names:
            bad.append((p["id"], t))
        used.add(t)
    claims.append(dict(property=p["id"], status=p["status"] or "proved",
                       theorems=p["theorems"], note=p["note"]))
with open(ROOT / "MANIFEST.json", "w") as f:
    json.dump({"claims": claims}, f, indent=1)
    f.write("\n")
if bad:
    print("missing theorems:", bad)
    sys.exit(1)
if names - used:
    print("theorems not claimed by any property:", sorted(names - used))
print(len(P), "properties,", len(claims), "claims,", len(names), "theorems")
