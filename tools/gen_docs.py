#!/usr/bin/env python3
"""Write properties.jsonl, MANIFEST.json and DESIGN.md from props.py and design_head.md."""
import json
import os
import sys

here = os.path.dirname(os.path.abspath(__file__))
root = os.path.dirname(here)
sys.path.insert(0, here)
from props import P  # noqa: E402
from status import S  # noqa: E402
from coverage import coverage  # noqa: E402

for p in P:
    if p["id"] in S:
        p["status"], p["theorems"], p["note"] = S[p["id"]]

with open(os.path.join(root, "properties.jsonl"), "w") as h:
    for p in P:
        h.write(json.dumps(dict(id=p["id"], title=p["title"], statement=p["statement"], quantifier=p["quantifier"],
                                why_tests_cant=p["why"], anchors=p["anchors"])) + "\n")
claims = []
for p in P:
    if p["status"] in ("proved", "partial", "not_applicable"):
        claims.append(dict(property=p["id"], status=p["status"], theorems=p["theorems"], note=p["note"]))
with open(os.path.join(root, "MANIFEST.json"), "w") as h:
    json.dump(dict(claims=claims), h, indent=1)
    h.write("\n")
with open(os.path.join(here, "design_head.md")) as h:
    head = h.read()
out = [head, "\n## Properties: what is modelled and how it is proved\n"]
for p in P:
    out.append(f"### {p['id']} {p['title']}\n")
    out.append(f"{p['statement']}\n")
    out.append(f"- Code: {'; '.join(p['anchors'])}")
    out.append(f"- Approach: {p['plan']}")
    out.append(f"- Status: {p['status']}")
    if p["theorems"]:
        out.append(f"- Theorems: {', '.join('`%s`' % t for t in p['theorems'])}")
    if p["note"]:
        out.append(f"- Note: {p['note']}")
    out.append("")
out.append("## Parts of the code which are modelled and which are not\n")
out.append("Function by function, with line numbers. Modelled: cited by a comment of a model file or by an anchor of a property; the comment tells what is simplified. Not modelled: nothing is proved about it.\n")
for rel, yes, no in coverage(os.path.join(root, "rocq", "theories"), [a for p in P for a in p["anchors"]]):
    out.append(f"- {rel}")
    if yes:
        out.append("  - modelled: " + ", ".join(yes))
    if no:
        out.append("  - not modelled: " + ", ".join(no))
out.append("")
with open(os.path.join(root, "DESIGN.md"), "w") as h:
    h.write("\n".join(out))
print(len(P), "properties", len(claims), "claims")
