#!/usr/bin/env python3
"""Generates /verif/properties.jsonl (kept as a script so entries are easy to extend)."""
import json, os
P = []
def p(title, statement, quantifier, why, anchors):
    P.append(dict(id="C%02d" % (len(P)+1), title=title, statement=statement,
                  quantifier=quantifier, why_tests_cant=why, anchors=anchors))
exec(open(os.path.join(os.path.dirname(__file__), "props_src.py")).read())
with open(os.path.join(os.path.dirname(__file__), "..", "properties.jsonl"), "w") as f:
    for x in P:
        f.write(json.dumps(x) + "\n")
print(len(P), "properties")
