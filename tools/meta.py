#!/usr/bin/env python3
"""Single source for properties.jsonl, MANIFEST.json and the per-property table
of DESIGN.md.  Run:  python3 tools/meta.py   (writes the first two files and
DESIGN_TABLE into DESIGN.md between the markers)."""
import json, os, re, sys
ROOT = os.path.dirname(os.path.dirname(os.path.abspath(__file__)))
P = []
def prop(id, title, statement, quantifier, why, anchors, plan,
         status="planned", theorems=(), note=""):
    P.append(dict(id=id, title=title, statement=statement, quantifier=quantifier,
                  why=why, anchors=list(anchors), plan=plan, status=status,
                  theorems=list(theorems), note=note))
exec(open(os.path.join(ROOT, "tools", "properties_src.py")).read())
BY = {p["id"]: p for p in P}
def st(id, status, theorems, note=""):
    BY[id].update(status=status, theorems=theorems.split(), note=note)
exec(open(os.path.join(ROOT, "tools", "status_src.py")).read())
P.sort(key=lambda p: int(p["id"][1:]))
assert len({p["id"] for p in P}) == len(P)
with open(os.path.join(ROOT, "properties.jsonl"), "w") as f:
    for p in P:
        f.write(json.dumps(dict(id=p["id"], title=p["title"], statement=p["statement"],
            quantifier=p["quantifier"], why_tests_cant=p["why"], anchors=p["anchors"])) + "\n")
claims = [dict(property=p["id"], status=p["status"], theorems=p["theorems"], note=p["note"])
          for p in P if p["status"] in ("proved", "partial", "not_applicable")]
with open(os.path.join(ROOT, "MANIFEST.json"), "w") as f:
    json.dump({"claims": claims}, f, indent=1); f.write("\n")
d = os.path.join(ROOT, "DESIGN.md")
if os.path.exists(d):
    s = open(d).read()
    rows = []
    for p in P:
        rows.append(f"### {p['id']} {p['title']}\n\n*Property.* {p['statement']}\n\n*Plan.* {p['plan']}\n\n*Status.* {p['status']}"
                    + (": " + ", ".join(f"`{t}`" for t in p["theorems"]) if p["theorems"] else "")
                    + (f". {p['note']}" if p["note"] else "") + "\n")
    a, b = "<!-- PROPS BEGIN -->", "<!-- PROPS END -->"
    i, j = s.index(a) + len(a), s.index(b)
    s = s[:i] + "\n" + "\n".join(rows) + s[j:]
    open(d, "w").write(s)
    # the list of refuted theorems, with the comment above each
    import glob
    out = []
    for fn in sorted(glob.glob(os.path.join(ROOT, "rocq", "theories", "*.v"))):
        t = open(fn).read()
        for m in re.finditer(r"^ *(?:Theorem|Lemma) (C(\d+)_\w*refuted)", t, re.M):
            before = t[:m.start()].rstrip()
            c = ""
            if before.endswith("*)"):
                c = before[before.rindex("(**") + 3:-2] if "(**" in before else ""
                c = " ".join(c.split())
            out.append((int(m.group(2)), m.group(1), c, os.path.basename(fn)))
    out.sort()
    a, b = "<!-- REFUTED BEGIN -->", "<!-- REFUTED END -->"
    s = open(d).read()
    if a in s:
        i, j = s.index(a) + len(a), s.index(b)
        s = s[:i] + "\n" + "\n".join(f"* `{n}` ({f}){': ' + c if c else ''}" for _, n, c, f in out) + "\n" + s[j:]
        open(d, "w").write(s)
