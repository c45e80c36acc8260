"""Regenerate MANIFEST.json. Properties without an entry here are reported as
not yet proved (status "partial", no theorem)."""
import json, re, pathlib
root = pathlib.Path(__file__).resolve().parent.parent
C = {}
def c(pid, status, theorems, note=""):
    C[pid] = dict(property=pid, status=status, theorems=theorems.split(), note=note)

exec((root / "tools" / "claims.py").read_text())

thms = set()
for f in (root / "rocq" / "theories").glob("*.v"):
    thms |= set(re.findall(r"^\s*(?:Theorem|Lemma|Corollary)\s+(\w+)", f.read_text(), re.M))
ids = [json.loads(l)["id"] for l in (root / "properties.jsonl").read_text().splitlines() if l.strip()]
out = []
for i in ids:
    e = C.get(i)
    if e is None:
        continue
    for t in e["theorems"]:
        assert t in thms, (i, t)
    out.append(e)
(root / "MANIFEST.json").write_text(json.dumps({"claims": out}, indent=1) + "\n")
print(len(out), "of", len(ids), [i for i in ids if i not in C])
