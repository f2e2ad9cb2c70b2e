"""Regenerate MANIFEST.json: the claims with their theorems, read off Properties.v."""
import json, re, pathlib
root = pathlib.Path(__file__).resolve().parent.parent
names = []
for f in sorted((root / "rocq/theories").glob("Prop*.v")):
    names += re.findall(r"^Theorem (C\d\d\w*)", f.read_text(), re.M)
notes = json.loads((root / "tools/notes.json").read_text())
claims = []
for line in (root / "properties.jsonl").read_text().splitlines():
    p = json.loads(line)["id"]
    ths = [n for n in names if n.startswith(p + "_")]
    if ths:
        part = any(n.endswith("_partial") for n in ths) and p not in notes.get("_proved", [])
        claims.append({"property": p, "status": "partial" if part else "proved",
                       "theorems": ths, "note": notes.get(p, "")})
(root / "MANIFEST.json").write_text(json.dumps({"claims": claims}, indent=1) + "\n")
print(len(claims), "claims", len(names), "theorems")
