"""Writes MANIFEST.json: collects the theorems named Cnn_... from the Coq
files and joins them with the notes in tools/notes.json."""
import json, re, glob, os
root = os.path.dirname(os.path.dirname(os.path.abspath(__file__)))
notes = json.load(open(os.path.join(root, 'tools', 'notes.json')))
thms = {}
for f in sorted(glob.glob(os.path.join(root, 'rocq', 'theories', '*.v'))):
    for m in re.finditer(r'^(?:Theorem|Corollary)\s+(C\d+_\w*)', open(f).read(), re.M):
        thms.setdefault(m[1].split('_')[0], []).append(m[1])
claims = []
for line in open(os.path.join(root, 'properties.jsonl')):
    p = json.loads(line)
    i = p['id']
    n = notes.get(i)
    if n is None:
        n = {"status": "partial", "note": "not yet modelled"} if not thms.get(i) else {"status": "proved", "note": ""}
    if not thms.get(i) and n["status"] == "proved":
        n = {"status": "partial", "note": "not yet modelled"}
    claims.append({"property": i, "status": n["status"], "theorems": thms.get(i, []), "note": n["note"]})
json.dump({"claims": claims}, open(os.path.join(root, 'MANIFEST.json'), 'w'), indent=1)
print({s: sum(c["status"] == s for c in claims) for s in ("proved", "partial", "not_applicable")})
