"""Regenerates MANIFEST.json from the theorem names in rocq/theories/Properties_*.v."""
import json, re, glob, os
here = os.path.dirname(os.path.abspath(__file__))
root = os.path.dirname(here)
notes = {}
np = os.path.join(here, 'notes.json')
if os.path.exists(np):
    notes = json.load(open(np))
thms = {}
for f in sorted(glob.glob(os.path.join(root, 'rocq/theories/Properties_*.v'))):
    for m in re.finditer(r'^Theorem ((C\d+)_\w+)', open(f).read(), re.M):
        thms.setdefault(m.group(2), []).append(m.group(1))
claims = []
for line in open(os.path.join(root, 'properties.jsonl')):
    pid = json.loads(line)['id']
    ts = thms.get(pid, [])
    n = notes.get(pid, {})
    if not ts and 'status' not in n:
        continue
    st = n.get('status') or ('partial' if any(t.endswith('_partial') for t in ts) else 'proved')
    claims.append({'property': pid, 'status': st, 'theorems': ts, 'note': n.get('note', '')})
json.dump({'claims': claims}, open(os.path.join(root, 'MANIFEST.json'), 'w'), indent=1)
print(len(claims), 'claims')
