"""Collect the theorem names of Prop_*.v per property and write MANIFEST.json."""
import json, re, glob, os
root = os.path.join(os.path.dirname(__file__), '..')
notes = json.load(open(os.path.join(root, 'tools', 'notes.json')))
ids = [json.loads(l)['id'] for l in open(os.path.join(root, 'properties.jsonl'))]
thms = {i: [] for i in ids}
listed = open(os.path.join(root, 'rocq', '_CoqProject')).read()
for f in sorted(glob.glob(os.path.join(root, 'rocq', 'theories', 'Prop_*.v'))):
    if 'theories/' + os.path.basename(f) not in listed:
        continue
    for m in re.finditer(r'^Theorem\s+((C\d+)_\w+)', open(f).read(), re.M):
        thms[m.group(2)].append(m.group(1))
claims = []
for i in ids:
    n = notes.get(i, {})
    status = n.get('status', 'proved' if thms[i] else 'partial')
    if thms[i] and any(t.endswith('_partial') for t in thms[i]) and 'status' not in n:
        status = 'partial'
    note = n.get('note', '' if thms[i] else 'not yet modelled')
    claims.append({'property': i, 'status': status, 'theorems': thms[i], 'note': note})
json.dump({'claims': claims}, open(os.path.join(root, 'MANIFEST.json'), 'w'), indent=1)
print(sum(1 for c in claims if c['theorems']), 'of', len(claims), 'have theorems')
