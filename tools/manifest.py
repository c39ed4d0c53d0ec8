"""Regenerates MANIFEST.json from the theorem names in rocq/theories/P_*.v and notes.json."""
import glob, json, os, re
root = os.path.dirname(os.path.dirname(os.path.abspath(__file__)))
notes = json.load(open(os.path.join(root, 'tools', 'notes.json')))
thms = {}
for f in sorted(glob.glob(os.path.join(root, 'rocq', 'theories', 'P_*.v'))):
    for m in re.finditer(r'^ *Theorem (C\d\d)(_\w+)', open(f).read(), re.M):
        thms.setdefault(m.group(1), []).append(m.group(1) + m.group(2))
claims = []
for line in open(os.path.join(root, 'properties.jsonl')):
    if not line.strip():
        continue
    p = json.loads(line)['id']
    t = thms.get(p, [])
    if not t:
        continue
    n = notes.get(p, {})
    claims.append({'property': p, 'status': n.get('status', 'proved'), 'theorems': t,
                   'note': n.get('note', '')})
json.dump({'claims': claims}, open(os.path.join(root, 'MANIFEST.json'), 'w'), indent=1)
print(len(claims), 'claims;', sum(len(c['theorems']) for c in claims), 'theorems')
