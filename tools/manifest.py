"""Write MANIFEST.json from the table in claims.txt and check every theorem name.

claims.txt: one block per property:
    C01 proved
    theorem names, separated by spaces
    note
"""
import json, re, glob, os
root = os.path.join(os.path.dirname(os.path.abspath(__file__)), '..')
names = {}
for f in glob.glob(os.path.join(root, 'rocq/theories/Prop_*.v')):
    for n in re.findall(r'^Theorem (\w+)', open(f).read(), re.M):
        names[n] = os.path.basename(f)
claims, used = [], set()
for block in open(os.path.join(root, 'tools/claims.txt')).read().strip().split('\n\n'):
    lines = block.strip().split('\n')
    prop, status = lines[0].split()
    ths = lines[1].split()
    for t in ths:
        assert t in names, t
    used |= set(ths)
    claims.append({'property': prop, 'status': status, 'theorems': ths, 'note': ' '.join(lines[2:])})
missing = set(names) - used
assert not missing, missing
props = [json.loads(l)['id'] for l in open(os.path.join(root, 'properties.jsonl'))]
print('without claim:', [p for p in props if p not in {c['property'] for c in claims}])
json.dump({'claims': claims}, open(os.path.join(root, 'MANIFEST.json'), 'w'), indent=1)
