"""Generates /verif/MANIFEST.json from theorem names C<nn>_* in *Properties.v."""
import glob, json, re
notes = json.load(open('/verif/tools/notes.json'))
props = [json.loads(l) for l in open('/verif/properties.jsonl')]
th = {}
for f in sorted(glob.glob('/verif/rocq/theories/*Properties.v')):
  for n in re.findall(r'^Theorem (C\d+_\w+)', open(f).read(), re.M):
    th.setdefault(n.split('_')[0], []).append(n)
claims = []
for p in props:
  i = p['id']
  n = notes.get(i, {})
  ts = th.get(i, [])
  status = n.get('status', 'proved' if ts else 'partial')
  note = n.get('note', '' if ts else 'Not yet proved; see DESIGN.md for the plan.')
  claims.append(dict(property=i, status=status, theorems=ts, note=note))
extra = set(th) - {p['id'] for p in props}
assert not extra, extra
json.dump(dict(claims=claims), open('/verif/MANIFEST.json', 'w'), indent=1)
print({s: sum(c['status'] == s for c in claims) for s in ('proved', 'partial', 'not_applicable')},
      'without theorems:', [c['property'] for c in claims if not c['theorems']])
