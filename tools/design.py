#!/usr/bin/env python3
"""Rewrite the generated part of DESIGN.md (after the marker) from MANIFEST.json, properties.jsonl and tools/outside.md."""
import json, re, collections, os
root = os.path.dirname(os.path.dirname(os.path.abspath(__file__)))
def rd(p): return open(os.path.join(root, p)).read()
MARK = '## Trusted base'
head = rd('DESIGN.md').split(MARK)[0]
props = [json.loads(l) for l in rd('properties.jsonl').splitlines() if l.strip()]
claims = {c['property']: c for c in json.loads(rd('MANIFEST.json'))['claims']}
files = collections.OrderedDict()
for p in props:
    for a in p['anchors']:
        for f in re.findall(r'[\w/.\-]+\.(?:Mod|h|c)\b', a):
            syms = a.split(f, 1)[1].lstrip(': ').strip()
            files.setdefault(f, []).append((p['id'], syms))
out = [head + MARK + '\n\n' + rd('tools/trusted.md').rstrip() + '\n']
out.append('\n## What is modelled\n\nBy source file; the model files cite the lines. The second column gives the property and what of the file its model covers.\n\n| File | Covered |\n|---|---|\n')
for f in sorted(files):
    cell = '; '.join(f'{i}' + (f': {s}' if s and len(s) < 200 else '') for i, s in files[f])
    out.append(f'| {f} | {cell.replace("|", "/")} |\n')
out.append('\n' + rd('tools/outside.md').rstrip() + '\n')
out.append('\n## Violations found\n\nEach is a theorem ending in `_refuted`, proved by a concrete execution of the model.\n\n| Property | Theorems | What is wrong |\n|---|---|---|\n')
for p in props:
    c = claims.get(p['id'])
    r = [t for t in c['theorems'] if t.endswith('_refuted')] if c else []
    if r: out.append(f'| {p["id"]} | {", ".join(r)} | {c["note"].replace("|", "/")} |\n')
open(os.path.join(root, 'DESIGN.md'), 'w').write(''.join(out))
