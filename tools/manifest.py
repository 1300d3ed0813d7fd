#!/usr/bin/env python3
"""Writes MANIFEST.json: per property its status, theorems and note.

The theorems of a property are those named C<nn>_... in rocq/theories; the
status follows from their names: a property with a `_partial` or `_refuted`
theorem is "partial", otherwise "proved"."""
import json, re, pathlib, sys
root = pathlib.Path(__file__).resolve().parent.parent
sys.path.insert(0, str(root / 'tools'))
from manifest_notes import NOTES, NOT_APPLICABLE
thms = {}
for f in sorted((root / 'rocq/theories').glob('Properties_*.v')):
    for m in re.finditer(r'^\s*(?:Theorem|Corollary)\s+(C\d\d+)_(\w+)', f.read_text(), re.M):
        thms.setdefault(m[1], []).append(f'{m[1]}_{m[2]}')
claims = []
ids = [json.loads(l)['id'] for l in (root / 'properties.jsonl').read_text().splitlines()]
for i in ids:
    t = thms.get(i, [])
    if i in NOT_APPLICABLE:
        claims.append(dict(property=i, status='not_applicable', theorems=t, note=NOT_APPLICABLE[i])); continue
    if not t:
        print('no theorem yet:', i); continue
    weak = any(x.endswith(('_partial', '_refuted')) for x in t)
    if weak and i not in NOTES: print('missing note:', i)
    claims.append(dict(property=i, status='partial' if weak else 'proved', theorems=t, note=NOTES.get(i, '')))
(root / 'MANIFEST.json').write_text(json.dumps(dict(claims=claims), indent=1) + '\n')
print(len(claims), 'claims')
