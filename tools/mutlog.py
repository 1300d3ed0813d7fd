#!/usr/bin/env python3
"""Appends the results of mutate.py to seeded/LOG.jsonl.

  mutlog.py RESULT.jsonl...

"theorems that failed" are the C.. theorems that use the first lemma that no
longer proves, directly or not, read off the .glob files of the last build.
TIGHTENED and VERDICT hold what was done about mutants that survived."""
import json, re, sys, pathlib, collections
root = pathlib.Path(__file__).resolve().parent.parent
TH = root / 'rocq/theories'
sys.path.insert(0, str(root / 'tools'))
try: from mutlog_notes import VERDICT
except ImportError: VERDICT = {}

def graph():
    rev = collections.defaultdict(set)
    for g in TH.glob('*.glob'):
        defs = []; refs = []
        for l in g.read_text().splitlines():
            m = re.match(r'(prf|thm|def|ind|rec|ex|lem) (\d+):\d+ (\S+) (\S+)', l)
            if m: defs.append((int(m[2]), f'{g.stem}.{m[4]}')); continue
            m = re.match(r'R(\d+):\d+ Verif\.(\w+) \S+ (\S+) (\w+)', l)
            if m: refs.append((int(m[1]), f'{m[2]}.{m[3]}'))
        defs.sort(); refs.sort(); i = -1
        for p, n in refs:
            while i + 1 < len(defs) and defs[i + 1][0] <= p: i += 1
            if i >= 0 and defs[i][1] != n: rev[n].add(defs[i][1])
    return rev

def dependents(rev, n):
    seen = set(); todo = [n]
    while todo:
        x = todo.pop()
        if x in seen: continue
        seen.add(x); todo += rev.get(x, ())
    return sorted(x.split('.')[1] for x in seen if re.match(r'\w+\.C\d\d+_', x) and not re.search(r'_ex\d*$', x))

if __name__ == '__main__':
    rev = graph()
    title = {}
    for l in (root / 'properties.jsonl').read_text().splitlines():
        p = json.loads(l); title[p['id']] = p['title']
    log = root / 'seeded/LOG.jsonl'
    have = {json.loads(l).get('id') for l in log.read_text().splitlines()} if log.exists() else set()
    n = 0
    with log.open('a') as out:
        for f in sys.argv[1:]:
            for l in open(f):
                m = json.loads(l)
                if m['result'] in ('invalid', 'timeout', 'broken') or m['id'] in have: continue
                have.add(m['id'])
                th = dependents(rev, m['lemma']) if m['result'] == 'killed' else []
                ids = sorted({t.split('_')[0] for t in th})
                v = VERDICT.get(m['id'], {})
                if m['result'] == 'survived' and not v: print('no verdict:', m['id'], m['definition'], m['line']); continue
                d = dict(id=m['id'], definition=f"{m['file']}.{m['definition']} (line {m['line']})",
                         edit=f"{m['old']} -> {m['new'] or '(dropped)'}",
                         claim=v.get('claim') or m.get('claim') or ('; '.join(f'{i} {title.get(i, "")}' for i in ids[:4]) + (f' and {len(ids) - 4} more' if len(ids) > 4 else '')),
                         first_failure=m.get('lemma', ''), theorems_failed=v.get('failed', th), examples_failed=m.get('examples', []),
                         theorems_tightened=v.get('tightened', []))
                if v.get('note'): d['note'] = v['note']
                out.write(json.dumps(d) + '\n'); n += 1
    print(n, 'lines added')
