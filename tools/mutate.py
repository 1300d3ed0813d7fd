#!/usr/bin/env python3
"""Mutation testing of the theorems.

  mutate.py list                 prints the generated mutants
  mutate.py run DIR K N OUT      runs the mutants with index = K mod N in the scratch copy DIR

DIR is a scratch copy outside /verif of /tmp/mutbase, a built copy of rocq/ without Conformance.v.  A mutant changes one token of one
definition of the model.  The build stops at the first lemma that no longer
proves; the theorems reported as failed are the C.. theorems that rest on it."""
import re, sys, json, pathlib, subprocess, os, time

ROOT = pathlib.Path(__file__).resolve().parent.parent
TH = ROOT / 'rocq/theories'
MODEL = ['MBound', 'MRaw', 'MNormalize', 'MTine', 'MBTree', 'MTineTree', 'MInterval', 'MSelection', 'MParse', 'Ints', 'MSerde', 'MBoundP']
SWAPS = [('ltb', 'leb'), ('gtb', 'geb'), ('Include', 'Exclude'), ('&&', '||'), ('true', 'false'), ('TLower', 'TUpper'),
         ('btree_first', 'btree_last'), ('raw_lower_bound', 'raw_upper_bound'), ('least_union', 'greatest_union'),
         ('least_intersect', 'greatest_intersect'), ('least_union', 'least_intersect'), ('greatest_union', 'greatest_intersect'),
         ('pred', 'succ'), ('MINIMUM', 'MAXIMUM'), ('Open', 'Closed'),
         ('LeftOpen', 'RightOpen'), ('UpTo', 'To'), ('UpFrom', 'From'), ('UpTo', 'UpFrom'), ('raw_union', 'raw_enclose'), ('Full', 'Empty'),
         ('raw_intersect', 'raw_union'), ('is_lower_bound', 'is_upper_bound'), ('is_point_include', 'is_point_exclude'),
         ('Some', 'None'), ('next', 'next_back'), ('Lt', 'Gt'), ('Eq', 'Gt'), ('Eq', 'Lt'), ('<?', '<=?'), ('+', '-'),
         ('raw_open', 'raw_closed'), ('raw_left_open', 'raw_right_open'), ('iter_next', 'iter_next_back'), ('normalized', 'denormalized')]
DROPS = [('btree_insert', '(fun _ s0 => s0)'), ('btree_remove', '(fun _ s0 => s0)'), ('negb', ''), ('raw_closure', ''), ('normalized', ''), ('denormalized', ''),
         ('rev', '')]

def blocks(text):
    """top level definitions: (name, start, end)"""
    out = []
    for m in re.finditer(r'^\s*(?:#\[[^\]]*\]\s*)?(?:Definition|Fixpoint|Instance)\s+(\w+)', text, re.M):
        depth = 0; i = m.start()
        e = re.compile(r'\.(?=\s)').search(text, m.end())
        out.append((m[1], m.start(), e.start() if e else len(text)))
    return out

def strip_comments_mask(text):
    mask = bytearray(len(text)); d = 0; i = 0
    while i < len(text):
        if text.startswith('(*', i): d += 1; mask[i] = mask[i+1] = 1; i += 2; continue
        if text.startswith('*)', i): d -= 1; mask[i] = mask[i+1] = 1; i += 2; continue
        mask[i] = 1 if d else 0; i += 1
    return mask

def mutants():
    out = []
    for f in MODEL:
        text = (TH / f'{f}.v').read_text(); mask = strip_comments_mask(text)
        for name, s, e in blocks(text):
            body = text.find(':=', s, e)
            if body < 0: continue
            reps = []
            for a, b in SWAPS: reps += [(a, b), (b, a)]
            reps += DROPS
            for a, b in reps:
                pat = r'(?<![\w.\'])' + re.escape(a) + r'(?![\w\'])' if re.match(r'\w', a) else r'(?<=\s)' + re.escape(a) + r'(?=\s)'
                for m in re.finditer(pat, text[body:e]):
                    p = body + m.start()
                    if mask[p]: continue
                    line = text.count('\n', 0, p) + 1
                    out.append(dict(file=f, definition=name, line=line, pos=p, old=a, new=b))
            for m in re.finditer(r'\bcmp (\w+) (\w+)', text[body:e]):
                out.append(dict(file=f, definition=name, line=text.count('\n', 0, body + m.start()) + 1, pos=body + m.start(), old=m[0], new=f'cmp {m[2]} {m[1]}'))
    return out

def lemma_graph():
    names = {}; body = {}
    for f in TH.glob('*.v'):
        t = f.read_text()
        ms = list(re.finditer(r'^\s*(?:#\[[^\]]*\]\s*)?(?:Lemma|Theorem|Corollary|Example|Definition|Fixpoint|Ltac|Instance)\s+(\w+)', t, re.M))
        for m, n in zip(ms, ms[1:] + [None]):
            body[m[1]] = t[m.start():n.start() if n else len(t)]
    used = {n: set(re.findall(r"[A-Za-z_]\w*", b)) & body.keys() - {n} for n, b in body.items()}
    rev = {}
    for n, us in used.items():
        for u in us: rev.setdefault(u, set()).add(n)
    return rev

def dependents(rev, n):
    seen = set(); todo = [n]
    while todo:
        x = todo.pop()
        if x in seen: continue
        seen.add(x); todo += rev.get(x, ())
    return sorted(x for x in seen if re.match(r'C\d\d+_', x) and not re.search(r'_ex\d*$', x))

def drop_example(p, ln):
    """a failing Example is recorded and cut, so that the theorems are tested too"""
    t = p.read_text(); ms = list(re.finditer(r'^\s*(?:#\[[^\]]*\]\s*)?(Lemma|Theorem|Corollary|Example|Instance|Definition)\s+(\w+)', t, re.M))
    ms = [m for m in ms if t.count('\n', 0, m.end()) < ln]
    if not ms or ms[-1][1] != 'Example': return None
    end = t.find('Qed.', ms[-1].start()) + 4
    p.write_text(t[:ms[-1].start()] + '\n' + t[end:])
    return ms[-1][2]

def run(d, k, n, out):
    d = pathlib.Path(d); rev = lemma_graph(); done = set()
    if os.path.exists(out):
        done = {json.loads(l)['id'] for l in open(out)}
    ms = json.load(open(os.environ['MUTANTS'])) if 'MUTANTS' in os.environ else mutants()
    for idx, m in enumerate(ms):
        if idx % n != k: continue
        mid = f"{m['file']}:{m['pos']}:{m['old']}>{m['new']}"
        if mid in done: continue
        subprocess.run(f'rm -rf {d}; cp -a /tmp/mutbase {d}', shell=True, check=True)
        p = d / 'theories' / f"{m['file']}.v"; t = p.read_text()
        assert t[m['pos']:].startswith(m['old']), m
        p.write_text(t[:m['pos']] + m['new'] + t[m['pos'] + len(m['old']):])
        t0 = time.time()
        m['examples'] = []
        while True:
            r = subprocess.run(['timeout', '900', 'make', '-j1'], cwd=d, capture_output=True, text=True)
            o = r.stdout + r.stderr
            e = re.search(r'File "\./theories/(\w+)\.v", line (\d+)', o)
            x = drop_example(d / 'theories' / f'{e[1]}.v', int(e[2])) if e and r.returncode else None
            if not x: break
            m['examples'].append(x)
        if r.returncode == 0: m['result'] = 'survived'
        elif not e: m['result'] = 'timeout' if r.returncode == 124 else 'broken'; m['out'] = o[-300:]
        elif e[1] in MODEL or e[1] == 'Base': m['result'] = 'invalid'
        else:
            lines = (d / 'theories' / f'{e[1]}.v').read_text().split('\n'); ln = int(e[2]); name = None
            for i in range(ln - 1, -1, -1):
                mm = re.match(r'\s*(?:#\[[^\]]*\]\s*)?(?:Lemma|Theorem|Corollary|Example|Instance|Definition)\s+(\w+)', lines[i])
                if mm: name = mm[1]; break
            m['result'] = 'killed'; m['lemma'] = f'{e[1]}.{name}'; m['theorems'] = dependents(rev, name)
        m['id'] = mid; m['secs'] = round(time.time() - t0)
        open(out, 'a').write(json.dumps(m) + '\n')

if __name__ == '__main__':
    if sys.argv[1] == 'list':
        ms = mutants(); print(len(ms))
        from collections import Counter
        for k, c in Counter((m['file'], m['definition']) for m in ms).items(): print(*k, c)
    else: run(sys.argv[2], int(sys.argv[3]), int(sys.argv[4]), sys.argv[5])
