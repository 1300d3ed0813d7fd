#!/usr/bin/env python3
"""Translates the crate's own unit tests (/repo/src/test) into Coq examples
about the model, so that the model is checked against every assertion the
code is known to satisfy.  Writes rocq/theories/Conformance.v."""
import re, os, glob
R = '/repo/src/test'
out = []
V = r'(?:Empty|Point|Open|LeftOpen|RightOpen|Closed|UpTo|UpFrom|To|From|Full)'
def raw(s):
    s = s.strip()
    m = re.fullmatch(r'(%s)(?:\(([^()]*)\))?' % V, s)
    assert m, s
    if m.group(2) is None: return '(@%s Z)' % m.group(1)
    return '(%s %s)' % (m.group(1), ' '.join('(%s)' % a.strip() for a in m.group(2).split(',')))
def rawlist(s):
    s = s.strip(); assert s[0] == '[' and s[-1] == ']', s
    items = re.findall(V + r'(?:\([^()]*\))?', s[1:-1])
    return '[' + '; '.join(raw(i) for i in items) + ']'
skipped = []
for path in sorted(glob.glob(R + '/*/*.rs')):
    kind = 'tree' if 'tine_tree' in path else 'raw'
    stem = os.path.basename(path)[:-3]
    src = open(path).read()
    src = re.sub(r'//[^\n]*', '', src)
    for m in re.finditer(r'#\[test\]\s*fn (\w+)\(\) \{(.*?)\n\}', src, re.S):
        name, body = m.groups()
        checks = []; env = {}; trees = {}
        for st in [re.sub(r'\s+', ' ', x).strip() for x in body.split(';')]:
            if not st: continue
            q = re.fullmatch(r'let (\w+): RawInterval<i32> = (.*)', st)
            if q: env[q[1]] = raw(q[2]); continue
            q = re.fullmatch(r'let (\w+): Bound<i32> = Bound::(\w+)\((.*)\)', st)
            if q: env[q[1]] = '(%s (%s))' % (q[2], q[3]); continue
            q = re.fullmatch(r'let (?:mut )?(\w+): TineTree<i32> = (.*)\.into\(\)', st)
            if q: trees[q[1]] = '(Ok (tree_from_raw_interval %s))' % raw(q[2]); continue
            q = re.fullmatch(r'let mut (\w+): TineTree<i32> = (?:Default::default|TineTree::new)\(\)', st) or \
                re.fullmatch(r'let mut (\w+) = TineTree::<?i?3?2?>?:*new\(\)', st)
            if q: trees[q[1]] = '(Ok tree_new)'; continue
            q = re.fullmatch(r'let mut (\w+) = TineTree::from\((%s(?:\([^()]*\))?)\)' % V, st)
            if q: trees[q[1]] = '(Ok (tree_from_raw_interval %s))' % raw(q[2]); continue
            q = re.fullmatch(r'(\w+)\.(union|intersect|minus)_in_place\(&(.*)\)', st)
            if q: trees[q[1]] = '(do s <- %s; tree_%s_in_place true s %s)' % (trees[q[1]], q[2], raw(q[3])); continue
            q = re.fullmatch(r'assert_eq!\(a\.(intersect|enclose)\(&(%s(?:\([^()]*\))?)\), (.*)\)' % V, st)
            if q and kind == 'raw': checks.append('raw_eqb (raw_%s %s %s) %s' % (q[1], env['a'], raw(q[2]), raw(q[3]))); continue
            q = re.fullmatch(r'assert_eq_u!\(a\.(union|minus)\(&(%s(?:\([^()]*\))?)\), (\[.*\])\)' % V, st)
            if q: checks.append('same_set (raw_%s %s %s) %s' % (q[1], env['a'], raw(q[2]), rawlist(q[3]))); continue
            q = re.fullmatch(r'assert_eq_u!\(a\.minus\(&(.*)\), (.*)\.complement\(\)\.collect::<Vec<_>>\(\)\)', st)
            if q: checks.append('same_set (raw_minus %s %s) (raw_complement %s)' % (env['a'], raw(q[1]), raw(q[2]))); continue
            q = re.fullmatch(r'assert_eq_u!\(a\.complement\(\), (\[.*\])\)', st)
            if q: checks.append('same_set (raw_complement %s) %s' % (env['a'], rawlist(q[1]))); continue
            q = re.fullmatch(r'assert_eq_i!\(a\.(union|minus|intersect)\(&TineTree::from\((.*)\)\), (\[.*\])\)', st)
            if q: checks.append('same_set_r (do s <- %s; do r <- tree_%s true s (tree_from_raw_interval %s); iter_collect true (tree_interval_iter r)) %s' % (trees['a'], q[1], raw(q[2]), rawlist(q[3]))); continue
            q = re.fullmatch(r'assert!\((!?)a\.contains\(&(.*)\)\)', st)
            if q: checks.append('Bool.eqb (raw_contains %s (%s)) %s' % (env['a'], q[2], 'false' if q[1] else 'true')); continue
            q = re.fullmatch(r'assert!\((!?)a\.(is_empty|is_full)\(\)\)', st)
            if q: checks.append('Bool.eqb (raw_%s %s) %s' % (q[2], env['a'], 'false' if q[1] else 'true')); continue
            q = re.fullmatch(r'assert_eq!\(RawInterval::(\w+)\((\w+), (\w+)\), (.*)\)', st)
            if q: checks.append('raw_eqb (raw_%s %s %s) %s' % (q[1], env.get(q[2], q[2]), env.get(q[3], q[3]), raw(q[4]))); continue
            q = re.fullmatch(r'assert_eq!\((\w+)\.(?:interval_iter|into_iter)\(\)\.collect::<Vec<_>>\(\), (?:vec!)?(\[.*\])\s*\)', st)
            if q: checks.append('same_list_r (do s <- %s; iter_collect true (tree_interval_iter s)) %s' % (trees[q[1]], rawlist(q[2]))); continue
            q = re.fullmatch(r'assert_eq!\(a\.(lower_bound|upper_bound)\(\), (.*)\)', st)
            if q and env.get('a'):
                e = q[2].replace('Bound::','').replace('None','None')
                mm = re.fullmatch(r'Some\((Include|Exclude)\((.*)\)\)', e)
                t = 'None' if e == 'None' else '(Some Infinite)' if e == 'Some(Infinite)' else '(Some (%s (%s)))' % (mm[1], mm[2])
                checks.append('obound_eqb (raw_%s %s) %s' % (q[1], env['a'], t)); continue
            q = re.fullmatch(r'assert_eq!\(a\.(infimum|supremum)\(\), (.*)\)', st)
            if q:
                t = 'None' if q[2] == 'None' else '(Some (%s))' % re.fullmatch(r'Some\((.*)\)', q[2])[1]
                checks.append('oz_eqb (raw_%s %s) %s' % (q[1], env['a'], t)); continue
            skipped.append((path, name, st))
        if checks:
            out.append((kind, stem, name, checks))
n = sum(len(c) for *_, c in out)
with open(os.path.join(os.path.dirname(os.path.abspath(__file__)), '../rocq/theories/Conformance.v'), 'w') as f:
    f.write('''(** * The crate's own unit tests, run on the model

    Generated by tools/gen_conformance.py from /repo/src/test: %d assertions.
    These are tests of the model (they compute on literals), not proofs of
    properties. *)
From Coq Require Import List Bool ZArith.
From Verif Require Import Base Ints MBound MRaw MTine MBTree MTineTree.
Import ListNotations.
Local Open Scope Z_scope.

Definition raw_eqb (a b : RawInterval Z) : bool :=
  match a, b with
  | Empty, Empty | Full, Full => true
  | Point p, Point q | UpTo p, UpTo q | UpFrom p, UpFrom q | To p, To q | From p, From q => p =? q
  | Open p q, Open r s | LeftOpen p q, LeftOpen r s
  | RightOpen p q, RightOpen r s | Closed p q, Closed r s => (p =? r) && (q =? s)
  | _, _ => false
  end.
Definition mem (a : RawInterval Z) (l : list (RawInterval Z)) : bool := existsb (raw_eqb a) l.
Definition same_set (a b : list (RawInterval Z)) : bool :=
  forallb (fun x => mem x b) a && forallb (fun x => mem x a) b.
Definition same_set_r (a : res (list (RawInterval Z))) (b : list (RawInterval Z)) : bool :=
  match a with Ok a => same_set a b | Panic => false end.
Fixpoint same_list (a b : list (RawInterval Z)) : bool :=
  match a, b with
  | [], [] => true
  | x :: a, y :: b => raw_eqb x y && same_list a b
  | _, _ => false
  end.
Definition same_list_r (a : res (list (RawInterval Z))) (b : list (RawInterval Z)) : bool :=
  match a with Ok a => same_list a b | Panic => false end.
Definition oz_eqb (a b : option Z) : bool :=
  match a, b with Some x, Some y => x =? y | None, None => true | _, _ => false end.
Definition obound_eqb (a b : option (Bound Z)) : bool :=
  match a, b with Some x, Some y => bound_eqb x y | None, None => true | _, _ => false end.

''' % n)
    for kind, stem, name, checks in out:
        f.write('(** src/test/%s/%s.rs: [%s] *)\n' % ('tine_tree' if kind == 'tree' else 'raw_interval', stem, name))
        f.write('Example test_%s_%s_%s : forallb (fun b : bool => b)\n  [ %s ] = true.\nProof. vm_compute. reflexivity. Qed.\n\n' % (kind, stem, name, ';\n    '.join(checks)))
print(n, 'assertions;', len(skipped), 'skipped')
for s in skipped: print(s)
