#!/usr/bin/env python3
"""Writes rocq/theories/Conformance_Docs.v: the doc-comment examples of
/repo/src/{bound,interval,selection}.rs and the parse tests of
/repo/src/test/raw_interval/parse.rs, run on the model."""
import re, pathlib
OUT = pathlib.Path(__file__).resolve().parent.parent / 'rocq/theories/Conformance_Docs.v'
TOK = re.compile(r'\s*(::<(?:[^<>]|<[^<>]*>)*>|::|=>|\|\||[A-Za-z_][\w]*!?|\d+(?:i32|usize|u32)?|[()\[\].,&|*\-;=:<>])')

def blocks(f):
    out = []; cur = None
    for n, l in enumerate(pathlib.Path(f'/repo/src/{f}.rs').read_text().split('\n'), 1):
        s = l.strip()
        if not s.startswith('///'): continue
        c = s[3:].strip()
        if c.startswith('```'):
            if cur is None: cur = (n, c, [])
            else: out.append(cur); cur = None
        elif cur is not None and c and not c.startswith('#') and not c.startswith('use '): cur[2].append(c.split('//')[0])
    return out

class P:
    """expressions become (type, Coq term); types: I interval, S res selection, B bound, N number, ..."""
    def __init__(self, toks, env): self.t, self.i, self.env = toks, 0, env
    def peek(self): return self.t[self.i] if self.i < len(self.t) else None
    def eat(self, x=None):
        t = self.t[self.i]; assert x is None or t == x, (t, x, self.t); self.i += 1; return t
    def args(self, close=')'):
        out = []
        while self.peek() != close:
            out.append(self.expr())
            if self.peek() == ',': self.eat()
        self.eat(close); return out
    def num(self, z): return f'(n {z})' if z >= 0 else f'(n ({z}))'
    def expr(self):
        e = self.primary()
        while self.peek() == '.':
            self.eat(); m = self.eat()
            if self.peek() and self.peek().startswith('::<'): self.eat()
            self.eat('('); e = self.method(e, m, self.args())
        while self.peek() == '*':
            self.eat(); r = self.expr(); e = ('Z', f'({e[1]} * {r[1]})')
        return e
    def primary(self):
        t = self.eat()
        if t in '&': 
            if self.peek() == 'mut': self.eat()
            return self.expr()
        if t == '-': return ('N', self.num(-int(re.match(r'\d+', self.eat())[0])))
        if t[0].isdigit(): return ('N', self.num(int(re.match(r'\d+', t)[0])))
        if t == '[': return self.lst(self.args(']'))
        if t == 'vec!': self.eat('['); return self.lst(self.args(']'))
        if t in ('true', 'false'): return ('b', t)
        if t == 'None': return ('o', 'None')
        if t == 'Some': self.eat('('); a = self.args(); return ('o', f'(Some {a[0][1]})')
        if t in ('Include', 'Exclude'): self.eat('('); return ('B', f'({t} {self.args()[0][1]})')
        if t in self.env: return self.env[t]
        if self.peek() == '::':
            self.eat(); m = self.eat()
            if t == 'i32': return ('N', {'MIN': 'MINIMUM', 'MAX': 'MAXIMUM'}[m])
            self.eat('('); a = [x[1] for x in self.args()]
            if t == 'Interval': return ('I', '(' + ' '.join(['interval_' + m] + a) + ' : Interval i32)')
            if t == 'Selection': return ('S', f'(Ok ({" ".join(["sel_" + m] + a)}) : res (Selection i32))')
        raise ValueError((t, self.t))
    def lst(self, a): return ('L', '[' + '; '.join(x[1] for x in a) + ']')
    def method(self, e, m, a):
        ty, x = e; a2 = [y[1] for y in a]
        if m == 'into': return e
        if ty == 'I':
            if m == 'iter': return ('IT', x)
            if m == 'size': return ('r', f'(interval_size (int_sub true) {x})')
            r = {'complement': 'L', 'union': 'L', 'minus': 'L', 'intersect': 'I', 'enclose': 'I', 'closure': 'I'}.get(m, 'v')
            return (r, f'({" ".join(["interval_" + m, x] + a2)})')
        if ty == 'IT':
            if m == 'rev': return ('IB', x)
            return ('rL', f'(pull interval_next 100 {x})')
        if ty == 'IB': return ('rL', f'(pull interval_next_back 100 {x})')
        if ty == 'L' and m == 'collect': return e
        if ty == 'S':
            b = [f'o{k}' for k in range(len(a))]
            pre = f'do s <- {x}; ' + ''.join(f'do {v} <- {y[1]}; ' for v, y in zip(b, a) if y[0] == 'S')
            arg = ' '.join(v if y[0] == 'S' else y[1] for v, y in zip(b, a))
            if m == 'interval_iter': return ('SI', x)
            if m in ('is_empty', 'is_full', 'infimum', 'supremum'): return ('rv', f'({pre}Ok (sel_{m} s))')
            return ('S' if m in ('complement', 'union', 'intersect', 'minus', 'union_in_place', 'intersect_in_place', 'minus_in_place') else 'rv', f'({pre}sel_{m} true s {arg})'.replace(' )', ')'))
        if ty == 'SI': return ('rL', f'(do s <- {x}; pull (sel_interval_next true) 100 (sel_interval_iter s))')
        raise ValueError((e, m, a))

def toks(s):
    out = []; i = 0; s = s.rstrip()
    while i < len(s):
        m = TOK.match(s, i); assert m, s[i:]; out.append(m[1]); i = m.end()
    return out

def split_top(t):
    out = [[]]; d = 0
    for x in t:
        if x in '([': d += 1
        if x in ')]': d -= 1
        if x == ',' and d == 0: out.append([])
        else: out[-1].append(x)
    return [o for o in out if o]

def translate(code):
    env = {}; asserts = []
    for st in ' '.join(code).split(';'):
        t = toks(st)
        if not t: continue
        if t[0] == 'let':
            t = t[1:]
            if t[0] == 'mut': t = t[1:]
            name = t[0]; q = P(t[t.index('=') + 1:], env); env[name] = q.expr(); assert q.peek() is None
        elif t[0] == 'assert_eq!':
            l, r = split_top(t[2:-1]); ql, qr = P(l, env), P(r, env); (tl, l), (_, r) = ql.expr(), qr.expr()
            assert ql.peek() is None and qr.peek() is None
            asserts.append(f'{l} = Ok {r}' if tl.startswith('r') else f'{l} = {r}')
        else:
            q = P(t, env); v = t[0]; env[v] = q.expr(); assert q.peek() is None
    return asserts

HEAD = '''(** * The crate's doc-comment examples and parse tests, run on the model

    Generated by tools/gen_docs.py from the doc comments of
    /repo/src/interval.rs and /repo/src/selection.rs and from
    /repo/src/test/raw_interval/parse.rs; those of /repo/src/bound.rs are
    translated by hand below.  These are tests of the model (they compute on
    literals), not proofs of properties.  Examples without an assertion are
    left out. *)
From Coq Require Import List Bool ZArith String.
From Verif Require Import Base Ints MBound MRaw MNormalize MTine MBTree MTineTree MInterval MSelection MParse.
Import ListNotations.
Local Open Scope Z_scope.

Definition n (z : Z) : i32 := int_of_Z z.
(** [iter.collect()], for iterators of at most [k] items. *)
Fixpoint pull {S A} (next : S -> res (option A * S)) (k : nat) (s : S) : res (list A) :=
  match k with
  | O => Panic
  | Datatypes.S k => do r <- next s; match fst r with None => Ok [] | Some x => do l <- pull next k (snd r); Ok (x :: l) end
  end.

(** src/bound.rs 54-395 *)
Example doc_bound :
  is_finite (Include 15) = true /\\ is_finite (@Infinite Z) = false /\\
  is_inclusive (Include 15) = true /\\ is_inclusive (Exclude 15) = false /\\
  is_exclusive (Exclude 15) = true /\\ is_exclusive (Include 15) = false /\\
  bound_as_ref (Exclude 34) = Some 34 /\\ bound_unwrap (Exclude 34) = Ok 34 /\\ bound_unwrap (@Infinite Z) = Panic /\\
  bound_unwrap_or (Exclude 34) 15 = 34 /\\ bound_unwrap_or Infinite 15 = 15 /\\
  bound_unwrap_or_else (Exclude 34) (fun _ => 2 * 10) = 34 /\\ bound_unwrap_or_else Infinite (fun _ => 2 * 10) = 20 /\\
  bound_map (Include 10) (fun x => x) = Include 10 /\\ bound_map_or (Include 10) 6 (fun k => k * 2) = 20 /\\
  bound_map_or_else (Include 10) (fun _ => 6) (fun k => k * 2) = 20 /\\
  bound_map_or_else Infinite (fun _ => 6) (fun k => k * 2) = 6 /\\ bound_transfer (Exclude 34) 18 = Exclude 18.
Proof. vm_compute. repeat split. Qed.

'''

def main():
    s = HEAD; n = 0
    for f in ('interval', 'selection'):
        for ln, tag, code in blocks(f):
            a = translate(code)
            if not a: continue
            n += len(a)
            s += f'(** src/{f}.rs {ln} *)\nExample doc_{f}_{ln} :\n  ' + ' /\\\n  '.join(a) + '.\nProof. vm_compute. repeat split. Qed.\n\n'
    t = pathlib.Path('/repo/src/test/raw_interval/parse.rs').read_text()
    for m in re.finditer(r'fn (\w+)\(\) \{\s*let a: RawInterval<i32> = (\w+)(?:\(([^)]*)\))?;.*?assert_eq!\(gened, "([^"]*)"\)', t, re.S):
        args = ' '.join(f'(n ({x.strip()}))' for x in (m[3] or '').split(',') if x.strip())
        n += 2
        s += f'(** src/test/raw_interval/parse.rs: [{m[1]}] *)\nExample test_parse_{m[1]} : let a := ({m[2]} {args} : RawInterval i32) in\n  show_raw show_int a = "{m[4]}"%string /\\ parse_raw parse_int "{m[4]}"%string = Ok (Good a).\nProof. vm_compute. repeat split. Qed.\n\n'
    OUT.write_text(s); print(n, 'assertions')
main()
