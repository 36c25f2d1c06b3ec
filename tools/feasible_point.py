#!/usr/bin/env python3
"""Finds a feasible point of the program built for an example system and prints it as a Coq table.

usage: feasible_point.py NAME 'Coq term : res pmodel' [extra SMT assertions...]
The file named by the variable PRELUDE, if set, holds definitions the term needs.
The point is checked by Coq afterwards (ExamplePoints.v), so this script is not trusted."""
import re, subprocess, sys, tempfile, os
from fractions import Fraction
ROOT = os.path.dirname(os.path.dirname(os.path.abspath(__file__)))
name, term, extra = sys.argv[1], sys.argv[2], sys.argv[3:]
SRC = """From Verif Require Import Base MathModel Structure Params Features Elements System Library Example Aggregation.
%s
Set Printing Width 1000000. Set Printing Depth 1000000.
Definition dump (pm : pmodel) :=
  (map (fun p => (pv_label p, map (fun e => (pe_bin e, pe_fix e, pe_lb e, pe_ub e)) (pv_entries p))) (pm_vars pm),
   map (fun r => (r_eq r, r_terms r, r_rhs r)) (pm_rows pm), pm_obj pm).
Eval vm_compute in (match %s with Ok pm => Some (dump pm) | Err _ => None end).
""" % (open(os.environ["PRELUDE"]).read() if "PRELUDE" in os.environ else "", term)
d = tempfile.mkdtemp()
open(d + "/dump.v", "w").write(SRC)
out = subprocess.check_output(["coqc", "-Q", ROOT + "/rocq/theories", "Verif", d + "/dump.v"], text=True)
out = out[out.index("=") + 1:]
tok = re.findall(r'"[^"]*"|[\[\](),;#]|-?\d+\.?\d*|Some|None|true|false|:|%\w+', out)
pos = 0
def parse():
    global pos
    t = tok[pos]
    if t == "[" or t == "(":
        close = "]" if t == "[" else ")"
        pos += 1
        r = []
        while tok[pos] != close:
            if tok[pos] in ";,":
                pos += 1
                continue
            r.append(parse())
        pos += 1
        while pos < len(tok) and tok[pos].startswith("%"):
            pos += 1
        if t == "(" and len(r) == 1:
            return r[0]
        return r
    pos += 1
    if t == "Some":
        return ("some", parse())
    if t == "None":
        return None
    if t in ("true", "false"):
        return t == "true"
    if t.startswith('"'):
        return t[1:-1]
    v = Fraction(t)
    if pos < len(tok) and tok[pos] == "#":
        pos += 1
        v = v / Fraction(tok[pos])
        pos += 1
    while pos < len(tok) and tok[pos].startswith("%"):
        pos += 1
    return v
tree = parse()
assert tree is not None, "build failed"
vars_, rows, obj = tree[1]
def num(q):
    q = Fraction(q)
    s = "(/ %d.0 %d.0)" % (abs(q.numerator), q.denominator)
    return s if q >= 0 else "(- %s)" % s
def sym(l, i):
    return "|%s@%d|" % (l, int(i))
L = ["(set-option :pp.decimal false)"]
for l, es in vars_:
    for i, e in enumerate(es):
        b, fx, lb, ub = e
        s = sym(l, i)
        L.append("(declare-const %s Real)" % s)
        if fx is not None:
            L.append("(assert (= %s %s))" % (s, num(fx[1])))
            continue
        if b:
            L.append("(assert (or (= %s 0.0) (= %s 1.0)))" % (s, s))
        if lb is not None:
            L.append("(assert (>= %s %s))" % (s, num(lb[1])))
        if ub is not None:
            L.append("(assert (<= %s %s))" % (s, num(ub[1])))
def lin(ts):
    return "(+ 0.0 %s)" % " ".join("(* %s %s)" % (num(q), sym(l, i)) for q, l, i in ts)
for eq, ts, rhs in rows:
    L.append("(assert (%s %s %s))" % ("=" if eq else "<=", lin(ts), num(rhs)))
for e in extra:
    L.append("(assert %s)" % e)
L += ["(check-sat)", "(get-model)"]
open(d + "/p.smt2", "w").write("\n".join(L))
res = subprocess.run(["z3", "-T:600", d + "/p.smt2"], capture_output=True, text=True).stdout
assert res.startswith("sat"), res[:500]
val = {}
for m in re.finditer(r"\(define-fun \|?([^|\s]*)\|? \(\) Real\s+(.*?)\)\s*(?=\(define-fun|\)\s*$)", res, re.S):
    e = m.group(2)
    neg = e.startswith("(-")
    n = re.findall(r"\d+\.\d+", e)
    q = Fraction(n[0]) / (Fraction(n[1]) if len(n) > 1 else 1)
    val[m.group(1)] = -q if neg else q
print("Definition %s_table : list (string * list Q) :=" % name)
ent = []
for l, es in vars_:
    vs = "; ".join("(%d # %d)" % (val["%s@%d" % (l, i)].numerator, val["%s@%d" % (l, i)].denominator) for i in range(len(es)))
    ent.append('  ("%s", [%s])' % (l, vs))
print("[" + ";\n ".join(ent).lstrip() + "].")
