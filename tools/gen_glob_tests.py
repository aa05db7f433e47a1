#!/usr/bin/env python3
"""Translate the assertions of /repo/crates/mitex-glob/src/lib.rs (module tests)
and arg_match.rs into a Coq table (GlobTests.v).  These are tests of the model,
not proofs."""
import re, ast, sys
def lits(path):
    src = open(path).read()
    out = []
    pat = re.compile(r'^\s*assert!\(\s*(!?)\s*(glob_match(?:_prefix)?)\(\s*("(?:[^"\\]|\\.)*")\s*,\s*("(?:[^"\\]|\\.)*")\s*,?\s*\)\s*\);', re.M)
    for m in pat.finditer(src):
        neg, fn, a, b = m.groups()
        dec = lambda s: list(ast.literal_eval(s).encode('utf8'))
        out.append((fn.endswith('prefix'), dec(a), dec(b), neg == ''))
    return out
cases = lits('/repo/crates/mitex-glob/src/lib.rs') + lits('/repo/crates/mitex-parser/src/arg_match.rs')
print("(** GENERATED by tools/gen_glob_tests.py from the Rust unit tests: conformance")
print("    tests of the model (not proofs of properties). *)")
print("From Verif Require Import Glob.")
print("Local Open Scope N_scope.")
def lst(b): return "[" + ";".join(map(str, b)) + "]"
print("Definition glob_cases : list (bool * list N * list N * bool) := [")
print(";\n".join("(%s,%s,%s,%s)" % ("true" if p else "false", lst(a), lst(b), "true" if e else "false") for p,a,b,e in cases))
print("].")
print("""Definition glob_case_ok (c : bool * list N * list N * bool) : bool :=
  let '(pre, g, p, e) := c in
  match glob_run g p pre with Ok b => Bool.eqb b e | _ => false end.
Example glob_conformance : forallb glob_case_ok glob_cases = true.
Proof. vm_compute. reflexivity. Qed.""")
sys.stderr.write("%d cases\n" % len(cases))
