"""Transcribe quantized_operators.yaml to Rocq (rocq/theories/OpsTable.v)."""
import ast
import re

SRC = "/repo/src/fastforward/_quantops/quantized_operators.yaml"
DST = "/verif/rocq/theories/OpsTable.v"


def q(s):
    return '"%s"' % s.replace('"', '""')


def texpr(e):
    if isinstance(e, ast.Name):
        return "TName " + q(e.id)
    if isinstance(e, ast.Constant) and e.value is Ellipsis:
        return 'TName "..."'
    if isinstance(e, ast.BinOp):
        return "TOr (%s) (%s)" % (texpr(e.left), texpr(e.right))
    if isinstance(e, ast.Subscript):
        args = e.slice.elts if isinstance(e.slice, ast.Tuple) else [e.slice]
        return "TSub %s [%s]" % (q(e.value.id), "; ".join(texpr(a) for a in args))
    raise ValueError(ast.dump(e))


def default(d, src):
    if d is None:
        return "None"
    if isinstance(d, ast.Constant) and isinstance(d.value, str):
        return "Some (DString %s)" % q(d.value)
    return "Some (DCode %s)" % q(ast.get_source_segment(src, d))


def params(args, defaults, src):
    defaults = [None] * (len(args) - len(defaults)) + list(defaults)
    return "[" + "; ".join("(%s, %s, %s)" % (q(a.arg), texpr(a.annotation), default(d, src)) for a, d in zip(args, defaults)) + "]"


rows, line = [], 0
for n, text in enumerate(open(SRC), 1):
    if m := re.match(r'- op: "(.*)"\s*$', text):
        rows.append([m.group(1).strip(), None, [], n])
    elif m := re.match(r"  fallback: (\S+)", text):
        rows[-1][1] = m.group(1)
    elif m := re.match(r"    - (\S+)", text):
        rows[-1][2].append(m.group(1))

out = ["(** The operators of fastforward/_quantops/quantized_operators.yaml, written by tools/gen_optable.py: the",
       "    specification, the torch function, and other names of that function. *)",
       "From Coq Require Import String List.", "From Verif Require Import OpsModel.", "Import ListNotations.",
       "Local Open Scope string_scope.", "Local Open Scope list_scope.", "",
       "Definition operators_yaml : list (spec * string * list string) := ["]
body = []
for op, fallback, aliases, n in rows:
    src = "def " + op + ": ..."
    f = ast.parse(src).body[0]
    a = f.args
    ndef = len(a.defaults)
    pos = a.posonlyargs
    assert not pos and not a.kwonlyargs
    body.append("  (** line %d *)\n  (mkSpec %s [] %s [] (Some (%s)), %s, [%s])" % (n, q(f.name), params(a.args, a.defaults, src), texpr(f.returns), q(fallback), "; ".join(map(q, aliases))))
out.append(";\n".join(body) + "].")
open(DST, "w").write("\n".join(out) + "\n")
print(len(rows))
