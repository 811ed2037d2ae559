# Generates rocq/theories/AstTable.v from /repo/pyverilog/vparser/ast.py (read as text).
import ast
t = ast.parse(open('/repo/pyverilog/vparser/ast.py').read())
C = {}
out = ['''(** AstTable.v - the classes of pyverilog/vparser/ast.py: for each class the names in attr_names, and
    the fields that children() takes, in order. [One f] is "if self.f: nodelist.append(self.f)",
    [Many f] is "if self.f: nodelist.extend(self.f)". Each line cites the class in ast.py; a subclass
    without own attr_names or children() has those of its parent. Generated by scripts/asttable.py
    from the source text. *)
From Verif Require Import Base.

Inductive kid := One (f : string) | Many (f : string).
Record class := Class { c_name : string; c_attrs : list string; c_kids : list kid }.
Definition classes : list class := [''']
L = []
for c in t.body:
    if not isinstance(c, ast.ClassDef) or c.name == 'Node':
        continue
    base = c.bases[0].id
    at, ki = C.get(base, (None, None))
    for m in c.body:
        if isinstance(m, ast.Assign) and m.targets[0].id == 'attr_names':
            at = [e.value for e in m.value.elts]
        if isinstance(m, ast.FunctionDef) and m.name == 'children':
            ki = []
            assert ast.unparse(m.body[0]) == 'nodelist = []' and ast.unparse(m.body[-1]) == 'return tuple(nodelist)'
            for s in m.body[1:-1]:
                assert isinstance(s, ast.If) and not s.orelse and len(s.body) == 1
                f = ast.unparse(s.test); assert f.startswith('self.')
                call = s.body[0].value; assert ast.unparse(call.args[0]) == f
                fn = ast.unparse(call.func)
                ki.append(({'nodelist.append': 'One', 'nodelist.extend': 'Many'}[fn], f[5:]))
    C[c.name] = (at, ki)
    L.append('  (* ast.py:%d-%d *) Class "%s" [%s] [%s]' % (c.lineno, c.end_lineno, c.name, '; '.join('"%s"' % a for a in at), '; '.join('%s "%s"' % k for k in ki)))
out.append(';\n'.join(L))
out.append(']%string.')
open('/verif/rocq/theories/AstTable.v', 'w').write('\n'.join(out) + '\n')
