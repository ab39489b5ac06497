# Transcribes the robot table of ikbtfunctions/ik_robots.py (read as text with the ast module, never executed) into Robots.v
import ast, sys
from fractions import Fraction
src = open('/repo/ikbtfunctions/ik_robots.py').read()
fn = [n for n in ast.parse(src).body if isinstance(n, ast.FunctionDef) and n.name == 'robot_params'][0]
def num(v):
    f = Fraction(repr(v))
    n = lambda z: 'Num %d' % z if z >= 0 else 'Num (%d)' % z
    return n(f.numerator) if f.denominator == 1 else 'Div (%s) (%s)' % (n(f.numerator), n(f.denominator))
def ex(e):
    if isinstance(e, ast.Constant): return num(e.value)
    if isinstance(e, ast.Name): return 'Sym "%s"' % e.id
    if isinstance(e, ast.Attribute) and e.attr == 'pi': return 'PiE'
    if isinstance(e, ast.UnaryOp) and isinstance(e.op, ast.USub):
        if isinstance(e.operand, ast.Constant): return num(-e.operand.value)
        return 'Neg (%s)' % ex(e.operand)
    if isinstance(e, ast.BinOp):
        op = {ast.Add: 'Add', ast.Mult: 'Mul', ast.Div: 'Div', ast.Sub: 'Sub'}[type(e.op)]
        return '%s (%s) (%s)' % (op, ex(e.left), ex(e.right))
    raise Exception(ast.dump(e))
def coqid(n): return 'r_' + n.replace('-', '_')
branches = []; names = None; out = []
def strs(l): return '[' + '; '.join('"%s"' % x for x in l) + ']'
for st in fn.body:
    if isinstance(st, ast.Assign) and st.targets[0].id == 'List': names = [x.value for x in st.value.elts]; nlines = (st.lineno, st.end_lineno)
    if isinstance(st, ast.If) and isinstance(st.test, ast.Compare):
        name = st.test.comparators[0].value; d = {}
        for a in st.body:
            if isinstance(a, ast.Assign): d[a.targets[0].id] = a.value
        rows = [[ex(c) for c in r.elts] for r in d['dh'].args[0].elts]
        vv = [c.value for c in d['vv'].elts]
        vs = [c.args[0].id for c in d['variables'].elts]
        ps = [c.id for c in d['params'].elts]
        pv = [(k.id, ex(v)) for k, v in zip(d['pvals'].keys, d['pvals'].values)]
        branches.append(name)
        out.append('(** ik_robots.py:%d-%d *)\nDefinition %s : robot_def := RobotDef\n  [%s]\n  [%s]%%nat\n  %s\n  [%s]\n  %s.' % (
            st.lineno, st.end_lineno, coqid(name), ';\n   '.join('DH ' + ' '.join('(%s)' % c if ' ' in c else c for c in r) for r in rows),
            '; '.join(map(str, vv)), strs(ps), '; '.join('("%s", %s)' % p for p in pv), strs(vs)))
print('''(** The robots: ikbtfunctions/ik_robots.py (the data are transcribed by tools/mk_robots.py).  A name used in the function is the sympy
    symbol of the same name (all of them are bound: by the imports from pykinsym.py:124-127 and ik_classes.py:40-48, or by sp.var
    before they are used).  Floating point numbers are exact decimals; 0 and 0. are both Num 0. *)
From Coq Require Import Reals ZArith List String Bool Arith.
From Verif Require Import Expr Kin.
Import ListNotations.
Local Open Scope string_scope.
Local Open Scope list_scope.
Local Open Scope nat_scope.

(** the values of dh, vv, params, pvals, variables in a branch *)
Record robot_def := RobotDef { rd_dh : list (dhrow expr); rd_vv : list nat; rd_params : list string; rd_pvals : list (string * expr); rd_vars : list string }.
(** ik_robots.py:35-58, where 'Issue4' and 'DZhang' are adjacent string literals (no comma: one string) *)
Definition robot_names : list string := %s.
Local Open Scope Z_scope.
''' % strs(names))
print('\n'.join(out))
print('''Local Close Scope Z_scope.
(** the branches, in order: if(name == ...) *)
Definition branches : list (string * robot_def) := [%s].''' % '; '.join('("%s", %s)' % (b, coqid(b)) for b in branches))
print('''(** the outcome of a call: the process ends (quit), an UnboundLocalError is raised, or a description is returned; the last component is
    the list of unknowns with their numbers (v.n) *)
Inductive robot_result := Quits | Unbound | Described (d : robot_def) (unknowns : list (string * nat)).
(** ik_robots.py:67-634: a sequence of if statements; the last branch taken decides *)
Definition select (name : string) : option robot_def := fold_left (fun acc b => if String.eqb name (fst b) then Some (snd b) else acc) branches None.
(** ik_robots.py:638-641 *)
Fixpoint number_from (i : nat) (vars : list string) : list (string * nat) := match vars with [] => [] | v :: t => (v, i) :: number_from (S i) t end.
(** ik_robots.py:33-643 *)
Definition robot_params (name : string) : robot_result :=
  if negb (existsb (String.eqb name) robot_names) then Quits
  else match select name with
       | None => Unbound
       | Some d => Described d (number_from 1 (rd_vars d))
       end.''')
