(** The whole generated Python files: the inverse kinematics program with its test code (output_python.py:164-395) and the forward
    kinematics program (output_python.py:46-155).  A string stands for one print(..., file=f). *)
From Coq Require Import Reals ZArith List String Ascii Bool Arith.
From Verif Require Import Expr Kin Solver SolSet CodeGen.
Import ListNotations.
Local Open Scope string_scope.
Local Open Scope list_scope.
Local Open Scope nat_scope.

(** output_python.py:332-390: the test program; [funcname] is 'ikin_' + fixed_name *)
Definition py_test1 : string := "

#
#    TEST CODE
#
if __name__ == ""__main__"":

#  4x4 transforms which are pure rotations

    def RotX4_N(t):
      return(np.matrix([
        [1,         0,           0,      0],
        [0, np.cos(t),  -np.sin(t),      0],
        [0, np.sin(t),   np.cos(t),      0],
        [0,0,0,1.0]
        ]))

    def RotY4_N(t):
      return(np.matrix([
        [ np.cos(t),   0,      np.sin(t),    0],
        [0,            1,          0    ,    0],
        [-np.sin(t),   0,      np.cos(t),    0],
        [0,0,0,1]
        ]))

    def RotZ4_N(t):
      return(np.matrix([
        [ np.cos(t),  -np.sin(t),       0,    0],
        [ np.sin(t),   np.cos(t),       0,    0],
        [ 0,              0,            1,    0],
        [0,0,0,1]
        ]))

    px = 0.2   # desired EE position
    py = 0.3
    pz = 0.6
    th = np.pi/7  # just a random angle

    # generate a 4x4 pose to test IK

    T1 = RotX4_N(th) * RotY4_N(2*th)  # combine two rotations
    T1[0,3] = px
    T1[1,3] = py
    T1[2,3] = pz

    # try the Puma IK

    list = ".
Definition py_test2 : string := "(T1)

    i = 0
    for sol in list:
        print ''
        print 'Solution ', i
        i+=1
        print sol


    ".
Definition py_test (r : robot) : string := append py_test1 (append (append "ikin_" (fixed_name r)) py_test2).
(** output_python.py:164-395: the strings printed to the file *)
Definition output_python_file (show : expr -> string) (r : robot) (groups : list row) : option (list string) :=
  match output_python_code show r groups with None => None | Some out => Some (out ++ [py_test r]) end.
(** the lines of a file the strings are printed to (print adds the newline) *)
Definition file_lines (out : list string) : list string := List.concat (map split_lines out).

(** * Forward kinematics, output_python.py:46-155 *)
(** s.split('_') *)
Fixpoint split_us (s : string) : list string :=
  match s with
  | EmptyString => [""]
  | String c t => if Ascii.eqb c "_" then "" :: split_us t else match split_us t with [] => [String c ""] | l :: ls => String c l :: ls end
  end.
Definition chars (s : string) : list ascii := list_ascii_of_string s.
(** output_python.py:119-123: the summands found for the subscript digit [c]: None: IndexError *)
Definition summand (c : ascii) (v : string) : option bool :=
  if contains (String c "") v then match nth_error (split_us v) 1 with None => None | Some x => Some (String.length x =? 1) end else Some false.
Fixpoint summands (c : ascii) (vars : list string) : option (list string) :=
  match vars with
  | [] => Some []
  | v :: vs => match summand c v with
               | None => None
               | Some b => match summands c vs with None => None | Some l => Some (if b then v :: l else l) end
               end
  end.
(** output_python.py:110-127, one variable.  soa[:-1] removes the last '+' (or a space, when no summand was found) *)
Definition fk_variable (vars : list string) (v : string) : option (list string) :=
  match split_us v with
  | _ :: x :: _ =>
      if 1 <? String.length x then
        match mapM (fun c => summands c vars) (chars x) with
        | None => None
        | Some ls =>
            let soa := append (append v " = ") (concat_s (map (fun w => append " " (append w " +")) (List.concat ls))) in
            Some [substring 0 (String.length soa - 1) soa]
        end
      else Some [append v " = 1.0   # 1.0= dummy value"]
  | _ => Some []
  end.
(** output_python.py:46-155; [tfks]: the text of the matrix T_06 *)
Definition output_FK_python_code (r : robot) (vars : list string) (tfks : string) : option (list string) :=
  match mapM (fk_variable vars) vars with
  | None => None
  | Some ls => Some (
      [append "#!/usr/bin/python
#  Python forward kinematic equations for " (append (r_name r) "

import numpy as np
from math import sqrt
from math import atan2
from math import cos
from math import sin
from math import acos
from math import asin

pi = np.pi

");
"class Matrix:
    def __init__(self,A):
        Matrix.A = A
        Matrix.rows = len(A)
        Matrix.cols = len(A[0])

    def __repr__(self):
        res = '\n'
        for i in range(self.rows):
            for j in range(self.cols):
                res += f'{self.A[i][j]:10.3f} '
            res += '\n'
        return res
    ";
"#
#      Robot Parameters 
#"; py_params r;
"#
#     Robot Joint Variables 
#"] ++ List.concat ls ++
["
# Code to compute Forward Kinematics ";
"
#############################################################
#
#   Forward Kinematics
#
#############################################################
 "; append "T06 = " tfks; ""; "print(f""T06 has {T06.rows} rows and {T06.cols} cols"")"; ""; "print(T06)"; ""])
  end.
