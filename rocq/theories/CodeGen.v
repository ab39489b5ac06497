(** The generators of Python and C++ code: the text they write for a solved robot.  The text sympy prints for an expression
    is a parameter [show] (sympy's str); messages printed on the terminal are left out.  Python sets of tuples or strings
    (groups, sol_vars) are iterated in an unspecified order: the order is a parameter of the model. *)
From Coq Require Import Reals ZArith List String Ascii Bool Arith.
From Verif Require Import Expr Kin Solver SolSet.
Import ListNotations.
Local Open Scope string_scope.
Local Open Scope list_scope.
Local Open Scope nat_scope.

(** * Strings *)
Definition nl : ascii := ascii_of_nat 10.
Definition nls : string := String nl "".
(** str.split('\n') *)
Fixpoint split_lines (s : string) : list string :=
  match s with
  | EmptyString => [""]
  | String c t => if Ascii.eqb c nl then "" :: split_lines t
                  else match split_lines t with [] => [String c ""] | l :: ls => String c l :: ls end
  end.
Fixpoint concat_s (l : list string) : string := match l with [] => "" | s :: l' => append s (concat_s l') end.
(** s * n for a Python string (empty for n <= 0) *)
Fixpoint times (n : nat) (s : string) : string := match n with 0 => "" | S n' => append s (times n' s) end.
(** s[n:] *)
Fixpoint drop (n : nat) (s : string) : string := match n, s with 0, _ => s | S n', String _ t => drop n' t | S _, EmptyString => "" end.
(** a regular expression word character, \w (for ASCII text) *)
Definition between (a b : ascii) (c : ascii) : bool := (nat_of_ascii a <=? nat_of_ascii c) && (nat_of_ascii c <=? nat_of_ascii b).
Definition lower (c : ascii) : bool := between "a" "z" c.
Definition word (c : ascii) : bool := lower c || between "A" "Z" c || between "0" "9" c || Ascii.eqb c "_".

(** list.sort() on strings: code point order (a stable sort; the rows have no equal entries) *)
Fixpoint insert (x : string) (l : list string) : list string :=
  match l with [] => [x] | y :: l' => if (x <=? y)%string then x :: l else y :: insert x l' end.
Fixpoint sort (l : list string) : list string := match l with [] => [] | x :: l' => insert x (sort l') end.

(** * ikbtfunctions/output_cpp.py:30-54: class cpp_output *)
(** output_cpp.py:43-44: re.sub(r'(\w+)\*\*2', r'\1*\1', l).  The text is scanned from the left; [w] is the run of word
    characters that ends at the current position, as far as no substitution has consumed it. *)
Fixpoint sub_word (w : string) (s : string) : string :=
  match s with
  | EmptyString => w
  | String c t =>
      if word c then sub_word (append w (String c "")) t
      else match t with
           | String c2 (String c3 t') =>
               if Ascii.eqb c "*" && Ascii.eqb c2 "*" && Ascii.eqb c3 "2" && negb (String.eqb w "")
               then append w (append "*" (append w (sub_word "" t')))
               else append w (String c (sub_word "" t))
           | _ => append w (String c (sub_word "" t))
           end
  end.
(** the text up to the first ')' (excluded) and the text after it *)
Fixpoint upto_close (s : string) : option (string * string) :=
  match s with
  | EmptyString => None
  | String c t => if Ascii.eqb c ")" then Some ("", t) else match upto_close t with None => None | Some (a, b) => Some (String c a, b) end
  end.
(** a match of ([a-z]{3}\([^\)]+?\))\*\*2 at the start of [s]: group 1 and the rest *)
Definition match_call (s : string) : option (string * string) :=
  match s with
  | String a (String b (String c (String d t))) =>
      if lower a && lower b && lower c && Ascii.eqb d "(" then
        match upto_close t with
        | Some (arg, rest) =>
            if negb (String.eqb arg "") && String.prefix "**2" rest
            then Some (String a (String b (String c (String d (append arg ")")))), drop 3 rest) else None
        | None => None
        end
      else None
  | _ => None
  end.
(** output_cpp.py:45-46: re.sub(r'([a-z]{3}\([^\)]+?\))\*\*2', r'\1*\1', s2); the first argument bounds the number of
    steps (the length of the text is enough) *)
Fixpoint sub_call (fuel : nat) (s : string) : string :=
  match fuel with
  | 0 => s
  | S f => match match_call s with
           | Some (g, rest) => append g (append "*" (append g (sub_call f rest)))
           | None => match s with EmptyString => "" | String c t => String c (sub_call f t) end
           end
  end.
(** output_cpp.py:41-46 *)
Definition fix_line (l : string) : string :=
  if contains "**" l then let s2 := sub_word "" l in sub_call (String.length s2) s2 else l.

(** a call of a method of cpp_output *)
Inductive cmd := Line (s : string) | Push | Pop.
(** the file written so far, line by line, and the block level *)
Record cpp := Cpp { c_out : list string; c_level : Z }.
Definition c_print (s : string) (c : cpp) : cpp := Cpp (c_out c ++ [append (times (Z.to_nat (c_level c)) "    ") s]) (c_level c).
(** output_cpp.py:36-54: line, push, pop *)
Definition step_cpp (c : cpp) (m : cmd) : cpp :=
  match m with
  | Line s => fold_left (fun c l => c_print (fix_line l) c) (split_lines s) c
  | Push => let c := Cpp (c_out c) (c_level c + 1) in c_print "{" c
  | Pop => let c := c_print "}" c in Cpp (c_out c) (c_level c - 1)
  end.
Definition run_cpp (ms : list cmd) (c : cpp) : cpp := fold_left step_cpp ms c.

(** * What the generators read *)
(** ik_classes.py:142-194 Robot: name, params with Mech.pvals (their printed values, if any), solution_nodes, FinalEqnMatrix *)
Record robot := Robot { r_name : string; r_params : list (string * string); r_pvals : bool; r_nodes : list node; r_eqns : list (list kequation) }.
(** name.replace('_', '\_') and name.replace('test: ', '') *)
Fixpoint replace_us (s : string) : string := match s with EmptyString => "" | String "_" t => String "\" (String "_" (replace_us t)) | String c t => String c (replace_us t) end.
Fixpoint remove_test (fuel : nat) (s : string) : string :=
  match fuel with
  | 0 => s
  | S f => if String.prefix "test: " s then remove_test f (drop 6 s) else match s with EmptyString => "" | String c t => String c (remove_test f t) end
  end.
Definition clean_name (s : string) : string := remove_test (S (String.length s)) s.
Definition fixed_name (r : robot) : string := clean_name (replace_us (r_name r)).

(** Robot.FinalEqnMatrix[rowindex][colindex]: for the node, the equations of its column, in row order.  None: index error *)
Definition node_eqns (r : robot) (n : node) : option (list kequation) := mapM (fun eqs => nth_error eqs (n_order n - 1)) (r_eqns r).
Definition assign_text (show : expr -> string) (q : kequation) : string := append (show (k_lhs q)) (append " = " (show (k_rhs q))).

Section Cpp.
Variable show : expr -> string.
(** * ikbtfunctions/output_cpp.py:56-282 *)
(** output_cpp.py:174-232, one version; [solno] is the number printed in the comment *)
Definition cpp_version (n : node) (solno : nat) (q : kequation) : list cmd :=
  let trig := String.eqb (n_method n) "arcsin" || String.eqb (n_method n) "arccos" in
  let assign := Line (append (assign_text show q) ";") in
  [Line (append (append nls "// solution ") (str_of_nat solno));
   Line (append "// solvemethod: " (n_method n));
   Line (append "//    argument: " (show (n_arg n)))]
  ++ (if trig then [Line "// Arcsin() or Arccos() based solution:"; Line (append "argument = " (show (n_arg n))); Line "if (solvable_pose && fabs(argument) > 1)";
        Push; Line "solvable_pose = False; "; Pop; Line "else if (solvable_pose)"; Push;
        Line (append (show (k_lhs q)) (append " = " (append (n_method n) "(argument);"))); Pop] else [])
  ++ (if negb trig && contains "atan2(y,x)" (n_method n) then [assign] else [])
  ++ (if contains "algebra" (n_method n) then [assign] else [])
  ++ (if contains "x2z2" (n_method n) then [assign] else [])
  ++ (if contains "simultaneous eqn" (n_method n) then [assign] else []).
(** output_cpp.py:163-232, one node *)
Definition cpp_node (n : node) (qs : list kequation) : list cmd :=
  [Line (append nls nls); Line (append "//Variable: " (n_name n))]
  ++ List.concat (map (fun iq => cpp_version n (fst iq) (snd iq)) (enum qs)).
(** output_cpp.py:253-273 *)
Definition cpp_row (i : nat) (g : row) : list cmd :=
  map (fun jv => Line (append "solution_list[" (append (str_of_nat i) (append "][" (append (str_of_nat (fst jv)) (append "] = " (append (snd jv) ";"))))))) (enum (sort g)).
Definition cpp_rows (groups : list row) : list cmd := List.concat (map (fun ig => cpp_row (fst ig) (snd ig)) (enum groups)).
(** output_cpp.py:97-107 *)
Definition var_decl (vars : list string) : string :=
  let tmp := append "double" (concat_s (map (fun v => append " " (append v ",")) vars)) in append (substring 0 (String.length tmp - 1) tmp) ";".
Definition par_decl (ps : list string) : string :=
  append nls (concat_s (map (fun p => append "double " (append p (append " = XXXXX ; \ deliberate undeclared error!  USER needs to give numerical value" nls))) ps)).
(** output_cpp.py:71-162: everything before the solved variables *)
Definition cpp_head (name : string) (vars ps : list string) : list cmd :=
  [Line (append "//
//  C++ inverse kinematic equations for " (append name "


#include <math.h>
#include <stdio.h>
#include <iostream>

double pi = 3.1415926;

// ikin_Wrists modifies solution_list in-place and
// returns 1 for valid solutions and 0 for no solutions
int ikin(double T[4][4], double solution_list[64][6]);

"));
   Line "int main()"; Push; Line "double T[4][4] = { {1,0,0,0},{0,1,0,0},{0,0,1,0},{0,0,0,1}, };"; Line "double sol_list[64][6] = {0};  // list of solutions";
   Line "if(ikin(T, sol_list))"; Push; Line "std::cout << sol_list;"; Pop; Line "else"; Push; Line "std::cout <<  ""No valid solution"" ;"; Pop; Pop;
   Line "
// Code to solve the unknowns "; Line "

// Declarations"; Line "int ikin(double T[4][4], double solution_list[64][6] )"; Push;
   Line "
//define the input vars
double r_11 = T[0][0];
double r_12 = T[0][1];
double r_13 = T[0][2];
double r_21 = T[1][0];
double r_22 = T[1][1];
double r_23 = T[1][2];
double r_31 = T[2][0];
double r_32 = T[2][1];
double r_33 = T[2][2];
double Px = T[0][3];
double Py = T[1][3];
double Pz = T[2][3];

double argument;

//
// Caution:    Generated code is not yet validated
//

int True = 1;
int False = 0;
"; Line "int solvable_pose = True;"; Line "// declare variables in solutions"; Line (var_decl vars); Line "";
   Line "// declare constant parameters (note they will need values!)"; Line (par_decl ps)].
(** output_cpp.py:237-279: everything after them *)
Definition cpp_tail (groups : list row) : list cmd :=
  [Line "
//##################################
//#
//#package the solutions into a list for each set
//#
//###################################
"; Line "//(note trailing commas allowed in C++
"] ++ cpp_rows groups ++ [Line "

"; Line "// return 1 for solved, 0 for no solution"; Line "return(solvable_pose);"; Pop].
(** output_cpp.py:56-282: the calls made on the cpp_output object; [vars]: the set of the names in the rows, in iteration
    order; None: an index error *)
Definition cpp_cmds (r : robot) (vars : list string) (groups : list row) : option (list cmd) :=
  match mapM (fun n => match node_eqns r n with None => None | Some qs => Some (cpp_node n qs) end) (r_nodes r) with
  | None => None
  | Some ns => Some (cpp_head (fixed_name r) vars (map fst (r_params r)) ++ List.concat ns ++ cpp_tail groups)
  end.
(** the lines of the generated C++ file *)
Definition output_cpp_code (r : robot) (vars : list string) (groups : list row) : option cpp :=
  match cpp_cmds r vars groups with None => None | Some ms => Some (run_cpp ms (Cpp [] 0)) end.
End Cpp.

Section Py.
Variable show : expr -> string.
(** * ikbtfunctions/output_python.py:164-395.  A string stands for one print(..., file=f) (the newline print adds is left
      out; a string can contain several lines) *)
Definition ind : string := "    ".
(** output_python.py:273, the regular expression search and its .group(0): from the first '(' to the last ')'.  None: no match, .group raises *)
Fixpoint last_close (s : string) : option string :=
  match s with EmptyString => None | String c t => match last_close t with Some u => Some (String c u) | None => if Ascii.eqb c ")" then Some ")" else None end end.
Fixpoint parens (s : string) : option string :=
  match s with EmptyString => None | String c t => if Ascii.eqb c "(" then match last_close t with Some u => Some (String c u) | None => None end else parens t end.
(** output_python.py:267-286, one version *)
Definition py_version (n : node) (q : kequation) : option (list string) :=
  let rhs := show (k_rhs q) in
  let a := assign_text show q in
  let plain := (if contains "atan" rhs then [append ind a] else []) ++ (if String.eqb (n_method n) "algebra" then [append ind a] else []) in
  if contains "asin" rhs || contains "acos" rhs then
    match parens rhs with
    | None => None
    | Some g => Some ([append (append ind "if (solvable_pose and abs ") (append g "  > 1):"); append (append ind ind) "solvable_pose = False"; append ind "else:"; append (append ind ind) a] ++ plain)
    end
  else Some plain.
(** output_python.py:261-286, one node *)
Definition py_node (r : robot) (n : node) : option (list string) :=
  match node_eqns r n with
  | None => None
  | Some qs => match mapM (py_version n) qs with None => None | Some vs => Some ([nls; append (append ind "#Variable:  ") (n_name n)] ++ List.concat vs) end
  end.
(** output_python.py:306-323 *)
Definition py_row (g : row) : list string :=
  [append ind "#(note trailing commas allowed in python"; append ind "solution_list.append( [ "] ++ map (fun v => append v ", ") (sort g) ++ ["] )"].
(** output_python.py:191-200 *)
Definition py_params (r : robot) : string :=
  append nls (concat_s (map (fun p => append (fst p) (append (if r_pvals r then append " = " (append (snd p) nls)
    else append " = XXXXX    # deliberate undeclared error!  USER needs to give numerical value " nls) "")) (r_params r))).
(** output_python.py:166-259 *)
Definition py_head (r : robot) : list string :=
  [append "#!/usr/bin/python
#  Python inverse kinematic equations for " (append (r_name r) "

import numpy as np
from math import sqrt
from math import atan2
from math import cos
from math import sin
from math import acos
from math import asin

pi = np.pi

");
"
# Auto Generated Code to solve the unknowns
#        parameter:  T   4x4 numerical target for T06
#
"; append "def ikin_" (append (fixed_name r) "(T):"); append ind "if(T.shape != (4,4)):"; append (append ind ind) "print ( ""bad input to ""+funcname)"; append (append ind ind) "quit()";
"#define the input vars 
    r_11 = T[0,0]
    r_12 = T[0,1]
    r_13 = T[0,2]
    r_21 = T[1,0]
    r_22 = T[1,1]
    r_23 = T[1,2]
    r_31 = T[2,0]
    r_32 = T[2,1]
    r_33 = T[2,2]
    Px = T[0,3]
    Py = T[1,3]
    Pz = T[2,3]

#
# Caution:    Generated code is not yet validated
#

    "; "#  Declare the parameters"; py_params r;
   append ind "print ( "" Caution - this code has no solution checking."")"; append ind "print (""in case of domain errors, change the test position / orientation "")";
   append ind "print ( "" to a pose reachable by your specific robot"")"; ind; append ind "solvable_pose = True"; append ind "
 
#############################################################
#
# Future reachable pose checking code (autogenerated) will go here
#
#    This code will check asin / acos args etc to determine
#
#        solvable_pose = True/False
#
#############################################################
 "].
(** output_python.py:288-330 (the test program of 332-390 that follows is not modelled) *)
Definition py_tail (groups : list row) : list string :=
  ["
##################################
#
#package the solutions into a list for each set
#
###################################
"; append ind "solution_list = []"] ++ List.concat (map py_row groups)
  ++ [append ind "if(solvable_pose):"; append (append ind ind) "return(solution_list)"; append ind "else: "; append (append ind ind) "return(False)"].
Definition output_python_code (r : robot) (groups : list row) : option (list string) :=
  match mapM (py_node r) (r_nodes r) with None => None | Some ns => Some (py_head r ++ List.concat ns ++ py_tail groups) end.
End Py.
