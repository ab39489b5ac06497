(** The LaTeX reports: ikbtfunctions/output_latex.py.  A report is a list of sections, a section a string that is split into lines.
    The texts sympy prints (sp.latex) are parameters: [latex] for an expression, and the texts of the matrices.  The preamble and
    closing files (LaTex/IK_preamble.tex, IK_close.tex) are in TexFile.v: the sections are the body of the document. *)
From Coq Require Import Reals ZArith List String Ascii Bool Arith.
From Verif Require Import Expr Kin Solver SolSet CodeGen.
Import ListNotations.
Local Open Scope string_scope.
Local Open Scope list_scope.
Local Open Scope nat_scope.

(** * Strings *)
(** s.replace(pat, rep); the first argument bounds the number of steps (the length of the text is enough) *)
Fixpoint replace_all (pat rep : string) (fuel : nat) (s : string) : string :=
  match fuel with
  | 0 => s
  | S f => if String.prefix pat s then append rep (replace_all pat rep f (drop (String.length pat) s))
           else match s with EmptyString => "" | String c t => String c (replace_all pat rep f t) end
  end.
Definition replace (pat rep s : string) : string := replace_all pat rep (S (String.length s)) s.
(** helperfunctions.py:33-34 *)
Definition theta_expand (s : string) : string := replace "th_" "\theta_" s.
Definition is_digit (c : ascii) : bool := between "0" "9" c.
(** the longest run of digits at the start, and the rest *)
Fixpoint digits (s : string) : string * string :=
  match s with
  | EmptyString => ("", "")
  | String c t => if is_digit c then let '(d, r) := digits t in (String c d, r) else ("", s)
  end.
(** re.sub(r'_(\d+)', r'_{\1}', s) (for ASCII digits) *)
Fixpoint sub_digits_f (fuel : nat) (s : string) : string :=
  match fuel with
  | 0 => s
  | S f =>
      match s with
      | EmptyString => ""
      | String c t =>
          if Ascii.eqb c "_" then
            match digits t with
            | (EmptyString, _) => String c (sub_digits_f f t)
            | (d, r) => append "_{" (append d (append "}" (sub_digits_f f r)))
            end
          else String c (sub_digits_f f t)
      end
  end.
Definition sub_digits (s : string) : string := sub_digits_f (S (String.length s)) s.
(** str.splitlines() (for text whose only line separator is the newline): like split('\n') without a last empty line *)
Fixpoint drop_last_empty (l : list string) : list string :=
  match l with [] => [] | [x] => if String.eqb x "" then [] else [x] | x :: l' => x :: drop_last_empty l' end.
Definition splitlines (s : string) : list string := drop_last_empty (split_lines s).

Section Report.
Variable latex : expr -> string.     (* sp.latex of an expression *)
(** kin_cl.py:75-85: kequation.LaTexOutput *)
Definition LaTexOutput (align : bool) (q : kequation) : string :=
  let tab := if align then " &" else " " in
  replace "atan_{2}" "atan2" (sub_digits (append (theta_expand (latex (k_lhs q))) (append tab (append "= " (theta_expand (latex (k_rhs q))))))).
(** output_latex.py:215-216 and 264-265 (str.replace, so the 'regular expression' is a literal text) *)
Definition frac (s : string) : string := if contains "/" s then replace "(.+)=(.+)/(.+)" "\1 = \frac{\2}{\3}" s else s.
(** output_latex.py:155-157, 184-186, 237-239 *)
Definition var_tex (n : node) : string := sub_digits (theta_expand (append "$" (append (latex (Sym (n_name n))) "$"))).
(** output_latex.py:205-217, 254-266: the equations of a block; all but number [last] get a line break *)
Definition eqn_lines (align : bool) (last : nat) (qs : list kequation) : string :=
  concat_s (map (fun iq => append (frac (LaTexOutput align (snd iq))) (append " " (if align && (fst iq <? last) then "\\" else ""))) (enum qs)).
Definition block (align : bool) (n : node) (method : string) (last : nat) (qs : list kequation) : string :=
  append nls (append "\subsection{" (append (var_tex n) (append " } " (append nls (append "Solution Method: " (append method (append nls
    (append (if align then "\begin{align}" else "\begin{dmath} ") (append (eqn_lines align last qs)
    (append (if align then "\end{align} " else "\end{dmath} ") (append nls (append nls nls)))))))))))).

(** ** The sections *)
(** output_latex.py:92-107 and 410-425 *)
Definition intro (fk : bool) (name : string) : string :=
  append (if fk then "
    \begin{center}
    \section*{Forward Kinematic Computations for " else "
    \begin{center}
    \section*{Inverse Kinematic Solution for ") (append name (append (if fk then "}
    \today
    \end{center}
    \section{Introduction}
    This report gives the forward kinematics solutions for " else "}
    \today
    \end{center}
    \section{Introduction}
    This report describes closed form inverse kinematics solutions for ") (append name (if fk then ".
    These equations are automatically generated by the \href{https://github.com/uw-biorobotics/IKBT}{IK-BT package}
    from the University of Washington Biorobotics Lab.
    The IK-BT package is described in
    \url{https://arxiv.org/abs/1711.05412}.
    IK-BT derives your inverse kinematics equations
    using {\tt Python 3.8} and the {\tt sympy 1.9} module for symbolic mathematics.
    " else ".   The solution was generated by
    the \href{https://github.com/uw-biorobotics/IKBT}{IK-BT package}
    from the University of Washington Biorobotics Lab.
    The IK-BT package is described in
    \url{https://arxiv.org/abs/1711.05412}.
    IK-BT derives your  equations
    using {\tt Python 3.8} and the {\tt sympy 1.9} module for symbolic mathematics.
    ")))).
(** output_latex.py:111-116, 429-434; [dh]: sp.latex(Robot.Mech.DH) *)
Definition params_sec (dh : string) : string :=
  append "\section{Kinematic Parameters}
    The kinematic parameters for this robot are
    \[ \left [ \alpha_{i-1}, \quad a_{i-1}, \quad d_i, \quad \theta_i \right  ] \]
    \begin{dmath}" (append dh "\end{dmath}").
(** output_latex.py:123-143 and 438-458; [lhs]: sp.latex(ik_lhs()), [cols]: sp.latex of the four columns *)
Definition column_tex (fk : bool) (c : nat) (col : string) : string :=
  append "\mathrm{Column \quad" (append (str_of_nat (S c)) (append (if fk then "}\\
" else "}
") (append col "\\
"))).
Definition fk_sec (fk : bool) (lhs : string) (cols : list string) : string :=
  append "\section{Forward Kinematic Equations}
    The forward kinematic equations for this robot are:
\begin{dmath} 
" (append lhs (append (if fk then "= \\
" else " \\
") (append (concat_s (map (fun ic => column_tex fk (fst ic) (snd ic)) (enum cols))) "\end{dmath}
Note: column numbers use math notation rather than python indeces.
"))).
(** output_latex.py:147-163 *)
Definition unknowns_sec (nodes : list node) : string :=
  append "\section{Unknown Variables: }
The unknown variables for this robot are (in solution order): 
\begin{enumerate}
" (append (concat_s (map (fun n => append nls (append "\item {" (append (var_tex n) "}"))) nodes)) "\end{enumerate}
").
(** output_latex.py:169-226; [names n]: unknown.solutionNames.  None: index error *)
Definition generic_block (names : node -> list string) (n : node) : option string :=
  if String.eqb (n_method n) "" then Some ""
  else let align := 1 <? n_nsol n in
       match mapM (fun ie => match nth_error (names n) (fst ie) with None => None | Some v => Some (Keq (Sym v) (snd ie)) end) (enum (n_sols n)) with
       | None => None
       | Some qs => Some (block align n (n_method n) (n_nsol n - 1) qs)
       end.
Definition generic_sec (names : node -> list string) (nodes : list node) : option string :=
  match mapM (generic_block names) nodes with
  | None => None
  | Some bs => Some (append "\section{Solutions in Generic Form} 
 The following equations comprise solutions for each unknown.
" (concat_s bs))
  end.
(** output_latex.py:230-275 *)
Definition version_block (r : robot) (n : node) : option string :=
  if String.eqb (n_method n) "" then Some ""
  else match node_eqns r n with None => None | Some qs => Some (block true n (n_method n) (List.length (r_eqns r) - 1) qs) end.
Definition versions_sec (r : robot) : option string :=
  match mapM (version_block r) (r_nodes r) with
  | None => None
  | Some bs => Some (append "\section{Solutions to Generate all Versions} 
 The following equations are the full set of solutions for each unknown
    incorporating all combinations of dependencies.
" (concat_s bs))
  end.
(** solutionGraphV3.py:71-72: Edge.__repr__ *)
Definition edge_repr (e : string * string) : string :=
  append "Edge:" (append (fst e) (append " depends on: " (append (snd e) (append "  (" (append (fst e) (append "-->" (append (snd e) ")"))))))).
(** output_latex.py:279-301; the edges in the order in which the set is iterated *)
Definition edges_sec (edges : list (string * string)) : string :=
  append "\section{Solution Graph (Edges)} 

The following is the abstract representation of solution graph for this manipulator (nodes with parent -1 are roots).  Future: graphic representation. :
\begin{verbatim}
" (append (concat_s (map (fun ie => append (edge_repr (snd ie)) (if Nat.even (S (fst ie)) then nls else "     ")) (enum edges))) "\end{verbatim} 
").
(** str of a tuple of strings without quotes or backslashes *)
Definition tuple_repr (g : row) : string :=
  match g with
  | [x] => append "('" (append x "',)")
  | _ => append "(" (append (String.concat ", " (map (fun x => append "'" (append x "'")) g)) ")")
  end.
(** output_latex.py:306-320 *)
Definition sets_sec (groups : list row) : string :=
  append "\section{Solution Set}

The following are the sets of joint solutions (poses) for this manipulator:
\begin{verbatim}
" (append (concat_s (map (fun g => append (tuple_repr g) nls) groups)) "\end{verbatim}

").
(** output_latex.py:324-335; None: no solution, or an empty row *)
Definition table_row (g : row) : option string :=
  match g with
  | [] => None
  | v :: vs => Some (append "$" (append v (append "$" (append (concat_s (map (fun w => append " & $" (append w "$ ")) vs)) "\\\hline
"))))
  end.
Definition table_sec (groups : list row) : option string :=
  match groups with
  | [] => None
  | g0 :: _ => match mapM table_row groups with
               | None => None
               | Some ls => Some (append "\section{Solution Set v3} \begin{tabular}{" (append (append "|" (times (List.length g0) "l|")) (append "}\hline
" (append (concat_s ls) "\end{tabular}
"))))
               end
  end.
(** output_latex.py:361-384, 462-485; [cols]: sp.latex of the columns of the Jacobian *)
Definition jacobian_sec (fk : bool) (cols : list string) : string :=
  append "\newpage
\section{Jacobian Matrix}

\begin{dmath}
^6J_6  = \\
" (append (concat_s (map (fun ic => append (if fk then "\mathrm{Column \quad " else "\mathrm{ Column \quad") (append (str_of_nat (S (fst ic))) (append "}\\
" (append (snd ic) "
\\ 
")))) (enum cols))) "\end{dmath}
").

(** the texts of the matrices *)
Record matrices := Matrices { m_dh : string; m_lhs : string; m_cols : list string; m_jac : list string }.
(** output_latex.py:83-84, 401-402: the two replacements in the other order than in fixed_name *)
Definition tex_name (r : robot) : string := replace_us (clean_name (r_name r)).
(** output_latex.py:79-387: Robot.make_LHS_versions() has appended its rows to FinalEqnMatrix before the versions are printed ([r_eqns r]
    includes them); the table is printed from Robot.solutionSet, which is the [groups] argument (ikSolver.py:409) *)
Definition output_latex_solution (names : node -> list string) (r : robot) (edges : list (string * string)) (groups : list row) (m : matrices) : option (list string) :=
  match generic_sec names (r_nodes r), versions_sec r, table_sec groups with
  | Some gs, Some vs, Some ts =>
      Some [intro false (tex_name r); params_sec (m_dh m); fk_sec false (m_lhs m) (m_cols m); unknowns_sec (r_nodes r); gs; vs; edges_sec edges; sets_sec groups; ts; jacobian_sec false (m_jac m)]
  | _, _, _ => None
  end.
(** output_latex.py:397-487 *)
Definition output_FK_equations (r : robot) (m : matrices) : list string :=
  [intro true (tex_name r); params_sec (m_dh m); fk_sec true (m_lhs m) (m_cols m); jacobian_sec true (m_jac m)].
End Report.
(** output_latex.py:58-72: the text written between the preamble and the closing lines: LF.sections.append(s.splitlines()), print('\n\n'), plines *)
Definition body_text (sections : list string) : string :=
  concat_s (map (fun s => append (append nls (append nls nls)) (concat_s (map (fun l => append l nls) (splitlines s)))) sections).
