(** The files of the LaTeX reports: class LatexFile (ikbtfunctions/output_latex.py) and the two files it reads, LaTex/IK_preamble.tex and
    LaTex/IK_close.tex, as shipped. *)
From Coq Require Import List String Ascii Bool Arith.
From Verif Require Import Expr Kin Solver SolSet CodeGen Latex.
Import ListNotations.
Local Open Scope string_scope.
Local Open Scope list_scope.
Local Open Scope nat_scope.

(** LaTex/IK_preamble.tex:1-79, one string per line, without the line ends *)
Definition preamble_lines : list string :=
  ["%% Default Latex document template";
   "%%";
   "%%  blake@rcs.ee.washington.edu";
   "";
   "\documentclass[letterpaper]{article}";
   "% \documentclass[letterpaper]{standalone}";
   "";
   "% Uncomment for bibliog.";
   "%\bibliographystyle{unsrt}";
   "";
   "\usepackage{graphicx}";
   "\usepackage{lineno}";
   "\usepackage{amsmath}";
   "\usepackage{hyperref}";
   "\usepackage{datetime}";
   "\usepackage{breqn}     %break up long equations marked by \begin{dmath}";
   "";
   "%\usepackage{fancyhdr}";
   "\usepackage{tikz}";
   "\usetikzlibrary{arrows,positioning,automata,shadows,fit,shapes}";
   " ";
   "%%%%%%%%%%%%%%%%%%%%%%%%%%%%%%%%%%%%%%%%5";
   "%";
   "%  Set Up Margins";
   "";
   "\setlength\oddsidemargin{0in}";
   "\setlength\evensidemargin{0in}";
   "\usepackage[left=0.98in, right=0.98in, top=1.0in, bottom=1.0in]{geometry}";
   "\linespread{0.894}  % 1.0 = single    1.6 = double";
   "%";
   "%%%%%%%%%%%%%%%%%%%%%%%%%%%%%%%%%%%%%%%%%%%%%%%%%%%";
   "";
   "%%%%%%%%%%%%%%%%%%%%%%%%%%%%%%%%%%%%%%%%%%%%%%%%%%%";
   "%";
   "% Useful style and math macros";
   "%";
   "";
   "";
   "\newcommand\Dfrac[2]{\frac{\displaystyle #1}{\displaystyle #2}}";
   "\newcommand\beq{\begin{equation}}";
   "\newcommand\eeq{\end{equation}}";
   "";
   "\newcommand\bmat{\begin{bmatrix}}";
   "\newcommand\emat{\end{bmatrix}}";
   "";
   "";
   "%%%%%%%%%%%%%%%%%%%%%%%%%%%%%%%%%%%%%%%%%%%%%%%%%";
   "%";
   "%         Page format Mods HERE";
   "%";
   "%Mod's to page size for this document";
   "\addtolength\textwidth{0cm}";
   "\addtolength\oddsidemargin{0cm}";
   "\addtolength\headsep{0cm}";
   "\addtolength\textheight{0cm}";
   "%\linespread{0.894}   % 0.894 = 6 lines per inch, 1 = ""single"",  1.6 = ""double""";
   "";
   "% header options for fancyhdr";
   "";
   "%\pagestyle{fancy}";
   "%\lhead{LEFT HEADER}";
   "%\chead{CENTER HEADER}";
   "%\rhead{RIGHT HEADER}";
   "%\lfoot{Hannaford, U. of Washington}";
   "%\rfoot{\today}";
   "%\cfoot{\thepage}";
   "";
   "";
   "";
   "% Make table rows deeper";
   "%\renewcommand\arraystretch{2.0}% Vertical Row size, 1.0 is for standard spacing)";
   "";
   "\begin{document} ";
   "";
   "";
   "";
   "";
   "";
   ""].

(** LaTex/IK_close.tex:1-4, one string per line, without the line ends *)
Definition close_lines : list string :=
  [" ";
   "";
   "\end{document}";
   ""].

(** s.endswith(p) *)
Definition ends_with (p s : string) : bool :=
  (String.length p <=? String.length s) && String.eqb (substring (String.length s - String.length p) (String.length p) s) p.
(** output_latex.py:42-46 *)
Definition latex_filename (fname : string) : string :=
  let f := append fname ".tex" in
  if ends_with ".tex.tex" f then substring 0 (String.length f - 4) f else f.
(** output_latex.py:84-88 and 402-406 *)
Definition solution_filename (r : robot) : string := latex_filename (append (append (append "LaTex/" "ik_solution_") (clean_name (r_name r))) ".tex").
Definition forward_filename (r : robot) : string := latex_filename (append (append (append "LaTex/" "fk_equations_") (clean_name (r_name r))) ".tex").
(** output_latex.py:51-56 and 70-72: f.readlines() keeps the line ends, and plines prints another one after each *)
Definition plines_read (l : list string) : string := concat_s (map (fun s => append (append s nls) nls) l).
(** output_latex.py:59-67 *)
Definition file_text (sections : list string) : string :=
  append (plines_read preamble_lines) (append (body_text sections) (plines_read close_lines)).
