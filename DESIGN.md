# DESIGN — a Rocq (Coq 8.16.1) model of uw-biorobotics/IKBT

The source in /repo is read as text only. Everything below is about the Gallina
model in `rocq/theories`; the tie to the Python code is the file:line citation
carried by every definition.

## Layout (rocq/theories)

Model files contain definitions only; `*Spec` files the vocabulary of the statements; `*Facts`, `*Inv`, `*Hist`,
`*Sem`, `*Term`, `*Obs`, `*Total` files proofs; `Prop*` files the property theorems (names start with the property id);
`*Ex` files and `Example`s inside `Prop*` files show that the hypotheses are met by concrete, non-trivial cases.

| model | code | properties in |
|---|---|---|
| `BB.v` | b3/core/blackboard.py | `PropBB.v` C16 |
| `Engine.v` | b3: statuses, nodes, Tick, `_execute`, composites, decorators, actions, `BehaviorTree.tick` | `PropEngine.v`, `EngineMem.v`, `PropEngineEx.v` C01–C15, C18, C19 |
| `TreeIO.v` | `BehaviorTree.dump/load` | `PropTreeIO.v` C17 |
| `Expr.v` | expressions: syntax, evaluation over the reals (partial), has/occurs/subs/count_ops | |
| `Kin.v` | pykinsym.py, kin_cl.py mechanism: links, rotations, inverse, matrix equations, velocities, Jacobian, wrap_angle, approx | `PropKin.v` C36–C41, C49 |
| `Trig.v` | atan2 over the reals and the mathematics of each solver | |
| `Solver.v` | unknowns, set_solved, assigner, ranker, completion detector, the five solver leaves, x2z2, equation lists, substitution transform, sum_id, the IK tree | `PropLists.v` C20–C27, `PropSolvers.v` C29–C35, `PropHist.v` C23–C25, `PropComplete.v` C50 |
| `Soa.v` | sum-of-angles transform (ik_classes.py:367-547) | `PropSoa.v` C28, `PropEndToEnd.v` C51 |
| `SolSet.v` | create_solution_set, make_LHS_versions | `PropSolSet.v` C42, C43, C52 |
| `CodeGen.v` | output_cpp.py, output_python.py:164-330 | `PropCodeGen.v` C44, `PropCpp.v`, `PropCpp2.v` C45, `PropEmit.v` C46, C54, `PropLine.v` C53 |
| `PyFile.v` | the whole generated Python files: output_python.py:46-155 (FK) and 164-395 (IK with its test code) | `PropPy.v` C55–C58, `PropPyEx.v` |
| `Latex.v` | output_latex.py:39-505 (both reports), kin_cl.py:74-85, helperfunctions.py:33-34 | `PropLatex.v` C59, `PropLatexEx.v` |
| `TexFile.v` | class LatexFile (output_latex.py:41-72), the shipped LaTex/IK_preamble.tex and IK_close.tex as constants | `PropTexFile.v` C59 (whole files, file names) |
| `Program.v` | ikSolver.py from the command line to the files (82-113, 319-411), composing robot_params, the cache, preparation, the shipped tree and the generators; histories of runs, kills, other programs and edits | `PropProgram.v`, `PropProgramEx.v` C77; `PropFiles.v`, `PropFilesEx.v` C78 |
| (uses `Program.v`) | runs that are killed or raise while they write | `PropKill.v` C81 |
| `PolySimp.v` | a concrete simplifier (simpP, sympyP), not part of the code, within the contract `sympy_ok` | `WristEx.v` C80 |
| (uses `Solver.v`) | runs of the shipped tree without re-solving | `PropOnce.v` C23 |
| `FkOnly.v` | fkOnly.py from the command line to the files (86-142); histories of runs of both programs in one directory | `PropFkOnly.v`, `PropForward.v` C79 |
| `Session.v` | the calls of ikSolver.py:406-411 on one Robot object, in any order | `PropSession.v` C60, `PropLatexEx.v` |
| (Solver.v) | exceptions and completeness of the solver leaves | `PropCrash.v` C61, C62, `PropCrashEx.v`; `PropTanUse.v` C32 (what a recorded atan2 solution depends on) |
| `Matching.v` | matching.py:43-235 (all functions) | `PropMatching.v` C63 |
| `Robots.v` | ik_robots.py:33-643: every robot description (transcribed by tools/mk_robots.py, which reads the source as text) | `PropRobots.v`, `PropReach.v` C64, `RobotsEx.v` |
| `HashSet.v` | Python sets; equality and hashes of Edge, kequation | `PropEq.v` C48 |
| `Cache.v` | kinematics_pickle, check_the_pickle | `PropCache.v` C47 |
| `CacheConc.v` | the same functions as sequences of system calls of any number of processes | `PropConc.v`, `PropConcEx.v` C65 |
| (uses `SolSet.v`, `Solver.v`) | rows of the solution table as joint vectors | `PropRows.v`, `PropRowsEx.v` C66 |
| (uses `Solver.v`) | the equations reported per unknown (`eqntosolve`, `secondeqn`) | `PropExplain.v`, `PropExplainEx.v` C67 |
| (uses `SolSet.v`, `Solver.v`) | rows of the solution table against the reported equations | `PropSound.v` C69 |
| `PyRun.v` (uses `CodeGen.v`) | the body of the generated Python function as statements, and what running it does (names, exceptions, guards, returned list); reals for floats, the value of a guard is arbitrary | `PropPyRun.v`, `PropPyEnd.v`, `PropHead.v` (first statements; also C54) C70 |
| `NumFK.v` | numerical forward kinematics (dictionaries, Num_check) and `deg`; the abbreviations of the reports | `PropNumFK.v` C71, `PropSqueeze.v` C72, `PropRobotKin.v` C73 |
| `FKRun.v` (uses `PyFile.v`, `PyRun.v`) | the generated forward kinematics program as statements and what running it does (output_python.py:46-155); reals for floats | `PropFKRun.v` C74 |
| (uses `Solver.v`, `CodeGen.v`, `PyRun.v`) | the method texts recorded for the unknowns | `PropMethod.v`, `PropMethodPy.v` C75 |
| (uses `Latex.v`, `Session.v`) | contents of the inverse kinematics report | `PropReport.v`, `PropReportEx.v` C76 |
| `PropTree.v` (first part) | the tree ikSolver.py:125-243 builds, as nodes of Engine.v with the leaves of Solver.v; its blackboard | `TreeSem.v`, `PropTree.v`, `PropTreeEx.v` C68 |

## How each property is modelled and proved

- C01–C07: each composite/decorator `tick` branch by branch inside an interpreter `exec` (structural on the tree; fuel
  only for `max_loop < 0`). Specifications are small inductive relations ("left-to-right chain of executions").
- C08–C14: invariants by induction on the tree (nested induction principle) of an execution that carries an event
  trace; histories of ticks, resets and blackboard writes for the statistics.
- C15: a static bound function, a proof that no run is longer, independence of fuel.
- C16: refinement: blackboard operations vs. a flat map keyed by (scope, key).
- C17: `dump` as the code's explicit-stack DFS, `load` as the two passes; for every tree the result is the mirror image.
- C18: Wait/MaxTime with an arbitrary stream of clock readings.
- C19: `xrange` under Python 3 raises NameError: refuted; the intended (Python 2) algorithm is modelled separately and proved to resume.
- C20–C29: a heap of `unknown` records; histories are arbitrary lists of leaf runs that raise nothing (every run of the
  IK tree is one, `tree_runs`); invariants by induction on the history.
- C30–C35: soundness and completeness of each solver leaf over the reals, modulo 2·pi, for any sympy satisfying the contract.
- C36–C41, C49: matrices over R.
- C42–C43, C52: the table builder as list functions; induction on the list of nodes.
- C44–C46, C53, C54: the generators as functions to text; a small interpreter/lexer on the text is the specification.
- C55–C58: the specification is a small reading of Python's lexical rules (brackets, strings, comments, indentation stack, statements, identifiers) in `PropPy.v`; the texts of expressions are arbitrary balanced strings.
- C59: the specification is a scanner of LaTeX (groups, \left/\right, math, environments, verbatim, paragraph breaks) in `PropLatex.v`; proved section by section; for the whole file: a reader of preambles (comments, \documentclass, \usepackage, braces), computed on the shipped text. C60: an invariant over all histories of calls; the specification gives the output of each call from the number of reports before it.
- C61, C62: an invariant over all histories without re-solving (every equation of the one-unknown list has at most one unsolved unknown, no unsolved unknown is left identified by the atan2 solver, the solved unknowns are closed under dependency) makes set_solved total; each leaf is then executed symbolically. Assumption beyond `sympy_ok`: a coefficient has only symbols of the expression (holds of `sympy0`).
- C63: function by function; the order in which a set is listed is an arbitrary function (`listing`); invariant over the merge loop.
- C64: a boolean checker for the description, proved sound against the specification, evaluated on the 31 transcribed robots; all other strings by `C64_answers`. With C51 this gives a statement for every robot and joint vector; `RobotsEx.v` runs the whole pipeline on the Wrist robot.
- C47: histories of processes that can be killed at any point.
- C65: a world of files (contents as byte lists, names as links) and processes; one action is one system call of one process (a read or write moves any positive number of bytes), a kill, or a removal of a file; invariants over all schedules. The pickle format is a parameter: `codec_ok` says a dump followed by anything reads back and a strict prefix does not.
- C66 (`C66_numbers`): every combination is a row exactly when the later unknowns have one common number of solutions, at most the first one's; if it is 2 by C43_every_combination, if it is 1 because the rows restricted to the first column are its solutions (C42_restrict). Conversely a smaller number for the last unknown makes `row % nsols` skip solutions and a larger one raises (C43_raises).
- C66: the value of each unknown at a joint vector is that of one of its recorded solutions (C50; exactly, for the algebra solver); by induction on the order of solving, the row that takes these choices (C43) has the same values up to full turns, because the recorded solutions are periodic in the angles; composed with C51 for the pipeline.
- C67: an invariant of histories without re-solving: unsolved unknowns have nothing on record; each of the four solving ticks leaves an unknown whose reported equations give its solutions (value, angle or pair), computed leaf by leaf; solved unknowns are frozen (C24). That reported equations hold is part of the invariant of C36/C50 (`uinv`). The overwritten case is exhibited on a concrete run (`C67_report_refuted`).
- C68: a denotation of trees as programs on the world (a dozen lines); the engine's execution of a closed tree refines it, by nested induction on the tree with the open flags, the open-node stack and TotalCost as invariant; the shipped tree's denotation is the combinator program of Solver.v.
- C69: C43 (the value of an unknown in a row is that of one of its solutions at the row) composed with C67 (the reported equations are equivalent to being one of the solutions).
- C70: the generator is written a second time, producing statements; C70_text proves that its output, printed, is the text of `CodeGen.v`. Running: induction over the statements with the invariant that every defined version name has the value of its solution; the packaged names need the first unknown's solution names, which no statement assigns. The declarations of parameters before the body are C55; here the parameters are variables that may or may not be defined.
- C71: dictionary lemmas, then C38's T_06 theorem; sympy's substitution of numbers followed by N is a function `num` with the contract `num_ok` (a number it returns is the value at every assignment agreeing with the dictionary; it returns one when every symbol has a value), which is met by a concrete function (`num0_ok`). Decimal literals are exact; bounds on pi are from Machin's formula in the standard library. solChecker.py (a Python 2 script) is not modelled.
- C72: substituting equals keeps the value; a substitution of a name for a pattern leaves no occurrence of the pattern and makes none of another. Sympy's `subs` of the sums is structural in the model (it orders the terms itself).
- C73: the tables are checked by computation to be of the form C38, C40, C71 and C72 need; the motion of an unknown moves exactly its own row (C64_sound). C38 and C40 cover tables with division by a number (pi/2).
- C74: the text is split into lines and matched with the statements; the run is followed by induction over the parameter, joint and sum lines, with an environment that agrees with everything set so far; the value of T06 is C38, the catalogue is checked by computation; the refutations choose two values of the name that is not set.
- C75: induction over the history with an invariant relating each unknown's text, its solvability flags and its solutions, leaf by leaf; the Python consequence uses that substitution of version names does not remove calls of asin, acos, atan2. `shows_calls`: sympy's printer shows the functions an expression calls (met by the printer of the examples).
- C76: by C60 every report of a session is that of the final nodes with copies of the version equations; each item is then located as a substring of a section, and sections as substrings of the file; C23/C24/C75 give order, names, dependencies and non-empty methods.
- C77: a run is the cache run followed by `work`, whose writes are a prefix of the three file names; invariant over histories: the robot's cache file is absent, torn, or what its one description computes; a hit and a miss then work from the same view, except for the parameter list, which differs when an axis is inclined and which the report does not use.
- C78: a run that ends made the calls Create, Report, Python, Cplusplus on the solved state, so by C60 the files are the three generators' texts for one robot object with one copy of the version equations (`holds_files`); C23_shipped_tree gives the solver history (`orderly`), and C42, C70, C75, C76 and C51/C38 then apply. The state left by the solver is exhibited in each theorem. Example: the whole chain on C77's two-joint robot after C77's history; its function returns the joint values of every pose it is called with once d_1s1 is defined.
- C79: a run of fkOnly.py is the same as a list of events of `Program.v` (a run of another program on the cache and edits of its two files), so histories of both programs are histories of C77 (`C79_jobs`). The printed value: an invariant of sum_of_angles_transform (`tidy`) shows that every name it adds is th_ with a subscript of two or more joint numbers, so the shipped parameters' and joints' names are never among them, the text is that of C74_text, and a program with such sums prints what the program without them prints (`C79_sums_ignored`); C74_catalogue has the value. Examples: Puma (hypotheses met by computation), Raven-II run twice.
- C23 (`C23_once_iff`): by induction over the passes of the shipped tree, every leaf step only appends to the solution nodes; a step that appends an unknown which was solved already leaves a repetition for ever, and a step that does not is one of `runs1`. C66 and C78 use this form (the earlier sufficient condition, first unknown not identified as atan2-solvable, fails for the default robot).
- C80: the Wrist is run in the kernel with a concrete simplifier `sympyP` (`PolySimp.v`, proved within the contract), as in `EndToEndEx.v`; C78_files gives the written program, `versions80` its version equations. The geometry is proved separately over the reals: at the pose of (a, b, c) each of the two values of B gives a posture with the same pose, and the one with the right sign of the cosine is (a, b, c) (`branch`). Every execution of the version equations is computed symbolically (`runs80`, `stops80`).
- C81: the files a complete run writes are a prefix of the robot's three output files (`work_files`), which are different files; so a cut-off list of writes is computed file by file (`cut_files`). A missing value makes the dictionary access of output_python.py:195 raise, in every view that the cache can serve (`served_fresh`).
- C48: hash table with arbitrary hash function; histories of add and resize.
- C50, C51: if all leaf steps are exact, then every joint vector satisfying the equations is found by one choice of
  branches; composed with the kinematics for the whole pipeline.

Where the intended property is false of the code, the theorem named `..._refuted` exhibits a witness (or proves the
negation in general), and what does hold is proved for all inputs: C07, C10, C12, C13, C17, C19, C20, C23, C24, C26,
C28, C29, C33, C37 (numerical inverse), C39 (RPY4_N), C41, C42, C43, C44, C45, C46, C47, C48, C49 (transitivity), C52,
C53, C54, C55, C56, C57.

## sympy

sympy is external. The leaves take a record `sympy` of its operations (Solver.v). Theorems that need a property of them
take the hypothesis `sympy_ok` (SolverSpec.v), whose clauses say for example that `expand`, `simplify`, `collect` keep
the value of an expression wherever it is defined, that a successful `match` is a decomposition with the excluded atoms
absent, that `coeff` of an absent term is 0. `Sympy0.v` gives a concrete instance and proves it satisfies the contract,
so no theorem is vacuous because of it. The text sympy prints for an expression is a parameter `show` of the generators;
where a theorem needs it to be plain (no braces, no newline), that is a hypothesis about the expressions printed only.

## Simplifications

- uuids are natural numbers; `node.state` is one of 0..3; user leaves touch base memory and the world only;
  WalkTillDestination (not importable) is not modelled.
- floats are exact reals.
- the substitution dictionary of `alpha_subs`/`subs(dict)` is a sequence of single substitutions.
- a solution is kept as the tree that was built (sympy's automatic cancellation is not applied to it; it would only
  make the solution defined at more points).
- in Solver.v the IK tree's composites are function combinators (`seq2`, `prio2`, `or2`, `repeat_until_success`); that the
  engine (Engine.v) ticking the tree of nodes does the same is C68.
- after an exception the solver state is dropped, because nothing catches it.
- a solution node and its unknown are one record in SolSet.v (one node per unknown: C23).
- the iteration order of a Python set is a parameter (all orders).
- CPython sets use chaining instead of open addressing; the lookup rule is the same.
- cache: derived kinematics are a function of the request; C47 has sequential processes and abstract pickle content, C65 concurrent ones and bytes.
- messages on the terminal, BHdebug code and test code are not modelled.

## Not modelled

the solution graph drawing (graph2latex.py), the unit-test modules, updateL's printing, sympy itself.

## Trusted base

- Coq 8.16.1's kernel (and `vm_compute` where examples are computed).
- `Print Assumptions` at the end of the property files. Theorems of the engine half (`BB` … `PropTreeIO`) and of the purely
  combinatorial files are closed under the global context. Theorems that mention real numbers depend on the axioms of Coq's
  standard library: `ClassicalDedekindReals.sig_forall_dec`, `ClassicalDedekindReals.sig_not_dec`,
  `FunctionalExtensionality.functional_extensionality_dep` and, for some, `Classical_Prop.classic`. No other axioms.
- The reading of the Python source: the correspondence of the definitions with the cited lines was made by hand.
- `seeded/LOG.jsonl` records the wrong programs the theorems were tested against.
