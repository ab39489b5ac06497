{"id": "C01", "title": "Sequence short-circuits on the first non-SUCCESS child", "statement": "Ticking a Sequence executes its children left to right, each starting in the state the previous one left, stops at the first child whose status is not SUCCESS and returns that status; if every child succeeds it returns SUCCESS. Children to the right of the stopping child are not executed.", "quantifier": "every Sequence, every list of children (any nesting), every leaf behaviour, every blackboard/tick state", "why_tests_cant": "children can be arbitrary subtrees and leaves arbitrary stateful code; tests sample a few shapes", "anchors": ["b3/composites/sequence.py:Sequence.tick", "b3/core/basenode.py:BaseNode._execute"]}
{"id": "C02", "title": "Priority returns the first non-FAILURE child", "statement": "Ticking a Priority executes its children left to right, stops at the first child whose status is not FAILURE and returns it; returns FAILURE only when every child (possibly none) returned FAILURE. Children to the right of the stopping child are not executed.", "quantifier": "every Priority, every list of children, every leaf behaviour, every state", "why_tests_cant": "unbounded nesting and stateful leaves", "anchors": ["b3/composites/priority.py:Priority.tick"]}
{"id": "C03", "title": "OrNode executes all children and only ever says SUCCESS or FAILURE", "statement": "Ticking an OrNode executes every child exactly once in order, whatever they return, and returns SUCCESS iff at least one child did not return FAILURE (so a RUNNING or ERROR child is reported as SUCCESS), else FAILURE.", "quantifier": "every OrNode, every list of children, every leaf behaviour, every state", "why_tests_cant": "unbounded nesting and stateful leaves", "anchors": ["b3/composites/ornode.py:OrNode.tick"]}
{"id": "C04", "title": "Inverter swaps SUCCESS and FAILURE; twice is transparent", "statement": "An Inverter executes its child exactly once and returns FAILURE for SUCCESS, SUCCESS for FAILURE and any other status unchanged; without a child it returns ERROR. Inverter(Inverter(c)) returns exactly the status c returns.", "quantifier": "every child subtree, every leaf behaviour, every state", "why_tests_cant": "arbitrary child subtrees", "anchors": ["b3/decorators/inverter.py:Inverter.tick"]}
{"id": "C05", "title": "RepeatUntilSuccess retries exactly until the first non-FAILURE, at most max_loop times", "statement": "A freshly opened RepeatUntilSuccess(c, m) with m>=1 executes c k<=m times, every execution but the last returning FAILURE, stops after the first non-FAILURE or after m executions, and returns the status of the last execution. With m<0 it has no bound and returns only on a non-FAILURE. With m=0 it crashes (unbound local) instead of returning a status.", "quantifier": "every child, every max_loop, every leaf behaviour, every state", "why_tests_cant": "unbounded loop counts and stateful children", "anchors": ["b3/decorators/repeatuntilsuccess.py:RepeatUntilSuccess.tick"]}
{"id": "C06", "title": "RepeatUntilFailure and Repeater loop contracts", "statement": "A freshly opened RepeatUntilFailure(c,m), m>=1, executes c until the first non-SUCCESS or m times and returns the last status. A freshly opened Repeater(c,m), m>=0, executes c exactly m times unless an execution returns RUNNING/ERROR, and returns the last status (SUCCESS if m=0).", "quantifier": "every child, every max_loop, every leaf behaviour, every state", "why_tests_cant": "unbounded loop counts and stateful children", "anchors": ["b3/decorators/repeatuntilfailure.py", "b3/decorators/repeater.py"]}
{"id": "C07", "title": "Limiter limits the number of child completions", "statement": "A Limiter(c, m) executes its child for at most m completed (SUCCESS/FAILURE) runs over the life of the tree and returns FAILURE afterwards.", "quantifier": "every child, every m>=1, every sequence of ticks", "why_tests_cant": "needs all tick histories; the counter is reset whenever the node re-opens", "anchors": ["b3/decorators/limiter.py:Limiter"]}
{"id": "C08", "title": "Executing a subtree touches only that subtree (frame)", "statement": "Executing a node changes tick counters, cost and per-node blackboard memory only of nodes inside its subtree, and only in the executing tree's scope: all other nodes' counters and memory and all other trees' memory are unchanged. Consequently nodes skipped by a Sequence/Priority keep their tick counts.", "quantifier": "every tree, every leaf behaviour confined to base memory, every state", "why_tests_cant": "quantifies over all trees and all node ids not in the subtree", "anchors": ["b3/core/basenode.py:_execute", "b3/core/blackboard.py"]}
{"id": "C09", "title": "is_open reflects RUNNING", "statement": "After a node is executed, its 'is_open' flag in the blackboard is true iff it returned RUNNING; its open() hook runs exactly when the flag was not set before.", "quantifier": "every node of every tree, every leaf behaviour, every state, every history of ticks", "why_tests_cant": "history dependent: flag persists between ticks", "anchors": ["b3/core/basenode.py:_execute,_open,_close"]}
{"id": "C10", "title": "Open-node stack discipline", "statement": "No execution ever pops an empty open-node stack; the stack below the executed node is never disturbed; if no execution in a tick returned RUNNING the tree's recorded open_nodes is empty. (Intended: open_nodes lists exactly the nodes that are still open.)", "quantifier": "every tree, every leaf behaviour, every tick", "why_tests_cant": "the stack is popped blindly; only an invariant over all executions shows what is popped", "anchors": ["b3/core/tick.py:_enter_node,_close_node", "b3/core/behaviortree.py:tick"]}
{"id": "C11", "title": "Tick statistics are consistent", "statement": "For every node N_success <= N_ticks_all at all times, N_ticks_all equals the number of executions of that node, N_success the number that returned SUCCESS, node_count of a tick equals the number of node executions in it, tick_count the number of tree ticks.", "quantifier": "every tree, every history of ticks, every leaf behaviour", "why_tests_cant": "all histories", "anchors": ["b3/core/basenode.py:_tick", "b3/core/behaviortree.py:tick", "b3/core/tick.py"]}
{"id": "C12", "title": "prob() estimates the observed success ratio", "statement": "After at least one tick, prob() returns (successes)/(ticks) of that node.", "quantifier": "every node, every history of ticks", "why_tests_cant": "a counter that is read but never written is invisible to point tests of small histories; all histories needed", "anchors": ["b3/core/basenode.py:prob,_tick,p_reset,prob_state"]}
{"id": "C13", "title": "TotalCost accounting", "statement": "After any tick the blackboard's TotalCost has grown by exactly the sum, over all node executions in it, of the node's Cost right after its tick; a composite's Cost is the sum of the costs of the children it executed. (Intended: each executed leaf's Cost is counted once.)", "quantifier": "every tree, every cost assignment, every leaf behaviour, every history", "why_tests_cant": "all trees and all histories", "anchors": ["b3/core/basenode.py:_tick", "b3/core/blackboard.py:inc", "b3/composites/*.py"]}
{"id": "C14", "title": "Result log is faithful", "statement": "With log_flag=2 the log file gains exactly one 'S name' line per execution returning SUCCESS and one 'F name' line per execution returning FAILURE, in completion order, and nothing for RUNNING/ERROR; with log_flag=1 exactly the 'S' lines; with 0 nothing.", "quantifier": "every tree, every leaf behaviour, every history, every log_flag", "why_tests_cant": "order over all executions", "anchors": ["b3/core/basenode.py:_tick"]}
{"id": "C15", "title": "Behaviour-tree ticks terminate within a computable bound", "statement": "If every repeat decorator has a non-negative max_loop and no leaf raises, a tick terminates and executes at most a statically computable number of leaves; for the shipped IK tree the bound is a fixed number independent of the robot. Results do not depend on the interpreter's step budget.", "quantifier": "every tree with finite loop bounds, every leaf behaviour", "why_tests_cant": "termination is not testable", "anchors": ["b3/decorators/repeat*.py", "ikSolver.py:230-243"]}
{"id": "C16", "title": "Blackboard is a scoped last-write-wins map", "statement": "get(key,tree,node) returns the value of the latest set/inc on exactly that (key,tree,node) triple, or None if there was none; operations on other keys or scopes never interfere; get has no observable effect; a node scope without a tree scope means the base scope. inc on an int adds exactly the value, on a missing key or non-int it fails without changing anything.", "quantifier": "every sequence of set/get/inc operations over every key/scope", "why_tests_cant": "all operation histories", "anchors": ["b3/core/blackboard.py"]}
{"id": "C17", "title": "dump/load round-trip preserves the tree", "statement": "load(dump(t)) rebuilds the same tree: same ids, node classes, titles and the same child order.", "quantifier": "every tree with distinct node ids built from default-constructible node classes", "why_tests_cant": "all shapes; the order bug appears only with >=2 children", "anchors": ["b3/core/behaviortree.py:dump,load"]}
{"id": "C18", "title": "Wait and MaxTime deadlines", "statement": "A Wait returns RUNNING on every tick until the clock exceeds its opening time plus its duration and SUCCESS at the first tick after; it never returns anything else. MaxTime returns its child's status before the deadline and FAILURE after it (having still executed the child).", "quantifier": "every duration, every non-decreasing clock, every history of ticks", "why_tests_cant": "depends on all schedules of the clock", "anchors": ["b3/actions/wait.py", "b3/decorators/maxtime.py"]}
{"id": "C19", "title": "MemSequence/MemPriority resume at the running child", "statement": "A MemSequence (MemPriority) that returned RUNNING at child i resumes at child i on the next tick without re-executing earlier children.", "quantifier": "every list of children, every history, under the supported Python (3.8)", "why_tests_cant": "all histories", "anchors": ["b3/composites/memsequence.py", "b3/composites/mempriority.py", "README.md"]}
{"id": "C20", "title": "Assigner fairness", "statement": "Repeated ticks of the assigner visit unsolved unknowns round-robin: in any number of consecutive ticks equal to (number of unknowns + 1) with no state change in between, every unsolved unknown becomes the current unknown at least once; the assigner always succeeds. (Intended: it never hands out an already solved unknown while an unsolved one exists.)", "quantifier": "every non-empty list of unknowns, every counter value, every solved pattern", "why_tests_cant": "all lists and starting counters", "anchors": ["ikbtleaves/assigner_leaf.py:assigner.tick"]}
{"id": "C21", "title": "Completion detection", "statement": "The completion detector reports SUCCESS iff every unknown in the list is solved (with FailAllDone off), and FAILURE otherwise, and does not change any unknown.", "quantifier": "every list of unknowns", "why_tests_cant": "all lists", "anchors": ["ikbtleaves/comp_detect.py:comp_det.tick"]}
{"id": "C22", "title": "Ranker picks the better solution", "statement": "When both a sin/cos and an atan2 solution exist the ranker keeps the one with fewer solutions, on a tie sin/cos only if its first solution has strictly fewer variables; the kept solutions are exactly those of the chosen method; with exactly one method available it is kept; with none nothing changes.", "quantifier": "every unknown state", "why_tests_cant": "all combinations", "anchors": ["ikbtleaves/rank_leaf.py:rank.tick"]}
{"id": "C23", "title": "Each unknown is solved once, in a dense order, after its dependencies", "statement": "Along every history of solver ticks in which the atan2/arcsine step is never given an already solved unknown that was identified as atan2-solvable: each solved unknown appears exactly once in the list of solution nodes, solve orders are exactly 1..k in that order, and every unknown a solution mentions, other than possibly its own, has a strictly smaller solve order (so the dependency graph without self-loops is acyclic); the edges of the dependency graph are exactly the recorded dependencies. A run of the shipped tree is such a history exactly when it lists no unknown twice in its solution nodes (for example whenever the first unknown is not identified as atan2-solvable). Finding: in general the shipped tree does not have this property - after a wrap-around the assigner hands the solved first unknown to the atan2 solver again, which solves it a second time - and a solution can mention its own unknown.", "quantifier": "every history of solver ticks (any order, any length) without re-solving; every run of the shipped tree", "why_tests_cant": "all solving histories", "anchors": ["ikbtbasics/kin_cl.py:unknown.set_solved", "ikbtleaves/rank_leaf.py", "ikbtleaves/tan_solver.py", "ikbtleaves/assigner_leaf.py"]}
{"id": "C24", "title": "Solved is for ever; solution counts and names are consistent", "statement": "Once an unknown is solved it never becomes unsolved, in any history. In every history without re-solving (C23) nothing recorded about a solved unknown changes any more, its nsolutions equals its number of solutions (>=1), solutionNames are name+'s1'..name+'sN' (distinct), nversions is nsolutions times the product of its dependencies' nsolutions, and versionNames has nversions entries cycling through solutionNames. Finding: when an unknown is solved again its recorded solutions change and its names are appended to.", "quantifier": "every history of solver steps", "why_tests_cant": "all histories", "anchors": ["ikbtbasics/kin_cl.py:unknown.set_solved"]}
{"id": "C25", "title": "A dependency set contains exactly the solved unknowns occurring in the solutions", "statement": "get_deps returns exactly the unknowns of the list occurring in the expression and fails iff one of them is unsolved; after any history of solver ticks a recorded solution mentions only solved unknowns, and a solved unknown has at least one solution.", "quantifier": "every expression, every unknown list; every history of solver ticks", "why_tests_cant": "all expressions", "anchors": ["ikbtfunctions/helperfunctions.py:get_deps,count_unknowns,get_unknowns"]}
{"id": "C26", "title": "Equation lists classify by number of unsolved unknowns", "statement": "scan_for_equations puts an equation into the 1-unknown, 2-unknown or 3+ list exactly according to the number of unsolved unknowns counted on its left plus on its right side; every matrix equation element with >=1 is in exactly one list; matrix equations appear at most once per list; equations with none are dropped. (Intended: the number of distinct unsolved unknowns of the equation.)", "quantifier": "every robot equation set, every unknown list", "why_tests_cant": "all equation sets", "anchors": ["ikbtbasics/ik_classes.py:Robot.scan_for_equations,scan_Mequation", "ikbtleaves/updateL.py"]}
{"id": "C27", "title": "Equation ranking is a stable sort by complexity", "statement": "erank returns a permutation of its input sorted by non-decreasing operation count, equations of equal count keeping their relative order.", "quantifier": "every equation list", "why_tests_cant": "all lists", "anchors": ["ikbtbasics/ik_classes.py:erank"]}
{"id": "C28", "title": "Sum-of-angles rewriting preserves meaning and registers each new angle once", "statement": "Replacing sin/cos(th_x+th_y(+th_z)) by sin/cos of a fresh angle with definition th_xy = th_x+th_y(+th_z) leaves every element of every matrix equation with its value for every joint assignment that satisfies the added definitions, and every joint assignment extends to one that does; the new angles have distinct subscripts, are all added to the unknowns with a definition each, and - when no left-hand side contains a sum - exactly once. (Findings: a sum first met on a left-hand side is listed and defined twice and then counted as two unknowns; once a sum was found in an expression, a single joint variable not called th_<index> is renamed to an undefined symbol; the leaf sum_id raises whenever a sum is left.)", "quantifier": "every equation, every joint assignment, every sequence of rewrites", "why_tests_cant": "all expressions and real values", "anchors": ["ikbtbasics/ik_classes.py:sum_of_angles_transform,sum_of_angles_sub", "ikbtleaves/sum_id.py"]}
{"id": "C29", "title": "Substitution transform preserves solutions and terminates", "statement": "Replacing an occurrence of one right-hand side inside another equation's right-hand side by the corresponding left-hand side keeps the set of solutions of the equation system, only happens when it strictly lowers the number of unknowns, and the rescan loop terminates.", "quantifier": "every matrix equation, every unknown list, every real assignment", "why_tests_cant": "all systems; termination", "anchors": ["ikbtleaves/sub_transform.py"]}
{"id": "C30", "title": "Algebra solver is sound and complete", "statement": "For an equation A*u + B = L with A != 0 and A,B,L free of u, the stored solution (L-B)/A is the unique value of u that satisfies it; it never mentions u.", "quantifier": "every equation the identifier accepts, every real assignment with A != 0", "why_tests_cant": "real-valued universality", "anchors": ["ikbtleaves/algebra_solver.py"]}
{"id": "C31", "title": "arcsin/arccos solver: both branches, and no others", "statement": "For A*sin(u)+B = L with A != 0 and |(L-B)/A|<=1 both stored solutions satisfy the equation and every u satisfying it is one of them modulo 2*pi; same for cos. The stored solutions do not mention u.", "quantifier": "every equation the identifier accepts, every real assignment in range", "why_tests_cant": "real-valued universality and completeness", "anchors": ["ikbtleaves/sincos_solver.py"]}
{"id": "C32", "title": "atan2 solver is sound", "statement": "From A1*sin(u)+B1=L1 and A2*cos(u)+B2=L2 with known A1,A2 the stored atan2 solution equals u modulo 2*pi for every u satisfying both; when the coefficients share an unsolved unknown factor the two stored candidates contain u modulo 2*pi under the recorded sign assumption. The solver records one solution exactly when every unknown in the coefficient of the sine is solved and two otherwise, and the value of each recorded solution does not depend on any unknown that is still unsolved.", "quantifier": "every pair of equations the identifier accepts, every history of solver steps, every real assignment", "why_tests_cant": "real-valued universality", "anchors": ["ikbtleaves/tan_solver.py"]}
{"id": "C33", "title": "A sin + B cos = C solver: both branches, and no others", "statement": "For A*sin(u)+B*cos(u)=C with A^2+B^2 != 0 and C^2 <= A^2+B^2, both stored solutions satisfy the equation and each solution is one of them modulo 2*pi, in both the C=0 and C!=0 cases. The two values can be computed before the unknown is known: where the coefficients A and B do not depend on the unknown, setting the unknown to either value computed from the other quantities makes the equation hold.", "quantifier": "all reals A,B,C in range", "why_tests_cant": "real-valued universality", "anchors": ["ikbtleaves/sinANDcos_solver.py"]}
{"id": "C34", "title": "Simultaneous-equation solver is sound and complete", "statement": "For A*cos(u)-B*sin(u)=C... pair (in the canonical form the code checks) with C,D not both zero, the stored atan2 solution satisfies both equations whenever they are consistent and equals every common solution modulo 2*pi.", "quantifier": "all reals", "why_tests_cant": "real-valued universality", "anchors": ["ikbtleaves/two_eqn_m7.py"]}
{"id": "C35", "title": "Sum-of-squares transform is sound", "statement": "Every joint assignment satisfying the two original equations satisfies the added equation l1^2+l2^2 = r1^2+r2^2; the converse fails, so it may introduce extraneous solutions but never loses one.", "quantifier": "all equation pairs, all real assignments", "why_tests_cant": "real-valued universality", "anchors": ["ikbtleaves/x2y2_transform.py"]}
{"id": "C36", "title": "Link transforms are rigid", "statement": "The link transform built from any DH row (alpha,a,d,theta) is a homogeneous rigid transform: orthonormal rotation block with determinant 1, bottom row 0,0,0,1; it equals RotX(alpha)*TransX(a)*RotZ(theta)*TransZ(d); products of such are rigid.", "quantifier": "all real DH parameters, any number of links", "why_tests_cant": "real-valued universality", "anchors": ["ikbtbasics/pykinsym.py:Link_S"]}
{"id": "C37", "title": "Homogeneous inverse is the inverse", "statement": "H_inv_S(T) is a two-sided inverse of every rigid transform T (and only uses the transpose of its rotation block), and is an involution.", "quantifier": "all rigid transforms", "why_tests_cant": "real-valued universality", "anchors": ["ikbtbasics/pykinsym.py:H_inv_S"]}
{"id": "C38", "title": "The generated matrix equations are equivalent to the forward kinematics", "statement": "Every matrix equation generated for a 6-link arm holds for a joint assignment and target pose iff T_01...T_56 = Td: no generated equation loses or adds joint solutions.", "quantifier": "all real DH parameters, joint values and rigid target poses", "why_tests_cant": "real-valued universality", "anchors": ["ikbtbasics/kin_cl.py:mechanism.get_mequation_set,forward_kinematics"]}
{"id": "C39", "title": "Elementary rotations and RPY are rotations", "statement": "RotX/Y/Z compose additively in the angle, are orthonormal with determinant 1, inverse is the negative angle; RPY and its 4x4 version are rotations.", "quantifier": "all real angles", "why_tests_cant": "real-valued universality", "anchors": ["ikbtbasics/pykinsym.py:RotX_S,RotY_S,RotZ_S,RPY3_S,RPY4_S"]}
{"id": "C40", "title": "The manipulator Jacobian reproduces the velocity recursion", "statement": "The 6x6 Jacobian applied to the joint-rate vector equals the stacked linear and angular velocity the recursion produced, for every velocity linear in the joint rates; the angular part of the recursion matches the derivative of the rotation.", "quantifier": "all joint rates, all coefficient values", "why_tests_cant": "real-valued universality", "anchors": ["ikbtbasics/pykinsym.py:ManipJacobian_S", "ikbtbasics/kin_cl.py:forward_kinematics"]}
{"id": "C41", "title": "Angle wrapping", "statement": "wrap_angle_N returns an angle congruent to its argument modulo 2*pi, inside [-pi,pi] for arguments within one turn of that interval. (Intended: for every argument.)", "quantifier": "all real angles", "why_tests_cant": "real-valued universality", "anchors": ["ikbtbasics/pykinsym.py:wrap_angle_N"]}
{"id": "C42", "title": "The solution table has one row per combination of branches", "statement": "For the unknowns the solver hands over, create_solution_set produces a rectangular table with one column per solved unknown in solve order, all rows distinct, with as many rows as the product of the numbers of solutions when no unknown after the first has more than two (always so for this solver); each row repeats, for every earlier unknown, the names of the row its own name was made for. In general the row count is n_1 * product of 2^(n_i - 1).", "quantifier": "every list of solved unknowns with any solution counts", "why_tests_cant": "all solution count combinations", "anchors": ["ikbtbasics/ik_classes.py:Robot.create_solution_set"], "finding": "the row count is not the product when an unknown after the first has three or more solutions"}
{"id": "C43", "title": "Every version equation uses a valid branch of its own unknown and covers all branch combinations", "statement": "make_LHS_versions raises exactly when some unknown has fewer solutions than the unknown solved last; otherwise it yields for every row k and every unknown the equation name+'v'+k = one of that unknown's own solutions with every unknown replaced by its name in the row; if executed, each row's vector satisfies one recorded solution per unknown, and when every unknown has two solutions every combination of branches is in exactly one row, so no joint vector is lost. (Intended: for any solution counts.)", "quantifier": "every list of solved unknowns with any solution counts", "why_tests_cant": "all combinations", "anchors": ["ikbtbasics/ik_classes.py:Robot.make_LHS_versions"], "finding": "with mixed solution counts the code raises, or silently drops branches (the branch index is taken modulo the solution count of the LAST unknown, a leaked loop variable); a reachable solver state for which it raises is given"}
{"id": "C44", "title": "Generated solution rows are returned in a consistent column order", "statement": "In the generated Python and C++ the list of values of every solution row names the unknowns in one and the same order, the string order of their names, so column k is the same unknown in every returned solution (for names none of which extends another by digits or by a character sorting below 's' and 'v'). (Intended: the columns are the joints in order.)", "quantifier": "every solution set", "why_tests_cant": "all name sets and version numbers", "anchors": ["ikbtfunctions/output_python.py:output_python_code", "ikbtfunctions/output_cpp.py:output_cpp_code"], "finding": "the column order is the string order of the names, not the joint order: with a sum of angles th_23 comes before th_2 because the version letter s/v sorts after digits; for names that extend one another by such a character the order can differ between rows (witness)"}
{"id": "C45", "title": "C++ output fits its fixed array and has balanced blocks", "statement": "The generated C++ opens and closes the same number of braces, never closes one too many, writes each cell (row, column) of solution_list for each row and unknown exactly once and in order, and stays within the declared solution_list[64][6] exactly when there are at most 64 rows and at most 6 unknowns. (Intended: always stays within.)", "quantifier": "every solution set and output run", "why_tests_cant": "all sizes", "anchors": ["ikbtfunctions/output_cpp.py"], "finding": "a seventh unknown (any sum of angles) writes past the declared six columns"}
{"id": "C46", "title": "Every solved unknown is computed by the generated code", "statement": "Exact description of which versions of an unknown get an assignment in the generated Python and C++ according to the text of its solution method. (Intended: every version of every solved unknown gets an assignment to its own solution, whatever solver solved it.)", "quantifier": "every combination of solve methods", "why_tests_cant": "all combinations", "anchors": ["ikbtfunctions/output_python.py", "ikbtfunctions/output_cpp.py"], "finding": "C++ emits nothing at all for unknowns solved by the sinANDcos solver (a reachable state), and for exactly-arcsin/arccos unknowns emits the same assignment for all versions; Python emits nothing for method text with 'algebra' preceded by other text"}
{"id": "C47", "title": "The kinematics cache never serves a stale result", "statement": "In every history of runs (any robot definitions, any of them killed at any point, files removed at any time): a result that is served was computed by this run or by an earlier run for the same robot name and, if the program checks the DH table, from the same DH table; a checking run with another DH table is rejected; a served definition stays served until the file is removed; if joint variables and unknowns were the same the served kinematics equal a recomputation. (Intended: a served result always equals recomputing it from the requested definition.)", "quantifier": "every history of runs with arbitrary robot definitions", "why_tests_cant": "all histories of runs", "anchors": ["ikbtbasics/ik_classes.py:kinematics_pickle,check_the_pickle", "ikSolver.py", "solChecker.py", "ikbtbasics/kin_cl.py:mechanism.forward_kinematics"], "finding": "changed parameter values, joint variables or unknowns are silently ignored (only the DH table is compared); on a cache hit the parameters ca_i/sa_i of non-right alphas are missing from the robot's parameter list although the equations use them; solChecker.py does not check at all; a process killed while writing the file makes all later runs raise until the file is removed by hand"}
{"id": "C48", "title": "Equation and graph-edge equality", "statement": "Two edges are equal iff they have the same start, dependency and multiplicity, equal edges hash equally under any hash of symbols, and after any history of additions and growth the edge set holds each added edge exactly once (an edge and its reverse always collide but both are kept); two equations that compare equal have equal values on both sides wherever defined, and comparison is an equivalence relation if sympy reduces a difference to 0 exactly for equal canonical forms. (Intended also: equal equations hash equally.)", "quantifier": "all equations, all edges", "why_tests_cant": "all pairs", "anchors": ["ikbtbasics/kin_cl.py:kequation.__eq__,__hash__", "ikbtbasics/solutionGraphV3.py:Edge"], "finding": "an equation's hash is that of its printed text: equal equations that print differently (1.0*x and x) may hash differently, so a set of equations can hold both"}
{"id": "C49", "title": "Approximate comparison", "statement": "approx_N(a,b) holds exactly when |a-b| is below 0.1% of the larger magnitude or below 1e-5; it is reflexive and symmetric (and not transitive).", "quantifier": "all reals a,b", "why_tests_cant": "real-valued universality", "anchors": ["ikbtbasics/pykinsym.py:approx_N"]}
{"id": "C50", "title": "No joint value that satisfies the equations is lost", "statement": "Whatever the solver does, at every assignment of the joint variables that satisfies the equations it was started with, the value of each solved unknown is (modulo a full turn) among its recorded solutions, if those are defined there; and when the tree succeeds every unknown is solved.", "quantifier": "every satisfiable equation system, every history of solver ticks, every joint assignment, every symbolic algebra back end meeting its contract", "why_tests_cant": "all assignments of real values and all solving histories", "anchors": ["ikSolver.py", "ikbtleaves/algebra_solver.py", "ikbtleaves/tan_solver.py", "ikbtleaves/sincos_solver.py", "ikbtleaves/sinANDcos_solver.py", "ikbtleaves/two_eqn_m7.py", "ikbtleaves/x2y2_transform.py", "ikbtleaves/sub_transform.py"]}
{"id": "C51", "title": "The IK pipeline finds every joint vector that reaches the pose", "statement": "For every DH table of six rows and every joint vector, take the pose that vector reaches: after forward kinematics, the sum-of-angles transform, the equation scan and the solver tree, each solved unknown's value is among its recorded solutions modulo a full turn (wherever these are defined), and when the tree reports success this holds for every joint.", "quantifier": "every DH table, every joint vector and parameter assignment, every behaviour of sympy within its contract", "why_tests_cant": "all robots, all real joint values", "anchors": ["ikSolver.py", "ikbtbasics/kin_cl.py:forward_kinematics,get_mequation_set", "ikbtbasics/ik_classes.py:sum_of_angles_transform,scan_for_equations", "ikbtleaves/"]}
{"id": "C52", "title": "Every name used by the version equations is defined", "statement": "In the version equations, every name of an unknown after the first used in a row is defined by exactly the equation of its number; the names of the first solved unknown that the rows and right-hand sides use (name+'s'+k) are defined by no equation, so the consumer has to define them from the first unknown's solutions.", "quantifier": "every list of solved unknowns handed over by the solver", "why_tests_cant": "all solution counts and histories", "anchors": ["ikbtbasics/ik_classes.py:Robot.create_solution_set,make_LHS_versions"], "finding": "the first unknown's names are never defined by the version equations"}
{"id": "C53", "title": "Rewriting of squares for C++ keeps the meaning of a line", "statement": "A line without ** is printed unchanged; the square of a symbol, and the square of a call of a three letter function with an argument without ')', is replaced by the product of two copies and nothing else in the line changes, wherever they occur. (Intended: every square in any solution text.)", "quantifier": "all lines of text", "why_tests_cant": "all expressions that a solution may print as", "anchors": ["ikbtfunctions/output_cpp.py:cpp_output.line"], "finding": "asin(x)**2, sqrt(x)**2, (a+b)**2, nested calls, x**23 and other powers come out wrong or unchanged (witnesses)"}
{"id": "C54", "title": "Names assigned in the generated C++ are declared", "statement": "Which of the version names the C++ program declares: of the first unknown exactly the name+'s'+k names, of later unknowns the name+'v'+k names up to the number of rows at the moment the unknown was processed. (Intended: every name assigned is declared.)", "quantifier": "all robots and solution sets", "why_tests_cant": "all solution sets", "anchors": ["ikbtfunctions/output_cpp.py:output_cpp_code"], "finding": "the first unknown is assigned under v names while its s names are declared and used: the program does not compile; versions of a middle unknown beyond its stage's row count are undeclared"}
{"id": "C55", "title": "The generated Python programs are lexically well formed", "statement": "The lines of the generated inverse kinematics program close every bracket and string on time and are consistently indented when the robot has no named parameters; the forward kinematics program always is. With at least one named parameter the inverse kinematics program is never consistently indented: it raises IndentationError. (Intended: always well formed.)", "quantifier": "all robots, solution sets, joint variables and texts of expressions (any balanced text)", "why_tests_cant": "all robots and all solution texts", "anchors": ["ikbtfunctions/output_python.py:output_python_code,output_FK_python_code"], "finding": "the parameters are printed in column 0 inside the function body, so the IK program of every robot with a length parameter is rejected by Python"}
{"id": "C56", "title": "The generated programs are Python 3", "statement": "No statement of the generated forward kinematics program uses the Python 2 print statement. (Intended also for the inverse kinematics program.)", "quantifier": "all robots, solution sets and printed texts", "why_tests_cant": "all robots", "anchors": ["ikbtfunctions/output_python.py:output_python_code,output_FK_python_code"], "finding": "every generated inverse kinematics program ends with print '' and is a syntax error in Python 3, which the README requires"}
{"id": "C57", "title": "The generated function has a legal name", "statement": "The function defined by the generated inverse kinematics program is called ikin_ followed by the robot name, and this is a Python identifier whenever the robot name consists of letters and digits; the test code of the program calls that function. With an underscore in the robot name it never is. (Intended: for every robot name.)", "quantifier": "all robot names", "why_tests_cant": "all strings", "anchors": ["ikbtfunctions/output_python.py:output_python_code", "ikbtfunctions/output_latex.py (LaTeX name repair)"], "finding": "an underscore becomes backslash underscore: Chair_Helper and other shipped robots give a syntax error"}
{"id": "C58", "title": "The forward kinematics program defines all its angles", "statement": "Between the robot parameters and the transform the forward kinematics program assigns every joint variable and then every sum of angles, each sum as the sum of exactly the joint variables named by its subscript, in order, and nothing else.", "quantifier": "all lists of joint variables and of sums of angles over them", "why_tests_cant": "all robots", "anchors": ["ikbtfunctions/output_python.py:output_FK_python_code"]}
{"id": "C59", "title": "LaTeX reports are well formed", "statement": "The body of the inverse kinematics report and of the forward kinematics report is well formed LaTeX: every group, \\left/\\right pair, math delimiter and environment is closed by its own closing, subscripts only in math, & only in alignments, no paragraph break inside math, verbatim closed; and the table of solutions declares exactly as many columns as each of its rows has. The file written is one complete document: the shipped preamble loads the packages all environments come from, followed by the body in one document environment; it is named after the robot and never replaces another report or a template.", "quantifier": "all robots, solution graphs, solution sets, versions and matrices whose printed expressions are balanced one-line math", "why_tests_cant": "all robots and all expressions", "anchors": ["ikbtfunctions/output_latex.py:output_latex_solution,output_FK_equations", "ikbtbasics/kin_cl.py:kequation.LaTexOutput", "ikbtfunctions/helperfunctions.py", "ikbtfunctions/output_latex.py:LatexFile", "LaTex/IK_preamble.tex,IK_close.tex"]}
{"id": "C60", "title": "The generators can be run in any order and repeatedly", "statement": "After a robot is solved, create_solution_set, the LaTeX report, the Python and the C++ generator can be called in any order and number: the table is the same after every create_solution_set, a code file depends on the calls before it only through the number of reports made, and two calls with the same number write the same file; a generator before create_solution_set raises. (Intended: the files do not depend on the history at all.)", "quantifier": "all histories of calls, all robots", "why_tests_cant": "unbounded histories of calls", "anchors": ["ikSolver.py (calls 406-411)", "ikbtbasics/ik_classes.py:Robot.create_solution_set,Robot.make_LHS_versions", "ikbtfunctions/output_latex.py:output_latex_solution", "ikbtfunctions/output_python.py:output_python_code", "ikbtfunctions/output_cpp.py:output_cpp_code"], "finding": "make_LHS_versions is called only by the LaTeX report and appends each time: code generated without a report before it contains no solution at all, and every further report duplicates all version equations in all later outputs"}
{"id": "C61", "title": "A solver that can solve the current unknown does", "statement": "The algebra, atan2, two-equation and sin-and-cos solvers each succeed exactly when the equation lists contain an equation (or pair) of the form they solve, and otherwise report failure; a solver that identifies an unknown does not then decline it, and the algebra and atan2 solvers change nothing when they fail. (Intended for the arcsin/arccos solver too.)", "quantifier": "all states reachable by any history of ticks, all equation lists", "why_tests_cant": "all equation lists and histories", "anchors": ["ikbtleaves/tan_solver.py:tan_id,tan_solve", "ikbtleaves/algebra_solver.py", "ikbtleaves/two_eqn_m7.py", "ikbtleaves/sinANDcos_solver.py", "ikbtleaves/sincos_solver.py:sincos_id,sincos_solve"], "finding": "sincos_id marks the unknown as identified by the first equation containing its sine or cosine; when sincos_solve cannot match that equation (e.g. sin(u)**2) the mark stays, and no other equation is ever tried by this solver"}
{"id": "C62", "title": "When the solver raises an exception", "statement": "A run of the solver raises an exception only if: there is no unknown at all; a sum of angles is left inside a sine or cosine; the unknown an arcsin/arccos equation is solved for also occurs outside the sine or cosine; the squared coefficients of a sin-and-cos equation cancel; an atan2 pair has a known sine coefficient and an unknown cosine coefficient; or an unknown solved before is handed to the atan2 solver again. The equation-list updates and the completion test never raise.", "quantifier": "all robots' initial states, all histories of ticks, all runs of the tree", "why_tests_cant": "all histories and robots", "anchors": ["ikSolver.py:ik_solve tree", "ikbtbasics/kin_cl.py:unknown.set_solved", "ikbtfunctions/helperfunctions.py:get_deps", "ikbtleaves/*.py"]}
{"id": "C63", "title": "Matching notations into poses", "statement": "matching_func returns either the longest given notation lists (when they have as many entries as there are unknowns), or groups each grown from a longest list: such a group keeps that list's notations, uses only given notations, and names every unknown at least once in solve order; each longest list is completed at most once; candidates are tried by decreasing score. If all given lists are consistent and share a notation of the first unknown, every grown group is a pose (exactly one notation per unknown) and the result does not depend on the hash seed. (Intended: without that condition, and no pose is missed.)", "quantifier": "all notation collections, all solution nodes, all set iteration orders", "why_tests_cant": "all collections and hash seeds", "anchors": ["ikbtbasics/matching.py:matching_func,search_notation,mark_off,sort_variables,sort_by_length"], "finding": "conflict tests skip the first unknown; a misspelt variable leaves a record stale; lists that meet in the first unknown only are never merged: groups with two values of one unknown, and missed poses"}
{"id": "C64", "title": "Robot descriptions are sound", "statement": "For every name: robot_params ends the program unless the name is listed; otherwise it returns a description with six links whose unknowns are different, number n being the moving quantity of link n (angle or offset as the joint kinds say) and of no other link, parameters that are not unknowns and all have values. (Intended also: every listed name has a description, every description can be asked for, every symbol is declared, six joint kinds are given.) Every described robot passes the solver's start-up assertions, and for every value of its joints and parameters the solver loses no solved joint value at the pose that is reached.", "quantifier": "all strings as names, all joint and parameter values, all runs of the tree", "why_tests_cant": "all names and all joint vectors", "anchors": ["ikbtfunctions/ik_robots.py:robot_params", "ikbtbasics/ik_classes.py:Robot", "ikbtbasics/kin_cl.py:mechanism.forward_kinematics"], "finding": "'Issue4' 'DZhang' without a comma makes DZhang unreachable and Issue4DZhang raise, as does Chair6DOF; Mackler13 uses the undeclared parameter h; MiniDD lists five joint kinds, so its forward kinematics raises IndexError"}
{"id": "C65", "title": "Concurrent runs sharing the kinematics cache", "statement": "For any number of processes that call the cached kinematics at the same time, with any interleaving of their system calls, any of them killed at any point and cache files removed at any time: when all have one definition of the robot and none is killed, the cache file is absent or complete whenever nobody is writing it; a process that is served gets what it would compute itself; when no file is opened for writing while another process has it open, a process is served its own result or that of a process for the same robot (with its DH table if it checks); once the file is complete every later run is served from it, in finitely many calls. (Intended: no run fails because another one is running. False: two first runs can fail in mkdir, a run can find the file it saw removed, a run can read a half-written file and raise, and with different definitions a run can be served a mixture of two objects.)", "quantifier": "all numbers of processes, schedules, crash points, removals, sizes of reads and writes, requests and contents", "why_tests_cant": "the schedules and crash points are unbounded, and the failures need particular interleavings", "anchors": ["ikbtbasics/ik_classes.py: kinematics_pickle, check_the_pickle"]}
{"id": "C66", "title": "The rows of the solution table contain every joint vector", "statement": "Give the solver any DH table and the pose reached by any joint vector. When it reports success, no recorded solution mentions its own unknown, the unknowns after the first have the same number of solutions and not more than the first, and each solution is defined there, then the output equations are produced, and however they are executed on that pose, one row of the solution table, read as a whole, is that joint vector: lengths exactly, angles up to full turns. (Exactly when the numbers of solutions are such does the program produce the equations with every combination of solutions in a row. Assumes that recorded solutions depend on angles only through sines, cosines and whole sums, and that lengths were found by the algebra solver.)", "quantifier": "all DH tables, joint vectors, poses reached, sympy behaviours within the stated contract, runs of the tree and executions of the equations", "why_tests_cant": "the joint vectors are a continuum, and the claim is about combinations of solutions of all unknowns in one row, for every run of the solver", "anchors": ["ikbtbasics/ik_classes.py: Robot.create_solution_set, Robot.make_LHS_versions", "ikSolver.py: the behaviour tree", "ikbtleaves/algebra_solver.py"]}
{"id": "C67", "title": "The equations reported as evaluated are the ones the solutions come from", "statement": "After a run the program prints, for every unknown, the equation(s) it was solved from. Every printed equation holds for every joint vector that satisfies the kinematic equations. For every solved unknown the printed equations determine exactly the recorded solutions: a printed equation holds exactly when the unknown is one of the solutions (a length exactly, an angle up to full turns), or the two printed equations together give the solution. Intended without exception; this is refuted: when an arcsin/arccos attempt that leads to nothing follows a successful atan2, its equation is printed in place of the first of the pair, and the printed pair does not give the solution.", "quantifier": "all equation systems, all sequences of solver ticks, all joint vectors, all sympy behaviours within the stated contract", "why_tests_cant": "the claim equates the set of solutions of an equation over the reals with the recorded ones, for every history of solver ticks that can leave the equations on record", "anchors": ["ikSolver.py: equations evaluated (415-424)", "ikbtleaves/rank_leaf.py: rank.tick", "ikbtleaves/tan_solver.py", "ikbtleaves/sincos_solver.py", "ikbtbasics/kin_cl.py: unknown.eqntosolve, unknown.secondeqn"]}
{"id": "C68", "title": "Ticking the shipped tree runs the solver pipeline that its wiring spells", "statement": "One tick of the behaviour tree ikSolver.py builds, on the blackboard it fills, runs the leaves in exactly the order the wiring spells - substitution first, then up to six rounds of assign, identify and the first tool that works, then the list update and the completion check, the whole up to ten times - and returns SUCCESS or FAILURE accordingly; an exception leaves the tick exactly when a leaf raises one, and the engine itself raises nothing and always terminates. The same is true of any tree a user wires from these leaves with Sequence, Priority, OrNode, Inverter and finite repeaters, ticked any number of times: its effect on the robot and its unknowns is a sequence of solver steps, so what is guaranteed for the shipped tree's steps is guaranteed for custom trees.", "quantifier": "all robots and equation systems, all sympy behaviours, all trees of these node classes of any size and depth, any number of ticks, all blackboard contents apart from TotalCost", "why_tests_cant": "a test ticks particular trees on particular robots; the claim equates the engine's bookkeeping (open flags, loop counters, costs) with the program the wiring spells for all trees and all leaf behaviours", "anchors": ["ikSolver.py: tree wiring (125-243), blackboard set-up (319-333)", "b3/core/basenode.py: BaseNode._execute", "b3/core/behaviortree.py: BehaviorTree.tick", "b3/composites", "b3/decorators"]}
{"id": "C69", "title": "Every row of the solution table satisfies the equations its unknowns were solved from", "statement": "Run the generated version equations on any pose and read any row of the solution table as a joint vector. For every unknown of the row that was solved from one reported equation, that equation holds at the row's joint vector (the other unknowns taken from the same row). For an unknown solved from a reported pair of equations, any value that fits the pair with the row's other values is one of the recorded solutions, and if there is a single solution and some value fits, the row's value fits. Intended: every row satisfies the whole equation system, i.e. reaches the pose. That is refuted: an arcsin solution that another equation excludes stays in the table, for every reachable non-singular pose.", "quantifier": "all equation systems, all sequences of solver ticks without re-solving, all poses, all rows, all sympy behaviours within the stated contract", "why_tests_cant": "ranges over all rows of all robots and all real-valued poses; a test checks a few rows numerically", "anchors": ["ikbtbasics/ik_classes.py: Robot.create_solution_set, Robot.make_LHS_versions", "ikbtleaves/sincos_solver.py", "ikbtleaves/tan_solver.py", "ikbtleaves/algebra_solver.py", "ikbtbasics/kin_cl.py: unknown.eqntosolve, unknown.secondeqn"]}
{"id": "C70", "title": "What the generated Python function returns", "statement": "Call the generated Python function ikin_<robot>(T). As generated it never returns: for every pose, every value of the parameters and whatever its abs(...) > 1 guards do, it raises, because the rows it packages name the solutions of the first solved unknown (<name>s1, ...) and no statement assigns them. With these names defined beforehand: whatever the function returns, there are values of all variables at which all version equations hold and every listed solution is defined, and the returned list is the table of solutions at these values, all vectors listing the unknowns in one fixed order; every returned vector answers the equations reported for its unknowns, and every joint vector that reaches the pose is in the list (under the conditions of the completeness property). It does return that list whenever every version is printed, all inputs are defined, the solutions are defined and the guards pass. A pose at which a listed solution is undefined (argument of asin or acos outside [-1,1], division by zero) makes it raise. Intended: the function returns the list of joint vectors for a reachable pose and False for an unreachable one; both are refuted.", "quantifier": "all runs of the solver, all robots, all 4x4 real poses, all parameter values, all guard behaviours, all ways of printing expressions", "why_tests_cant": "ranges over all generated programs and all real poses; a test runs one generated file on a few poses", "anchors": ["ikbtfunctions/output_python.py: output_python_code", "ikbtbasics/ik_classes.py: Robot.create_solution_set, Robot.make_LHS_versions"]}
{"id": "C71", "title": "Numerical forward kinematics", "statement": "forward_kinematics_N(M, pose, params): whenever it returns, the matrix is the forward kinematics of the robot's DH table, a rigid transform, at the values given, a value in params taking precedence over one in pose and symbols without a value having no influence; it quits (process exit) when a symbol without a value changes any entry, and it returns whenever every symbol of the table and every constant introduced for an inclined axis has a value. Intended: deg is one degree in radians; refuted: 360*deg falls short of a full turn by 10 microradians (the constant reads 6.28317531), so a joint at 180*deg is not turned by half a turn; the error of k*deg is at most 4e-8 radians per degree.", "quantifier": "all DH tables, all poses and parameter dictionaries (overlapping or incomplete), all angles", "why_tests_cant": "ranges over all tables and all real values; the error of deg is below the tolerance of the tests", "anchors": ["ikbtbasics/kin_cl.py: forward_kinematics_N", "ikbtbasics/pykinsym.py: deg, Num_check"]}
{"id": "C72", "title": "Abbreviations in the reports keep the meaning", "statement": "The abbreviated matrices of the reports (s_1 for sin(th_1), c_23 for cos(th_2+th_3), ...): read with the legend, every abbreviated matrix has the value of the matrix, so the T_06 and J66 printed in the report are the forward kinematics and the Jacobian; there is exactly one reading of the abbreviations for every assignment; matrices without names that are abbreviations and that are printed alike are equal; every sine and cosine that has an abbreviation is abbreviated. Refuted without the condition on names: a robot parameter called c_1 is printed like cos(th_1).", "quantifier": "all matrices of expressions, all assignments, all DH tables", "why_tests_cant": "ranges over all expressions and assignments", "anchors": ["ikbtbasics/pykinsym.py: notation_squeeze", "ikbtfunctions/output_latex.py: output_latex_solution, output_FK_equations"]}
{"id": "C73", "title": "Kinematics of every shipped robot", "statement": "For every robot robot_params returns: T_06 (and what the report shows for it) is the forward kinematics of its table; no table uses a name that is also an abbreviation of the reports; the numerical forward kinematics returns and is right when unknowns, parameters and inclined-axis constants have values (all robots but Mackler13, whose table has an undeclared symbol); and for every motion in which the unknowns move at rates qd_1, qd_2, ... and everything else stays, the computed link velocities are the derivative of the last frame's rotation and origin expressed in that frame, and J66 times the rates gives them (all robots but MiniDD, which raises).", "quantifier": "all robot names, all joint vectors and parameter values, all differentiable motions", "why_tests_cant": "ranges over all motions and all values of the symbols; the tests compare a few symbolic entries for one robot", "anchors": ["ikbtfunctions/ik_robots.py: robot_params", "ikbtbasics/kin_cl.py: mechanism.forward_kinematics"]}
{"id": "C74", "title": "What the generated forward kinematics program prints", "statement": "The forward kinematics program sets the parameters to their stored values, the joint variables to 1 and the sums of angles to their sums; when it runs to the end it prints the forward kinematics of the robot's table (a rigid transform) at exactly those values; it runs whenever every stored value only mentions parameters above it and every symbol of the transform is set, and raises when the forward kinematics depends on something it does not set. It runs for every shipped robot on a first run, except Mackler13 (a length of its table is not declared) and Wrist (its unknowns A, B, C have no subscript and get no line); from the second run on, when the mechanism comes from the cache, the program of a robot with an inclined axis (Raven-II) raises. Without stored values it raises at the first parameter.", "quantifier": "all robots and tables, all stored values, all joint variables and sums of angles, all values the unset names could have", "why_tests_cant": "ranges over all tables and values; the generated program is never run by the tests", "anchors": ["ikbtfunctions/output_python.py: output_FK_python_code", "ikbtbasics/kin_cl.py: mechanism.__init__ (287-300)", "ikbtfunctions/ik_robots.py: robot_params"]}
{"id": "C75", "title": "The recorded solution methods", "statement": "The method text of an unknown (solvemethod, printed in the report and used by the code generators) only grows, is made only of the solvers' names, and is never empty for a solved unknown. Its last name tells the formula of the stored solutions: algebra - a quotient; atan2(y,x) - one or two atan2; arcsin - asin(t) and pi - asin(t); arccos - acos(t) and -acos(t); best ranked, sin or cos - the pair named before; sinANDcos - the two sums of atan2; simultaneous eqn - one atan2. Exception (refuted): the name of an arcsin/arccos attempt that found nothing may follow the atan2 that succeeded. The text can be printed anywhere (one line, no braces, no brackets, no special characters). Consequence: every version of every solved unknown is written in the generated Python program, except possibly those of an unknown solved by algebra after another name was recorded for it; without such an unknown the generated program computes the whole solution table. In the generated C++ program only arcsin, arccos and sinANDcos solutions can be missing.", "quantifier": "all robots (equation systems), all sympy answers within the contract, all histories of solver ticks", "why_tests_cant": "ranges over all histories and equation systems", "anchors": ["ikbtleaves/algebra_solver.py: algebra_id", "ikbtleaves/sincos_solver.py: sincos_id", "ikbtleaves/tan_solver.py: tan_id", "ikbtleaves/sinANDcos_solver.py", "ikbtleaves/two_eqn_m7.py", "ikbtleaves/rank_leaf.py: rank", "ikbtbasics/kin_cl.py: unknown.solvemethod", "ikbtfunctions/output_python.py: output_python_code"]}
{"id": "C76", "title": "What the inverse kinematics report contains", "statement": "The LaTeX report of a solved robot, made at any point of any session of calls, lists every solved unknown in solution order; for each it has a part headed by its name and its (non-empty) solution method that shows every one of its solutions, each under the name recorded for it (the unknown's name with s1, s2), and a part that shows every version of it, one equation for every row of the solution table; an edge for every unknown that a solution mentions; every pose of the table, as a tuple and as a row of the LaTeX table; and the parameters, both sides of the forward kinematics and the Jacobian.", "quantifier": "all equation systems, all sympy answers within the contract, all histories of solver ticks without re-solving, all sessions of calls afterwards, all printers", "why_tests_cant": "ranges over all histories and sessions; the tests never look into a report", "anchors": ["ikbtfunctions/output_latex.py: output_latex_solution (79-387)", "ikbtbasics/kin_cl.py: kequation.LaTexOutput, unknown.set_solved", "ikbtbasics/solutionGraphV3.py: Edge.__repr__"]}
{"id": "C77", "title": "What runs of the program leave on disk", "statement": "python ikSolver.py with no argument solves Wrist; with two or more arguments, or an unknown robot, no file is touched. When the DH table differs from the one in the cache file the run stops and changes nothing; a description without the kinds of six joints (shipped: MiniDD) always raises. A run touches only its robot's cache file and its three output files (report, Python, C++), which for two robots are different files unless their names differ only by 'test: '. After any history of runs of the program (with any arguments, killed at any point), of other programs that use the cache, of removed cache files and of changed or removed output files, in which the robot had one description and no inclined axis: a run ends exactly as the first run in an empty directory does and leaves exactly the files that one leaves, unless the cache file is torn, which only a process killed while writing it can cause; then every run raises and changes nothing until somebody removes the file, after which runs are as in an empty directory. The report is so reproducible for every robot. (Intended for all files of every robot. False: with an inclined axis, the Python and C++ programs of the second run lack the constants ca_i, sa_i that they compute with.)", "quantifier": "all histories, command lines, kill points, catalogues, robots, sympy behaviours, printers, set iteration orders", "why_tests_cant": "histories and crash points are unbounded; tests start from a clean checkout", "anchors": ["ikSolver.py: main program", "ikbtbasics/ik_classes.py: kinematics_pickle, check_the_pickle", "ikbtfunctions/output_latex.py, output_python.py, output_cpp.py: file names"], "finding": "ikSolver.py:113 replaces R.params by the list of the description, so from the second run on the generated code of a robot with an inclined axis uses undeclared constants"}
{"id": "C78", "title": "From the command line to the joint vectors", "statement": "When a run of ikSolver.py ends (in a clean directory, or after any history as in C77), the three files in the directory are the report, the Python program and the C++ program of the unknowns as the solver left them: every solution of every solved unknown is in the report under its name and method, every pose of the table is, and every version equation is assigned in the Python and the C++ file (C75's exceptions apart). If no unknown is solved the run raises and writes none of the files. If the caller of the generated Python function defines the names of the first unknown's solutions as these solutions, the vectors it returns are vectors at which the solved unknowns answer the equations reported for them, with the given values of all inputs, and for every robot of the catalogue, every joint vector and parameters, when it is called with the pose they reach, one of the vectors is that joint vector (angles up to full turns), under the conditions of C66. (Intended without a definition by the caller. False: for every robot and every run that ends, the function in the written Python file raises for every pose, whatever the parameters.)", "quantifier": "all command lines, histories, catalogues, robots, joint vectors, parameters, poses, sympy behaviours within the contract, printers, set iteration orders", "why_tests_cant": "the statement composes the whole program with running its output on real-valued poses", "anchors": ["ikSolver.py: main program", "ikbtfunctions/output_python.py: output_python_code", "ikbtfunctions/output_cpp.py: output_cpp_code", "ikbtfunctions/output_latex.py: output_latex_solution", "ikbtbasics/ik_classes.py: create_solution_set, make_LHS_versions"], "finding": "every Python file that a finished run writes defines an ikin function that raises NameError for every pose"}
{"id": "C79", "title": "fkOnly.py from the command line to what its program prints", "statement": "python fkOnly.py with no argument works on Raven-II; with two or more arguments, or an unknown robot, no file is touched. A run touches only its robot's cache file, the file FK_equations<name>.py and the report fk_equations_<name>.tex, which are never output files of ikSolver.py and are different for two robots unless their names differ only by 'test: '. After any history of runs of both programs in one directory (any arguments, killed at any point), removed cache files and edited outputs, in which the robot had one description and no inclined axis and no run was killed while it wrote the cache: a run of either program ends as the first run in an empty directory does and leaves the files that one leaves; a torn cache file makes every run of both programs raise until somebody removes it; after the DH table has changed the run stops and changes nothing. The report is so reproducible for every robot. For every shipped robot but Mackler13, Wrist (C74) and MiniDD (which always raises), on a first run that ends preparing, the Python file is complete and its lines are a program that runs and prints a rigid transform: the forward kinematics of the robot's table at the stored parameters and all joint variables 1, whatever sums of angles were found. (Intended for every run. False from the second run on for a robot with an inclined axis, the default Raven-II among them: that run ends well too but the program it leaves raises NameError.)", "quantifier": "all histories of both programs, command lines, kill points, catalogues, shipped robots, sympy behaviours within the contract, one-line printers", "why_tests_cant": "histories and crash points are unbounded; the printed value quantifies over simplifiers and over the sums of angles found", "anchors": ["fkOnly.py: main program", "ikbtbasics/ik_classes.py: kinematics_pickle, check_the_pickle, sum_of_angles_transform", "ikbtfunctions/output_python.py: output_FK_python_code", "ikbtfunctions/output_latex.py: output_FK_equations"], "finding": "running fkOnly.py twice overwrites a working forward kinematics program of Raven-II with one that raises NameError (ca1 is not defined)"}
{"id": "C80", "title": "The default robot, from the command line to the joint vectors", "statement": "python ikSolver.py without arguments ends successfully in an empty directory, and after every history of kills, other robots, other programs and edited or removed files in which the robot kept its description and no run was killed while writing the cache. It leaves a Python file whose function, called with the pose of any joint vector (A, B, C) of the Wrist with cos B not 0 and with Bs1 and Bs2 defined as the two solutions the report gives for B, returns exactly two vectors: both reach the pose, and one is the joint vector up to full turns. (Intended for the function as it is written, with the values it computes itself. False: as written it raises for every pose, and if Bs1 and Bs2 are given the values the function computes for its versions Bv1 and Bv2 of B, it returns one vector twice and no joint vector with cos B < 0.)", "quantifier": "all joint vectors with cos B not 0, all histories of the directory", "why_tests_cant": "a continuum of joint vectors and unboundedly many histories", "anchors": ["ikSolver.py: main program", "ikbtfunctions/ik_robots.py: Wrist", "ikbtbasics/ik_classes.py: make_LHS_versions", "ikbtfunctions/output_python.py: output_python_code", "ikbtleaves/sincos_solver.py", "ikbtleaves/tan_solver.py"], "finding": "make_LHS_versions takes the number of solutions of the last solved unknown for every unknown (ik_classes.py:208-213): for the default robot, both versions of B use its first solution, and the second posture is lost"}
{"id": "C81", "title": "What a killed or failing run leaves", "statement": "A run of ikSolver.py that is killed after it has written k of its files (report, Python program, C++ program, in this order) leaves the first k exactly as the complete run leaves them, the next one incomplete if the process was killed while writing it and else as it was, the others and all other files as they were, and the cache of the complete run; it never reports success. If a parameter in a robot's description has no value while other parameters (or an inclined axis) have, then every run raises, after every history of the directory in which the description was the same: the C++ program is not touched and the Python program is untouched or left incomplete, although the report may be complete. Likewise for fkOnly.py with its two files (Python program, then report).", "quantifier": "all command lines, catalogues, kill points, directory contents and histories, sympy behaviours, printers", "why_tests_cant": "all crash points and histories; the three files of one run are written at different times, so a directory can hold a new report beside old programs", "anchors": ["ikSolver.py: main program", "ikbtfunctions/output_python.py: output_python_code", "ikbtfunctions/output_latex.py: output_latex_solution", "ikbtfunctions/output_cpp.py: output_cpp_code", "ikbtbasics/ik_classes.py: kinematics_pickle"]}
