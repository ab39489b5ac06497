(** The kinematics cache: kinematics_pickle and check_the_pickle (ikbtbasics/ik_classes.py:66-135), as used by ikSolver.py:101-117
    and, without the check, by solChecker.py:19-21.  One run is one process; a process can be killed at any point.
    Files are modelled by what pickle.load gives back: an incomplete file makes it raise.  Concurrent processes are not modelled. *)
From Coq Require Import Reals ZArith List String Bool Arith.
From Verif Require Import Expr Kin.
Import ListNotations.
Local Open Scope list_scope.
Local Open Scope nat_scope.

Section Cache.
(** type of joint variable vectors, unknown lists and derived kinematics (transforms, Jacobian, equations) *)
Context {V U K : Type}.
(** kin_cl.py:290 *)
Variable nice : expr -> bool.
(** mechanism.forward_kinematics (kin_cl.py:269-), Robot(m, rname), scan_for_equations and sum_of_angles_transform: they read the DH
    table, the joint variables and the unknowns; the unknowns are extended by the sums found.  None: an assertion fails *)
Variable fk : list (dhrow expr) -> V -> U -> option (K * U).

(** a robot definition, as robot_params returns it (ik_robots.py:638-), and its name *)
Record request := Req { q_name : string; q_dh : list (dhrow expr); q_params : list string; q_pvals : list (string * expr); q_vv : V; q_unks : U }.
(** kin_cl.py:250-265, class mechanism, with the derived kinematics (Mech and Robot objects) *)
Record mech := Mech { m_dh : list (dhrow expr); m_params : list string; m_pvals : list (string * expr); m_vv : V; m_kin : K }.
(** ik_classes.py:90-108: a run without a cache file.  forward_kinematics appends the ca/sa parameters to params and pvals
    (kin_cl.py:294-297); names assumed not to be in pvals already *)
Definition compute (q : request) : option (mech * U) :=
  match fk (q_dh q) (q_vv q) (q_unks q) with
  | None => None
  | Some (k, u) => Some (Mech (q_dh q) (q_params q ++ map fst (alpha_params nice 0 (q_dh q))) (q_pvals q ++ alpha_params nice 0 (q_dh q)) (q_vv q) k, u)
  end.
(** what the rest of the program works with; ikSolver.py:112-113: R.name = robot, R.params = params *)
Record view := View { v_mech : mech; v_unks : U; v_name : string; v_params : list string }.
Inductive outcome := Served (v : view) (hit : bool) | Rejected | LoadError | FkError | Killed.

(** ik_classes.py:118-135; sympy's != is structural *)
Definition row_eqb (a b : dhrow expr) : bool := expr_eqb (d_al a) (d_al b) && expr_eqb (d_a a) (d_a b) && expr_eqb (d_d a) (d_d b) && expr_eqb (d_th a) (d_th b).
Definition same_dh (a b : list (dhrow expr)) : bool := (List.length a =? List.length b) && forallb (fun p => row_eqb (fst p) (snd p)) (combine a b).

Inductive file := Absent | Partial | Full (m : mech) (u : U).
Definition store := string -> file.
Definition write (n : string) (f : file) (s : store) : store := fun n' => if String.eqb n n' then f else s n'.
(** when the process is killed *)
Inductive kill := Never | BeforeOpen | DuringDump | AfterDump.
(** One run.  [check]: the program calls check_the_pickle (ikSolver.py, fkOnly.py, forward_kin2.py) or not (solChecker.py).
    open(name,'wb') empties the file before pickle.dump writes it.  On a hit, params is the list of the request; on a miss it is
    the object forward_kinematics has appended to. *)
Definition run (s : store) (check : bool) (q : request) (k : kill) : store * outcome :=
  match s (q_name q) with
  | Partial => (s, match k with Never => LoadError | _ => Killed end)
  | Full m u => (s, match k with Never => if negb check || same_dh (m_dh m) (q_dh q) then Served (View m u (q_name q) (q_params q)) true else Rejected | _ => Killed end)
  | Absent =>
      match k with
      | BeforeOpen => (s, Killed)
      | _ =>
        match compute q with
        | None => (s, FkError)
        | Some (m, u) =>
            match k with
            | DuringDump => (write (q_name q) Partial s, Killed)
            | AfterDump => (write (q_name q) (Full m u) s, Killed)
            | _ => (write (q_name q) (Full m u) s, Served (View m u (q_name q) (m_params m)) false)
            end
        end
      end
  end.
(** the user removes a cache file *)
Inductive event := Run (check : bool) (q : request) (k : kill) | Remove (n : string).
Definition step (s : store) (e : event) : store := match e with Run c q k => fst (run s c q k) | Remove n => write n Absent s end.
Definition after (es : list event) : store := fold_left step es (fun _ => Absent).
End Cache.
Arguments Absent {V U K}. Arguments Partial {V U K}.
