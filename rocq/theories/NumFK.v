(** Numerical forward kinematics (kin_cl.py:526-535, pykinsym.py:29-30, 71-83) and the abbreviations of the reports (pykinsym.py:111-170). *)
From Coq Require Import Reals ZArith List String Ascii Bool Arith.
From Verif Require Import Expr Kin.
Import ListNotations.
Local Open Scope string_scope.
Local Open Scope list_scope.

(** * forward_kinematics_N *)
(** a Python dictionary from symbols to numbers *)
Definition dict := list (string * R).
Definition dget (d : dict) (x : string) : option R := match find (fun p => String.eqb x (fst p)) d with Some p => Some (snd p) | None => None end.
Fixpoint dset (d : dict) (x : string) (v : R) : dict :=
  match d with [] => [(x, v)] | p :: t => if String.eqb x (fst p) then (x, v) :: t else p :: dset t x v end.
(** pp.update(params) *)
Definition dupdate (d d' : dict) : dict := fold_left (fun d p => dset d (fst p) (snd p)) d' d.
Section Num.
(** [num d e]: sp.N(e.subs(d)), if that is a number (Num_check, pykinsym.py:71-83, accepts 0, 1, -1, integers and floats); None: something symbolic is left *)
Variable num : dict -> expr -> option R.
Definition idx44 : list (nat * nat) := [(0,0);(0,1);(0,2);(0,3);(1,0);(1,1);(1,2);(1,3);(2,0);(2,1);(2,2);(2,3);(3,0);(3,1);(3,2);(3,3)]%nat.
(** kin_cl.py:526-535; [T06]: M.T_06.  None: Num_check quits (sys.exit) *)
Definition forward_kinematics_N (T06 : mat expr) (pose params : dict) : option (mat R) :=
  let pp := dupdate pose params in
  if forallb (fun ij => if num pp (T06 (fst ij) (snd ij)) then true else false) idx44
  then Some (fun i j => match num pp (T06 i j) with Some v => v | None => 0%R end) else None.
End Num.
(** pykinsym.py:29-30 (decimal literals as exact numbers) *)
Definition deg : R := (IZR 628317531 / IZR 100000000) / IZR 360.
Definition rad2deg : R := 1 / deg.

(** * notation_squeeze *)
(** pykinsym.py:135-147: the names th_1 .. th_6 with s_i, c_i;  150-162: the pairs *)
Definition singles : list string := ["1"; "2"; "3"; "4"; "5"; "6"].
Definition pairs : list (string * string) := [("1", "2"); ("2", "3"); ("3", "4"); ("4", "5"); ("5", "6"); ("1", "3")].
Definition th (i : string) : expr := Sym (append "th_" i).
Definition squeeze_subs : list (expr * expr) :=
  map (fun i => (Sin (th i), Sym (append "s_" i))) singles ++ map (fun i => (Cos (th i), Sym (append "c_" i))) singles
  ++ List.concat (map (fun ij => [(Cos (Add (th (fst ij)) (th (snd ij))), Sym (append "c_" (append (fst ij) (snd ij))));
                                  (Sin (Add (th (fst ij)) (th (snd ij))), Sym (append "s_" (append (fst ij) (snd ij))))]) pairs).
(** pykinsym.py:133-170.  The last statement hands sympy all the pairs at once; they are applied one after the other here (none occurs in another) *)
Definition notation_squeeze (T : mat expr) : mat expr := fun i j => subs_all squeeze_subs (T i j).
