(** The robots: ikbtfunctions/ik_robots.py (the data are transcribed by tools/mk_robots.py).  A name used in the function is the sympy
    symbol of the same name (all of them are bound: by the imports from pykinsym.py:124-127 and ik_classes.py:40-48, or by sp.var
    before they are used).  Floating point numbers are exact decimals; 0 and 0. are both Num 0. *)
From Coq Require Import Reals ZArith List String Bool Arith.
From Verif Require Import Expr Kin.
Import ListNotations.
Local Open Scope string_scope.
Local Open Scope list_scope.
Local Open Scope nat_scope.

(** the values of dh, vv, params, pvals, variables in a branch *)
Record robot_def := RobotDef { rd_dh : list (dhrow expr); rd_vv : list nat; rd_params : list string; rd_pvals : list (string * expr); rd_vars : list string }.
(** ik_robots.py:35-58, where 'Issue4' and 'DZhang' are adjacent string literals (no comma: one string) *)
Definition robot_names : list string := ["ICP5p5_A21"; "KR16"; "Issue4"; "UR5"; "Puma"; "Pumaoffset"; "Chair_Helper"; "Bartell"; "Brad"; "Sims11"; "ArmRobo"; "Wrist"; "Arm_3"; "MiniDD"; "Olson13"; "Stanford"; "Chair6DOF"; "Khat6DOF"; "Craig417"; "KawasakiRS05L"; "KawasakiRS007L"; "Khat6DOF"; "Raven-II"; "Wachtveitl"; "Frei13"; "Parkman13"; "Palm13"; "Minder13"; "Mackler13"; "Axtman13"; "Srisuan11"; "MiniDD"; "ICP5p5_A21"; "KR16"; "Issue4DZhang"; "JennyGuoSp24"].
Local Open Scope Z_scope.

(** ik_robots.py:67-83 *)
Definition r_JennyGuoSp24 : robot_def := RobotDef
  [DH (Div (Neg (PiE)) (Num 2)) (Num 0) (Sym "d_1") (Num 0);
   DH (Div (PiE) (Num 2)) (Num 0) (Sym "l_2") (Sym "th_2");
   DH (Div (PiE) (Num 2)) (Num 0) (Num 0) (Sym "th_3");
   DH (Num 0) (Sym "l_3") (Num 0) (Sym "th_4");
   DH (Num 0) (Sym "l_4") (Num 0) (Sym "th_5");
   DH (Num 0) (Num 0) (Num 0) (Num 0)]
  [0; 1; 1; 1; 1; 1]%nat
  ["l_2"; "l_3"; "l_4"]
  [("l_2", Num 1); ("l_3", Num 1); ("l_4", Num 1)]
  ["d_1"; "th_2"; "th_3"; "th_4"; "th_5"].
(** ik_robots.py:88-107 *)
Definition r_Raven_II : robot_def := RobotDef
  [DH (Num 0) (Num 0) (Num 0) (Sym "th_1");
   DH (Sym "al_1") (Num 0) (Num 0) (Sym "th_2");
   DH (Sym "al_2") (Num 0) (Sym "d_3") (Div (PiE) (Num 2));
   DH (Num 0) (Num 0) (Sym "ld_2") (Sym "th_4");
   DH (Div (PiE) (Num 2)) (Num 0) (Num 0) (Sym "th_5");
   DH (Div (PiE) (Num 2)) (Sym "ld_3") (Num 0) (Sym "th_6")]
  [1; 1; 0; 1; 1; 1]%nat
  ["ld_2"; "ld_3"; "al_1"; "al_2"]
  [("ld_2", Num (-470)); ("ld_3", Num 13); ("al_1", Div (Mul (PiE) (Num 75)) (Num 180)); ("al_2", Div (Mul (Sub (Num 180) (Num 52)) (PiE)) (Num 180))]
  ["th_1"; "th_2"; "d_3"; "th_4"; "th_5"; "th_6"].
(** ik_robots.py:110-128 *)
Definition r_Issue4 : robot_def := RobotDef
  [DH (Num 0) (Num 0) (Sym "ld_1") (Sym "th_1");
   DH (Div (Neg (PiE)) (Num 2)) (Sym "a_1") (Num 0) (Sym "th_2");
   DH (Num 0) (Sym "a_2") (Num 0) (Sym "th_3");
   DH (Div (PiE) (Num 2)) (Sym "a_3") (Sym "ld_2") (Sym "th_4");
   DH (Div (PiE) (Num 2)) (Num 0) (Sym "ld_3") (Sym "th_5");
   DH (Div (Neg (PiE)) (Num 2)) (Num 0) (Sym "ld_4") (Sym "th_6")]
  [1; 1; 1; 1; 1; 1]%nat
  ["ld_1"; "a_1"; "a_2"; "a_3"; "ld_2"; "ld_3"; "ld_4"]
  [("ld_1", Div (Num 112891) (Num 1000000)); ("a_1", Div (Num 12893) (Num 100000)); ("a_2", Div (Num 4191) (Num 5000)); ("a_3", Div (Num 8) (Num 125)); ("ld_2", Div (Num 923) (Num 2000)); ("ld_3", Div (Num 29) (Num 1000)); ("ld_4", Div (Num 209) (Num 500))]
  ["th_1"; "th_2"; "th_3"; "th_4"; "th_5"; "th_6"].
(** ik_robots.py:131-145 *)
Definition r_KR16 : robot_def := RobotDef
  [DH (Num 0) (Num 0) (Sym "l_1") (Sym "th_1");
   DH (Div (Neg (PiE)) (Num 2)) (Sym "a_1") (Num 0) (Sym "th_2");
   DH (Num 0) (Sym "a_2") (Num 0) (Sym "th_3");
   DH (Div (PiE) (Num 2)) (Sym "a_3") (Sym "l_3") (Sym "th_4");
   DH (Div (Neg (PiE)) (Num 2)) (Num 0) (Num 0) (Sym "th_5");
   DH (Div (PiE) (Num 2)) (Num 0) (Num 0) (Sym "th_6")]
  [1; 1; 1; 1; 1; 1]%nat
  ["a_1"; "a_2"; "a_3"; "l_1"; "l_2"; "l_3"; "l_4"]
  [("a_1", Num 1); ("a_2", Num 1); ("a_3", Num 1); ("l_1", Num 1); ("l_2", Num 1); ("l_3", Num 1); ("l_4", Num 1)]
  ["th_1"; "th_2"; "th_3"; "th_4"; "th_5"; "th_6"].
(** ik_robots.py:151-164 *)
Definition r_ICP5p5_A21 : robot_def := RobotDef
  [DH (Num 0) (Num 0) (Num 0) (Sym "th_1");
   DH (Num 0) (Sym "l_1") (Sym "d_2") (Num 0);
   DH (Div (PiE) (Num 2)) (Num 0) (Sym "l_2") (Sym "th_3");
   DH (Div (Neg (PiE)) (Num 2)) (Sym "l_3") (Num 0) (Sym "th_4");
   DH (Num 0) (Num 0) (Num 0) (Num 0);
   DH (Num 0) (Num 0) (Num 0) (Num 0)]
  [1; 0; 1; 1; 1; 1]%nat
  ["l_1"; "l_2"; "l_3"]
  [("l_1", Num 295); ("l_2", Num 105); ("l_3", Num 330)]
  ["th_1"; "d_2"; "th_3"; "th_4"].
(** ik_robots.py:167-179 *)
Definition r_KawasakiRS05L : robot_def := RobotDef
  [DH (Num 0) (Num 0) (Num 0) (Sym "th_1");
   DH (Div (PiE) (Num 2)) (Sym "l_2") (Num 0) (Sym "th_2");
   DH (Num 0) (Sym "l_3") (Num 0) (Sym "th_3");
   DH (Div (Neg (PiE)) (Num 2)) (Sym "l_4") (Num 0) (Sym "th_4");
   DH (Div (Neg (PiE)) (Num 2)) (Num 0) (Sym "l_5") (Sym "th_5");
   DH (Div (PiE) (Num 2)) (Num 0) (Num 0) (Sym "th_6")]
  [1; 1; 1; 1; 1; 1]%nat
  ["l_1"; "l_2"; "l_3"; "l_4"; "l_5"]
  [("l_1", Num 295); ("l_2", Num 105); ("l_3", Num 330); ("l_4", Num 80); ("l_5", Num 410)]
  ["th_1"; "th_2"; "th_3"; "th_4"; "th_5"; "th_6"].
(** ik_robots.py:181-193 *)
Definition r_KawasakiRS007L : robot_def := RobotDef
  [DH (Num 0) (Num 0) (Sym "l_1") (Sym "th_1");
   DH (Div (PiE) (Num 2)) (Num 0) (Num 0) (Sym "th_2");
   DH (Num 0) (Sym "l_2") (Num 0) (Sym "th_3");
   DH (Div (PiE) (Num 2)) (Num 0) (Sym "l_3") (Sym "th_4");
   DH (Div (Neg (PiE)) (Num 2)) (Num 0) (Num 0) (Sym "th_5");
   DH (Div (PiE) (Num 2)) (Num 0) (Num 0) (Sym "th_6")]
  [1; 1; 1; 1; 1; 1]%nat
  ["l_1"; "l_2"; "l_3"]
  [("l_1", Num 360); ("l_2", Num 355); ("l_3", Num 375)]
  ["th_1"; "th_2"; "th_3"; "th_4"; "th_5"; "th_6"].
(** ik_robots.py:195-215 *)
Definition r_ArmRobo : robot_def := RobotDef
  [DH (Div (PiE) (Num 2)) (Num 0) (Sym "l_2") (Sym "th_1");
   DH (Num 0) (Sym "l_1") (Num 0) (Sym "th_2");
   DH (Div (PiE) (Num 2)) (Num 0) (Num 0) (Sym "th_3");
   DH (Div (Neg (PiE)) (Num 2)) (Num 0) (Sym "l_3") (Sym "th_4");
   DH (Div (PiE) (Num 2)) (Num 0) (Num 0) (Sym "th_5");
   DH (Num 0) (Num 0) (Sym "d_6") (Num 0)]
  [1; 1; 1; 1; 1; 0]%nat
  ["l_1"; "l_2"; "l_3"]
  [("l_1", Div (Num 19681) (Num 100000)); ("l_2", Div (Num 251) (Num 1000)); ("l_3", Div (Num 145423) (Num 1000000))]
  ["th_1"; "th_2"; "th_3"; "th_4"; "th_5"; "d_6"].
(** ik_robots.py:218-232 *)
Definition r_Arm_3 : robot_def := RobotDef
  [DH (Num 0) (Sym "a_1") (Num 0) (Sym "th_1");
   DH (Num 0) (Sym "a_2") (Num 0) (Sym "th_2");
   DH (Num 0) (Sym "a_3") (Num 0) (Sym "th_3");
   DH (Num 0) (Num 0) (Num 0) (Num 0);
   DH (Num 0) (Num 0) (Num 0) (Num 0);
   DH (Num 0) (Num 0) (Num 0) (Num 0)]
  [1; 1; 1; 0; 0; 0]%nat
  ["a_1"; "a_2"; "a_3"]
  [("a_1", Num 1); ("a_2", Num 1); ("a_3", Num 1)]
  ["th_1"; "th_2"; "th_3"].
(** ik_robots.py:234-250 *)
Definition r_Brad : robot_def := RobotDef
  [DH (Num 0) (Num 0) (Sym "d_1") (Sym "th_1");
   DH (Div (PiE) (Num 2)) (Sym "l_2") (Num 0) (Sym "th_2");
   DH (Num 0) (Sym "l_3") (Num 0) (Sym "th_3");
   DH (Num 0) (Num 0) (Num 0) (Num 0);
   DH (Num 0) (Num 0) (Num 0) (Num 0);
   DH (Num 0) (Num 0) (Num 0) (Num 0)]
  [1; 1; 1; 0; 0; 0]%nat
  ["d_1"; "l_2"; "l_3"]
  [("d_1", Div (Num 3) (Num 50)); ("l_2", Div (Num 3) (Num 20)); ("l_3", Div (Num 3) (Num 20))]
  ["th_1"; "th_2"; "th_3"].
(** ik_robots.py:252-265 *)
Definition r_UR5 : robot_def := RobotDef
  [DH (Num 0) (Num 0) (Sym "d_1") (Sym "th_1");
   DH (Div (PiE) (Num 2)) (Num 0) (Num 0) (Sym "th_2");
   DH (Num 0) (Sym "a_2") (Num 0) (Sym "th_3");
   DH (Num 0) (Sym "a_3") (Sym "d_4") (Sym "th_4");
   DH (Div (PiE) (Num 2)) (Num 0) (Sym "d_5") (Sym "th_5");
   DH (Div (Neg (PiE)) (Num 2)) (Num 0) (Sym "d_6") (Sym "th_6")]
  [1; 1; 1; 1; 1; 1]%nat
  ["a_2"; "a_3"; "d_1"; "d_4"; "d_5"; "d_6"]
  [("a_2", Div (Num 17) (Num 40)); ("a_3", Div (Num 49) (Num 125)); ("d_1", Div (Num 89) (Num 1000)); ("d_4", Div (Num 109) (Num 1000)); ("d_5", Div (Num 19) (Num 200)); ("d_6", Div (Num 41) (Num 500))]
  ["th_1"; "th_2"; "th_3"; "th_4"; "th_5"; "th_6"].
(** ik_robots.py:268-281 *)
Definition r_Craig417 : robot_def := RobotDef
  [DH (Num 0) (Num 0) (Num 0) (Sym "th_1");
   DH (Div (Neg (PiE)) (Num 2)) (Num 0) (Num 0) (Sym "th_2");
   DH (Div (PiE) (Num 4)) (Num 0) (Sym "d_2") (Sym "th_3");
   DH (Num 0) (Sym "a_3") (Sym "d_3") (Sym "th_4");
   DH (Num 0) (Num 0) (Num 0) (Num 0);
   DH (Num 0) (Num 0) (Num 0) (Num 0)]
  [1; 1; 1; 1; 1; 1]%nat
  ["d_2"; "d_3"; "a_3"]
  [("d_2", Num 1); ("d_3", Num 1); ("a_3", Num 1)]
  ["th_1"; "th_2"; "th_3"; "th_4"].
(** ik_robots.py:286-299 *)
Definition r_Puma : robot_def := RobotDef
  [DH (Num 0) (Num 0) (Sym "d_1") (Sym "th_1");
   DH (Div (Neg (PiE)) (Num 2)) (Num 0) (Num 0) (Sym "th_2");
   DH (Num 0) (Sym "a_2") (Sym "d_3") (Sym "th_3");
   DH (Div (Neg (PiE)) (Num 2)) (Sym "a_3") (Sym "d_4") (Sym "th_4");
   DH (Div (Neg (PiE)) (Num 2)) (Num 0) (Num 0) (Sym "th_5");
   DH (Div (PiE) (Num 2)) (Num 0) (Num 0) (Sym "th_6")]
  [1; 1; 1; 1; 1; 1]%nat
  ["d_1"; "a_2"; "a_3"; "d_3"; "d_4"]
  [("d_1", Div (Num 3) (Num 5)); ("a_2", Div (Num 54) (Num 125)); ("a_3", Div (Num 203) (Num 10000)); ("d_3", Div (Num 249) (Num 2000)); ("d_4", Div (Num 54) (Num 125))]
  ["th_1"; "th_2"; "th_3"; "th_4"; "th_5"; "th_6"].
(** ik_robots.py:304-317 *)
Definition r_Pumaoffset : robot_def := RobotDef
  [DH (Num 0) (Num 0) (Sym "d_1") (Sym "th_1");
   DH (Div (Neg (PiE)) (Num 2)) (Num 0) (Num 0) (Sym "th_2");
   DH (Num 0) (Sym "a_2") (Sym "d_3") (Sym "th_3");
   DH (Div (Neg (PiE)) (Num 2)) (Sym "a_3") (Sym "d_4") (Sym "th_4");
   DH (Div (Neg (PiE)) (Num 2)) (Num 0) (Num 0) (Sym "th_5");
   DH (Div (PiE) (Num 2)) (Num 0) (Sym "d_6") (Sym "th_6")]
  [1; 1; 1; 1; 1; 1]%nat
  ["d_1"; "a_2"; "a_3"; "d_3"; "d_4"; "d_6"]
  [("d_1", Div (Num 3) (Num 5)); ("a_2", Div (Num 54) (Num 125)); ("a_3", Div (Num 203) (Num 10000)); ("d_3", Div (Num 249) (Num 2000)); ("d_4", Div (Num 54) (Num 125)); ("d_6", Div (Num 1) (Num 4))]
  ["th_1"; "th_2"; "th_3"; "th_4"; "th_5"; "th_6"].
(** ik_robots.py:320-335 *)
Definition r_Chair_Helper : robot_def := RobotDef
  [DH (Num 0) (Num 0) (Sym "d_1") (Num 0);
   DH (Num 0) (Sym "l_1") (Num 0) (Sym "th_2");
   DH (Div (PiE) (Num 2)) (Num 0) (Sym "l_2") (Sym "th_3");
   DH (Div (PiE) (Num 2)) (Num 0) (Num 0) (Sym "th_4");
   DH (Div (Neg (PiE)) (Num 2)) (Num 0) (Sym "l_4") (Sym "th_5");
   DH (Num 0) (Num 0) (Num 0) (Num 0)]
  [0; 1; 1; 1; 1; 1]%nat
  ["l_1"; "l_2"; "l_4"]
  [("l_1", Num 2); ("l_2", Num 1); ("l_4", Num 3)]
  ["d_1"; "th_2"; "th_3"; "th_4"; "th_5"].
(** ik_robots.py:337-354 *)
Definition r_Wrist : robot_def := RobotDef
  [DH (Num 0) (Num 0) (Num 0) (Sym "A");
   DH (Div (Neg (PiE)) (Num 2)) (Num 0) (Num 0) (Add (Div (PiE) (Num 2)) (Sym "B"));
   DH (Div (PiE) (Num 2)) (Num 0) (Num 0) (Add (Div (PiE) (Num 2)) (Sym "C"));
   DH (Div (Neg (PiE)) (Num 2)) (Num 0) (Num 0) (Div (Neg (PiE)) (Num 2));
   DH (Num 0) (Num 0) (Num 0) (Num 0);
   DH (Num 0) (Num 0) (Num 0) (Num 0)]
  [1; 1; 1; 1; 1; 1]%nat
  []
  []
  ["A"; "B"; "C"].
(** ik_robots.py:357-374 *)
Definition r_MiniDD : robot_def := RobotDef
  [DH (Num 0) (Num 0) (Sym "d_1") (Num 0);
   DH (Div (Neg (PiE)) (Num 2)) (Num 0) (Num 0) (Sym "th_2");
   DH (Div (Neg (PiE)) (Num 2)) (Sym "l_3") (Num 0) (Sym "th_3");
   DH (Div (Neg (PiE)) (Num 2)) (Num 0) (Sym "l_4") (Sym "th_4");
   DH (Div (Neg (PiE)) (Num 2)) (Num 0) (Num 0) (Sym "th_5");
   DH (Num 0) (Num 0) (Num 0) (Num 0)]
  [0; 1; 1; 1; 1]%nat
  ["l_3"; "l_4"]
  [("l_3", Num 5); ("l_4", Num 2)]
  ["d_1"; "th_2"; "th_3"; "th_4"; "th_5"].
(** ik_robots.py:377-396 *)
Definition r_Olson13 : robot_def := RobotDef
  [DH (Div (Neg (PiE)) (Num 2)) (Num 0) (Sym "d_1") (Div (PiE) (Num 2));
   DH (Div (PiE) (Num 2)) (Num 0) (Sym "d_2") (Div (Neg (PiE)) (Num 2));
   DH (Div (PiE) (Num 2)) (Num 0) (Sym "l_3") (Sym "th_3");
   DH (Div (PiE) (Num 2)) (Num 0) (Num 0) (Sym "th_4");
   DH (Num 0) (Sym "l_4") (Num 0) (Sym "th_5");
   DH (Div (PiE) (Num 2)) (Num 0) (Sym "l_5") (Sym "th_6")]
  [0; 0; 1; 1; 1; 1]%nat
  ["l_3"; "l_4"; "l_5"]
  [("l_3", Num 1); ("l_4", Num 4); ("l_5", Num 2)]
  ["d_1"; "d_2"; "th_3"; "th_4"; "th_5"; "th_6"].
(** ik_robots.py:400-414 *)
Definition r_Stanford : robot_def := RobotDef
  [DH (Num 0) (Num 0) (Sym "l_1") (Sym "th_1");
   DH (Div (PiE) (Num 2)) (Num 0) (Sym "l_2") (Sym "th_2");
   DH (Div (PiE) (Num 2)) (Num 0) (Sym "d_3") (Num 0);
   DH (Num 0) (Num 0) (Num 0) (Sym "th_4");
   DH (Div (Neg (PiE)) (Num 2)) (Num 0) (Num 0) (Sym "th_5");
   DH (Div (PiE) (Num 2)) (Num 0) (Num 0) (Sym "th_6")]
  [1; 1; 0; 1; 1; 1]%nat
  ["l_1"; "l_2"]
  [("l_1", Num 1); ("l_2", Num 2)]
  ["th_1"; "th_2"; "d_3"; "th_4"; "th_5"; "th_6"].
(** ik_robots.py:416-434 *)
Definition r_Sims11 : robot_def := RobotDef
  [DH (Num 0) (Num 0) (Sym "d_1") (Num 0);
   DH (Div (PiE) (Num 2)) (Num 0) (Sym "d_2") (Num 0);
   DH (Div (PiE) (Num 2)) (Sym "l_1") (Num 0) (Sym "th_3");
   DH (Div (PiE) (Num 2)) (Num 0) (Sym "l_2") (Sym "th_4");
   DH (Div (PiE) (Num 2)) (Sym "l_3") (Num 0) (Sym "th_5");
   DH (Num 0) (Num 0) (Num 0) (Num 0)]
  [0; 0; 1; 1; 1; 1; 1]%nat
  ["l_1"; "l_2"; "l_3"]
  [("l_1", Num 5); ("l_2", Num 2); ("l_3", Num 4)]
  ["d_1"; "d_2"; "th_3"; "th_4"; "th_5"].
(** ik_robots.py:436-451 *)
Definition r_Srisuan11 : robot_def := RobotDef
  [DH (Num 0) (Num 0) (Sym "d_1") (Num 0);
   DH (Num 0) (Num 0) (Num 0) (Sym "th_2");
   DH (Div (PiE) (Num 2)) (Num 0) (Sym "l_1") (Sym "th_3");
   DH (Div (PiE) (Num 2)) (Num 0) (Sym "d_4") (Div (PiE) (Num 2));
   DH (Num 0) (Num 0) (Num 0) (Sym "th_5");
   DH (Div (PiE) (Num 2)) (Num 0) (Num 0) (Sym "th_6")]
  [0; 1; 1; 0; 1; 1]%nat
  ["l_1"]
  [("l_1", Num 2)]
  ["d_1"; "th_2"; "th_3"; "d_4"; "th_5"; "th_6"].
(** ik_robots.py:453-468 *)
Definition r_Axtman13 : robot_def := RobotDef
  [DH (Num 0) (Num 0) (Sym "d_1") (Num 0);
   DH (Div (PiE) (Num 2)) (Num 0) (Sym "l_2") (Sym "th_2");
   DH (Div (PiE) (Num 2)) (Num 0) (Num 0) (Sym "th_3");
   DH (Num 0) (Sym "l_3") (Num 0) (Sym "th_4");
   DH (Num 0) (Sym "l_4") (Num 0) (Num 0);
   DH (Num 0) (Num 0) (Num 0) (Num 0)]
  [0; 1; 1; 1; 0; 0]%nat
  ["l_2"; "l_3"; "l_4"]
  [("l_2", Num 1); ("l_3", Num 2); ("l_4", Num 3)]
  ["d_1"; "th_2"; "th_3"; "th_4"].
(** ik_robots.py:470-485 *)
Definition r_Mackler13 : robot_def := RobotDef
  [DH (Div (Neg (PiE)) (Num 2)) (Sym "h") (Sym "d_1") (Num 0);
   DH (Div (PiE) (Num 2)) (Num 0) (Sym "l_1") (Sym "th_2");
   DH (Div (PiE) (Num 2)) (Sym "l_2") (Num 0) (Sym "th_3");
   DH (Div (PiE) (Num 2)) (Num 0) (Sym "l_3") (Sym "th_4");
   DH (Div (Neg (PiE)) (Num 2)) (Num 0) (Num 0) (Sym "th_5");
   DH (Num 0) (Num 0) (Num 0) (Num 0)]
  [0; 1; 1; 1; 1; 0]%nat
  ["l_1"; "l_2"; "l_3"]
  [("l_1", Num 2); ("l_2", Num 2); ("l_3", Num 4)]
  ["d_1"; "th_2"; "th_3"; "th_4"; "th_5"].
(** ik_robots.py:487-503 *)
Definition r_Minder13 : robot_def := RobotDef
  [DH (Num 0) (Num 0) (Sym "d_1") (Num 0);
   DH (Div (PiE) (Num 2)) (Num 0) (Sym "l_2") (Sym "th_2");
   DH (Div (PiE) (Num 2)) (Num 0) (Num 0) (Sym "th_3");
   DH (Div (PiE) (Num 2)) (Num 0) (Neg (Sym "l_3")) (Sym "th_4");
   DH (Num 0) (Num 0) (Num 0) (Num 0);
   DH (Num 0) (Num 0) (Num 0) (Num 0)]
  [0; 1; 1; 1; 0; 0]%nat
  ["l_2"; "l_3"]
  [("l_2", Num 1); ("l_3", Num 2)]
  ["d_1"; "th_2"; "th_3"; "th_4"].
(** ik_robots.py:505-520 *)
Definition r_Palm13 : robot_def := RobotDef
  [DH (Div (PiE) (Num 2)) (Num 0) (Sym "l_1") (Sym "th_1");
   DH (Div (PiE) (Num 2)) (Num 0) (Sym "d_2") (Div (Neg (PiE)) (Num 2));
   DH (Num 0) (Num 0) (Num 0) (Sym "th_3");
   DH (Div (Neg (PiE)) (Num 2)) (Sym "l_3") (Sym "h") (Sym "th_4");
   DH (Num 0) (Num 0) (Num 0) (Num 0);
   DH (Num 0) (Num 0) (Num 0) (Num 0)]
  [1; 0; 1; 1; 0; 0]%nat
  ["l_1"; "l_3"; "h"]
  [("l_1", Num 3); ("l_3", Num 1); ("h", Num 2)]
  ["th_1"; "d_2"; "th_3"; "th_4"].
(** ik_robots.py:522-538 *)
Definition r_Parkman13 : robot_def := RobotDef
  [DH (Num 0) (Num 0) (Sym "h") (Sym "th_1");
   DH (Div (PiE) (Num 2)) (Num 0) (Num 0) (Sym "th_2");
   DH (Num 0) (Sym "l_2") (Num 0) (Sym "th_3");
   DH PiE (Sym "l_3") (Sym "d_4") (Num 0);
   DH (Div (PiE) (Num 2)) (Num 0) (Sym "l_5") (Sym "th_5");
   DH (Num 0) (Num 0) (Num 0) (Num 0)]
  [1; 1; 1; 0; 1; 0]%nat
  ["h"; "l_2"; "l_3"; "l_5"]
  [("h", Num 1); ("l_2", Num 2); ("l_3", Num 3); ("l_5", Num 5)]
  ["th_1"; "th_2"; "th_3"; "d_4"; "th_5"].
(** ik_robots.py:540-555 *)
Definition r_Frei13 : robot_def := RobotDef
  [DH (Num 0) (Num 0) (Sym "d_1") (Num 0);
   DH (Div (PiE) (Num 2)) (Num 0) (Num 0) (Sym "th_2");
   DH (Div (PiE) (Num 2)) (Num 0) (Sym "l_3") (Sym "th_3");
   DH (Div (PiE) (Num 2)) (Num 0) (Num 0) (Sym "th_4");
   DH (Div (PiE) (Num 2)) (Num 0) (Sym "l_5") (Sym "th_5");
   DH (Num 0) (Num 0) (Num 0) (Num 0)]
  [0; 1; 1; 1; 1; 0]%nat
  ["l_3"; "l_5"]
  [("l_3", Num 6); ("l_5", Num 3)]
  ["d_1"; "th_2"; "th_3"; "th_4"; "th_5"].
(** ik_robots.py:557-573 *)
Definition r_Wachtveitl : robot_def := RobotDef
  [DH (Div (Neg (PiE)) (Num 2)) (Num 0) (Sym "d_1") (Num 0);
   DH (Div (PiE) (Num 2)) (Num 0) (Sym "h") (Sym "th_2");
   DH (Div (PiE) (Num 2)) (Num 0) (Num 0) (Sym "th_3");
   DH (Num 0) (Sym "l_2") (Sym "l_3") (Sym "th_4");
   DH (Div (PiE) (Num 2)) (Num 0) (Sym "l_4") (Sym "th_5");
   DH (Num 0) (Num 0) (Num 0) (Num 0)]
  [0; 1; 1; 1; 1; 0]%nat
  ["h"; "l_2"; "l_3"; "l_4"]
  [("h", Num 1); ("l_2", Num 2); ("l_3", Num 3); ("l_4", Num 2)]
  ["d_1"; "th_2"; "th_3"; "th_4"; "th_5"].
(** ik_robots.py:576-592 *)
Definition r_Bartell : robot_def := RobotDef
  [DH (Num 0) (Num 0) (Sym "l_1") (Sym "th_1");
   DH (Div (PiE) (Num 2)) (Num 0) (Sym "d_2") (Num 0);
   DH (Num 0) (Num 0) (Num 0) (Sym "th_3");
   DH (Div (PiE) (Num 2)) (Num 0) (Sym "d_4") (Num 0);
   DH (Num 0) (Num 0) (Num 0) (Sym "th_5");
   DH (Div (PiE) (Num 2)) (Num 0) (Num 0) (Num 0)]
  [1; 0; 1; 0; 1; 1]%nat
  ["l_1"]
  [("l_1", Num 2)]
  ["th_1"; "d_2"; "th_3"; "d_4"; "th_5"].
(** ik_robots.py:594-610 *)
Definition r_DZhang : robot_def := RobotDef
  [DH (Num 0) (Num 0) (Sym "h") (Sym "th_1");
   DH (Div (PiE) (Num 2)) (Sym "l_1") (Num 0) (Sym "th_2");
   DH (Num 0) (Sym "l_3") (Num 0) (Sym "th_3");
   DH (Div (PiE) (Num 2)) (Num 0) (Sym "l_4") (Sym "th_4");
   DH (Div (PiE) (Num 2)) (Num 0) (Num 0) (Sym "th_5");
   DH (Num 0) (Num 0) (Num 0) (Num 0)]
  [1; 1; 1; 1; 1; 1]%nat
  ["h"; "l_1"; "l_3"; "l_4"]
  [("h", Num 1); ("l_1", Num 1); ("l_3", Num 3); ("l_4", Num 4)]
  ["th_1"; "th_2"; "th_3"; "th_4"; "th_5"].
(** ik_robots.py:612-631 *)
Definition r_Khat6DOF : robot_def := RobotDef
  [DH (Num 0) (Sym "a_1") (Sym "l_1") (Sym "th_1");
   DH (Div (PiE) (Num 2)) (Num 0) (Num 0) (Sym "th_2");
   DH (Num 0) (Sym "a_2") (Num 0) (Sym "th_3");
   DH (Div (PiE) (Num 2)) (Sym "a_3") (Sym "l_4") (Sym "th_4");
   DH (Div (Neg (PiE)) (Num 2)) (Num 0) (Num 0) (Sym "th_5");
   DH (Div (PiE) (Num 2)) (Num 0) (Num 0) (Sym "th_6")]
  [1; 1; 1; 1; 1; 1]%nat
  ["a_1"; "l_1"; "a_2"; "a_3"; "l_4"]
  [("a_1", Num 1); ("l_1", Num 2); ("a_2", Num 4); ("a_3", Num 2); ("l_4", Num 5)]
  ["th_1"; "th_2"; "th_3"; "th_4"; "th_5"; "th_6"].
Local Close Scope Z_scope.
(** the branches, in order: if(name == ...) *)
Definition branches : list (string * robot_def) := [("JennyGuoSp24", r_JennyGuoSp24); ("Raven-II", r_Raven_II); ("Issue4", r_Issue4); ("KR16", r_KR16); ("ICP5p5_A21", r_ICP5p5_A21); ("KawasakiRS05L", r_KawasakiRS05L); ("KawasakiRS007L", r_KawasakiRS007L); ("ArmRobo", r_ArmRobo); ("Arm_3", r_Arm_3); ("Brad", r_Brad); ("UR5", r_UR5); ("Craig417", r_Craig417); ("Puma", r_Puma); ("Pumaoffset", r_Pumaoffset); ("Chair_Helper", r_Chair_Helper); ("Wrist", r_Wrist); ("MiniDD", r_MiniDD); ("Olson13", r_Olson13); ("Stanford", r_Stanford); ("Sims11", r_Sims11); ("Srisuan11", r_Srisuan11); ("Axtman13", r_Axtman13); ("Mackler13", r_Mackler13); ("Minder13", r_Minder13); ("Palm13", r_Palm13); ("Parkman13", r_Parkman13); ("Frei13", r_Frei13); ("Wachtveitl", r_Wachtveitl); ("Bartell", r_Bartell); ("DZhang", r_DZhang); ("Khat6DOF", r_Khat6DOF)].
(** the outcome of a call: the process ends (quit), an UnboundLocalError is raised, or a description is returned; the last component is
    the list of unknowns with their numbers (v.n) *)
Inductive robot_result := Quits | Unbound | Described (d : robot_def) (unknowns : list (string * nat)).
(** ik_robots.py:67-634: a sequence of if statements; the last branch taken decides *)
Definition select (name : string) : option robot_def := fold_left (fun acc b => if String.eqb name (fst b) then Some (snd b) else acc) branches None.
(** ik_robots.py:638-641 *)
Fixpoint number_from (i : nat) (vars : list string) : list (string * nat) := match vars with [] => [] | v :: t => (v, i) :: number_from (S i) t end.
(** ik_robots.py:33-643 *)
Definition robot_params (name : string) : robot_result :=
  if negb (existsb (String.eqb name) robot_names) then Quits
  else match select name with
       | None => Unbound
       | Some d => Described d (number_from 1 (rd_vars d))
       end.
