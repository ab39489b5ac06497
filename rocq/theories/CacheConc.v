(** Concurrent processes sharing the kinematics cache: kinematics_pickle (ikbtbasics/ik_classes.py:66-115) system call by system call,
    followed by check_the_pickle (118-135) as in ikSolver.py:105-117.  Any number of processes, interleaved in any order; each can be
    killed between any two calls, and the user can remove cache files at any time.
    Files are sequences of bytes; every process has its own position in the file it has open, and a removed file lives on for those
    that have it open.  pickle.dump and pickle.load are the parameters [dump] and [parse]; they write and read in pieces of any size.
    Removal of the directory fk_eqns/ while processes run is not modelled. *)
From Coq Require Import Reals ZArith List String Bool Arith.
From Verif Require Import Expr Kin Cache.
Import ListNotations.
Local Open Scope list_scope.
Local Open Scope nat_scope.

Section Conc.
Context {V U K : Type}.
Variable nice : expr -> bool.
Variable fk : list (dhrow expr) -> V -> U -> option (K * U).
Notation request := (@request V U).
Notation mech := (@mech V K).
Notation view := (@view V U K).
(** bytes; [zero] fills the gap when a file is written beyond its end *)
Context {B : Type}.
Variable zero : B.
(** pickle.dump([m, R, unks], pf) and pickle.load: the bytes of an object, and the object at the start of a sequence of bytes *)
Variable dump : mech * U -> list B.
Variable parse : list B -> option (mech * U).

Inductive result := CServed (v : view) (hit : bool) | CRejected | CLoadError | CNoFile | CMkdirError | CFkError | CKilled.
(** where a process is: before os.path.isdir (75), before os.mkdir (77), before os.path.isfile (83), before open(name,'rb') (84), in
    pickle.load (86) with the bytes read so far, before forward_kinematics (94), before open(name,'wb') (110), in pickle.dump (111)
    with the number of bytes written so far, ended *)
Inductive pc := Begin | MkDir | Look | OpenR | Reading (j : nat) (buf : list B) | Compute | OpenW (o : mech * U) | Writing (j : nat) (off : nat) (o : mech * U) | Ended (r : result).
(** the directory exists or not, the directory entries, the contents of the files, the number of files created so far, the processes *)
Record world := World { w_dir : bool; w_name : string -> option nat; w_data : nat -> list B; w_next : nat; w_proc : nat -> pc }.
Definition upd_fun {A} (k : nat) (x : A) (f : nat -> A) : nat -> A := fun i => if i =? k then x else f i.
Definition set_proc (p : nat) (c : pc) (w : world) : world := World (w_dir w) (w_name w) (w_data w) (w_next w) (upd_fun p c (w_proc w)).
Definition set_data (j : nat) (d : list B) (w : world) : world := World (w_dir w) (w_name w) (upd_fun j d (w_data w)) (w_next w) (w_proc w).
(** write at a position *)
Definition write_at (off : nat) (bs data : list B) : list B :=
  firstn off data ++ repeat zero (off - List.length data) ++ bs ++ skipn (off + List.length bs) data.

(** what each process was started with: the robot definition, and whether it checks (ikSolver.py) or not (solChecker.py) *)
Variable req : nat -> request.
Variable check : nat -> bool.
Definition from_file (p : nat) (o : mech * U) : result :=
  if negb (check p) || same_dh (m_dh (fst o)) (q_dh (req p)) then CServed (View (fst o) (snd o) (q_name (req p)) (q_params (req p))) true else CRejected.
Definition from_compute (p : nat) (o : mech * U) : result := CServed (View (fst o) (snd o) (q_name (req p)) (m_params (fst o))) false.
(** one call of process p; [n] + 1 bytes at most are read or written *)
Definition pstep (p n : nat) (w : world) : world :=
  match w_proc w p with
  | Begin => set_proc p (if w_dir w then Look else MkDir) w
  | MkDir => if w_dir w then set_proc p (Ended CMkdirError) w
             else World true (w_name w) (w_data w) (w_next w) (upd_fun p Look (w_proc w))
  | Look => set_proc p (match w_name w (q_name (req p)) with Some _ => OpenR | None => Compute end) w
  | OpenR => set_proc p (match w_name w (q_name (req p)) with Some j => Reading j [] | None => Ended CNoFile end) w
  | Reading j buf =>
      match firstn (S n) (skipn (List.length buf) (w_data w j)) with
      | [] => set_proc p (Ended CLoadError) w
      | bs => set_proc p (match parse (buf ++ bs) with Some o => Ended (from_file p o) | None => Reading j (buf ++ bs) end) w
      end
  | Compute => set_proc p (match compute nice fk (req p) with Some o => OpenW o | None => Ended CFkError end) w
  | OpenW o =>
      match w_name w (q_name (req p)) with
      | Some j => set_proc p (Writing j 0 o) (set_data j [] w)
      | None => World (w_dir w) (fun s => if String.eqb s (q_name (req p)) then Some (w_next w) else w_name w s) (upd_fun (w_next w) [] (w_data w)) (S (w_next w)) (upd_fun p (Writing (w_next w) 0 o) (w_proc w))
      end
  | Writing j off o =>
      match firstn (S n) (skipn off (dump o)) with
      | [] => set_proc p (Ended (from_compute p o)) w
      | bs => set_proc p (Writing j (off + List.length bs) o) (set_data j (write_at off bs (w_data w j)) w)
      end
  | Ended r => w
  end.
Inductive action := Step (p n : nat) | Kill (p : nat) | Unlink (s : string).
Definition act (w : world) (a : action) : world :=
  match a with
  | Step p n => pstep p n w
  | Kill p => match w_proc w p with Ended _ => w | _ => set_proc p (Ended CKilled) w end
  | Unlink s => World (w_dir w) (fun s' => if String.eqb s' s then None else w_name w s') (w_data w) (w_next w) (w_proc w)
  end.
Definition play (sched : list action) (w : world) : world := fold_left act sched w.
(** a machine without cache files, and one with the directory *)
Definition cold (dir : bool) : world := World dir (fun _ => None) (fun _ => []) 0 (fun _ => Begin).
End Conc.


