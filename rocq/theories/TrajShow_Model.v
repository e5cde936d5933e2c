(** What a trajectory and a time stamp print of themselves: src/tools/trajectory.cpp:302-316, include/sot/core/trajectory.hh:84-171. *)
From Coq Require Import String Ascii List Arith ZArith QArith Bool.
From Verif Require Import Base RefName_Model StackText_Model.
Import ListNotations.
Local Open Scope string_scope.
Local Open Scope list_scope.
Local Open Scope nat_scope.

Section Show.
(** How the stream prints a double and an unsigned number. *)
Variable V : Type.
Variable pd : V -> string.
Variable pn : nat -> string.

(** trajectory.hh:116-121 *)
Record spoint := mkSP { s_pos : list V; s_vel : list V; s_acc : list V; s_eff : list V }.
Record straj := mkST { s_joints : list string; s_points : list spoint }.

(** trajectory.hh:156-173 transfer: an index above 3 fails an assertion, which a release build leaves out. *)
Definition transfer (p : spoint) (src : list V) (vecId : nat) : spoint :=
  match vecId with
  | 0 => mkSP src (s_vel p) (s_acc p) (s_eff p)
  | 1 => mkSP (s_pos p) src (s_acc p) (s_eff p)
  | 2 => mkSP (s_pos p) (s_vel p) src (s_eff p)
  | 3 => mkSP (s_pos p) (s_vel p) (s_acc p) src
  | _ => p
  end.

(** trajectory.hh:124-154 JointTrajectoryPoint::display: the four names and the vector chosen for each index. *)
Definition chosen (p : spoint) (arrayId : nat) : list V :=
  match arrayId with 0 => s_pos p | 1 => s_vel p | 2 => s_acc p | _ => s_eff p end.
Definition array_names : list string := ["Positions"; "Velocities"; "Accelerations"; "Effort"].
Definition point_text (p : spoint) (os : string) : string :=
  fold_left (fun os (x : nat * string) =>
    let os := (os ++ snd x ++ endl ++ "---------" ++ endl)%string in
    emit (fun v => pd v ++ endl)%string (chosen p (fst x)) os) (combine (seq 0 4) array_names) os.

(** trajectory.cpp:302-316 Trajectory::display *)
Fixpoint joints_text (l : list string) (index : nat) (os : string) : string :=
  match l with
  | [] => os
  | n :: r => joints_text r (S index) (os ++ "Joint(" ++ pn index ++ ")=" ++ n ++ endl)%string
  end.
Definition traj_text (t : straj) : string :=
  let os := ("-- Trajectory --" ++ endl)%string in
  let os := joints_text (s_joints t) 0 os in
  let os := (os ++ " Number of points: " ++ pn (length (s_points t)) ++ endl)%string in
  fold_left (fun os p => point_text p os) (s_points t) os.
End Show.

(** trajectory.hh:84-105 timestamp: equality, and the number it prints (before rounding to the precision of the stream). *)
Record tstamp := mkTS { secs : N; nsecs : N }.
Definition stamp_eqb (a b : tstamp) : bool := if negb (secs a =? secs b)%N || negb (nsecs a =? nsecs b)%N then false else true.
Definition stamp_shown (t : tstamp) : Q := (inject_Z (Z.of_N (secs t)) + (1 # 1000000) * inject_Z (Z.of_N (nsecs t)))%Q.
