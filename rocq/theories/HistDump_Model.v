(** History (src/dynamic_graph/sot/core/utils/history.py): the part that records the zero moment point and
    the files written for OpenHRP.  Recording of positions and restoration are in Stream_Model.v. *)
From Coq Require Import String Ascii List Arith Lia ZArith Bool Reals.
From Verif Require Import Base Geom_Model.
Import ListNotations.
Local Open Scope string_scope.
Local Open Scope list_scope.

(* ------------------------------------------------------------------ *)
(** ** Recording *)

(** The value of the signal of the zero moment point: a tuple or a numpy array. *)
Inductive pyvec := PTuple (v : list R) | PArray (v : list R).

(** history.py:9-18: [z_with] is withZmp, [z_freq] the period in iterations.  Positions and velocities are
    lists of coefficients. *)
Record zhist := ZHist { z_q : list (list R); z_qdot : list (list R); z_zmp : list (list R); z_freq : Z; z_with : bool }.

(** history.py:10-18 __init__: [zmp] tells whether a signal is given, [names] are the names of the signals of
    the entity. *)
Definition z_new (freq : Z) (zmp : bool) (names : list string) : zhist :=
  ZHist [] [] [] freq (zmp && existsb (String.eqb "waist") names).

(** history.py:26-28: the point in the frame of the waist.  Simplification: the waist is an
    invertible transformation, and [hinv] its inverse.  [tuple + (1,)] appends, [array + (1,)] adds one to
    every coefficient; the product of a 4x4 matrix with a column of another size raises. *)
Definition zmp_in_waist (waist : hom) (z : pyvec) : outcome (list R) :=
  let col := match z with PTuple v => v ++ [1%R] | PArray v => map (fun x => (x + 1)%R) v end in
  match col with
  | [x; y; w; k] =>
      let p := hinv waist in
      let r := vadd (mapp (lin p) (V3 x y w)) (vscal k (trn p)) in
      Ok [vx r; vy r; vz r; k]
  | _ => Throw "ValueError"
  end.

(** history.py:20-28 record.  The state and how the call ended: the position and the velocity are appended
    before the point is computed. *)
Definition z_record (i : Z) (q qdot : list R) (waist : hom) (z : pyvec) (h : zhist) : zhist * outcome unit :=
  if (z_freq h =? 0)%Z then (h, Throw "ZeroDivisionError")
  else if (i mod z_freq h =? 0)%Z then
    let h' := ZHist (z_q h ++ [q]) (z_qdot h ++ [qdot]) (z_zmp h) (z_freq h) (z_with h) in
    if z_with h then
      match zmp_in_waist waist z with
      | Ok p => (ZHist (z_q h') (z_qdot h') (z_zmp h' ++ [p]) (z_freq h) (z_with h), Ok tt)
      | Throw m => (h', Throw m)
      | UB => (h', UB)
      end
    else (h', Ok tt)
  else (h, Ok tt).

(** A call of record: iteration, position, velocity, waist, point. *)
Record zcall := ZCall { c_time : Z; c_q : list R; c_qdot : list R; c_waist : hom; c_zmp : pyvec }.
(** The calls of a script, which goes on after an exception. *)
Definition z_run (h : zhist) (cs : list zcall) : zhist :=
  fold_left (fun h c => fst (z_record (c_time c) (c_q c) (c_qdot c) (c_waist c) (c_zmp c) h)) cs h.

(* ------------------------------------------------------------------ *)
(** ** Files *)
Section Dump.
Context {num : Type}.
Variables (str : num -> string) (stamp : nat -> num) (deg : num -> num).
(** [str]: the text of a number; [stamp n]: 0.005 * n; [deg x]: x * 180.0 / pi. *)

Definition newline : ascii := ascii_of_nat 10.
Definition nl : string := String newline EmptyString.

(** q[j] *)
Definition pyidx (q : list num) (j : nat) : outcome num :=
  match nth_error q j with Some x => Ok x | None => Throw "IndexError" end.

(** str(a) + " " + str(b) + ... + "\n" *)
Fixpoint spaced (l : list num) : string :=
  match l with
  | [] => nl
  | [x] => append (str x) nl
  | x :: r => append (str x) (append " " (spaced r))
  end.

(** history.py:45-54, 55-70, 81-89: a line of some coefficients, in this order. *)
Definition line_of (idx : list nat) (nT : nat) (q : list num) : outcome string :=
  let* l := ofold (fun l j => let* x := pyidx q j in Ok (l ++ [x])) idx [] in
  Ok (spaced (stamp nT :: l)).

(** history.py:71-74 *)
Definition pos_line (nT : nat) (q : list num) : outcome string :=
  let* s := ofor_range 6 36 (fun j s => let* x := pyidx q j in Ok (append s (append (str x) " ")))
              (append (str (stamp nT)) " ") in
  Ok (append s (append " 0 0 0 0 0 0 0 0 0 0" nl)).

(** The text a loop of [enumerate] writes. *)
Definition write_all (line : nat -> list num -> outcome string) (qs : list (list num)) : outcome string :=
  let* r := ofold (fun st q => let '(n, s) := st in
                   let* l := line n q in Ok (S n, append s l)) qs (0, EmptyString) in
  Ok (snd r).

(** history.py:91-94: the slice q0[6:36] never raises. *)
Definition pos0_text (q0 : list num) : string :=
  append (fold_left (fun s x => append s (append (str (deg x)) " ")) (firstn 30 (skipn 6 q0)) "dyninv_posinit = '")
         "   0 0 0 0 0 0 0 0 0 0  '".

Record files := Files { f_pos : string; f_hip : string; f_waist : string; f_zmp : option string; f_pos0 : string }.

(** history.py:39-94 dumpToOpenHRP, when it returns.  The three files of the first loop are written line by line
    together: the loop raises when one of the lines does. [sample] is not read, nor is the frequency. *)
Definition dump (qs zmps : list (list num)) (with_zmp : bool) (sample : Z) : outcome files :=
  let* hip := write_all (line_of [3; 4; 5]) qs in
  let* waist := write_all (line_of [0; 1; 2; 3; 4; 5]) qs in
  let* pos := write_all pos_line qs in
  let* zmp := if with_zmp then let* z := write_all (line_of [0; 1; 2]) zmps in Ok (Some z) else Ok None in
  match qs with
  | [] => Throw "IndexError"
  | q0 :: _ => Ok (Files pos hip waist zmp (pos0_text q0))
  end.
End Dump.
