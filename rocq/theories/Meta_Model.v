(** Meta tasks of the Python package (src/dynamic_graph/sot/core/meta_task_posture.py, meta_tasks.py,
    meta_task_6d.py, meta_tasks_kine_relative.py).  Numbers are reals. *)
From Coq Require Import String Ascii List Arith Lia ZArith Bool Reals Lra.
From Verif Require Import Base SMap Flags_Model Geom_Model OpPoint_Model Gain_Model MatUtil_Model.
Import ListNotations.
Local Open Scope R_scope.

(** ** setGain *)

(** The [val] argument: None, a number, a sequence of numbers. *)
Inductive gainval := GNone | GNum (x : R) | GSeq (l : list R).

(** meta_tasks.py:40-49 setGain.  A sequence of another length changes nothing. *)
Definition setGain (g : adaptive) (val : gainval) : adaptive :=
  match val with
  | GNone => g
  | GNum x => a_exec g (ASetConstant x)
  | GSeq [x] => a_exec g (ASetConstant x)
  | GSeq [x; y; z] => a_exec g (ASet x y z)
  | GSeq [x; y; z; t] => a_exec g (ASetByPoint x y z t)
  | GSeq _ => g
  end.

(** ** MetaTaskPosture *)

(** meta_task_posture.py:13-34 postureRange; range(a, b) is [seq a (b - a)]. *)
Definition postureRange : list (string * list nat) :=
  [("rleg", seq 6 6); ("rhip", seq 6 3); ("rknee", [9%nat]); ("rankle", seq 10 2);
   ("lleg", seq 12 6); ("lhip", seq 12 3); ("lknee", [15%nat]); ("lankle", seq 16 2);
   ("chest", seq 18 2); ("head", seq 20 2);
   ("rarm", seq 22 6); ("rshoulder", seq 22 3); ("relbow", [25%nat]); ("rwrist", seq 26 2); ("rhand", [28%nat]);
   ("larm", seq 29 6); ("lshoulder", seq 29 3); ("lelbow", [32%nat]); ("lwrist", seq 33 2); ("lhand", [35%nat])]%string.

(** Look-up of a key of a Python dictionary. *)
Fixpoint pfind {A} (m : list (string * A)) (k : string) : option A :=
  match m with
  | [] => None
  | (k', a) :: r => if String.eqb k' k then Some a else pfind r k
  end.

(** A Python number: an integer or a float. *)
Inductive pnum := PInt (z : BinNums.Z) | PFloat (x : R).
Definition pval (p : pnum) : R := match p with PInt z => IZR z | PFloat x => x end.
Definition is_int (p : pnum) : bool := match p with PInt _ => true | PFloat _ => false end.

(** The [qdes] argument: None, a tuple, a numpy column of floats (the caller's object). *)
Inductive qarg := QNone | QTuple (l : list pnum) | QArray (l : list R).

(** The values of a limb: a number, a list, a tuple.  Simplification: values given as numpy arrays are
    not represented (their comparison with the empty list depends on the version of numpy). *)
Inductive jarg := JNum (x : R) | JList (l : list R) | JTuple (l : list R).

(** Conversion of a float to the integer type of numpy: towards zero. *)
Definition truncate (x : R) : R :=
  if Rle_dec 0 x then IZR (Int_part x) else - IZR (Int_part (- x)).
(** Value stored in an array of integers or of floats. *)
Definition cast (ints : bool) (x : R) : R := if ints then truncate x else x.

(** numpy assignment q[rng, 0] = vals: indices in range, as many values as indices or one value. *)
Definition assign (ints : bool) (q : list R) (rng : list nat) (vals : list R) : outcome (list R) :=
  if forallb (fun i => (i <? length q)%nat) rng then
    if (length vals =? length rng)%nat then
      Ok (fold_left (fun q (p : nat * R) => upd q (fst p) (cast ints (snd p))) (combine rng vals) q)
    else match vals with
         | [x] => Ok (fold_left (fun q i => upd q i (cast ints x)) rng q)
         | _ => Throw "ValueError: shape mismatch"
         end
  else Throw "IndexError: index out of bounds".

(** meta_task_posture.py:78-82 *)
Definition assign_values (ints : bool) (q : list R) (rng : list nat) (j : jarg) : outcome (list R) :=
  match j with
  | JList [] => Ok q
  | JNum x => assign ints q rng [x]
  | JList l => assign ints q rng l
  | JTuple l => assign ints q rng l
  end.

(** meta_task_posture.py:74-82, one turn of the loop.  The array keeps its content when a turn raises. *)
Definition limb_step (ints : bool) (act : list bool) (q : list R) (kw : string * jarg) : outcome (list bool * list R) :=
  match pfind postureRange (fst kw) with
  | None => Throw "KeyError"
  | Some rng =>
      let* act' := ofold (fun a i => if (i <? length a)%nat then Ok (upd a i true) else Throw "IndexError: list assignment index out of range") rng act in
      let* q' := assign_values ints q rng (snd kw) in
      Ok (act', q')
  end.
Fixpoint limb_loop (ints : bool) (kws : list (string * jarg)) (act : list bool) (q : list R) : list R * outcome (list bool) :=
  match kws with
  | [] => (q, Ok act)
  | kw :: r =>
      match limb_step ints act q kw with
      | Ok (act', q') => limb_loop ints r act' q'
      | Throw e => (q, Throw e)
      | UB => (q, UB)
      end
  end.

(** What a posture meta task holds: reference, selection of the feature, gain. *)
Record ptask := mkPtask { p_ref : list R; p_selec : Flags; p_gain : adaptive }.

(** Result of a call: the class attribute nbDof, the task, the caller's array if one was given, and
    whether the call raised. *)
Record presult := mkPres { r_nbDof : option nat; r_task : ptask; r_array : option (list R); r_end : outcome unit }.

(** meta_task_posture.py:61-86 gotoq(gain, qdes, **kws) on a robot whose position has [npos]
    coefficients, the class attribute being [nbDof]. *)
Definition gotoq (npos : nat) (nbDof : option nat) (t : ptask) (gain : gainval) (qdes : qarg) (kws : list (string * jarg)) : presult :=
  let nbDof' := match qdes, nbDof with QNone, None => Some npos | _, _ => nbDof end in
  let '(ints, q) := match qdes with
                    | QNone => (false, repeat 0 (match nbDof' with Some n => n | None => 0%nat end))
                    | QTuple l => (forallb is_int l && negb (length l =? 0)%nat, map pval l)
                    | QArray l => (false, l)
                    end in
  let array (q : list R) := match qdes with QArray _ => Some q | _ => None end in
  match nbDof' with
  | None => mkPres nbDof' t (array q) (Throw "TypeError: can't multiply sequence by non-int of type 'NoneType'")
  | Some n =>
      match limb_loop ints kws (repeat false n) q with
      | (q', Ok act) =>
          match vectorToTuple (Arr2 1 (map (fun x => [x]) q')) with
          | Ok r => mkPres nbDof'
                      (mkPtask r (if (0 <? length act)%nat then of_vector act else p_selec t) (setGain (p_gain t) gain))
                      (array q') (Ok tt)
          | Throw e => mkPres nbDof' t (array q') (Throw e)
          | UB => mkPres nbDof' t (array q') UB
          end
      | (q', Throw e) => mkPres nbDof' t (array q') (Throw e)
      | (q', UB) => mkPres nbDof' t (array q') UB
      end
  end.

(** ** generic6dReference *)

(** The argument: a numpy array (or matrix), a tuple of numbers, a tuple of tuples, anything else (a list
    for instance).  Simplification: arrays of two dimensions and tuples of tuples with six rows are not represented faithfully (some error). *)
Inductive poseArg := PArr (a : ndarray) | PNums (l : list R) | PRows (rows : list (list R)) | POther.

(** The four rows of a homogeneous matrix. *)
Definition rows_of (m : hom) : list (list R) :=
  [[m00 (lin m); m01 (lin m); m02 (lin m); vx (trn m)];
   [m10 (lin m); m11 (lin m); m12 (lin m); vy (trn m)];
   [m20 (lin m); m21 (lin m); m22 (lin m); vz (trn m)];
   [0; 0; 0; 1]].
(** M = eye(4); M[0:3,3] = p *)
Definition at_point (x y z : R) : list (list R) := rows_of (H mid (V3 x y z)).

(** meta_tasks.py:64-66 *)
Definition from_six (p : list R) : outcome (list (list R)) :=
  match p with
  | [x; y; z; r; q; w] => let* m := rpy2tr r q w in Ok (rows_of (H (lin m) (V3 x y z)))
  | _ => Ok (rows_of hid)
  end.

(** meta_tasks.py:52-69 generic6dReference: the rows of the result.  The last branch prints a message
    and returns the identity. *)
Definition generic6dReference (p : poseArg) : outcome (list (list R)) :=
  match p with
  | PArr (Arr1 [x; y; z]) => Ok (at_point x y z)
  | PArr (Arr1 l) => from_six l
  | PArr (Arr2 _ [[x; y; z]]) => Ok (at_point x y z)
  | PArr (Arr2 1 [[x]; [y]; [z]]) => Throw "ValueError: could not broadcast input array"
  | PArr (Arr2 4 [a; b; c; d]) => Ok [a; b; c; d]
  | PArr (Arr2 _ _) => Ok (rows_of hid)
  | PNums [x; y; z] => Ok (at_point x y z)
  | PNums [_; _; _; _] => Throw "TypeError: object has no len()"
  | PNums l => from_six l
  | PRows [a; b; c; d] =>
      if ((length a =? 4) && (length b =? 4) && (length c =? 4) && (length d =? 4))%nat%bool then Ok [a; b; c; d]
      else Ok (rows_of hid)
  | PRows [_; _; _] => Throw "ValueError: setting an array element with a sequence"
  | PRows [_; _; _; _; _; _] => Throw "TypeError"
  | PRows _ => Ok (rows_of hid)
  | POther => Ok (rows_of hid)
  end.

(** ** goto6d and gotoNd *)

(** What a 6d meta task holds: desired position, selection of the feature, gain. *)
Record gtask := mkGtask { g_ref : list (list R); g_selec : Flags; g_gain : adaptive }.

(** meta_tasks.py:72-81 goto6d.  Simplification: the call of resetJacobianDerivative is left out. *)
Definition goto6d (t : gtask) (p : poseArg) (gain : gainval) : outcome gtask :=
  let* m := generic6dReference p in
  let* s := of_string "111111" in
  Ok (mkGtask m s (setGain (g_gain t) gain)).

(** meta_tasks.py:84-96 gotoNd, the selection being absent or a text.  Outcome of a refused text: the
    task as it was, since nothing is stored before Flags(selec). *)
Definition gotoNd (t : gtask) (p : poseArg) (selec : option string) (gain : gainval) : outcome gtask :=
  let* m := generic6dReference p in
  let* s := match selec with None => Ok (g_selec t) | Some txt => of_string txt end in
  Ok (mkGtask m s (setGain (g_gain t) gain)).

(** ** Operational points *)

(** x.getName().split(":")[-1]: what follows the last colon. *)
Fixpoint short_name (s : string) : string :=
  match s with
  | EmptyString => EmptyString
  | String c r =>
      let fix has_colon (t : string) : bool :=
        match t with EmptyString => false | String d u => Ascii.eqb d ":" || has_colon u end in
      if has_colon s then short_name r else s
  end.

(** meta_task_6d.py:24-29 opPointExist.  [len(P) == 1 & len(J) == 1] reads as the chain
    [len(P) == (1 & len(J)) and (1 & len(J)) == 1]. *)
Definition opPointExist (signals : list string) (opPoint : string) : bool :=
  let sigsP := filter (fun x => String.eqb (short_name x) opPoint) signals in
  let sigsJ := filter (fun x => String.eqb (short_name x) ("J" ++ opPoint)) signals in
  ((length sigsP =? Nat.land 1 (length sigsJ)) && (Nat.land 1 (length sigsJ) =? 1))%nat%bool.

(** Where an input of the feature is plugged: the signal of the robot, or the modifier. *)
Inductive source := FromDyn | FromModif.

(** Plugs of one point: position and jacobian inputs of the feature, the attribute activ and the
    modifier entity (meta_task_6d.py:40-46, 62-64). *)
Record point := mkPoint { s_pos : source; s_jac : source; activ : bool; modif : opm }.
(** State after the constructor; [tr] is the content of the modifier at that time. *)
Definition point_init (tr : hom) : point := mkPoint FromDyn FromDyn false (mkOpm tr true).

(** Argument of the setter: False, a 4x4 matrix, or something setTransformation refuses. *)
Inductive modifArg := MFalse | MMatrix (m : hom) | MBad.

(** meta_task_6d.py:98-109 opmodif (setter), and meta_tasks_kine_relative.py:79-90 opmodifBase: new state,
    and whether the statement raised. *)
Definition set_opmodif (p : point) (a : modifArg) : point * bool :=
  match a with
  | MFalse => (mkPoint FromDyn FromDyn false (modif p), false)
  | _ =>
      let p' := if activ p then p else mkPoint FromModif FromModif (activ p) (modif p) in
      match a with
      | MMatrix m => (mkPoint (s_pos p') (s_jac p') true (mkOpm m (isEndEffector (modif p'))), false)
      | _ => (p', true)
      end
  end.
(** meta_task_6d.py:91-96 opmodif (getter); [None] is False. *)
Definition get_opmodif (p : point) : option hom :=
  if activ p then Some (transformation (modif p)) else None.

(** What the feature reads when the robot gives [pos] and [j] for the operational point. *)
Definition feature_position (p : point) (pos : hom) : hom :=
  match s_pos p with FromDyn => pos | FromModif => opm_position (modif p) pos end.
Definition feature_jacobian (p : point) (pos : hom) (j : jac) : jac :=
  match s_jac p with FromDyn => j | FromModif => opm_jacobian (modif p) pos j end.

(** meta_tasks_kine_relative.py: the two points of a relative task, and assignments to them. *)
Record rel := mkRel { other : point; base : point }.
Inductive relcmd := SetOp (a : modifArg) | SetBase (a : modifArg).
Definition rel_exec (r : rel) (c : relcmd) : rel :=
  match c with
  | SetOp a => mkRel (fst (set_opmodif (other r) a)) (base r)
  | SetBase a => mkRel (other r) (fst (set_opmodif (base r) a))
  end.
