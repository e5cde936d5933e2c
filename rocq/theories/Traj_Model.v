(** SotJointTrajectoryEntity (src/tools/joint-trajectory-entity.cpp) and the header of the textual
    trajectories (src/tools/trajectory.cpp:100-122).  Numbers are reals.  The signal that makes a step
    is time dependent: one step per control tick, whatever the outputs read. *)
From Coq Require Import String List Arith Lia ZArith Bool Reals Lra.
From Verif Require Import Base Geom_Model.
Import ListNotations.
Local Open Scope R_scope.

(** include/sot/core/trajectory.hh:99-135, 190-205: header stamp, sequence number, positions of the
    points (velocities, accelerations and efforts are not used by the entity) *)
Definition stamp := (Z * Z)%type.
Record traj := mkTraj { t_stamp : stamp; t_seq : Z; t_points : list (list R) }.
Definition stamp_eqb (a b : stamp) : bool := ((fst a =? fst b) && (snd a =? snd b))%Z.

(** Values published: pose_ (coefficients may be uninitialised memory), com_, waist_, cop_. *)
Record point := mkPoint { p_pose : list (option R); p_com : vec3; p_waist : hom; p_cop : vec3 }.

Record jte := mkJte {
  j_index : nat; j_deque : list traj; j_out : option point; j_seq : Z;
  j_init : traj  (* init_traj_ *)
}.
(** joint-trajectory-entity.cpp:37-70; trajectory.hh:137 (stamp zero) *)
Definition jte_new : jte := mkJte 0 [] None 0 (mkTraj (0, 0)%Z 0 []).

(** joint-trajectory-entity.cpp:226-240 XYZThetaToMatrixHomogeneous: rotation times translation *)
Definition xyzTheta (x y z th : R) : hom :=
  hmul (H (M3 (cos th) (- sin th) 0 (sin th) (cos th) 0 0 0 1) v0) (H mid (V3 x y z)).

(** joint-trajectory-entity.cpp:90-130 UpdatePoint.  Fewer than five positions: the unsigned bound
    wraps around and the copy runs out of the vector.  Resizing a vector to its own size keeps its
    contents, to another size leaves uninitialised memory. *)
Definition updatePoint (old : option point) (pos : list R) : outcome (option point) :=
  let n := length pos in
  if (n =? 0)%nat then Ok old
  else if (n <? 5)%nat then UB
  else
    let prev := match old with Some p => p_pose p | None => [] end in
    let base := if (length prev =? n)%nat then prev else repeat None n in
    let pose := map Some (firstn (n - 5) pos) ++ skipn (n - 5) base in
    let c i := nth (n - 5 + i) pos 0 in
    Ok (Some (mkPoint pose (V3 (c 0%nat) (c 1%nat) (c 2%nat))
                (xyzTheta (c 0%nat) (c 1%nat) (65 / 100) (c 2%nat))
                (V3 (c 3%nat) (c 4%nat) (- (55 / 1000))))).

(** joint-trajectory-entity.cpp:132-204 UpdateTrajectory; traj_timestamp_ is never assigned after the
    constructor (0, 0). *)
Definition updateTrajectory (s : jte) (t : traj) : outcome jte :=
  let '(i, q) :=
    if stamp_eqb (0, 0)%Z (t_stamp t) && negb (length (j_deque s) =? 0)%nat
    then (S (j_index s), j_deque s)
    else match j_deque s with
         | [] => (0%nat, [t])
         | _ => (S (j_index s),
                 if stamp_eqb (t_stamp (last (j_deque s) t)) (t_stamp t) then j_deque s else j_deque s ++ [t])
         end in
  match q with
  | [] => UB
  | f :: r =>
      let step i q :=
        match q with
        | [] => UB
        | f :: _ =>
            let* pos := vget (t_points f) i in
            let* o := updatePoint (j_out s) pos in
            Ok (mkJte i q o (t_seq f) (j_init s))
        end in
      if (length (t_points f) <=? i)%nat then
        let '(i, q) := if (1 <? length q)%nat then (0%nat, r) else (i, q) in
        match q with
        | [] => UB
        | f :: _ =>
            if (length (t_points f) =? 0)%nat then Ok (mkJte 0 q (j_out s) (j_seq s) (j_init s))
            else
              let i := if negb (i =? 0)%nat && (length q =? 1)%nat then (length (t_points f) - 1)%nat else i in
              step i q
        end
      else step i q
  end.

(** joint-trajectory-entity.cpp:206-224 OneStepOfUpdate: reads the front of the queue first *)
Definition oneStep (s : jte) (t : traj) : outcome jte :=
  match j_deque s with [] => UB | _ => updateTrajectory s t end.

(** joint-trajectory-entity.cpp:308-315 setInitTraj: the text is parsed into the member, appending to
    its points (trajectory.cpp:228); [t] is what the text says. *)
Definition setInitTraj (s : jte) (t : traj) : outcome jte :=
  let it := mkTraj (t_stamp t) (t_seq t) (t_points (j_init s) ++ t_points t) in
  updateTrajectory (mkJte (j_index s) (j_deque s) (j_out s) (j_seq s) it) it.

Inductive jcmd := JInit (t : traj) | JStep (t : traj).
Definition jexec (s : jte) (c : jcmd) : outcome jte :=
  match c with JInit t => setInitTraj s t | JStep t => oneStep s t end.

(** trajectory.cpp:100-122 parse_header: one istringstream, whose state is not cleared between the
    three extractions.  Extracting an unsigned number reads the digits; reaching the end of the text
    sets eofbit, and an extraction from a stream that is not good does nothing but set failbit. *)
Record istream := mkIs { is_buf : list (option nat); is_eof : bool; is_fail : bool }.  (* [Some d]: a digit *)
Fixpoint read_digits (acc : Z) (l : list (option nat)) : Z * list (option nat) * bool :=
  match l with
  | [] => (acc, [], true)
  | Some d :: r => read_digits (10 * acc + Z.of_nat d)%Z r
  | None :: _ => (acc, l, false)
  end.
Definition is_str (s : istream) (l : list (option nat)) : istream := mkIs l (is_eof s) (is_fail s).
Definition is_get (s : istream) (old : Z) : istream * Z :=
  if is_eof s || is_fail s then (mkIs (is_buf s) (is_eof s) true, old)
  else match is_buf s with
       | Some _ :: _ => let '(v, r, e) := read_digits 0 (is_buf s) in (mkIs r e false, v)
       | l => (mkIs l (match l with [] => true | _ => false end) true, 0%Z)
       end.
(** The three groups of the regular expression: digits for the sequence number, a decimal number for
    the seconds and one for the nanoseconds. *)
Definition parse_header (seq secs nsecs : list (option nat)) (h : Z * stamp) : Z * stamp :=
  let is0 := is_str (mkIs [] false false) seq in
  let '(is1, sq) := is_get is0 (fst h) in
  let '(is2, sc) := is_get (is_str is1 secs) (fst (snd h)) in
  let '(is3, ns) := is_get (is_str is2 nsecs) (snd (snd h)) in
  (sq, (sc, ns)).
