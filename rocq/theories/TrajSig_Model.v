(** The output signals of SotJointTrajectoryEntity (src/tools/joint-trajectory-entity.cpp:37-62, 242-290): five
    outputs that share one signal, which makes one step of the entity (Traj_Model).

    Assumption on the library: a signal of these that is read at a time after its last computation is computed (the
    refresher of line 71 is always ready), at any other time it hands out what it holds. *)
From Coq Require Import String List Arith ZArith Bool Reals.
From Verif Require Import Base Geom_Model Traj_Model.
Import ListNotations.

Inductive osig := OPosition | OCom | OZmp | OWaist | OSeqId.
Definition osig_eqb (a b : osig) : bool :=
  match a, b with
  | OPosition, OPosition | OCom, OCom | OZmp, OZmp | OWaist, OWaist | OSeqId, OSeqId => true
  | _, _ => false
  end.

(** What an output holds.  Before the first point the vectors are empty and the waist is uninitialised. *)
Inductive oval := VPose (l : list (option R)) | VVec (v : option vec3) | VHom (m : option hom) | VSeq (z : Z).

(** joint-trajectory-entity.cpp:242-290 getNextPosition, getNextCoM, getNextCoP, getNextWaist, getSeqId, after the step. *)
Definition field (o : osig) (s : jte) : oval :=
  match o with
  | OPosition => VPose (match j_out s with Some p => p_pose p | None => [] end)
  | OCom => VVec (option_map p_com (j_out s))
  | OZmp => VVec (option_map p_cop (j_out s))
  | OWaist => VHom (option_map p_waist (j_out s))
  | OSeqId => VSeq (j_seq s)
  end.

(** The entity, the time of its last step, and for each output the time and the value of its last computation. *)
Record plug := mkPlug { ent : jte; step_time : option Z; held : osig -> option (Z * oval) }.
Definition later (last : option Z) (t : Z) : bool := match last with None => true | Some u => (u <? t)%Z end.

(** joint-trajectory-entity.cpp:206-224: OneStepOfUpdateS(time); [input] is the signal trajectoryIN. *)
Definition do_step (input : Z -> traj) (p : plug) (t : Z) : outcome plug :=
  if later (step_time p) t then
    let* s := oneStep (ent p) (input t) in
    Ok (mkPlug s (Some t) (held p))
  else Ok p.

(** Reading an output at a time. *)
Definition read (input : Z -> traj) (p : plug) (o : osig) (t : Z) : outcome (plug * oval) :=
  match held p o with
  | Some (u, v) =>
      if (u <? t)%Z then
        let* p' := do_step input p t in
        let v' := field o (ent p') in
        Ok (mkPlug (ent p') (step_time p') (fun x => if osig_eqb x o then Some (t, v') else held p' x), v')
      else Ok (p, v)
  | None =>
      let* p' := do_step input p t in
      let v' := field o (ent p') in
      Ok (mkPlug (ent p') (step_time p') (fun x => if osig_eqb x o then Some (t, v') else held p' x), v')
  end.

(** joint-trajectory-entity.cpp:37-76 and the command initTraj (lines 308-315): nothing was computed yet. *)
Definition plug_new (t0 : traj) : outcome plug :=
  let* s := setInitTraj jte_new t0 in Ok (mkPlug s None (fun _ => None)).

(** A schedule of reads; the values handed out. *)
Fixpoint reads (input : Z -> traj) (p : plug) (l : list (osig * Z)) : outcome (plug * list oval) :=
  match l with
  | [] => Ok (p, [])
  | (o, t) :: r =>
      let* (p1, v) := read input p o t in
      let* (p2, vs) := reads input p1 r in
      Ok (p2, v :: vs)
  end.
