(** FeaturePoint6d (src/feature/feature-point6d.cpp).

    Scalars are the reals; a homogeneous matrix, a jacobian and the external
    Eigen operations are those of Geom_Model and OpPoint_Model.  The reference
    is [Some] pose of the reference feature when it is set.  [g] is the content
    of the output before it is written (Eigen's resize does not initialise). *)
From Coq Require Import String List Arith Lia ZArith Bool Reals Lra.
From Verif Require Import Base Flags_Model Feature_Model Geom_Model OpPoint_Model.
Import ListNotations.
Local Open Scope R_scope.

(** feature-point6d.hh:59 ComputationFrameType. *)
Inductive frame := FRAME_DESIRED | FRAME_CURRENT.

(** The attributes that persist between two computations:
    computationFrame_, error_th_ (feature-point6d.hh:69, 118). *)
Record p6 := mkP6 { cframe : frame; error_th : aaxis }.

(** feature-point6d.cpp:44-45: COMPUTATION_FRAME_DEFAULT. *)
Definition frame_default := FRAME_DESIRED.

(** feature-point6d.cpp:130-142 computationFrame(string). *)
Definition p6_set_frame (p : p6) (s : string) : outcome p6 :=
  if (s =? "current")%string then Ok (mkP6 FRAME_CURRENT (error_th p))
  else if (s =? "desired")%string then Ok (mkP6 FRAME_DESIRED (error_th p))
  else Throw "GENERIC".

(** feature-point6d.cpp:144-153 computationFrame(). *)
Definition p6_get_frame (p : p6) : string :=
  match cframe p with FRAME_CURRENT => "current" | FRAME_DESIRED => "desired" end.

(** feature-point6d.cpp:158-170 getDimension. *)
Definition p6_dimension (fl : Flags) : outcome nat := count_flags fl 6.

(** Coefficient [i] of a 3-vector, of a 6-vector kept as two 3-vectors, and
    row [r] of a 6-row matrix kept as the list of its columns. *)
Definition v3at (v : vec3) (i : nat) : R :=
  match i with O => vx v | 1%nat => vy v | _ => vz v end.
Definition v6at (v : vec3 * vec3) (i : nat) : R :=
  if (i <? 3)%nat then v3at (fst v) i else v3at (snd v) (i - 3).
Definition jrow (j : jac) (r : nat) : list R := map (fun c => v6at c r) j.

(** feature-point6d.cpp:194-243: the matrix Lx of the current frame, in four
    3x3 blocks. *)
Definition p6_Lx (wMh : hom) (ref : option hom) : twist :=
  let wRh := lin wMh in
  let wRhd := match ref with Some wMhd => lin wMhd | None => mid end in
  let hdth := match ref with
              | Some wMhd => V3 (vx (trn wMhd) - vx (trn wMh))
                                (vy (trn wMhd) - vy (trn wMh))
                                (vz (trn wMhd) - vz (trn wMh))
              | None => V3 (- vx (trn wMh)) (- vy (trn wMh)) (- vz (trn wMh))
              end in
  let Rhdth := mapp (minv wRh) hdth in
  let hdRh := mmul (minv wRhd) wRh in
  let X := vx Rhdth in let Y := vy Rhdth in let Z := vz Rhdth in
  T6 (M3 (-1) 0 0 0 (-1) 0 0 0 (-1))
     (M3 0 (- Z) Y Z 0 (- X) (- Y) X 0)
     (M3 0 0 0 0 0 0 0 0 0)
     (mopp hdRh).

(** feature-point6d.cpp:242-270: LJq, for the two frames.  The triple loop of
    the desired frame multiplies both halves of each column by hdRh. *)
Definition p6_LJq (f : frame) (wMh : hom) (ref : option hom) (Jq : jac) : jac :=
  match f with
  | FRAME_CURRENT => tjac (p6_Lx wMh ref) Jq
  | FRAME_DESIRED =>
      let wRh := lin wMh in
      let hdRh := match ref with
                  | Some wMhd => mmul (minv (lin wMhd)) wRh
                  | None => wRh
                  end in
      map (fun c : vec3 * vec3 => (mapp hdRh (fst c), mapp hdRh (snd c))) Jq
  end.

(** feature-point6d.cpp:174-278 computeJacobian: the selected rows of LJq. *)
Definition p6_jacobian (g : list R) (p : p6) (fl : Flags) (dim : nat) (wMh : hom)
  (ref : option hom) (Jq : jac) : outcome (list (list R)) :=
  let LJq := p6_LJq (cframe p) wMh ref Jq in
  collect fl (fun r => Ok (jrow LJq r)) 6 (repeat g dim).

(** feature-point6d.cpp:280-287 SOT_COMPUTE_H1MH2 and 305-326: the pose whose
    translation and rotation vector are the error. *)
Definition p6_hMhd (f : frame) (wMh : hom) (ref : option hom) : hom :=
  match ref with
  | Some wMhd =>
      match f with
      | FRAME_CURRENT => hmul (hinv wMh) wMhd
      | FRAME_DESIRED => hmul (hinv wMhd) wMh
      end
  | None =>
      match f with
      | FRAME_CURRENT => hinv wMh
      | FRAME_DESIRED => wMh
      end
  end.

(** feature-point6d.cpp:292-352 computeError.  The rotation is converted, and
    error_th_ updated, only when one of its three components is selected. *)
Definition p6_error (g : R) (p : p6) (fl : Flags) (dim : nat) (wMh : hom)
  (ref : option hom) : outcome (p6 * list R) :=
  let hMhd := p6_hMhd (cframe p) wMh ref in
  let* (cursor, err) :=
    ofold (collect_step R fl (fun i => Ok (v3at (trn hMhd) i))) (seq 0 3)
          (0%nat, repeat g dim) in
  let* f3 := at_ fl 3 in
  let* f4 := at_ fl 4 in
  let* f5 := at_ fl 5 in
  if f3 || f4 || f5 then
    let th := matToAA (lin hMhd) in
    let* (_, err') :=
      ofold (collect_step R fl (fun i => Ok (ang th * v3at (axis th) (i - 3))))
            (seq 3 3) (cursor, err) in
    Ok (mkP6 (cframe p) th, err')
  else Ok (p, err).

(** feature-point6d.cpp:354-417 inverseJacobianRodrigues: the matrix P_
    ("generated by maxima software"), from error_th_; accuracy_ is 1e-8
    (feature-point6d.cpp:63). *)
Definition accuracy : R := / 100000000.
Definition p6_P (th : aaxis) : mat3 :=
  let r1 := ang th * vx (axis th) in
  let r2 := ang th * vy (axis th) in
  let r3 := ang th * vz (axis th) in
  let r1_2 := r1 * r1 in let r2_2 := r2 * r2 in let r3_2 := r3 * r3 in
  let r1_3 := r1 * r1_2 in let r2_3 := r2 * r2_2 in let r3_3 := r3 * r3_2 in
  let r1_4 := r1_2 * r1_2 in let r2_4 := r2_2 * r2_2 in let r3_4 := r3_2 * r3_2 in
  let norm_2 := r3_2 + r2_2 + r1_2 in
  if Rlt_dec norm_2 accuracy then mid else
  let n := sqrt norm_2 in
  let den := r3_4 + (2 * r2_2 + 2 * r1_2) * r3_2 + r2_4 + 2 * r1_2 * r2_2 + r1_4 in
  M3
    (((r3_2 + r2_2) * n * sin n + r1_2 * r3_2 + r1_2 * r2_2 + r1_4) / den)
    (- (r1 * r2 * n * sin n + (r3_3 + (r2_2 + r1_2) * r3) * cos n - r3_3
        - r1 * r2 * r3_2 + (- r2_2 - r1_2) * r3 - r1 * r2_3 - r1_3 * r2) / den)
    (- (r1 * r3 * n * sin n + (- r2 * r3_2 - r2_3 - r1_2 * r2) * cos n
        - r1 * r3_3 + r2 * r3_2 + (- r1 * r2_2 - r1_3) * r3 + r2_3 + r1_2 * r2) / den)
    (- (r1 * r2 * n * sin n + ((- r2_2 - r1_2) * r3 - r3_3) * cos n + r3_3
        - r1 * r2 * r3_2 + (r2_2 + r1_2) * r3 - r1 * r2_3 - r1_3 * r2) / den)
    (((r3_2 + r1_2) * n * sin n + r2_2 * r3_2 + r2_4 + r1_2 * r2_2) / den)
    (- (r2 * r3 * n * sin n + (r1 * r3_2 + r1 * r2_2 + r1_3) * cos n
        - r2 * r3_3 - r1 * r3_2 + (- r2_3 - r1_2 * r2) * r3 - r1 * r2_2 - r1_3) / den)
    (- (r1 * r3 * n * sin n + (r2 * r3_2 + r2_3 + r1_2 * r2) * cos n
        - r1 * r3_3 - r2 * r3_2 + (- r1 * r2_2 - r1_3) * r3 - r2_3 - r1_2 * r2) / den)
    (- (r2 * r3 * n * sin n + (- r1 * r3_2 - r1 * r2_2 - r1_3) * cos n
        - r2 * r3_3 + r1 * r3_2 + (- r2_3 - r1_2 * r2) * r3 + r1 * r2_2 + r1_3) / den)
    (((r2_2 + r1_2) * n * sin n + r3_4 + (r2_2 + r1_2) * r3_2) / den).
Definition p6_Pinv (th : aaxis) : mat3 := minv (p6_P th).

(** feature-point6d.cpp:420-456: the derivative of the two halves of the
    error.  [v], [omega]: the velocity of the reference. *)
Definition p6_edot (p : p6) (M Mref : hom) (v omega : vec3) : vec3 * vec3 :=
  let Rt := mT (lin M) in
  let Rreft := mT (lin Mref) in
  let Pinv := p6_Pinv (error_th p) in
  match cframe p with
  | FRAME_CURRENT => (mapp Rt v, mapp Pinv (mapp Rreft omega))
  | FRAME_DESIRED =>
      (mapp Rreft (vsub (cross omega (vsub (trn Mref) (trn M))) v),
       mapp (mopp Pinv) (mapp Rt omega))
  end.

(** feature-point6d.cpp:419-474 computeErrordot.  The reference comes with its
    velocity signal; errorSOUT.recompute leaves error_th_ as computeError
    does. *)
Definition p6_errordot (g : R) (p : p6) (fl : Flags) (dim : nat) (M : hom)
  (ref : option (hom * list R)) : outcome (p6 * list R) :=
  let* (p', e) :=
    match ref with
    | Some (Mref, velocity) =>
        let* v := get3 velocity 0 in
        let* omega := get3 velocity 3 in
        let* (p', _) := p6_error g p fl dim M (Some Mref) in
        Ok (p', p6_edot p' M Mref v omega)
    | None => Ok (p, (v0, v0))
    end in
  let* (cursor, err) :=
    ofold (collect_step R fl (fun i => Ok (v3at (fst e) i))) (seq 0 3)
          (0%nat, repeat g dim) in
  let* f3 := at_ fl 3 in
  let* f4 := at_ fl 4 in
  let* f5 := at_ fl 5 in
  if f3 || f4 || f5 then
    let* (_, err') :=
      ofold (collect_step R fl (fun i => Ok (v3at (snd e) (i - 3)))) (seq 3 3)
            (cursor, err) in
    Ok (p', err')
  else Ok (p', err).

(** feature-point6d.cpp:478-494 servoCurrentPosition (command keep): the new
    value of the reference position.  [pos]: the last value of the position
    input (accessCopy). *)
Definition p6_keep (pos : hom) (ref : option hom) : outcome (option hom) :=
  match ref with
  | None => Throw "GENERIC"
  | Some _ => Ok (Some pos)
  end.
