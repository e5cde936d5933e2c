(** OpPointModifier (src/math/op-point-modifier.cpp). *)
From Coq Require Import String List Arith Lia ZArith Bool Reals Lra.
From Verif Require Import Base Geom_Model.
Import ListNotations.
Local Open Scope R_scope.

(** A 6-row jacobian is the list of its columns, each one a pair (linear part,
    angular part).  Simplification: matrices that do not have six rows are not
    represented (Eigen asserts, or reads out of range in release). *)
Definition jac := list (vec3 * vec3).

(** external: product of a 6x6 matrix and a 6xn matrix, column by column. *)
Definition tjac (t : twist) (j : jac) : jac := map (tapp t) j.

(** op-point-modifier.hh: the two attributes, default values from
    op-point-modifier.cpp:46-47 (the default transformation is an
    uninitialised Eigen::Transform, hence not represented here). *)
Record opm := mkOpm { transformation : hom; isEndEffector : bool }.

(** op-point-modifier.cpp:77-123 jacobianSOUT_function. *)
Definition opm_jacobian (o : opm) (pos : hom) (j : jac) : jac :=
  if isEndEffector o then
    let aMb := transformation o in
    let bVa := buildFrom (hinv aMb) in
    tjac bVa j
  else
    let aMb := transformation o in
    let oRa := lin pos in
    let aAB := trn aMb in
    let oAB := mapp oRa aAB in
    map (fun c : vec3 * vec3 =>
           let v := fst c in let w := snd c in
           (V3 (vx v - vy oAB * vz w + vz oAB * vy w)
               (vy v - vz oAB * vx w + vx oAB * vz w)
               (vz v - vx oAB * vy w + vy oAB * vx w),
            w)) j.

(** op-point-modifier.cpp:125-134 positionSOUT_function. *)
Definition opm_position (o : opm) (pos : hom) : hom :=
  hmul pos (transformation o).

(** Velocity obtained from a jacobian and joint velocities. *)
Fixpoint jvel (j : jac) (qd : list R) : vec3 * vec3 :=
  match j, qd with
  | c :: js, x :: qs =>
      let r := jvel js qs in
      (vadd (vscal x (fst c)) (fst r), vadd (vscal x (snd c)) (snd r))
  | _, _ => (v0, v0)
  end.
