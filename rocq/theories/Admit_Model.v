(** AdmittanceControlOpPoint (src/control/admittance-control-op-point.cpp) and ClampWorkspace
    (src/tools/clamp-workspace.cpp).  Exact reals; see Geom_Model for the geometry. *)
From Coq Require Import String List Arith Lia ZArith Bool Reals.
From Verif Require Import Base Geom_Model Tools_Model.
Import ListNotations.
Local Open Scope R_scope.

(** A 6-vector as Eigen sees it: three linear and three angular coefficients.  Any other size is an
    assertion (out of range in release). *)
Definition six (v : list R) : outcome (vec3 * vec3) :=
  match v with
  | [a; b; c; d; e; f] => Ok (V3 a b c, V3 d e f)
  | _ => UB
  end.
Definition unsix (n : vec3 * vec3) : list R :=
  [vx (fst n); vy (fst n); vz (fst n); vx (snd n); vy (snd n); vz (snd n)].

(** external: pinocchio::SE3::act on a Force: (R f, R n + p x R f). *)
Definition force_act (m : hom) (f : vec3 * vec3) : vec3 * vec3 :=
  let l := mapp (lin m) (fst f) in
  (l, vadd (mapp (lin m) (snd f)) (cross (trn m) l)).
(** external: pinocchio::SE3::actInv on a Motion: (R^T (v - p x w), R^T w). *)
Definition motion_actInv (m : hom) (n : vec3 * vec3) : vec3 * vec3 :=
  (mapp (mT (lin m)) (vsub (fst n) (cross (trn m) (snd n))), mapp (mT (lin m)) (snd n)).

(** admittance-control-op-point.hh:108-116: the state.  [ad_n] is not set by the constructor.
    [ad_wforce], [ad_wdqs], [ad_dqs] are the values held by the three computed signals. *)
Record adm := mkAdm {
  ad_init : bool; ad_n : option nat; ad_dt : R; ad_wdq : list R;
  ad_wforce : list R; ad_dq : list R }.

(** admittance-control-op-point.cpp:53-81: constructor (m_dt is not set either; it is never read
    before init). *)
Definition ad_start : adm := mkAdm false None 0 [] [] [].

(** admittance-control-op-point.cpp:83-110 init; [plugged]: the seven input signals are plugged. *)
Definition ad_do_init (plugged : bool) (dt : R) (a : adm) : adm :=
  if plugged then mkAdm true (Some 6%nat) dt (repeat 0 6) (ad_wforce a) (ad_dq a) else a.

(** admittance-control-op-point.cpp:112-115 resetDq. *)
Definition ad_reset (a : adm) : outcome adm :=
  match ad_n a with
  | None => UB
  | Some n => Ok (mkAdm (ad_init a) (ad_n a) (ad_dt a) (repeat 0 n) (ad_wforce a) (ad_dq a))
  end.

(** Values of the input signals at one iteration. *)
Record adin := mkAdin {
  i_Kp : list R; i_Kd : list R; i_sat : list R; i_force : list R; i_fdes : list R;
  i_op : hom; i_sensor : hom }.

(** admittance-control-op-point.cpp:120-141 w_force. *)
Definition ad_w_force (a : adm) (i : adin) : outcome adm :=
  if ad_init a then
    let* f := six (i_force i) in
    Ok (mkAdm (ad_init a) (ad_n a) (ad_dt a) (ad_wdq a) (unsix (force_act (i_sensor i) f)) (ad_dq a))
  else Ok a.

(** admittance-control-op-point.cpp:172-175, one coefficient. *)
Definition ad_sat1 (x s : R) : R :=
  let y := if Rltb s x then s else x in
  if Rltb y (- s) then - s else y.

(** admittance-control-op-point.cpp:143-182 w_dq (the new value of m_w_dq). *)
Definition ad_w_dq (a : adm) (i : adin) : outcome (list R) :=
  let* _ := six (ad_wforce a) in
  let* _ := six (i_fdes i) in
  let* _ := six (i_Kp i) in
  let* _ := six (i_Kd i) in
  let* _ := six (i_sat i) in
  let* e := zipR Rminus (i_fdes i) (ad_wforce a) in
  let* ke := zipR Rmult (i_Kp i) e in
  let* s := zipR Rplus (ad_wdq a) (scaleR (ad_dt a) ke) in
  let* kd := zipR Rmult (i_Kd i) (ad_wdq a) in
  let* w := zipR Rminus s kd in
  ofor_range 0 6 (fun k w =>
    let* x := vget w k in
    let* s := vget (i_sat i) k in
    vset w k (ad_sat1 x s)) w.

(** admittance-control-op-point.cpp:184-203 dq, evaluated at a new iteration.  The signal w_force
    depends on the force signal only (line 64): [fresh] says whether that one has a new value;
    otherwise the world force of the previous iteration is kept. *)
Definition ad_step (a : adm) (fresh : bool) (i : adin) : outcome adm :=
  if ad_init a then
    let* a1 := if fresh then ad_w_force a i else Ok a in
    let* w := ad_w_dq a1 i in
    let* n := six w in
    Ok (mkAdm true (ad_n a1) (ad_dt a1) w (ad_wforce a1) (unsix (motion_actInv (i_op i) n)))
  else Ok a.

Inductive adcmd := AInit (plugged : bool) (dt : R) | AReset | AStep (fresh : bool) (i : adin).
Definition ad_cmd (a : adm) (c : adcmd) : outcome adm :=
  match c with
  | AInit p dt => Ok (ad_do_init p dt a)
  | AReset => ad_reset a
  | AStep f i => ad_step a f i
  end.

(* ------------------------------------------------------------------ *)
(** ** ClampWorkspace *)

(** clamp-workspace.hh:76-95, the fields that matter; [c_handref] is an uninitialised
    transformation until the first update. *)
Record clamp := mkClamp {
  c_time : Z; c_alpha : twist; c_alphabar : twist; c_handref : option hom;
  c_mode : Z; c_point : bool }.

Definition mones : mat3 := M3 1 1 1 1 1 1 1 1 1.

(** clamp-workspace.cpp:22-74 constructor; mode and frame have no setter. *)
Definition c_start (mode : Z) (point : bool) : clamp :=
  mkClamp 0 (T6 mzero mzero mzero mzero) (T6 mones mones mones mones) None mode point.
Definition c_new : clamp := c_start 1 true.

Definition c_dm_min : R := 19 / 1000.
Definition c_dm_max : R := 25 / 1000.
Definition c_dm_min_yaw : R := 19 / 1000.
Definition c_dm_max_yaw : R := 119 / 1000.
Definition c_theta_min : R := - 30 * (314159 / 100000) / 180.
Definition c_theta_max : R := 5 * (314159 / 100000) / 180.
Definition c_lo : vec3 := V3 (15 / 100) (- 4 / 10) (15 / 100).
Definition c_hi : vec3 := V3 (5 / 10) (- 25 / 100) (55 / 100).

(** clamp-workspace.cpp:92-94 *)
Definition c_dm (x lo hi : R) : R := Rmin (Rmax (x - lo) 0) (Rmax (hi - x) 0).
(** clamp-workspace.cpp:96-102 *)
Definition c_Y (dm mn mx : R) : R :=
  let y := (dm - mn) / (mx - mn) in
  let y := if Rltb y 0 then 0 else y in
  if Rltb 1 y then 1 else y.
(** clamp-workspace.cpp:115: 0.5 * (1 + tanh(1/Y - 1/(1-Y))); the quotients may be infinite. *)
Definition c_weight (y : R) : R :=
  match etanh (eadd (ediv 1 y false) (ediv (-1) (1 - y) false)) with
  | Fin z => 1 / 2 * (1 + z)
  | _ => 0
  end.

(** clamp-workspace.cpp:91-135: the coefficients written by the loop, (alpha(i,i), alphabar(i,i))
    for i = 0, 1, 2, then for the yaw.  [alpha(i)] (line 116) is the linear index, i.e. the
    coefficient (i,0): it is alpha(0,0) for i = 0 and 0 otherwise. *)
Definition c_diag (mode : Z) (dm : R) (first : bool) : R * R :=
  if (mode =? 0)%Z then (0, 1)
  else if (mode =? 1)%Z then (1, 0)
  else let a := c_weight (c_Y dm c_dm_min c_dm_max) in (a, 1 - (if first then a else 0)).
Definition c_yaw (mode : Z) (dm : R) : R * R :=
  if (mode =? 2)%Z then (c_weight (c_Y dm c_dm_min_yaw c_dm_max_yaw), 1 - 0) else (0, 1).

(** clamp-workspace.cpp:76-175 update *)
Definition c_update (c : clamp) (posref pos : hom) (time : Z) : clamp :=
  if (time <=? c_time c)%Z then c
  else
    let prefMp := hmul (hinv posref) pos in
    let x := trn prefMp in
    let d0 := c_diag (c_mode c) (c_dm (vx x) (vx c_lo) (vx c_hi)) true in
    let d1 := c_diag (c_mode c) (c_dm (vy x) (vy c_lo) (vy c_hi)) false in
    let d2 := c_diag (c_mode c) (c_dm (vz x) (vz c_lo) (vz c_hi)) false in
    let yw := c_yaw (c_mode c) (c_dm (vz x) (vz c_lo) (vz c_hi)) in
    let alpha := T6 (M3 (fst d0) 0 0 0 (fst d1) 0 0 0 (fst d2)) mzero
                    mzero (M3 0 0 0 0 0 0 0 0 (fst yw)) in
    let alphabar := T6 (M3 (snd d0) 0 0 0 (snd d1) 0 0 0 (snd d2)) mzero
                       mzero (M3 1 0 0 0 1 0 0 0 (snd yw)) in
    let ab :=
      if c_point c then
        let pTpref := buildFrom (H (lin (hinv prefMp)) v0) in
        let prefTp := buildFrom (H (lin prefMp) v0) in
        (tmul pTpref (tmul alpha prefTp), tmul pTpref (tmul alphabar prefTp))
      else (alpha, alphabar) in
    let pd := vscal (1 / 2) (vadd c_lo c_hi) in
    let yaw := c_theta_min + (c_theta_max - c_theta_min) * (vy x - vy c_lo) / (vy c_hi - vy c_lo) in
    let Rd := mmul (mmul (axisMat AXIS_Z yaw) (axisMat AXIS_Y (- (314159256 / 100000000) / 2)))
                   (axisMat AXIS_X 0) in
    mkClamp time (fst ab) (snd ab) (Some (H Rd pd)) (c_mode c) (c_point c).
