(** Velocity of one moving frame relative to another: mathematical background
    of the pose features.  Nothing here models the repository. *)
From Coq Require Import String List Arith Lia ZArith Bool Reals Lra Psatz.
From Verif Require Import Base Geom_Model Geom_Facts Geom_Rot Geom_Props OpPoint_Model OpPoint_Props Rodr_Facts.
Import ListNotations.
Local Open Scope R_scope.

Lemma deriv_dot3 f1 g1 f2 g2 f3 g3 t a1 b1 a2 b2 a3 b3 :
  derivable_pt_lim f1 t a1 -> derivable_pt_lim g1 t b1 ->
  derivable_pt_lim f2 t a2 -> derivable_pt_lim g2 t b2 ->
  derivable_pt_lim f3 t a3 -> derivable_pt_lim g3 t b3 ->
  derivable_pt_lim (fun s => f1 s * g1 s + f2 s * g2 s + f3 s * g3 s) t
    (a1 * g1 t + a2 * g2 t + a3 * g3 t + (f1 t * b1 + f2 t * b2 + f3 t * b3)).
Proof.
  intros.
  replace (a1 * g1 t + a2 * g2 t + a3 * g3 t + (f1 t * b1 + f2 t * b2 + f3 t * b3))
    with (a1 * g1 t + f1 t * b1 + (a2 * g2 t + f2 t * b2) + (a3 * g3 t + f3 t * b3)) by ring.
  apply (derivable_pt_lim_plus (fun s => f1 s * g1 s + f2 s * g2 s) (fun s => f3 s * g3 s)).
  - apply (derivable_pt_lim_plus (fun s => f1 s * g1 s) (fun s => f2 s * g2 s));
      apply deriv_mult; assumption.
  - apply deriv_mult; assumption.
Qed.

Lemma vderiv_mapp f v t df dv : mderiv f t df -> vderiv v t dv ->
  vderiv (fun s => mapp (f s) (v s)) t (vadd (mapp df (v t)) (mapp (f t) dv)).
Proof.
  intros (A & B & C & D & E & F & G & I & J) (X & Y & Z).
  unfold vderiv, mapp, vadd. gcbn.
  split; [|split].
  - exact (deriv_dot3 _ _ _ _ _ _ t _ _ _ _ _ _ A X B Y C Z).
  - exact (deriv_dot3 _ _ _ _ _ _ t _ _ _ _ _ _ D X E Y F Z).
  - exact (deriv_dot3 _ _ _ _ _ _ t _ _ _ _ _ _ G X I Y J Z).
Qed.

Lemma mderiv_mmul f g t df dg : mderiv f t df -> mderiv g t dg ->
  mderiv (fun s => mmul (f s) (g s)) t (madd (mmul df (g t)) (mmul (f t) dg)).
Proof.
  intros (A & B & C & D & E & F & G & I & J)
         (A' & B' & C' & D' & E' & F' & G' & I' & J').
  unfold mderiv, mmul, madd. gcbn.
  repeat split.
  - exact (deriv_dot3 _ _ _ _ _ _ t _ _ _ _ _ _ A A' B D' C G').
  - exact (deriv_dot3 _ _ _ _ _ _ t _ _ _ _ _ _ A B' B E' C I').
  - exact (deriv_dot3 _ _ _ _ _ _ t _ _ _ _ _ _ A C' B F' C J').
  - exact (deriv_dot3 _ _ _ _ _ _ t _ _ _ _ _ _ D A' E D' F G').
  - exact (deriv_dot3 _ _ _ _ _ _ t _ _ _ _ _ _ D B' E E' F I').
  - exact (deriv_dot3 _ _ _ _ _ _ t _ _ _ _ _ _ D C' E F' F J').
  - exact (deriv_dot3 _ _ _ _ _ _ t _ _ _ _ _ _ G A' I D' J G').
  - exact (deriv_dot3 _ _ _ _ _ _ t _ _ _ _ _ _ G B' I E' J I').
  - exact (deriv_dot3 _ _ _ _ _ _ t _ _ _ _ _ _ G C' I F' J J').
Qed.

Lemma mderiv_mT f t d : mderiv f t d -> mderiv (fun s => mT (f s)) t (mT d).
Proof. intros (A & B & C & D & E & F & G & I & J). unfold mderiv, mT. gcbn. tauto. Qed.

Lemma vderiv_opp f t d : vderiv f t d -> vderiv (fun s => vopp (f s)) t (vopp d).
Proof.
  intros (A & B & C). unfold vderiv, vopp. gcbn.
  repeat split; apply derivable_pt_lim_opp; assumption.
Qed.

Lemma vderiv_sub f g t df dg : vderiv f t df -> vderiv g t dg ->
  vderiv (fun s => vsub (f s) (g s)) t (vsub df dg).
Proof.
  intros (A & B & C) (D & E & F). unfold vderiv, vsub. gcbn.
  repeat split; apply derivable_pt_lim_minus; assumption.
Qed.

Lemma vderiv_const c t : vderiv (fun _ => c) t v0.
Proof. repeat split; apply derivable_pt_lim_const. Qed.

Lemma mderiv_const c t : mderiv (fun _ => c) t mzero.
Proof. repeat split; apply derivable_pt_lim_const. Qed.

Lemma vderiv_eq f g t a b : (forall s, f s = g s) -> a = b -> vderiv f t a -> vderiv g t b.
Proof.
  intros E -> (A & B & C).
  repeat split; (eapply derivable_pt_lim_ext; [|eassumption]); intros z; cbn beta; now rewrite E.
Qed.

Lemma mderiv_eq f g t a b : (forall s, f s = g s) -> a = b -> mderiv f t a -> mderiv g t b.
Proof.
  intros E -> (A & B & C & D & F & G & I & J & K).
  repeat split; (eapply derivable_pt_lim_ext; [|eassumption]); intros z; cbn beta; now rewrite E.
Qed.

(** Derivatives are unique. *)
Lemma vderiv_unique f t a b : vderiv f t a -> vderiv f t b -> a = b.
Proof.
  intros (A & B & C) (A' & B' & C'). apply vec3_ext; eapply uniqueness_limite; eassumption.
Qed.

(* ---------------------------------------------------------------- *)
(** The pose of frame B seen from frame A. *)
Definition rel (a b : hom) : hom := hmul (hinv a) b.

Lemma rel_trn a b : is_rigid a ->
  trn (rel a b) = mapp (mT (lin a)) (vsub (trn b) (trn a)).
Proof.
  intros Ha. unfold rel, hmul, hinv. cbn [lin trn]. rewrite (rot_inv _ Ha), mapp_vsub.
  destruct (mapp _ (trn b)), (mapp _ (trn a)). unfold vadd, vopp, vsub. gcbn. f_equal; ring.
Qed.

Lemma rel_lin a b : is_rigid a -> lin (rel a b) = mmul (mT (lin a)) (lin b).
Proof. intros Ha. unfold rel, hmul, hinv. cbn [lin trn]. now rewrite (rot_inv _ Ha). Qed.

Lemma rel_rigid a b : is_rigid a -> is_rigid b -> is_rigid (rel a b).
Proof. intros Ha Hb. apply rigid_mul; [apply rigid_inv, Ha|exact Hb]. Qed.

Lemma mmul_madd_l a b c : mmul a (madd b c) = madd (mmul a b) (mmul a c).
Proof. destruct a, b, c. unfold mmul, madd. gcbn. f_equal; ring. Qed.

Lemma mT_skew w : mT (skew w) = skew (vopp w).
Proof. destruct w. unfold mT, skew, vopp. gcbn. f_equal; ring. Qed.

Lemma skew_rot r w : is_rot r -> mmul (skew w) r = mmul r (skew (mapp (mT r) w)).
Proof.
  intros Hr. rewrite <- (rot_skew r _ Hr), <- mapp_mmul, (rot_mT_r _ Hr), mapp_id.
  reflexivity.
Qed.

(** Velocity of B seen from A, when both move: the translation seen from A,
    and the angular velocity in B. *)
Theorem rel_velocity (A B : R -> hom) t na nb :
  (forall s, is_rigid (A s)) -> (forall s, is_rigid (B s)) ->
  body_velocity A t na -> body_velocity B t nb ->
  let X := rel (A t) (B t) in
  vderiv (fun s => trn (rel (A s) (B s))) t
    (vsub (vsub (mapp (lin X) (fst nb)) (fst na)) (cross (snd na) (trn X))) /\
  mderiv (fun s => lin (rel (A s) (B s))) t
    (mmul (lin X) (skew (vsub (snd nb) (mapp (mT (lin X)) (snd na))))).
Proof.
  intros HA HB [PA RA] [PB RB]. cbv zeta. split.
  - eapply vderiv_eq; [intros s; symmetry; apply rel_trn, HA| |].
    2: { apply vderiv_mapp; [apply mderiv_mT, RA|apply vderiv_sub; [exact PB|exact PA]]. }
    cbn beta. rewrite rel_trn, rel_lin by apply HA.
    rewrite mmul_mT, mT_skew, !mapp_mmul, (mapp_vsub _ (mapp (lin (B t)) _)), skew_app.
    rewrite <- (mapp_mmul (mT (lin (A t))) (lin (A t))), (rot_mT_l _ (HA t)), mapp_id.
    set (p := mapp (mT (lin (A t))) (vsub _ _)). set (q := mapp _ (mapp _ (fst nb))).
    destruct p, q, (fst na), (snd na). unfold vadd, vsub, cross, vopp. gcbn. f_equal; ring.
  - eapply mderiv_eq; [intros s; symmetry; apply rel_lin, HA| |].
    2: { apply mderiv_mmul; [apply mderiv_mT, RA|exact RB]. }
    cbn beta. rewrite rel_lin by apply HA.
    rewrite mmul_mT, mT_skew, <- mmul_assoc, mmul_assoc.
    set (X := mmul (mT (lin (A t))) (lin (B t))).
    assert (HX : is_rot X) by (apply rot_mul; [apply rot_T, HA|apply HB]).
    rewrite <- mmul_assoc. fold X. rewrite mmul_assoc. fold X.
    rewrite (skew_rot X _ HX), mapp_vopp, <- mmul_madd_l. f_equal.
    destruct (mapp _ _), (snd nb). unfold skew, madd, vsub, vopp. gcbn. f_equal; ring.
Qed.

(** The rotation vector of B seen from A. *)
Theorem rel_rotvec (A B : R -> hom) t na nb :
  (forall s, is_rigid (A s)) -> (forall s, is_rigid (B s)) ->
  body_velocity A t na -> body_velocity B t nb ->
  let X := rel (A t) (B t) in
  ang (matToAA (lin X)) < PI ->
  vderiv (fun s => rotvec (lin (rel (A s) (B s)))) t
    (mapp (jlog (rotvec (lin X))) (vsub (snd nb) (mapp (mT (lin X)) (snd na)))).
Proof.
  intros HA HB VA VB X HX.
  apply (rotvec_deriv (fun s => lin (rel (A s) (B s)))).
  - intros s. apply (rel_rigid _ _ (HA s) (HB s)).
  - exact (proj2 (rel_velocity A B t na nb HA HB VA VB)).
  - exact HX.
Qed.

(** A frame that moves with a velocity given in the world moves with the same
    velocity rotated into the frame. *)
Lemma world_body M t n : is_rot (lin (M t)) -> world_velocity M t n ->
  body_velocity M t (mapp (mT (lin (M t))) (fst n), mapp (mT (lin (M t))) (snd n)).
Proof.
  intros Hr [P Q]. split; cbn [fst snd].
  - rewrite <- mapp_mmul, (rot_mT_r _ Hr), mapp_id. exact P.
  - rewrite <- (skew_rot _ _ Hr). exact Q.
Qed.

Lemma still_body M t : (forall s, M s = M t) -> body_velocity M t (v0, v0).
Proof.
  intros E. split; cbn [fst snd].
  - rewrite mapp_v0. eapply vderiv_eq; [| |apply (vderiv_const (trn (M t)))].
    + intros s. cbn beta. now rewrite (E s).
    + reflexivity.
  - eapply mderiv_eq; [| |apply (mderiv_const (lin (M t)))].
    + intros s. cbn beta. now rewrite (E s).
    + destruct (lin (M t)). unfold mmul, skew, v0, mzero. gcbn. f_equal; ring.
Qed.
