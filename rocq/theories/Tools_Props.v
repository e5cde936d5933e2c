(** Smooth reach, joint limitator, gripper and CoM freezer (properties C57, C58, C59, C61). *)
From Coq Require Import String List Arith Lia ZArith Bool Reals Lra Psatz.
From Verif Require Import Base Tools_Model.
Import ListNotations.
Local Open Scope R_scope.

Lemma Rltb_spec a b : reflect (a < b) (Rltb a b).
Proof. unfold Rltb. destruct (Rlt_dec a b); constructor; assumption. Qed.

Lemma zipR_ok f a b : length a = length b ->
  exists r, zipR f a b = Ok r /\ length r = length a /\
    forall i, (i < length a)%nat -> nth i r 0 = f (nth i a 0) (nth i b 0).
Proof.
  intros E. unfold zipR. rewrite E, Nat.eqb_refl.
  eexists; split; [reflexivity|]. split.
  - rewrite map_length, combine_length, E. lia.
  - revert b E. induction a as [|x a IH]; intros [|y b] E i Hi; cbn in *; try lia; try discriminate.
    destruct i; [reflexivity|]. apply IH; lia.
Qed.

Lemma zipR_inv f a b r : zipR f a b = Ok r -> length a = length b.
Proof. unfold zipR. destruct (Nat.eqb_spec (length a) (length b)); [auto|discriminate]. Qed.

Lemma nth_map0 f l i : (i < length l)%nat -> nth i (map f l) 0 = f (nth i l 0).
Proof. intros H. rewrite (nth_indep _ 0 (f 0)) by (rewrite map_length; exact H). apply map_nth. Qed.

(* ------------------------------------------------------------------ *)
(** ** C57: SmoothReach *)

(** The weight of the goal, on [0,1]. *)
Definition sfun (mode : Z) (beta x : R) : R :=
  if (mode =? 0)%Z then x
  else if Req_EM_T x 0 then 0
  else if Req_EM_T x 1 then 1
  else if (mode =? 1)%Z then tanh (- beta / x + beta / (1 - x)) / 2 + 1 / 2
  else atan (- beta / x + beta / (1 - x)) / PI + 1 / 2.

Definition known_mode (m : Z) : Prop := m = 0%Z \/ m = 1%Z \/ m = 2%Z.

Lemma smooth_sfun s x : known_mode (sr_mode s) -> 0 < sr_beta s -> 0 <= x <= 1 ->
  smoothFunction s (Fin x) false = Fin (sfun (sr_mode s) (sr_beta s) x).
Proof.
  intros Hm Hb Hx. unfold smoothFunction, sfun.
  destruct Hm as [E|[E|E]]; rewrite E; cbn [Z.eqb]; [reflexivity| |].
  all: unfold ediv, Rltb; destruct (Req_EM_T x 0) as [->|H0].
  all: try (destruct (Req_EM_T (- sr_beta s) 0) as [X|_]; [lra|]).
  all: try (destruct (Rlt_dec 0 (- sr_beta s)) as [X|_]; [lra|]).
  1,3: destruct (Req_EM_T (1 - 0) 0) as [X|_]; [lra|]; cbn; f_equal.
  - field.
  - field. apply PI_neq0.
  - destruct (Req_EM_T x 1) as [->|H1].
    + destruct (Req_EM_T (1 - 1) 0) as [_|X]; [|lra].
      destruct (Req_EM_T (sr_beta s) 0) as [X|_]; [lra|].
      destruct (Rlt_dec 0 (sr_beta s)) as [_|X]; [|lra]. cbn. f_equal. field.
    + destruct (Req_EM_T (1 - x) 0) as [X|_]; [lra|]. reflexivity.
  - destruct (Req_EM_T x 1) as [->|H1].
    + destruct (Req_EM_T (1 - 1) 0) as [_|X]; [|lra].
      destruct (Req_EM_T (sr_beta s) 0) as [X|_]; [lra|].
      destruct (Rlt_dec 0 (sr_beta s)) as [_|X]; [|lra]. cbn. f_equal. field. apply PI_neq0.
    + destruct (Req_EM_T (1 - x) 0) as [X|_]; [lra|]. reflexivity.
Qed.

Lemma tanh_exp y : tanh y = 1 - 2 / (exp (2 * y) + 1).
Proof.
  unfold tanh, sinh, cosh. pose proof (exp_pos y). pose proof (exp_pos (- y)).
  replace (2 * y) with (y + y) by ring. rewrite exp_plus.
  assert (E : exp y * exp (- y) = 1) by (rewrite <- exp_plus, Rplus_opp_r; apply exp_0).
  assert (E' : exp (- y) = / exp y).
  { apply (Rmult_eq_reg_l (exp y)); [|lra]. rewrite E. field. lra. }
  rewrite E'. field. split; nra.
Qed.

Lemma tanh_lt a b : a < b -> tanh a < tanh b.
Proof.
  intros H. rewrite !tanh_exp. pose proof (exp_pos (2 * a)). pose proof (exp_pos (2 * b)).
  assert (exp (2 * a) < exp (2 * b)) by (apply exp_increasing; lra).
  assert (/ (exp (2 * b) + 1) < / (exp (2 * a) + 1)) by (apply Rinv_lt_contravar; nra).
  unfold Rdiv. lra.
Qed.

Lemma tanh_bound a : -1 < tanh a < 1.
Proof.
  rewrite tanh_exp. pose proof (exp_pos (2 * a)).
  assert (0 < / (exp (2 * a) + 1)) by (apply Rinv_0_lt_compat; lra).
  assert (/ (exp (2 * a) + 1) < / 1) by (apply Rinv_lt_contravar; lra).
  rewrite Rinv_1 in *. unfold Rdiv. lra.
Qed.

Lemma sarg_lt beta x y : 0 < beta -> 0 < x -> x < y -> y < 1 ->
  - beta / x + beta / (1 - x) < - beta / y + beta / (1 - y).
Proof.
  intros Hb H0 H H1.
  assert (/ y < / x) by (apply Rinv_lt_contravar; nra).
  assert (/ (1 - x) < / (1 - y)) by (apply Rinv_lt_contravar; nra).
  unfold Rdiv. nra.
Qed.

Lemma atan_half a : 0 < atan a / PI + 1 / 2 < 1.
Proof.
  pose proof (atan_bound a) as B. pose proof PI_RGT_0 as P.
  assert (- (1 / 2) < atan a / PI < 1 / 2); [|lra]. split.
  - apply (Rmult_lt_reg_r PI); [exact P|]. unfold Rdiv. rewrite Rmult_assoc, Rinv_l by lra. lra.
  - apply (Rmult_lt_reg_r PI); [exact P|]. unfold Rdiv. rewrite Rmult_assoc, Rinv_l by lra. lra.
Qed.

Lemma sfun_0 m b : sfun m b 0 = 0.
Proof. unfold sfun. destruct (m =? 0)%Z; [reflexivity|]. destruct (Req_EM_T 0 0); [reflexivity|lra]. Qed.
Lemma sfun_1 m b : sfun m b 1 = 1.
Proof.
  unfold sfun. destruct (m =? 0)%Z; [reflexivity|]. destruct (Req_EM_T 1 0); [lra|].
  destruct (Req_EM_T 1 1); [reflexivity|lra].
Qed.
Lemma sfun_in m b x : 0 < x < 1 -> 0 < sfun m b x < 1.
Proof.
  intros H. unfold sfun. destruct (m =? 0)%Z; [lra|].
  destruct (Req_EM_T x 0); [lra|]. destruct (Req_EM_T x 1); [lra|].
  destruct (m =? 1)%Z; [|apply atan_half].
  pose proof (tanh_bound (- b / x + b / (1 - x))). lra.
Qed.
Lemma sfun_lt m b x y : 0 < b -> 0 <= x -> x < y -> y <= 1 -> sfun m b x < sfun m b y.
Proof.
  intros Hb H0 H H1.
  destruct (Req_dec x 0) as [->|Hx].
  { rewrite sfun_0. destruct (Req_dec y 1) as [->|Hy]; [rewrite sfun_1; lra|].
    apply (sfun_in m b y). lra. }
  destruct (Req_dec y 1) as [->|Hy].
  { rewrite sfun_1. apply (sfun_in m b x). lra. }
  assert (A : - b / x + b / (1 - x) < - b / y + b / (1 - y)) by (apply sarg_lt; lra).
  unfold sfun. destruct (m =? 0)%Z; [lra|].
  destruct (Req_EM_T x 0); [lra|]. destruct (Req_EM_T x 1); [lra|].
  destruct (Req_EM_T y 0); [lra|]. destruct (Req_EM_T y 1); [lra|].
  destruct (m =? 1)%Z.
  - apply tanh_lt in A. lra.
  - apply atan_increasing in A. pose proof PI_RGT_0 as P.
    assert (/ PI > 0) by (apply Rinv_0_lt_compat; exact P). unfold Rdiv. nra.
Qed.

(** Fraction of the duration that has elapsed, cut at 1. *)
Definition elapsed (t0 n t : Z) : R := Rmin 1 (IZR (t - t0) / IZR n).

Lemma elapsed_range t0 n t : (0 < n)%Z -> (t0 <= t)%Z -> 0 <= elapsed t0 n t <= 1.
Proof.
  intros Hn Ht. unfold elapsed. apply IZR_lt in Hn. assert (0 <= IZR (t - t0)) by (apply IZR_le; lia).
  split; [|apply Rmin_l]. apply Rmin_glb; [lra|].
  apply Rmult_le_pos; [assumption|]. left. apply Rinv_0_lt_compat, Hn.
Qed.

Lemma elapsed_ext t0 n t s : (0 < n)%Z -> sr_startTime s = t0 -> sr_length s = n ->
  sr_x s t = (Fin (elapsed t0 n t), false).
Proof.
  intros Hn Et El. unfold sr_x, elapsed. rewrite Et, El.
  assert (En : (n <? 0)%Z = false) by lia. rewrite En. f_equal.
  apply IZR_lt in Hn. unfold ediv. destruct (Req_EM_T (IZR n) 0) as [X|_]; [lra|].
  destruct (Rltb_spec 1 (IZR (t - t0) / IZR n)); f_equal.
  - rewrite Rmin_left; lra.
  - rewrite Rmin_right; lra.
Qed.

(** After [set goal n] the first evaluation, at [t0], captures the start
    and returns it; from then on the output is start + w (goal - start)
    with a weight that grows strictly from 0 at [t0] to 1 at [t0 + n] and
    stays there, whatever the start signal does and in whatever order the
    later times are asked. In mode 0 the weight is the elapsed fraction.
    Missing: other smoothing modes, parameters and durations, which are
    not refused; false of the code there. *)
Theorem smooth_reach_partial s goal n start res t0 :
  (0 < n)%Z -> known_mode (sr_mode s) -> 0 < sr_beta s -> length start = length goal ->
  exists s2 (w : Z -> R),
    sr_goal_out (sr_set s goal n) start res t0 = Ok (Some start, s2) /\
    (forall t start' res', (t0 <= t)%Z -> exists r,
       sr_goal_out s2 start' res' t = Ok (Some r, s2) /\ length r = length goal /\
       forall i, (i < length goal)%nat ->
         nth i r 0 = nth i start 0 + w t * (nth i goal 0 - nth i start 0)) /\
    w t0 = 0 /\
    (forall t, (t0 <= t)%Z -> 0 <= w t <= 1) /\
    (forall t t', (t0 <= t < t')%Z -> (t' <= t0 + n)%Z -> w t < w t') /\
    (forall t, (t0 + n <= t)%Z -> w t = 1) /\
    (sr_mode s = 0%Z -> forall t, (t0 <= t <= t0 + n)%Z -> w t = IZR (t - t0) / IZR n).
Proof.
  intros Hn Hm Hb Hl.
  set (s2 := mkSReach start goal t0 n true false (sr_mode s) (sr_beta s)).
  exists s2, (fun t => sfun (sr_mode s) (sr_beta s) (elapsed t0 n t)).
  assert (E0 : elapsed t0 n t0 = 0).
  { unfold elapsed. rewrite Z.sub_diag. unfold Rdiv. rewrite Rmult_0_l. apply Rmin_right; lra. }
  assert (Out : forall t, (t0 <= t)%Z -> exists r,
    (let (x, neg) := sr_x s2 t in
     match smoothFunction s2 x neg with
     | Fin x1 => let* r := zipR Rplus (scaleR (1 - x1) start) (scaleR x1 goal) in Ok (Some r, s2)
     | _ => if (length start =? length goal)%nat then Ok (None, s2) else UB
     end) = Ok (Some r, s2) /\ length r = length goal /\
     forall i, (i < length goal)%nat -> nth i r 0 = nth i start 0 +
       sfun (sr_mode s) (sr_beta s) (elapsed t0 n t) * (nth i goal 0 - nth i start 0)).
  { intros t Ht. rewrite (elapsed_ext t0 n t s2 Hn eq_refl eq_refl).
    rewrite smooth_sfun; [|exact Hm|exact Hb|apply elapsed_range; assumption].
    cbn [s2 sr_mode sr_beta]. set (x1 := sfun _ _ _).
    destruct (zipR_ok Rplus (scaleR (1 - x1) start) (scaleR x1 goal)) as (r & Er & Lr & Nr).
    { unfold scaleR. rewrite !map_length. exact Hl. }
    rewrite Er. cbn [bind]. exists r. unfold scaleR in *. rewrite map_length in *.
    split; [reflexivity|]. split; [congruence|].
    intros i Hi. rewrite Nr by lia. rewrite !nth_map0 by lia. ring. }
  split; [|split; [|split; [|split; [|split; [|split]]]]].
  - unfold sr_goal_out, sr_set. cbn [sr_param sr_start sr_goal sr_length sr_mode sr_beta].
    fold s2. cbn [s2 sr_started sr_start sr_goal]. fold s2.
    destruct (Out t0 ltac:(lia)) as (r & -> & Lr & Nr). repeat f_equal.
    apply (list_eq_nth 0); [congruence|]. intros i Hi. rewrite Nr by congruence.
    rewrite E0, sfun_0. ring.
  - intros t start' res' Ht. unfold sr_goal_out. cbn [s2 sr_param sr_started sr_start sr_goal]. fold s2.
    exact (Out t Ht).
  - rewrite E0. apply sfun_0.
  - intros t Ht. pose proof (elapsed_range t0 n t Hn Ht) as [A B].
    destruct (Req_dec (elapsed t0 n t) 0) as [->|]; [rewrite sfun_0; lra|].
    destruct (Req_dec (elapsed t0 n t) 1) as [->|]; [rewrite sfun_1; lra|].
    pose proof (sfun_in (sr_mode s) (sr_beta s) (elapsed t0 n t)). lra.
  - intros t t' Ht Ht'. apply sfun_lt; [exact Hb| | |].
    + apply elapsed_range; lia.
    + assert (0 < IZR n) by (apply IZR_lt; lia).
      assert (IZR (t - t0) < IZR (t' - t0)) by (apply IZR_lt; lia).
      assert (IZR (t' - t0) <= IZR n) by (apply IZR_le; lia).
      assert (I : 0 < / IZR n) by (apply Rinv_0_lt_compat; assumption).
      assert (IZR (t' - t0) / IZR n <= 1).
      { apply (Rmult_le_reg_r (IZR n)); [assumption|]. unfold Rdiv. rewrite Rmult_assoc, Rinv_l by lra. lra. }
      assert (IZR (t - t0) / IZR n < IZR (t' - t0) / IZR n) by (unfold Rdiv; nra).
      unfold elapsed. rewrite !Rmin_right by lra. assumption.
    + apply elapsed_range; lia.
  - intros t Ht. replace (elapsed t0 n t) with 1; [apply sfun_1|].
    unfold elapsed. rewrite Rmin_left; [reflexivity|].
    assert (0 < IZR n) by (apply IZR_lt; lia). assert (IZR n <= IZR (t - t0)) by (apply IZR_le; lia).
    apply (Rmult_le_reg_r (IZR n)); [assumption|]. unfold Rdiv. rewrite Rmult_assoc, Rinv_l by lra. lra.
  - intros -> t Ht. unfold sfun. cbn [Z.eqb]. unfold elapsed. apply Rmin_right.
    assert (0 < IZR n) by (apply IZR_lt; lia). assert (IZR (t - t0) <= IZR n) by (apply IZR_le; lia).
    apply (Rmult_le_reg_r (IZR n)); [assumption|]. unfold Rdiv. rewrite Rmult_assoc, Rinv_l by lra. lra.
Qed.

(** The smoothing may be changed while the motion is under way: neither the two ends of the motion
    nor its timing change, the weight is the one of the new smoothing. *)
Theorem smooth_reach_change s goal n start res t0 m b :
  (0 < n)%Z -> known_mode (sr_mode s) -> 0 < sr_beta s -> length start = length goal ->
  known_mode m -> 0 < b ->
  exists s2 (w : Z -> R),
    sr_goal_out (sr_set s goal n) start res t0 = Ok (Some start, s2) /\
    let s3 := sr_setSmoothing s2 m b in
    (forall t start' res', (t0 <= t)%Z -> exists r,
       sr_goal_out s3 start' res' t = Ok (Some r, s3) /\ length r = length goal /\
       forall i, (i < length goal)%nat ->
         nth i r 0 = nth i start 0 + w t * (nth i goal 0 - nth i start 0)) /\
    w t0 = 0 /\
    (forall t, (t0 <= t)%Z -> 0 <= w t <= 1) /\
    (forall t t', (t0 <= t < t')%Z -> (t' <= t0 + n)%Z -> w t < w t') /\
    (forall t, (t0 + n <= t)%Z -> w t = 1) /\
    (m = 0%Z -> forall t, (t0 <= t <= t0 + n)%Z -> w t = IZR (t - t0) / IZR n).
Proof.
  intros Hn Hm Hb Hl Hm' Hb'.
  destruct (smooth_reach_partial s goal n start res t0 Hn Hm Hb Hl) as (s2 & _ & E & _).
  destruct (smooth_reach_partial (sr_setSmoothing s m b) goal n start res t0 Hn Hm' Hb' Hl)
    as (s3 & w & E3 & K).
  assert (X : forall s r s', sr_goal_out (sr_set s goal n) start res t0 = Ok (Some r, s') ->
    s' = mkSReach start goal t0 n true false (sr_mode s) (sr_beta s)).
  { clear. intros s r s'. unfold sr_goal_out, sr_set. cbn [sr_param sr_started]. destruct (sr_x _ _).
    destruct (smoothFunction _ _ _); cbn [sr_start sr_goal sr_length sr_mode sr_beta];
      try (destruct (Nat.eqb _ _); discriminate).
    destruct (zipR _ _ _); cbn; intros; congruence. }
  exists s2, w. split; [exact E|]. cbn zeta.
  assert (Q : sr_setSmoothing s2 m b = s3).
  { rewrite (X _ _ _ E), (X _ _ _ E3). reflexivity. }
  rewrite Q. exact K.
Qed.

(** The hypotheses on the duration, the mode and the parameter are not checked by the entity:
    a null duration makes the first output not a number, an unknown mode never moves, and a
    negative parameter starts at the goal. *)
Theorem smooth_reach_unchecked_refuted :
  (forall s goal start res t0, known_mode (sr_mode s) -> length start = length goal -> exists s2,
     sr_goal_out (sr_set s goal 0) start res t0 = Ok (None, s2)) /\
  (forall s goal start res t0 n, (0 < n)%Z -> ~ known_mode (sr_mode s) -> length start = length goal ->
     exists s2, sr_goal_out (sr_set s goal n) start res t0 = Ok (Some start, s2) /\
       forall t start' res', (t0 <= t)%Z -> sr_goal_out s2 start' res' t = Ok (Some start, s2)) /\
  (forall s goal start res t0 n, (0 < n)%Z -> sr_mode s = 2%Z -> sr_beta s < 0 ->
     length start = length goal -> exists s2,
     sr_goal_out (sr_set s goal n) start res t0 = Ok (Some goal, s2)).
Proof.
  split; [|split].
  - intros s goal start res t0 Hm Hl.
    exists (mkSReach start goal t0 0 true false (sr_mode s) (sr_beta s)).
    unfold sr_goal_out, sr_set. cbn [sr_param sr_start sr_goal sr_length sr_mode sr_beta sr_started].
    unfold sr_x. cbn [sr_startTime sr_length]. rewrite Z.sub_diag. unfold ediv.
    destruct (Req_EM_T 0 0) as [_|X]; [|lra]. unfold smoothFunction. cbn [sr_mode].
    destruct Hm as [-> | [-> | ->]]; cbn; rewrite Hl, Nat.eqb_refl; reflexivity.
  - intros s goal start res t0 n Hn Hm Hl.
    assert (Z : forall x, 0 <= x <= 1 -> forall s2, sr_mode s2 = sr_mode s -> smoothFunction s2 (Fin x) false = Fin 0).
    { intros x _ s2 E. unfold smoothFunction. rewrite E.
      destruct (Z.eqb_spec (sr_mode s) 0); [elim Hm; unfold known_mode; tauto|].
      destruct (Z.eqb_spec (sr_mode s) 1); [elim Hm; unfold known_mode; tauto|].
      destruct (Z.eqb_spec (sr_mode s) 2); [elim Hm; unfold known_mode; tauto|]. reflexivity. }
    assert (W : zipR Rplus (scaleR (1 - 0) start) (scaleR 0 goal) = Ok start).
    { destruct (zipR_ok Rplus (scaleR (1 - 0) start) (scaleR 0 goal)) as (r & -> & Lr & Nr).
      { unfold scaleR. rewrite !map_length. exact Hl. }
      unfold scaleR in *. rewrite map_length in *. f_equal. apply (list_eq_nth 0); [congruence|].
      intros i Hi. rewrite Nr by lia. rewrite !nth_map0 by lia. ring. }
    exists (mkSReach start goal t0 n true false (sr_mode s) (sr_beta s)). split.
    + unfold sr_goal_out, sr_set. cbn [sr_param sr_start sr_goal sr_length sr_mode sr_beta sr_started].
      rewrite (elapsed_ext t0 n) by (reflexivity || assumption).
      rewrite Z by (reflexivity || (apply elapsed_range; lia)). cbn [sr_start sr_goal]. rewrite W. reflexivity.
    + intros t start' res' Ht. unfold sr_goal_out. cbn [sr_param sr_start sr_goal sr_length sr_mode sr_beta sr_started].
      rewrite (elapsed_ext t0 n) by (reflexivity || assumption).
      rewrite Z by (reflexivity || (apply elapsed_range; lia)). cbn [sr_start sr_goal]. rewrite W. reflexivity.
  - intros s goal start res t0 n Hn Hm Hb Hl.
    exists (mkSReach start goal t0 n true false (sr_mode s) (sr_beta s)).
    unfold sr_goal_out, sr_set. cbn [sr_param sr_start sr_goal sr_length sr_mode sr_beta sr_started].
    rewrite (elapsed_ext t0 n) by (reflexivity || assumption).
    assert (E0 : elapsed t0 n t0 = 0).
    { unfold elapsed. rewrite Z.sub_diag. unfold Rdiv. rewrite Rmult_0_l. apply Rmin_right; lra. }
    rewrite E0.
    match goal with |- context [smoothFunction ?a ?b ?c] => assert (F : smoothFunction a b c = Fin 1) end.
    { unfold smoothFunction. cbn [sr_mode sr_beta]. rewrite Hm. cbn [Z.eqb].
      unfold ediv, Rltb. destruct (Req_EM_T 0 0) as [_|X]; [|lra].
      destruct (Req_EM_T (- sr_beta s) 0) as [X|_]; [lra|]. destruct (Rlt_dec 0 (- sr_beta s)) as [_|X]; [|lra].
      destruct (Req_EM_T (1 - 0) 0) as [X|_]; [lra|].
      cbn. f_equal. field. apply PI_neq0. }
    rewrite F. cbn [sr_start sr_goal]. cbv zeta.
    destruct (zipR_ok Rplus (scaleR (1 - 1) start) (scaleR 1 goal)) as (r & -> & Lr & Nr).
    { unfold scaleR. rewrite !map_length. exact Hl. }
    cbn [bind]. unfold scaleR in *. rewrite map_length in *. repeat f_equal. apply (list_eq_nth 0); [congruence|].
    intros i Hi. rewrite Nr by lia. rewrite !nth_map0 by lia. ring.
Qed.

Example smooth_reach_example : exists s2 (w : Z -> R),
  sr_goal_out (sr_set sr_init [1; 2] 10) [0; 0] [] 5 = Ok (Some [0; 0], s2) /\ w 15%Z = 1 /\ w 7%Z < w 8%Z.
Proof.
  destruct (smooth_reach_partial sr_init [1; 2] 10 [0; 0] [] 5) as (s2 & w & A & _ & _ & _ & D & E & _);
    [lia | right; right; reflexivity | cbn; lra | reflexivity |].
  exists s2, w. split; [exact A|]. split; [apply E; lia|]. apply D; lia.
Qed.

(* ------------------------------------------------------------------ *)
(** ** C58: JointLimitator *)

(** With as many limits as positions the output is defined, has the size
    of the command, passes the free flyer through and keeps or cancels
    every other component according to the prediction. Missing: control
    periods other than 5 ms; false of the code there. *)
Theorem joint_limitator_partial q ujl ljl uin :
  (length uin <= length q)%nat -> length ujl = length q -> length ljl = length q ->
  exists out, jl_control q ujl ljl uin = Ok out /\ length out = length uin /\
    forall i, (i < length uin)%nat ->
      let j := (i + (length q - length uin))%nat in
      let next := nth j q 0 + 5 / 1000 * nth i uin 0 in
      ((j < 6)%nat -> nth i out 0 = nth i uin 0) /\
      ((6 <= j)%nat -> nth j ljl 0 < next < nth j ujl 0 -> nth i out 0 = nth i uin 0) /\
      ((6 <= j)%nat -> ~ (nth j ljl 0 < next < nth j ujl 0) -> nth i out 0 = 0).
Proof.
  intros Hq Hu Hl. unfold jl_control.
  destruct (Nat.ltb_spec (length q) (length uin)) as [X|_]; [lia|]. cbv zeta.
  set (off := (length q - length uin)%nat).
  set (ok := fun i => ((i + off < 6)%nat \/ nth (i + off) ljl 0 < nth (i + off) q 0 + 5 / 1000 * nth i uin 0 < nth (i + off) ujl 0)).
  match goal with |- context [ofor_range 0 ?hi ?b ?s0] =>
    destruct (ofor_range_ind (fun k out => length out = length uin /\
       (forall i, (k <= i)%nat -> nth i out 0 = 0) /\
       (forall i, (i < k)%nat -> (ok i -> nth i out 0 = nth i uin 0) /\ (~ ok i -> nth i out 0 = 0)))
       0 hi b s0) as (out & E & L & _ & P) end.
  - lia.
  - rewrite repeat_length. repeat split; try lia.
    intros i _. destruct (Nat.lt_ge_cases i (length uin)).
    + now apply nth_repeat_lt.
    + apply nth_overflow. now rewrite repeat_length.
  - intros i out Hi (L & Z & P).
    rewrite (vget_ok q (i + off) 0) by lia. rewrite (vget_ok uin i 0) by lia. cbn [bind].
    assert (K : forall b : bool, (b = true <-> ok i) ->
      exists s', (if b then vset out i (nth i uin 0) else Ok out) = Ok s' /\
        length s' = length uin /\ (forall j, (S i <= j)%nat -> nth j s' 0 = 0) /\
        (forall j, (j < S i)%nat -> (ok j -> nth j s' 0 = nth j uin 0) /\ (~ ok j -> nth j s' 0 = 0))).
    { intros b Hb. destruct b.
      - unfold vset. destruct (Nat.ltb_spec i (length out)); [|lia].
        eexists; split; [reflexivity|]. rewrite upd_length. split; [exact L|]. split.
        + intros j Hj. rewrite nth_upd. destruct (Nat.eqb_spec i j); [lia|]. cbn. apply Z. lia.
        + intros j Hj. rewrite nth_upd. destruct (Nat.eqb_spec i j) as [<-|N].
          * destruct (Nat.ltb_spec i (length out)); [|lia]. cbn. split; [reflexivity|].
            intros X. elim X. now apply Hb.
          * cbn. apply P. lia.
      - eexists; split; [reflexivity|]. split; [exact L|]. split.
        + intros j Hj. apply Z. lia.
        + intros j Hj. destruct (Nat.eq_dec j i) as [->|N]; [|apply P; lia].
          split; [intros X; apply Hb in X; discriminate|]. intros _. apply Z. lia. }
    destruct (Nat.ltb_spec (i + off) 6) as [H6|H6]; cbn [bind].
    + apply (K true). split; [intros _; left; exact H6 | reflexivity].
    + rewrite (vget_ok ujl (i + off) 0) by lia. cbn [bind].
      destruct (Rltb_spec (nth (i + off) q 0 + nth i uin 0 * (5 / 1000)) (nth (i + off) ujl 0)) as [A|A].
      * rewrite (vget_ok ljl (i + off) 0) by lia. cbn [bind].
        apply (K (Rltb (nth (i + off) ljl 0) (nth (i + off) q 0 + nth i uin 0 * (5 / 1000)))).
        destruct (Rltb_spec (nth (i + off) ljl 0) (nth (i + off) q 0 + nth i uin 0 * (5 / 1000))) as [B|B].
        -- split; [intros _; right; lra|reflexivity].
        -- split; [discriminate|]. intros [X|X]; [lia|lra].
      * apply (K false). split; [discriminate|]. intros [X|X]; [lia|lra].
  - exists out. split; [exact E|]. split; [exact L|].
    intros i Hi. destruct (P i Hi) as [P1 P2].
    split; [|split].
    + intros H6. apply P1. left. exact H6.
    + intros H6 Hin. apply P1. right. exact Hin.
    + intros H6 Hout. apply P2. intros [X|X]; [lia|tauto].
Qed.

(** The robot driven by the filtered command over steps of 5 ms. *)
Definition jl_step (q ujl ljl uin : list R) : outcome (list R) :=
  let* u := jl_control q ujl ljl uin in
  let off := (length q - length uin)%nat in
  zipR Rplus q (repeat 0 off ++ map (fun x => 5 / 1000 * x) u).

(** Whatever the commands, actuated joints that start strictly inside their limits stay there. *)
Theorem joint_limitator_closed_loop ujl ljl : forall (us : list (list R)) q,
  length ujl = length q -> length ljl = length q ->
  Forall (fun u => (length u <= length q)%nat) us ->
  (forall j, (6 <= j < length q)%nat -> nth j ljl 0 < nth j q 0 < nth j ujl 0) ->
  exists q', ofold (fun q u => jl_step q ujl ljl u) us q = Ok q' /\ length q' = length q /\
    forall j, (6 <= j < length q)%nat -> nth j ljl 0 < nth j q' 0 < nth j ujl 0.
Proof.
  induction us as [|u us IH]; intros q Hu Hl Hs Hin; cbn [ofold].
  - exists q. auto.
  - inversion Hs as [|? ? Hu1 Hs1]; subst.
    destruct (joint_limitator_partial q ujl ljl u Hu1 Hu Hl) as (out & Eo & Lo & Po).
    unfold jl_step at 1. rewrite Eo. cbn [bind]. cbv zeta.
    set (off := (length q - length u)%nat) in *.
    destruct (zipR_ok Rplus q (repeat 0 off ++ map (fun x => 5 / 1000 * x) out)) as (q1 & E1 & L1 & N1).
    { rewrite app_length, repeat_length, map_length. lia. }
    rewrite E1. cbn [bind].
    destruct (IH q1) as (q' & E' & L' & P'); try congruence.
    { now rewrite L1. }
    { intros j Hj. rewrite L1 in Hj. rewrite N1 by lia. specialize (Hin j Hj).
      destruct (Nat.lt_ge_cases j off) as [A|A].
      - rewrite app_nth1 by (rewrite repeat_length; lia). rewrite nth_repeat_lt by lia. lra.
      - rewrite app_nth2 by (rewrite repeat_length; lia). rewrite repeat_length.
        rewrite nth_map0 by lia.
        destruct (Po (j - off)%nat ltac:(lia)) as (P1 & P2 & P3).
        replace (j - off + off)%nat with j in * by lia.
        destruct (Rlt_dec (nth j ljl 0) (nth j q 0 + 5 / 1000 * nth (j - off) u 0)) as [X|X];
        destruct (Rlt_dec (nth j q 0 + 5 / 1000 * nth (j - off) u 0) (nth j ujl 0)) as [Y|Y].
        + rewrite P2 by (lia || lra). lra.
        + rewrite P3 by (lia || lra). lra.
        + rewrite P3 by (lia || lra). lra.
        + rewrite P3 by (lia || lra). lra. }
    exists q'. split; [exact E'|]. split; [congruence|]. intros j Hj. apply P'. now rewrite L1.
Qed.

(** The prediction assumes 5 ms whatever the period of the robot: with a longer period an accepted
    command leaves the limits.  A joint that is outside is not allowed to come back slowly. *)
Theorem joint_limitator_period_refuted :
  (exists q ujl ljl u out, jl_control q ujl ljl u = Ok out /\
     nth 6 ljl 0 < nth 6 q 0 < nth 6 ujl 0 /\ nth 6 ujl 0 < nth 6 q 0 + 1 / 100 * nth 0 out 0) /\
  (exists q ujl ljl u out, jl_control q ujl ljl u = Ok out /\
     nth 6 ujl 0 < nth 6 q 0 /\ nth 0 u 0 < 0 /\ nth 6 ljl 0 < nth 6 q 0 + 5 / 1000 * nth 0 u 0 /\
     nth 0 out 0 = 0).
Proof.
  split.
  - destruct (joint_limitator_partial (repeat 0 7) (repeat 1 7) (repeat (-1) 7) [150]) as (out & E & _ & P);
      [cbn; lia | reflexivity | reflexivity |].
    exists (repeat 0 7), (repeat 1 7), (repeat (-1) 7), [150], out. split; [exact E|].
    destruct (P 0%nat) as (_ & P2 & _); [cbn; lia|]. cbn in P2 |- *. rewrite P2 by (lia || lra).
    split; lra.
  - destruct (joint_limitator_partial (repeat 3 7) (repeat 1 7) (repeat (-1) 7) [-1]) as (out & E & _ & P);
      [cbn; lia | reflexivity | reflexivity |].
    exists (repeat 3 7), (repeat 1 7), (repeat (-1) 7), [-1], out. split; [exact E|].
    destruct (P 0%nat) as (_ & _ & P3); [cbn; lia|]. cbn in P3 |- *.
    split; [lra|]. split; [lra|]. split; [lra|]. apply P3; [lia|lra].
Qed.

(** The width signal is the difference of the limits (as many lower limits as upper ones). *)
Theorem joint_limitator_width ujl ljl : (length ujl <= length ljl)%nat ->
  exists w, jl_width ujl ljl = Ok w /\ length w = length ujl /\
    forall i, (i < length ujl)%nat -> nth i w 0 = nth i ujl 0 - nth i ljl 0.
Proof.
  intros H. unfold jl_width.
  match goal with |- context [ofor_range 0 ?hi ?b ?s0] =>
    destruct (ofor_range_ind (fun k w => length w = length ujl /\
       forall i, (i < k)%nat -> nth i w 0 = nth i ujl 0 - nth i ljl 0) 0 hi b s0) as (w & E & L & P) end.
  - lia.
  - rewrite repeat_length. split; [reflexivity|lia].
  - intros i w Hi (L & P). rewrite (vget_ok ujl i 0), (vget_ok ljl i 0) by lia. cbn [bind].
    unfold vset. destruct (Nat.ltb_spec i (length w)); [|lia]. eexists; split; [reflexivity|].
    rewrite upd_length. split; [exact L|]. intros j Hj. rewrite nth_upd.
    destruct (Nat.eqb_spec i j) as [<-|N].
    + destruct (Nat.ltb_spec i (length w)); [reflexivity|lia].
    + cbn. apply P. lia.
  - eauto.
Qed.

Example joint_limitator_example : exists out,
  jl_control (repeat 0 8) (repeat 1 8) (repeat (-1) 8) [10; 500] = Ok out /\ nth 0 out 0 = 10 /\ nth 1 out 0 = 0.
Proof.
  destruct (joint_limitator_partial (repeat 0 8) (repeat 1 8) (repeat (-1) 8) [10; 500]) as (out & E & _ & P);
    [cbn; lia | reflexivity | reflexivity |].
  exists out. split; [exact E|]. split.
  - destruct (P 0%nat) as (_ & P2 & _); [cbn; lia|]. cbn in P2. apply P2; [lia|lra].
  - destruct (P 1%nat) as (_ & _ & P3); [cbn; lia|]. cbn in P3. apply P3; [lia|lra].
Qed.

(* ------------------------------------------------------------------ *)
(** ** C59: GripperControl *)

(** What can happen to a gripper: the offset command (refused values leave it as it was) and the
    evaluations of the reference signal. *)
Inductive gop := GOffset (v : R) | GIncr (torques limits vel : list R).
Definition gstep (g : gripper) (o : gop) : outcome gripper :=
  match o with
  | GOffset v => match grip_setOffset g v with Throw _ => Ok g | x => x end
  | GIncr t l v => grip_increment g t l v
  end.

Definition in01 (x : R) : Prop := 0 < x <= 1.

(** The torque exceeds its limit in the direction of the motion. *)
Definition pushing (torque limit vel : R) : Prop :=
  (limit < torque /\ 0 < vel) \/ (torque < - limit /\ vel < 0).

Lemma factor1_spec o f t l v : 0 < o < 1 -> in01 f ->
  (pushing t l v -> grip_factor1 o f t l v = o * f) /\
  (~ pushing t l v -> grip_factor1 o f t l v = Rmin 1 (f / o)).
Proof.
  intros Ho [Hf Hf1]. unfold grip_factor1, pushing.
  assert (Hq : 0 < f / o) by (apply Rmult_lt_0_compat; [lra|apply Rinv_0_lt_compat; lra]).
  assert (A : Rmin 1 (Rmax (f * o) 0) = o * f).
  { rewrite Rmax_left by nra. rewrite Rmin_right by nra. ring. }
  assert (B : Rmin 1 (Rmax (f / o) 0) = Rmin 1 (f / o)) by (rewrite Rmax_left; [reflexivity|lra]).
  destruct (Rltb_spec l t); destruct (Rltb_spec 0 v); destruct (Rltb_spec t (- l));
    destruct (Rltb_spec v 0); cbn [andb]; split; intros; try assumption; exfalso; lra.
Qed.

Lemma factor1_in01 o f t l v : 0 < o < 1 -> in01 f -> in01 (grip_factor1 o f t l v).
Proof.
  intros Ho Hf. destruct (factor1_spec o f t l v Ho Hf) as [A B].
  assert (D : pushing t l v \/ ~ pushing t l v).
  { unfold pushing. destruct (Rlt_dec l t), (Rlt_dec 0 v), (Rlt_dec t (- l)), (Rlt_dec v 0); try tauto; right; lra. }
  destruct Hf as [Hf Hf1].
  assert (Hq : 0 < f / o) by (apply Rmult_lt_0_compat; [lra|apply Rinv_0_lt_compat; lra]).
  destruct D as [D|D]; [rewrite A by exact D|rewrite B by exact D]; unfold in01.
  - split; nra.
  - split; [apply Rmin_glb_lt; lra | apply Rmin_l].
Qed.

(** One evaluation with as many torques and limits as fingers: defined, and each finger's factor is
    multiplied by the offset if its torque pushes beyond the limit, divided by it up to 1 if not. *)
Theorem gripper_increment g torques limits vel :
  0 < g_offset g < 1 -> Forall in01 (g_factor g) ->
  vel <> [] -> length torques = length vel -> length limits = length vel ->
  exists g', grip_increment g torques limits vel = Ok g' /\ g_offset g' = g_offset g /\
    length (g_factor g') = length vel /\
    forall i, (i < length vel)%nat ->
      let f := if (length (g_factor g) =? length vel)%nat then nth i (g_factor g) 0 else 1 in
      let f' := nth i (g_factor g') 0 in
      in01 f' /\
      (pushing (nth i torques 0) (nth i limits 0) (nth i vel 0) -> f' = g_offset g * f /\ f' < f) /\
      (~ pushing (nth i torques 0) (nth i limits 0) (nth i vel 0) ->
         f' = Rmin 1 (f / g_offset g) /\ (f' = 1 \/ f < f')).
Proof.
  intros Ho Hf Hv Ht Hl. unfold grip_increment.
  set (f0 := if (length (g_factor g) =? length vel)%nat then g_factor g else repeat 1 (length vel)).
  assert (L0 : length f0 = length vel).
  { unfold f0. destruct (Nat.eqb_spec (length (g_factor g)) (length vel)); [assumption|apply repeat_length]. }
  assert (I0 : forall i, (i < length vel)%nat -> in01 (nth i f0 0)).
  { intros i Hi. unfold f0. destruct (Nat.eqb_spec (length (g_factor g)) (length vel)).
    - rewrite Forall_forall in Hf. apply Hf, nth_In. lia.
    - rewrite nth_repeat_lt by exact Hi. unfold in01; lra. }
  destruct (Nat.eqb_spec (length torques) 0) as [X|_].
  { destruct vel; [congruence|]. cbn in Ht. lia. }
  match goal with |- context [ofor_range 0 ?hi ?b ?s0] =>
    destruct (ofor_range_ind (fun k f => length f = length vel /\
       (forall i, (k <= i)%nat -> nth i f 0 = nth i f0 0) /\
       (forall i, (i < k)%nat -> nth i f 0 =
          grip_factor1 (g_offset g) (nth i f0 0) (nth i torques 0) (nth i limits 0) (nth i vel 0)))
       0 hi b s0) as (f & E & L & _ & P) end.
  - lia.
  - split; [exact L0|]. split; [reflexivity|lia].
  - intros i f Hi (L & Z & P).
    rewrite (vget_ok torques i 0), (vget_ok limits i 0), (vget_ok vel i 0), (vget_ok f i 0) by lia. cbn [bind].
    unfold vset. destruct (Nat.ltb_spec i (length f)) as [Hlt|]; [|lia]. eexists; split; [reflexivity|].
    rewrite upd_length. split; [exact L|]. split.
    + intros j Hj. rewrite nth_upd. destruct (Nat.eqb_spec i j); [lia|]. cbn. apply Z. lia.
    + intros j Hj. rewrite nth_upd. destruct (Nat.eqb_spec i j) as [<-|N].
      * destruct (Nat.ltb_spec i (length f)); [|lia]. cbn. rewrite Z by lia. reflexivity.
      * cbn. apply P. lia.
  - rewrite E. cbn [bind]. eexists; split; [reflexivity|]. cbn [g_offset g_factor].
    split; [reflexivity|]. split; [exact L|]. intros i Hi. rewrite (P i Hi).
    replace (if (length (g_factor g) =? length vel)%nat then nth i (g_factor g) 0 else 1) with (nth i f0 0).
    2: { unfold f0. destruct (Nat.eqb_spec (length (g_factor g)) (length vel)); [reflexivity|]. now apply nth_repeat_lt. }
    cbv zeta. pose proof (I0 i Hi) as Hi0.
    destruct (factor1_spec (g_offset g) (nth i f0 0) (nth i torques 0) (nth i limits 0) (nth i vel 0) Ho Hi0) as [A B].
    split; [now apply factor1_in01|]. split.
    + intros H. rewrite A by exact H. split; [reflexivity|]. destruct Hi0. nra.
    + intros H. rewrite B by exact H. split; [reflexivity|]. destruct Hi0 as [Hp Hp1].
      assert (nth i f0 0 < nth i f0 0 / g_offset g).
      { apply (Rmult_lt_reg_r (g_offset g)); [lra|]. unfold Rdiv. rewrite Rmult_assoc, Rinv_l by lra. nra. }
      unfold Rmin. destruct (Rle_dec 1 (nth i f0 0 / g_offset g)); [left; reflexivity|right; assumption].
Qed.

(** Over any history of offsets and evaluations that runs, the offset is in ]0,1[ and every factor
    is in ]0,1]. *)
Theorem gripper_factor_range (ops : list gop) g :
  ofold gstep ops grip_init = Ok g -> 0 < g_offset g < 1 /\ Forall in01 (g_factor g).
Proof.
  enough (G : forall ops g0 g, 0 < g_offset g0 < 1 /\ Forall in01 (g_factor g0) ->
            ofold gstep ops g0 = Ok g -> 0 < g_offset g < 1 /\ Forall in01 (g_factor g)).
  { apply G. cbn. split; [lra|constructor]. }
  clear ops g. induction ops as [|o ops IH]; intros g0 g [Ho Hf]; cbn [ofold].
  - intros [= <-]. auto.
  - destruct (gstep g0 o) as [g1| |] eqn:E1; cbn [bind]; try discriminate. apply IH. clear IH.
    revert E1. destruct o as [v|t l v]; cbn [gstep].
    + unfold grip_setOffset. destruct (Rltb_spec 0 v), (Rltb_spec v 1); cbn [andb]; intros [= <-]; auto.
    + unfold grip_increment.
      set (f0 := if (length (g_factor g0) =? length v)%nat then g_factor g0 else repeat 1 (length v)).
      assert (I0 : Forall in01 f0).
      { unfold f0. destruct (_ =? _)%nat; [exact Hf|]. apply Forall_forall. intros x Hx.
        apply repeat_spec in Hx. subst. unfold in01; lra. }
      destruct (length t =? 0)%nat; [intros [= <-]; auto|].
      match goal with |- context [ofor_range 0 ?hi ?b ?s0] => set (body := b) end.
      enough (H : forall k lo f f', Forall in01 f ->
                ofold (fun s i => body i s) (seq lo k) f = Ok f' -> Forall in01 f').
      { unfold ofor_range. destruct (ofold _ _ _) eqn:E; cbn [bind]; try discriminate.
        intros [= <-]. cbn. split; [exact Ho|]. exact (H _ _ _ _ I0 E). }
      induction k as [|k IHk]; intros lo f f' Hin; cbn [seq ofold]; [now intros [= <-]|].
      destruct (body lo f) as [f1| |] eqn:Eb; cbn [bind]; try discriminate. apply IHk.
      revert Eb. unfold body.
      destruct (vget t lo) eqn:G1; cbn [bind]; try discriminate.
      destruct (vget l lo) eqn:G2; cbn [bind]; try discriminate.
      destruct (vget v lo) eqn:G3; cbn [bind]; try discriminate.
      destruct (vget f lo) as [x| |] eqn:G4; cbn [bind]; try discriminate.
      unfold vset. destruct (Nat.ltb_spec lo (length f)) as [Hlt|]; [|discriminate]. intros [= <-].
      apply Forall_forall. intros y Hy. apply In_nth with (d := 0) in Hy. destruct Hy as (j & Hj & <-).
      rewrite upd_length in Hj. rewrite nth_upd. rewrite Forall_forall in Hin.
      destruct ((lo =? j)%nat && (lo <? length f)%nat).
      * apply factor1_in01; [exact Ho|]. apply Hin. apply vget_inv in G4. destruct G4 as [_ G4].
        now apply nth_error_In in G4.
      * apply Hin, nth_In, Hj.
Qed.

Fixpoint release (o : R) (n : nat) (f : R) : R :=
  match n with O => f | S k => Rmin 1 (release o k f / o) end.
Lemma release_one o f : 0 < o < 1 -> in01 f ->
  exists N, forall n, (N <= n)%nat -> release o n f = 1.
Proof.
  intros Ho [Hf Hf1].
  assert (Hinv : 1 < / o) by (rewrite <- Rinv_1; apply Rinv_lt_contravar; lra).
  destruct (Pow_x_infinity (/ o)) with (b := / f) as [N HN].
  { rewrite Rabs_right; lra. }
  assert (P : forall n, in01 (release o n f)).
  { induction n as [|n [A B]]; [split; assumption|]. cbn.
    assert (0 < release o n f / o) by (apply Rmult_lt_0_compat; [lra|apply Rinv_0_lt_compat; lra]).
    split; [apply Rmin_glb_lt; lra|apply Rmin_l]. }
  assert (Q : forall n, release o n f = 1 \/ release o n f = f * (/ o) ^ n).
  { induction n as [|n IH]; [right; cbn; lra|]. cbn [release pow].
    destruct IH as [-> | ->].
    - left. apply Rmin_left. unfold Rdiv. lra.
    - unfold Rmin. destruct (Rle_dec 1 (f * (/ o) ^ n / o)); [left; reflexivity|right; unfold Rdiv; ring]. }
  exists N. intros n Hn. destruct (Q n) as [E|E]; [exact E|].
  specialize (HN n Hn). rewrite Rabs_right in HN by (apply Rle_ge, pow_le; lra).
  assert (1 <= f * (/ o) ^ n).
  { replace 1 with (f * / f) by (field; lra). apply Rmult_le_compat_l; lra. }
  destruct (P n) as [_ B]. lra.
Qed.

(** An evaluation for [n] fingers in which finger [i] does not push. *)
Definition quiet (n i : nat) (o : gop) : Prop :=
  match o with
  | GIncr t l v => length t = n /\ length l = n /\ length v = n /\ ~ pushing (nth i t 0) (nth i l 0) (nth i v 0)
  | GOffset _ => False
  end.

(** A finger that no longer pushes recovers its full factor in finitely many evaluations, whatever
    the other fingers do, and keeps it as long as it does not push. *)
Theorem gripper_recovers g i :
  0 < g_offset g < 1 -> Forall in01 (g_factor g) -> (i < length (g_factor g))%nat ->
  exists N, forall ops, (N <= length ops)%nat -> Forall (quiet (length (g_factor g)) i) ops ->
    exists g', ofold gstep ops g = Ok g' /\ nth i (g_factor g') 0 = 1.
Proof.
  intros Ho Hf Hi.
  destruct (release_one (g_offset g) (nth i (g_factor g) 0) Ho) as [N HN].
  { rewrite Forall_forall in Hf. apply Hf, nth_In, Hi. }
  exists N. intros ops HL HQ.
  enough (G : exists g', ofold gstep ops g = Ok g' /\
            nth i (g_factor g') 0 = release (g_offset g) (length ops) (nth i (g_factor g) 0)).
  { destruct G as (g' & E & R). exists g'. split; [exact E|]. rewrite R. now apply HN. }
  clear N HN HL. revert g Ho Hf Hi HQ. induction ops as [|o ops IH]; intros g Ho Hf Hi HQ; cbn [ofold].
  - exists g. split; reflexivity.
  - inversion HQ as [|? ? Hq HQ']; subst. destruct o as [v|t l v]; [destruct Hq|].
    destruct Hq as (Lt & Ll & Lv & Np). cbn [gstep].
    destruct (gripper_increment g t l v Ho Hf) as (g1 & E1 & O1 & L1 & P1); try congruence.
    { intros X. subst v. cbn in Lv. lia. }
    rewrite E1. cbn [bind].
    destruct (IH g1) as (g' & E' & R').
    + now rewrite O1.
    + apply Forall_forall. intros x Hx. apply In_nth with (d := 0) in Hx. destruct Hx as (j & Hj & <-).
      apply P1. lia.
    + lia.
    + rewrite L1, Lv. exact HQ'.
    + exists g'. split; [exact E'|]. rewrite R', O1.
      destruct (P1 i ltac:(lia)) as (_ & _ & Q). specialize (Q Np). destruct Q as [Q _].
      rewrite Lv, Nat.eqb_refl in Q. rewrite Q. cbn [length]. clear.
      generalize (nth i (g_factor g) 0) (length ops). intros f n.
      induction n as [|n IH]; cbn [release length] in *; [reflexivity|]. now rewrite IH.
Qed.

(** With one finger the reference is between the position and the desired
    position, at the fraction given by the factor. Missing: more than one
    finger, where the reference is undefined. *)
Theorem gripper_reference_one_partial g cur des torque limit :
  0 < g_offset g < 1 -> Forall in01 (g_factor g) ->
  exists r g' f, grip_reference g [cur] [des] [torque] [limit] = Ok ([r], g') /\
    g_factor g' = [f] /\ in01 f /\ r = cur + f * (des - cur).
Proof.
  intros Ho Hf.
  destruct (gripper_increment g [torque] [limit] [(des - cur) * (1 / (5 / 1000))] Ho Hf)
    as (g' & E & _ & L & P); try reflexivity; [discriminate|].
  unfold grip_reference. cbn [zipR length Nat.eqb combine map fst snd bind]. rewrite E. cbn [bind].
  destruct (g_factor g') as [|f [|? ?]] eqn:Ef; cbn in L; try discriminate.
  specialize (P 0%nat ltac:(cbn; lia)). cbv zeta in P. destruct P as [P _]. cbn in P.
  cbn. exists (cur + (des - cur) * (1 / (5 / 1000)) * f * (5 / 1000)), g', f.
  split; [reflexivity|]. split; [exact Ef|]. split; [exact P|]. field.
Qed.

(** With several fingers the velocity is not multiplied element by element by the factors: the two
    column vectors are given to a matrix product whose sizes do not agree. *)
Theorem gripper_many_fingers_refuted g cur des torques limits :
  (2 <= length cur)%nat -> length des = length cur -> length torques = length cur ->
  length limits = length cur -> 0 < g_offset g < 1 -> Forall in01 (g_factor g) ->
  grip_reference g cur des torques limits = UB.
Proof.
  intros H2 Hd Ht Hl Ho Hf. unfold grip_reference.
  destruct (zipR_ok Rminus des cur Hd) as (diff & Ed & Ld & _). rewrite Ed. cbn [bind].
  set (vel := map _ diff). assert (Lv : length vel = length cur) by (unfold vel; rewrite map_length; congruence).
  destruct (gripper_increment g torques limits vel Ho Hf) as (g' & E & _ & L & _); try congruence.
  { intros X. rewrite X in Lv. cbn in Lv. lia. }
  rewrite E. cbn [bind]. destruct (g_factor g') as [|a [|b r]] eqn:Eg; cbn in L; try lia. reflexivity.
Qed.

(** The offset in force is the last one that was accepted, 0.9 before. *)
Theorem gripper_offset (ops : list gop) g : ofold gstep ops grip_init = Ok g ->
  g_offset g = fold_left (fun o op => match op with GOffset v => if Rlt_dec 0 v then if Rlt_dec v 1 then v else o else o
                                                  | GIncr _ _ _ => o end) ops (9 / 10).
Proof.
  change (9 / 10) with (g_offset grip_init). generalize grip_init. induction ops as [|o ops IH]; intros g0 E; cbn [ofold] in E.
  - injection E as <-. reflexivity.
  - destruct (gstep g0 o) as [g1| |] eqn:E1; cbn [bind] in E; try discriminate. cbn [fold_left]. rewrite (IH g1 E). f_equal.
    destruct o as [v|t l v]; cbn [gstep] in E1.
    + unfold grip_setOffset, Rltb in E1. destruct (Rlt_dec 0 v), (Rlt_dec v 1); cbn in E1; injection E1 as <-; reflexivity.
    + unfold grip_increment in E1. destruct (length t =? 0)%nat; [injection E1 as <-; reflexivity|].
      destruct (ofor_range _ _ _ _); cbn in E1; try discriminate. injection E1 as <-. reflexivity.
Qed.

Ltac dec_closed :=
  repeat match goal with
  | |- context [Rlt_dec ?a ?b] =>
      lazymatch constr:((a, b)) with context [if _ then _ else _] => fail | _ => destruct (Rlt_dec a b); try lra; cbn end
  | |- context [Rle_dec ?a ?b] =>
      lazymatch constr:((a, b)) with context [if _ then _ else _] => fail | _ => destruct (Rle_dec a b); try lra; cbn end
  end.

Example gripper_example : exists g r f,
  ofold gstep [GOffset 2; GIncr [5] [1] [1]; GIncr [5] [1] [1]; GOffset (1/2)] grip_init = Ok g /\
  grip_reference g [0] [10] [0] [1] = Ok ([r], mkGripper (1/2) [f]) /\ r = 10.
Proof.
  assert (E : ofold gstep [GOffset 2; GIncr [5] [1] [1]; GIncr [5] [1] [1]; GOffset (1/2)] grip_init
          = Ok (mkGripper (1/2) [81/100])).
  { cbn. unfold grip_setOffset, grip_increment, grip_factor1, Rltb, Rmin, Rmax, ofor_range. cbn.
    dec_closed.
    do 3 f_equal. field. }
  eexists _, _, _. split; [exact E|].
  unfold grip_reference, grip_increment, grip_factor1, Rltb, Rmin, Rmax, ofor_range. cbn.
  dec_closed.
  split; [reflexivity|]. field.
Qed.

(* ------------------------------------------------------------------ *)
(** ** C61: CoMFreezer *)
Section FreezerProps.
Context {com : Type}.

(** The outputs of a history of evaluations (time, flag, CoM). *)
Fixpoint fr_run (f : freezer com) (h : list (Z * bool * com)) : list com :=
  match h with
  | [] => []
  | (t, p, c) :: r => let (o, f1) := fr_compute f t p c in o :: fr_run f1 r
  end.

(** A tick at which the output follows the input: the generator is running, or less than 200 ticks
    have passed since the first evaluation, at time [t0]. *)
Definition follows (t0 : Z) (e : Z * bool * com) : bool :=
  match e with (t, p, _) => p || (t <? t0 + 200)%Z end.

(** At every evaluation the output is the CoM of the last tick that
    follows, itself included. Missing: the delay of 200 ticks after a
    change of phase; false of the code. *)
Theorem com_freezer_partial c0 t0 p0 c1 h k d :
  (0 <= t0)%Z -> (k <= length h)%nat ->
  let hist := (t0, p0, c1) :: h in
  nth k (fr_run (fr_init c0) hist) d = last (map snd (filter (follows t0) (firstn (S k) hist))) d.
Proof.
  intros Ht Hk hist.
  assert (G : forall h f k pre e, m_previous f = false -> m_lastStopTime f = t0 ->
      m_lastCoM f = last (map snd (filter (follows t0) (pre ++ [e]))) d ->
      follows t0 e = true ->
      (k < length h)%nat ->
      nth k (fr_run f h) d = last (map snd (filter (follows t0) ((pre ++ [e]) ++ firstn (S k) h))) d).
  { clear h k Hk hist. induction h as [|[[t p] c] h IH]; intros f k pre e Hp Hs Hc He Hk; [cbn in Hk; lia|].
    cbn [fr_run]. unfold fr_compute. rewrite Hp, Hs.
    assert (Lst : forall x : Z * bool * com, follows t0 x = true ->
       last (map snd (filter (follows t0) ((pre ++ [e]) ++ [x]))) d = snd x).
    { intros x Hx. rewrite filter_app. cbn [filter]. rewrite Hx, map_app. cbn [map]. apply last_last. }
    destruct p.
    - cbn [m_lastStopTime]. destruct (Z.ltb_spec t0 0); [lia|].
      destruct k.
      + cbn [nth firstn]. rewrite Lst; reflexivity.
      + cbn [nth length] in *. rewrite (IH _ k (pre ++ [e]) (t, true, c)); try reflexivity; try lia.
        * rewrite <- !app_assoc. reflexivity.
        * now rewrite Lst.
    - destruct (Z.ltb_spec t (t0 + 200)) as [A|A].
      + cbn [m_lastStopTime]. destruct (Z.ltb_spec t0 0); [lia|].
        assert (Fx : follows t0 (t, false, c) = true) by (cbn; lia).
        destruct k.
        * cbn [nth firstn]. rewrite Lst by exact Fx. reflexivity.
        * cbn [nth length] in *. rewrite (IH _ k (pre ++ [e]) (t, false, c)); try reflexivity; try lia.
          -- rewrite <- !app_assoc. reflexivity.
          -- now rewrite Lst.
          -- exact Fx.
      + rewrite Hs. destruct (Z.ltb_spec t0 0); [lia|].
        assert (Fx : follows t0 (t, false, c) = false) by (cbn; lia).
        assert (Drop : forall l, filter (follows t0) ((pre ++ [e]) ++ (t, false, c) :: l) = filter (follows t0) ((pre ++ [e]) ++ l)).
        { intros l. rewrite !filter_app. cbn [filter]. now rewrite Fx. }
        destruct k.
        * cbn [nth firstn]. rewrite Drop, app_nil_r. exact Hc.
        * cbn [nth length] in *. rewrite (IH _ k pre e) by (assumption || lia).
          change (firstn (S (S k)) ((t, false, c) :: h)) with ((t, false, c) :: firstn (S k) h).
          now rewrite Drop. }
  subst hist. cbn [fr_run].
  assert (F0 : forall p, follows t0 (t0, p, c1) = true).
  { intros p. cbn. destruct p; cbn; [reflexivity|]. lia. }
  assert (E : fr_compute (fr_init c0) t0 p0 c1 = (c1, mkFreezer c1 false t0)).
  { unfold fr_compute, fr_init. cbn. destruct p0; cbn; [reflexivity|].
    destruct (t0 <? 199)%Z; reflexivity. }
  rewrite E.
  destruct k.
  - cbn [nth firstn filter]. rewrite F0. reflexivity.
  - cbn [nth]. rewrite (G h _ k [] (t0, p0, c1)); try reflexivity.
    + cbn [app filter]. now rewrite F0.
    + apply F0.
    + lia.
Qed.

(** While the generator runs the output is the input; once it has stopped and the first 200 ticks are
    over, the output does not move. *)
Theorem com_freezer_modes c0 t0 p0 c1 h k d t p c :
  (0 <= t0)%Z -> nth_error h k = Some (t, p, c) ->
  let out := fr_run (fr_init c0) ((t0, p0, c1) :: h) in
  (p = true -> nth (S k) out d = c) /\
  (p = false -> (t0 + 200 <= t)%Z -> nth (S k) out d = nth k out d).
Proof.
  intros Ht Hk out. subst out.
  assert (Hl : (k < length h)%nat) by (apply nth_error_Some; congruence).
  assert (Sp : firstn (S (S k)) ((t0, p0, c1) :: h) = firstn (S k) ((t0, p0, c1) :: h) ++ [(t, p, c)]).
  { change (firstn (S (S k)) ((t0, p0, c1) :: h)) with ((t0, p0, c1) :: firstn (S k) h).
    change (firstn (S k) ((t0, p0, c1) :: h)) with ((t0, p0, c1) :: firstn k h).
    rewrite (nth_error_split h k Hk) || idtac.
    cbn [app]. f_equal. clear -Hk. revert h Hk. induction k; intros [|x h] Hk; cbn in *; try discriminate.
    - now injection Hk as ->.
    - f_equal. apply IHk. exact Hk. }
  rewrite !com_freezer_partial by (assumption || lia). rewrite Sp, filter_app, map_app. cbn [filter].
  split; intros ->.
  - cbn [follows orb map snd]. apply last_last.
  - intros Hlate. assert (Fx : follows t0 (t, false, c) = false) by (cbn; lia). rewrite Fx.
    cbn [map]. now rewrite app_nil_r.
Qed.
End FreezerProps.

(** The settling delay is not counted from the stop of the generator: a stop more than 200 ticks
    after the first evaluation freezes at once (the flag that should detect the stop is never set). *)
Theorem com_freezer_delay_refuted : exists (h : list (Z * bool * Z)) t,
  fr_run (fr_init 0%Z) (h ++ [(t, true, 7%Z); (t + 1, false, 8%Z); (t + 2, false, 9%Z)]%Z)
  = map snd h ++ [7; 7; 7]%Z.
Proof. exists [(0%Z, true, 1%Z)], 500%Z. vm_compute. reflexivity. Qed.

Example com_freezer_example :
  fr_run (fr_init 0%Z) [(0, true, 1); (100, false, 2); (199, false, 3); (200, false, 4); (201, true, 5); (202, false, 6)]%Z
  = [1; 2; 3; 3; 5; 5]%Z.
Proof. vm_compute. reflexivity. Qed.

Print Assumptions smooth_reach_partial.
Print Assumptions smooth_reach_unchecked_refuted.
Print Assumptions joint_limitator_partial.
Print Assumptions joint_limitator_closed_loop.
Print Assumptions gripper_factor_range.
Print Assumptions gripper_recovers.
Print Assumptions gripper_many_fingers_refuted.
Print Assumptions com_freezer_partial.
Print Assumptions com_freezer_modes.
Print Assumptions smooth_reach_change.
Print Assumptions gripper_offset.
