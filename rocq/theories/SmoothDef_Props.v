(** A new SmoothReach entity (C57). *)
From Coq Require Import String List Arith Lia ZArith Bool Reals Lra.
From Verif Require Import Base Tools_Model Tools_Props.
Import ListNotations.
Local Open Scope R_scope.

(** The weight of the goal before any call to setSmoothing, at the fraction [x] of the duration. *)
Definition default_weight (x : R) : R := atan (- (12 / 10) / x + 12 / 10 / (1 - x)) / PI + 1 / 2.
(** A new entity given a goal and a duration: strictly between the two ends the output is the mean of the start and of the
    goal with that weight, whatever the start signal does after the first read. *)
Theorem smooth_reach_default goal n start res t0 t start' res' : (0 < n)%Z -> length start = length goal -> (t0 < t < t0 + n)%Z ->
  exists s2 r, sr_goal_out (sr_set sr_init goal n) start res t0 = Ok (Some start, s2) /\ sr_goal_out s2 start' res' t = Ok (Some r, s2) /\
    length r = length goal /\ forall i, (i < length goal)%nat ->
      let w := default_weight (IZR (t - t0) / IZR n) in nth i r 0 = (1 - w) * nth i start 0 + w * nth i goal 0.
Proof.
  intros Hn Hl Ht.
  destruct (smooth_reach_partial sr_init goal n start res t0 Hn ltac:(right; right; reflexivity) ltac:(cbn; lra) Hl) as (s2 & _ & E & _).
  assert (S2 : s2 = mkSReach start goal t0 n true false 2 (12 / 10)).
  { revert E. unfold sr_goal_out, sr_set, sr_init. cbn [sr_param sr_start sr_goal sr_length sr_mode sr_beta sr_started]. destruct (sr_x _ _) as [x neg].
    destruct (smoothFunction _ _ _); cbn [sr_start sr_goal]; [|destruct (_ =? _)%nat; discriminate..].
    destruct (zipR _ _ _); [|discriminate..]. cbn [bind]. injection 1 as _ <-. reflexivity. }
  assert (Hp : 0 < IZR n) by (apply IZR_lt; lia).
  assert (Hx : 0 < IZR (t - t0) / IZR n < 1).
  { split; [apply Rdiv_lt_0_compat; [apply IZR_lt; lia|exact Hp]|]. apply (Rmult_lt_reg_r (IZR n)); [exact Hp|]. unfold Rdiv. rewrite Rmult_assoc, Rinv_l, Rmult_1_r, Rmult_1_l by lra. apply IZR_lt. lia. }
  set (w := default_weight (IZR (t - t0) / IZR n)).
  destruct (zipR_ok Rplus (scaleR (1 - w) start) (scaleR w goal)) as (r & Er & Lr & Nr).
  { unfold scaleR. now rewrite !map_length. }
  exists s2, r. split; [exact E|]. rewrite S2. split; [|split; [rewrite Lr; unfold scaleR; now rewrite map_length|]].
  - unfold sr_goal_out, sr_x. cbn [sr_param sr_started sr_startTime sr_length]. unfold ediv. destruct (Req_EM_T (IZR n) 0); [lra|].
    unfold Rltb at 1. destruct (Rlt_dec 1 _); [lra|]. replace (n <? 0)%Z with false by (symmetry; apply Z.ltb_ge; lia).
    rewrite smooth_sfun by (cbn; unfold known_mode; try tauto; lra). unfold sfun. cbn [sr_mode Z.eqb sr_beta]. destruct (Req_EM_T _ 0); [lra|]. destruct (Req_EM_T _ 1); [lra|].
    cbn [sr_start sr_goal]. exact (f_equal (fun z => let* r := z in Ok (Some r, mkSReach start goal t0 n true false 2 (12 / 10))) Er).
  - intros i Hi. cbn zeta. unfold scaleR in *. rewrite map_length in Lr. rewrite Nr by (rewrite map_length; lia). rewrite !nth_map0 by lia. reflexivity.
Qed.
(** An entity read before a goal is given adds vectors of two sizes as soon as the start is not empty. *)
Theorem smooth_reach_unset_refuted start res t : start <> [] -> sr_goal_out sr_init start res t = UB.
Proof.
  intros H. unfold sr_goal_out, sr_init. cbn [sr_param sr_start sr_goal sr_length sr_mode sr_beta sr_started]. destruct (sr_x _ _) as [x neg].
  destruct start as [|a l]; [congruence|]. destruct (smoothFunction _ _ _); reflexivity.
Qed.
Example smooth_reach_default_case : length [0; 0] = length [1; 2] /\ (5 < 7 < 5 + 10)%Z. Proof. split; [reflexivity|lia]. Qed.
Print Assumptions smooth_reach_default.
Print Assumptions smooth_reach_unset_refuted.
