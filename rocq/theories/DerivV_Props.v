(** The derivator on vectors, through its signal (C45). *)
From Coq Require Import String List Arith Lia ZArith Bool Reals Lra.
From Verif Require Import Base FiltDiff_Model FiltDiff_Props DerivV_Model.
Import ListNotations.
Local Open Scope nat_scope.
Local Open Scope list_scope.

(** * Specification: what each read should give, coordinate [i] *)
(** [seen]: none yet, or the value given last, and the time it was computed. *)
Definition slope (x : Z -> list R) (i : nat) (prev : option Z) (ts : R) (t : Z) : R :=
  match prev with None => 0 | Some u => (nth i (x t) 0 - nth i (x u) 0) / ts end%R.
Fixpoint wanted (x : Z -> list R) (i : nat) (seen : option (Z * R)) (ts : R) (l : list daction) : list R :=
  match l with
  | [] => []
  | DSetPeriod ts' :: r => wanted x i seen ts' r
  | DRead t :: r =>
      match seen with
      | Some (u, v) => if (u =? t)%Z then v :: wanted x i seen ts r
                       else let v' := slope x i (Some u) ts t in v' :: wanted x i (Some (t, v')) ts r
      | None => 0%R :: wanted x i (Some (t, 0%R)) ts r
      end
  end.
Fixpoint ahead (last : option Z) (l : list daction) : Prop :=
  match l with
  | [] => True
  | DRead t :: r => not_before last t /\ ahead (Some t) r
  | DSetPeriod ts :: r => ts <> 0%R /\ ahead last r
  end.

Lemma step_new x n d t u v : dv_init d = true -> dv_mem d = x u -> dv_out d = Some (u, v) -> length (x u) = n -> length (x t) = n -> dv_ts d <> 0%R -> (u < t)%Z ->
  exists r, dv_read x d t = Ok (DV (x t) true (dv_ts d) (Some (t, r)), r) /\ length r = n /\
    forall i, i < n -> nth i r 0%R = slope x i (Some u) (dv_ts d) t.
Proof.
  intros Hi Hm Ho Lu Lt Hts L. unfold dv_read. rewrite Ho. destruct (Z.ltb_spec u t); [|lia]. unfold dv_compute. rewrite Hi, Hm, map_length, Lu, Lt, Nat.eqb_refl.
  cbn [bind dv_mem dv_init dv_ts].
  eexists. split; [reflexivity|].
  set (z := zipw Rplus (map (fun a => a * -1)%R (x u)) (x t)).
  assert (Lz : length z = n) by (unfold z; rewrite zipw_length; rewrite map_length; lia).
  assert (Nz : forall i, i < n -> nth i z 0%R = (nth i (x t) 0 - nth i (x u) 0)%R).
  { intros i Hi'. unfold z. rewrite zipw_nth by (rewrite map_length; lia). rewrite map_nth0 by lia. ring. }
  destruct (Req_EM_T (dv_ts d) 1) as [E|E].
  - split; [exact Lz|]. intros i Hi'. rewrite Nz by exact Hi'. cbn [slope]. rewrite E. field.
  - split; [now rewrite map_length|]. intros i Hi'. rewrite map_nth0 by lia. rewrite Nz by exact Hi'. cbn [slope]. field. exact Hts.
Qed.
Lemma run_wanted x n l : forall d seen, (forall t, length (x t) = n) -> dv_ts d <> 0%R ->
  match seen with
  | None => dv_init d = false /\ dv_out d = None
  | Some (u, v) => dv_init d = true /\ dv_mem d = x u /\ dv_out d = Some (u, v) /\ length v = n
  end ->
  ahead (option_map fst seen) l ->
  exists d' vs, dv_run x d l = Ok (d', vs) /\
    forall i, i < n -> map (fun v => nth i v 0%R) vs = wanted x i (option_map (fun s => (fst s, nth i (snd s) 0%R)) seen) (dv_ts d) l.
Proof.
  induction l as [|[t|ts] l IH]; intros d seen Hx Hts Hs Ha; cbn [dv_run wanted ahead] in *.
  - exists d, []. split; reflexivity.
  - destruct Ha as [Hb Ha]. destruct seen as [[u v]|]; cbn [option_map fst snd not_before] in *.
    + destruct Hs as (S1 & S2 & S3 & S4). destruct (Z.eqb_spec u t) as [->|Hut].
      * unfold dv_read. rewrite S3. destruct (Z.ltb_spec t t); [lia|]. cbn [bind].
        destruct (IH d (Some (t, v)) Hx Hts) as (d' & vs & E & V); [auto|exact Ha|]. rewrite E. cbn [bind].
        exists d', (v :: vs). split; [reflexivity|]. intros i Hi. cbn [map]. rewrite (V i Hi). cbn [option_map fst snd]. reflexivity.
      * destruct (step_new x n d t u v S1 S2 S3 (Hx u) (Hx t) Hts ltac:(lia)) as (r & E & Lr & Nr). rewrite E. cbn [bind].
        destruct (IH (DV (x t) true (dv_ts d) (Some (t, r))) (Some (t, r)) Hx Hts) as (d' & vs & E' & V); [cbn; auto|exact Ha|]. rewrite E'. cbn [bind].
        exists d', (r :: vs). split; [reflexivity|]. intros i Hi. cbn [map]. rewrite (V i Hi), (Nr i Hi). cbn [option_map fst snd dv_ts]. rewrite (Nr i Hi). reflexivity.
    + destruct Hs as [S1 S2]. unfold dv_read. rewrite S2. unfold dv_compute. rewrite S1. cbn [bind dv_mem dv_init dv_ts].
      set (r := map (fun a => a * 0)%R (x t)).
      assert (Nr : forall i, nth i r 0%R = 0%R).
      { intros i. unfold r. destruct (Nat.lt_ge_cases i (length (x t))); [rewrite map_nth0 by assumption; ring|apply nth_overflow; now rewrite map_length]. }
      destruct (IH (DV (x t) true (dv_ts d) (Some (t, r))) (Some (t, r)) Hx Hts) as (d' & vs & E' & V).
      { cbn. unfold r. rewrite map_length. auto. } { exact Ha. }
      rewrite E'. cbn [bind]. exists d', (r :: vs). split; [reflexivity|]. intros i Hi. cbn [map]. rewrite (V i Hi), Nr. cbn [option_map fst snd dv_ts]. rewrite Nr. reflexivity.
  - destruct Ha as [Hz Ha]. apply (IH (DV (dv_mem d) (dv_init d) ts (dv_out d)) seen Hx Hz); [|exact Ha]. destruct seen as [[u v]|]; exact Hs.
Qed.

(** For every schedule of reads at times that do not decrease and every change of a non null period, the derivator is
    defined, and each coordinate of the value read is zero at the first time, the slope since the time of the previous
    computation at a new time, and the same value when it is read again at the same time. *)
Theorem derivator_vector x n l : (forall t, length (x t) = n) -> ahead None l ->
  exists d vs, dv_run x dv_new l = Ok (d, vs) /\ forall i, i < n -> map (fun v => nth i v 0%R) vs = wanted x i None 1 l.
Proof. intros Hx Ha. apply (run_wanted x n l dv_new None Hx); [cbn; lra|cbn; auto|exact Ha]. Qed.

(** Read at increasing times with a constant period: the sum of the values times the period is the last input minus the
    first, in each coordinate. *)
Fixpoint increasing_times (last : Z) (l : list Z) : Prop := match l with [] => True | t :: r => (last < t)%Z /\ increasing_times t r end.
Definition total (l : list R) : R := fold_right Rplus 0%R l.
Lemma last_any {A} (l : list A) : forall a d e, List.last (a :: l) d = List.last (a :: l) e.
Proof. induction l as [|b l IH]; intros a d e; [reflexivity|]. exact (IH b d e). Qed.
Theorem derivator_vector_telescopes x n ts t0 l : (forall t, length (x t) = n) -> ts <> 0%R -> increasing_times t0 l ->
  exists d vs, dv_run x dv_new (DSetPeriod ts :: map DRead (t0 :: l)) = Ok (d, vs) /\
    forall i, i < n -> (total (map (fun v => nth i v 0) vs) * ts = nth i (x (List.last l t0)) 0 - nth i (x t0) 0)%R.
Proof.
  intros Hx Hts Hl. destruct (derivator_vector x n (DSetPeriod ts :: map DRead (t0 :: l)) Hx) as (d & vs & E & V).
  { cbn. split; [exact Hts|]. split; [exact I|]. revert t0 Hl. induction l as [|t l IH]; intros t0; cbn; [auto|]. intros [A B]. split; [lia|auto]. }
  exists d, vs. split; [exact E|]. intros i Hi. rewrite (V i Hi). cbn [wanted map total fold_right]. clear V E.
  enough (G : forall l t0 v, increasing_times t0 l -> (total (wanted x i (Some (t0, v)) ts (map DRead l)) * ts = nth i (x (List.last l t0)) 0 - nth i (x t0) 0)%R).
  { specialize (G l t0 0%R Hl). unfold total in *. lra. }
  clear -Hts. induction l as [|t l IH]; intros t0 v Hl; cbn [map wanted]; [cbn; lra|]. destruct Hl as [A B].
  destruct (Z.eqb_spec t0 t); [lia|]. cbn [total fold_right]. specialize (IH t (slope x i (Some t0) ts t) B). unfold total in IH.
  replace (List.last (t :: l) t0) with (List.last l t).
  2:{ destruct l as [|a l]; [reflexivity|]. cbn [List.last]. apply last_any. }
  rewrite Rmult_plus_distr_r, IH. cbn [slope]. field. exact Hts.
Qed.

(** A read that skips ticks divides the change over several ticks by the period of one: over a ramp, the value doubles. *)
Theorem derivator_skips_refuted : exists x vs d, (forall t, x t = [IZR t]) /\
  dv_run x dv_new [DRead 0%Z; DRead 1%Z; DRead 3%Z] = Ok (d, vs) /\ map (fun v => nth 0 v 0%R) vs = [0; 1; 2]%R.
Proof.
  destruct (derivator_vector (fun t => [IZR t]) 1 [DRead 0%Z; DRead 1%Z; DRead 3%Z]) as (d & vs & E & V); [reflexivity|cbn; lia|].
  exists (fun t => [IZR t]), vs, d. split; [reflexivity|]. split; [exact E|]. rewrite (V 0) by lia. cbn. repeat f_equal; field.
Qed.
(** An input that changes its size between two computations is undefined. *)
Theorem derivator_size_refuted x t u : (t < u)%Z -> length (x t) <> length (x u) -> dv_run x dv_new [DRead t; DRead u] = UB.
Proof.
  intros H N. cbn. unfold dv_read, dv_compute. cbn. destruct (Z.ltb_spec t u); [|lia]. rewrite map_length.
  destruct (Nat.eqb_spec (length (x t)) (length (x u))); [contradiction|]. reflexivity.
Qed.

Example derivator_vector_case : ahead None [DRead 0%Z; DRead 0%Z; DSetPeriod 2; DRead 5%Z] /\
  wanted (fun t => [IZR t; 1%R]) 0 None 1 [DRead 0%Z; DRead 0%Z; DSetPeriod 2; DRead 5%Z] = [0; 0; (5 - 0) / 2]%R.
Proof. split; [cbn; repeat split; try lia; lra|reflexivity]. Qed.

Print Assumptions derivator_vector.
Print Assumptions derivator_vector_telescopes.
Print Assumptions derivator_skips_refuted.
Print Assumptions derivator_size_refuted.
