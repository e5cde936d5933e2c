(** Facts on lists used by Closed_Props: one step of the device, jacobian of a task with one
    feature. *)
From Coq Require Import String List Arith Lia ZArith Bool.
From Verif Require Import Base Bound_Model Task_Model Task_Proofs Device_Model Device_Proofs.
Import ListNotations.

Section L.
Context {num : Type}.
Variables zero g half : num.
Variables add mul : num -> num -> num.
Variable ltb : num -> num -> bool.
Variable isnan : num -> bool.
Variable ffint : list num -> list num -> num -> num * num * num * num * num * num.

Lemma check_if_inv b val lo up r :
  check_if num ltb b val lo up = Ok r -> b = true -> length val <= length lo /\ length val <= length up.
Proof.
  intros H ->. unfold check_if in H.
  destruct (Nat.le_gt_cases (length val) (length lo)) as [A|A];
  destruct (Nat.le_gt_cases (length val) (length up)) as [B|B]; auto;
  rewrite check_bounds_ub in H by lia; discriminate.
Qed.

Lemma device_step (d d' : device num) (u : list num) (dt : num) :
  increment num half add mul ltb isnan ffint d u dt = Ok d' ->
  (forall x, isnan x = false) -> ctype d = OneInteg -> length u = length (state d) ->
  length (state d') = length (state d) /\ ctype d' = OneInteg /\ sanity d' = sanity d /\
  loP d' = loP d /\ upP d' = upP d /\
  forall i x, 6 <= i < length (state d) ->
    nth i (state d') x =
    (let v := add (nth i (state d) x) (mul (nth i u x) dt) in
     if sanity d then fst (saturateBounds num ltb v (nth i (loP d) x) (nth i (upP d) x)) else v).
Proof.
  intros H Hn Hc Hu. unfold increment in H.
  destruct (integrate _ _ _ _ _ _ _ _ _ _) as [d1|w|] eqn:E; try discriminate.
  cbn [bind] in H. injection H as <-. cbn [state ctype sanity loP upP].
  unfold integrate in E.
  assert (Hex : existsb isnan u = false).
  { clear - Hn. induction u; simpl; auto. rewrite Hn. auto. }
  rewrite Hex, andb_false_r, Hc in E. cbn [bind] in E.
  destruct (check_if num ltb (sanity d) (velocity d) (loV d) (upV d)) as [v2|w|] eqn:E2; try discriminate.
  cbn [bind] in E.
  destruct (Nat.lt_ge_cases (length (state d)) 6) as [H6|H6].
  { rewrite position_ub in E by lia. discriminate. }
  destruct (position_ok add mul ffint (state d) u dt) as (s & E3 & Hs & _ & Hi & _); [lia|lia|].
  rewrite E3 in E. cbn [bind] in E.
  destruct (check_if num ltb (sanity d) s (loP d) (upP d)) as [s2|w|] eqn:E4; try discriminate.
  cbn [bind] in E. injection E as <-. cbn [state ctype sanity loP upP].
  destruct (check_if_ok ltb (sanity d) s (loP d) (upP d) (check_if_inv _ _ _ _ _ E4)) as (r & Er & Hr & Hri).
  rewrite Er in E4. injection E4 as ->.
  repeat split; auto; try lia.
  intros i x Hi2. rewrite Hri by lia. rewrite Hi by lia.
  replace (i - (length (state d) - length u)) with i by lia. reflexivity.
Qed.

Definition sized (d : device num) : Prop :=
  sanity d = true ->
  (length (velocity d) <= length (loV d) /\ length (velocity d) <= length (upV d)) /\
  (length (state d) <= length (loP d) /\ length (state d) <= length (upP d)).

Lemma device_defined (d : device num) (u : list num) (dt : num) :
  (forall x, isnan x = false) -> ctype d = OneInteg -> length u = length (state d) ->
  6 <= length (state d) -> sized d ->
  exists d', increment num half add mul ltb isnan ffint d u dt = Ok d' /\ sized d'.
Proof.
  intros Hn Hc Hu H6 Hs. unfold increment, integrate.
  assert (Hex : existsb isnan u = false).
  { clear - Hn. induction u; simpl; auto. rewrite Hn. auto. }
  rewrite Hex, andb_false_r, Hc. cbn [bind].
  destruct (check_if_ok ltb (sanity d) (velocity d) (loV d) (upV d) (fun b => proj1 (Hs b)))
    as (v2 & E2 & L2 & _).
  rewrite E2. cbn [bind].
  destruct (position_ok add mul ffint (state d) u dt) as (s & E3 & L3 & _); [lia|lia|].
  rewrite E3. cbn [bind].
  destruct (check_if_ok ltb (sanity d) s (loP d) (upP d)) as (s2 & E4 & L4 & _).
  { intros b. rewrite L3. exact (proj2 (Hs b)). }
  rewrite E4. cbn [bind]. eexists. split; [reflexivity|].
  intros b. cbn [state ctype sanity loP upP loV upV velocity] in *. rewrite L2, L4, L3. exact (Hs b).
Qed.

Lemma jac_single (bj P : mat num) (c : nat) :
  0 < c -> cols P = c -> (rows bj = 0 /\ cols bj = 0 \/ cols bj = c) ->
  exists J, computeJacobian num g bj [P] = Ok J /\ rows J = rows P /\ cols J = c /\
    forall i j, i < rows P -> j < c -> coef J i j = coef P i j.
Proof.
  intros Hc HP Hb.
  destruct (computeJacobian_ok g bj [P] c) as (J & E & EC & ER); auto; [congruence| |].
  { intros Q [<-|[]]. exact HP. }
  exists J. split; [exact E|]. cbn [map concat] in ER. rewrite app_nil_r in ER.
  assert (HR : rows J = rows P).
  { apply (f_equal (@length _)) in ER. unfold rows_of in ER. rewrite !map_length, !seq_length in ER. exact ER. }
  split; [exact HR|]. split; [exact EC|]. intros i j Hi Hj.
  assert (G : forall (m : mat num), i < rows m -> j < cols m ->
     nth_error (rows_of m) i = Some (map (fun j => coef m i j) (seq 0 (cols m))) /\
     nth_error (map (fun j => coef m i j) (seq 0 (cols m))) j = Some (coef m i j)).
  { intros m H1 H2. unfold rows_of. rewrite !nth_error_map.
    rewrite !(nth_error_nth' _ 0) by (rewrite seq_length; lia). rewrite !seq_nth by lia. split; reflexivity. }
  destruct (G J) as [G1 G2]; [lia|lia|]. destruct (G P) as [G3 G4]; [lia|lia|].
  rewrite ER, G3 in G1. injection G1 as G1. rewrite <- G1 in G2. congruence.
Qed.

(** The reference of a task, as a list. *)
Variable opp : num -> num.
Variable sub : num -> num -> num.
Lemma map2_map {A B C D} (f : B -> C -> D) (h : A -> B) (k : A -> C) (l : list A) :
  map2 f (map h l) (map k l) = map (fun a => f (h a) (k a)) l.
Proof. induction l; simpl; congruence. Qed.
End L.
