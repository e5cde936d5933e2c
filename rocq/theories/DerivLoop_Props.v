(** The derivator undoes the integrator and gives back the velocity of the device (C45). *)
From Coq Require Import String List Arith Lia ZArith Bool Reals Lra.
From Verif Require Import Base Filter_Model Filter_Signal_Props Device_Model Device_Props.
Import ListNotations.
Local Open Scope nat_scope.
Local Open Scope list_scope.

(** The derivator given a period and then samples. *)
Definition derived (dt : R) (xs : list R) : list R := snd (deriv_run (DPeriod dt :: map DSample xs)).
Lemma stamped_const dt xs : forall p, stamped p (DPeriod dt :: map DSample xs) = map (fun x => (dt, x)) xs.
Proof. intros p. cbn [stamped]. induction xs as [|x xs IH]; [reflexivity|]. cbn [map stamped]. now rewrite IH. Qed.
Lemma derived_nth dt xs : dt <> 0%R -> length (derived dt xs) = length xs /\
  forall k, k < length xs -> nth k (derived dt xs) 0%R = match k with 0 => 0%R | S j => ((nth k xs 0 - nth j xs 0) / dt)%R end.
Proof.
  intros Hd. unfold derived. rewrite derivator_outputs.
  2:{ rewrite stamped_const. apply Forall_forall. intros p Hp. apply in_map_iff in Hp as (x & <- & _). exact Hd. }
  rewrite stamped_const. destruct xs as [|x xs]; [split; [reflexivity|cbn; lia]|]. cbn [map].
  assert (G : forall xs x, length (differences x (map (fun x => (dt, x)) xs)) = length xs /\
    forall k, k < length xs -> nth k (differences x (map (fun x => (dt, x)) xs)) 0%R = ((nth k xs 0 - nth k (x :: xs) 0) / dt)%R).
  { clear. induction xs as [|y xs IH]; intros x; [split; [reflexivity|cbn; lia]|]. cbn [map differences]. destruct (IH y) as [L N].
    split; [cbn; now rewrite L|]. intros [|k] Hk; [reflexivity|]. cbn [nth]. rewrite N by (cbn in Hk; lia). reflexivity. }
  destruct (G xs x) as [L N]. split; [cbn; now rewrite L|]. intros [|k] Hk; [reflexivity|]. cbn [nth] in *. rewrite N by (cbn in Hk; lia). reflexivity.
Qed.

(** The derivator after a pure integrator of the same period: from the second one on, the inputs of the integrator. *)
Theorem derivative_of_integral (dt x0 : R) (xs : list R) : dt <> 0%R ->
  let e := e_set_period (e_push_den (e_push_den (e_push_num euler_new 1%R) 0%R) 1%R) dt in
  exists e0 ef outs, e_initialize e x0 = Ok e0 /\ ofold e_step xs (e0, []) = Ok (ef, outs) /\
    derived dt outs = match xs with [] => [] | _ :: r => 0%R :: r end.
Proof.
  intros Hd e. destruct (euler_pure_integrator dt x0 xs) as (e0 & ef & outs & A & B & L & N). exists e0, ef, outs. split; [exact A|]. split; [exact B|].
  destruct (derived_nth dt outs Hd) as [L2 N2]. apply (list_eq_nth 0%R).
  - rewrite L2, L. destruct xs; reflexivity.
  - intros k Hk. rewrite L2, L in Hk. rewrite N2 by lia. destruct xs as [|x xs]; [cbn in Hk; lia|]. destruct k as [|k]; [reflexivity|]. rewrite !N by lia. cbn [nth].
    assert (HS : forall l k, k < length l -> rsum (firstn (S k) l) = (rsum (firstn k l) + nth k l 0)%R).
    { clear. induction l as [|a l IH]; intros [|k] Hk; try (simpl in Hk; lia).
      - simpl. unfold rsum; simpl; lra.
      - rewrite !firstn_cons. unfold rsum in *. cbn [fold_right nth]. rewrite IH by (simpl in Hk; lia). lra. }
    rewrite (HS (x :: xs) (S k)) by exact Hk. cbn [nth]. field. exact Hd.
Qed.

Section Device.
Variable ltb : R -> R -> bool.
Variable isnan : R -> bool.
Variable ffint : list R -> list R -> R -> R * R * R * R * R * R.
Notation incr := (increment R (1 / 2)%R Rplus Rmult ltb isnan ffint).
(** The states of a device, before and after each step of period [dt]. *)
Fixpoint states (dt : R) (d : device R) (us : list (list R)) : outcome (list (list R)) :=
  match us with
  | [] => Ok [state d]
  | u :: r => let* d' := incr d u dt in let* l := states dt d' r in Ok (state d :: l)
  end.
(** In first order mode without checks, the derivator on a driven joint of the state gives zero and then the controls. *)
Theorem derivative_of_device dt d n us j : dt <> 0%R -> sanity d = false -> ctype d = OneInteg -> length (state d) = n -> 6 <= n ->
  Forall (fun u => drives n u j) us ->
  exists l, states dt d us = Ok l /\ derived dt (map (fun s => nth j s 0%R) l) = 0%R :: map (fun u => drive n u j) us.
Proof.
  intros Hd Hs Hm Hn H6 Hu.
  assert (G : forall us d, sanity d = false -> ctype d = OneInteg -> length (state d) = n -> Forall (fun u => drives n u j) us ->
    exists l, states dt d us = Ok l /\ length l = S (length us) /\ nth 0 l [] = state d /\
      forall k, k < length us -> nth j (nth (S k) l []) 0%R = (nth j (nth k l []) 0 + drive n (nth k us []) j * dt)%R).
  { clear us d Hs Hm Hn Hu. induction us as [|u us IH]; intros d Hs Hm Hn Hu.
    - exists [state d]. repeat split. cbn. lia.
    - inversion_clear Hu as [|? ? Hu1 Hu2]. destruct Hu1 as (D1 & D2 & D3).
      destruct (first_order_step ltb isnan ffint d u dt n Hs Hm Hn D1 ltac:(lia)) as (d' & E & S1 & S2 & S3 & _ & _ & _ & S4).
      destruct (IH d' S1 S2 S3 Hu2) as (l & El & Ll & L0 & Lk). cbn [states]. rewrite E. cbn [bind]. rewrite El. cbn [bind].
      exists (state d :: l). split; [reflexivity|]. split; [cbn; now rewrite Ll|]. split; [reflexivity|].
      intros [|k] Hk; cbn [nth].
      + rewrite L0. apply S4. repeat split; auto; lia.
      + apply Lk. cbn in Hk. lia. }
  destruct (G us d Hs Hm Hn Hu) as (l & E & L & L0 & Lk). exists l. split; [exact E|].
  destruct (derived_nth dt (map (fun s => nth j s 0%R) l) Hd) as [L2 N2]. rewrite map_length in L2, N2.
  assert (Nm : forall k, k < length l -> nth k (map (fun s => nth j s 0%R) l) 0%R = nth j (nth k l []) 0%R).
  { intros k Hk. rewrite (nth_indep _ 0%R (nth j ([] : list R) 0%R)) by (now rewrite map_length). exact (map_nth (fun s => nth j s 0%R) l [] k). }
  apply (list_eq_nth 0%R); [rewrite L2, L; cbn; now rewrite map_length|]. intros k Hk. rewrite L2 in Hk. rewrite N2 by exact Hk. destruct k as [|k]; [reflexivity|].
  rewrite !Nm by lia. rewrite Lk by lia. cbn [nth]. rewrite (nth_indep (map (fun u => drive n u j) us) 0%R (drive n [] j)) by (rewrite map_length; lia). rewrite (map_nth (fun u => drive n u j)). field. exact Hd.
Qed.
End Device.

Example derivative_of_device_case : Forall (fun u => drives 7 u 6) [[1%R]; [2%R]] /\ map (fun u => drive 7 u 6) [[1%R]; [2%R]] = [1%R; 2%R].
Proof. split; [repeat constructor; cbn; lia|reflexivity]. Qed.
Print Assumptions derivative_of_integral.
Print Assumptions derivative_of_device.
