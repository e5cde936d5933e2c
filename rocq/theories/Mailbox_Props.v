(** Theorems about the mailbox under every interleaving (C40). *)
From Coq Require Import String Ascii List Arith Lia ZArith Bool.
From Verif Require Import Base Mailbox_Model.
Import ListNotations.
Local Open Scope nat_scope.
Local Open Scope list_scope.

Section Mailbox.
Variable W : Type.
Variable nw : nat.
Variable obj0 : list W.
Hypothesis obj0_len : length obj0 = nw.

Notation state := (state W). Notation label := (label W). Notation tobj := (tobj W).
Notation step := (step W nw). Notation exec := (exec W nw obj0).
Arguments mkT {W}. Arguments PostDone {W}. Arguments GetDone {W}. Arguments GetBusy {W}.
Arguments HasDone {W}. Arguments HasBusy {W}. Arguments Tau {W}.

(** Specification, on traces (newest first): the last value posted ... *)
Fixpoint last_post (tr : list (nat * label)) : tobj :=
  match tr with
  | [] => mkT obj0 None None
  | (_, PostDone p) :: _ => p
  | _ :: r => last_post r
  end.
(** ... and whether it was posted after the last read that had the mutex. *)
Fixpoint fresh (tr : list (nat * label)) : bool :=
  match tr with
  | [] => false
  | (_, PostDone _) :: _ => true
  | (_, GetDone _) :: _ => false
  | _ :: r => fresh r
  end.

(** Threads inside a critical section. *)
Definition holds (p : pc W) : bool :=
  match p with
  | Idle _ | PLock _ _ | GTry _ _ | HTry _ => false
  | _ => true
  end.

Definition values (m : shared W) (p : tobj) : Prop :=
  mobj W m = tval W p /\ msec W m = tsec W p /\ musec W m = tusec W p.

(** What the holder of the mutex knows. *)
Definition inside (m : shared W) (tr : list (nat * label)) (p : pc W) : Prop :=
  let lp := last_post tr in
  match p with
  | Idle _ | PLock _ _ | GTry _ _ | HTry _ => False
  | PObj _ v i => length v = nw /\ i <= nw /\ firstn i (mobj W m) = firstn i v
  | PSec _ v => mobj W m = v
  | PUsec _ v a b => mobj W m = v /\ msec W m = Some a
  | PUpd _ v a b => values m (mkT v (Some a) (Some b))
  | PReady _ v a b | PUnlock _ v a b => values m (mkT v (Some a) (Some b)) /\ mupd W m = true
  | GSec _ => values m lp /\ mupd W m = fresh tr
  | GUsec _ a => values m lp /\ a = tsec W lp
  | GUpd _ a b => values m lp /\ a = tsec W lp /\ b = tusec W lp
  | GObj _ a b acc => values m lp /\ a = tsec W lp /\ b = tusec W lp /\ mupd W m = false /\
                      length acc <= nw /\ acc = firstn (length acc) (tval W lp)
  | GUnlock _ r => values m lp /\ r = lp /\ mupd W m = false
  | HRead _ => values m lp /\ mupd W m = fresh tr
  | HUnlock _ b => values m lp /\ mupd W m = fresh tr /\ b = fresh tr
  end.

Definition inv (s : state) (tr : list (nat * label)) : Prop :=
  (forall t, lock W (sh W s) = Some t <-> holds (th W s t) = true) /\
  length (mobj W (sh W s)) = nw /\
  (forall t v, th W s t = PLock W v -> length v = nw) /\
  match lock W (sh W s) with
  | None => values (sh W s) (last_post tr) /\ mupd W (sh W s) = fresh tr
  | Some t => inside (sh W s) tr (th W s t)
  end.

Lemma firstn_upd_S (l v : list W) i w :
  i < length l -> nth_error v i = Some w -> firstn i l = firstn i v ->
  firstn (S i) (upd l i w) = firstn (S i) v.
Proof.
  revert v i; induction l as [|a l IH]; intros v i Hi Hn Hf; simpl in *; [lia|].
  destruct v as [|b v]; [destruct i; discriminate|]. destruct i as [|i]; simpl in *.
  - injection Hn as ->. reflexivity.
  - injection Hf as -> Hf. f_equal. apply (IH v i); auto. lia.
Qed.

Lemma firstn_snoc (l : list W) k w : nth_error l k = Some w -> firstn k l ++ [w] = firstn (S k) l.
Proof.
  revert k; induction l as [|a l IH]; intros [|k] H; simpl in *; try discriminate.
  - injection H as ->. reflexivity.
  - f_equal. apply IH. exact H.
Qed.

Lemma lp_busy t r tr : last_post ((t, GetBusy r) :: tr) = last_post tr. Proof. reflexivity. Qed.

Lemma inv_init : inv (init W obj0) [].
Proof.
  unfold inv, init. simpl. repeat split; auto; try discriminate.
Qed.

(** Steps that leave the lock as it is and are taken by its holder. *)
Lemma keep_lock s tr t m p l :
  inv s tr -> lock W (sh W s) = Some t -> lock W m = Some t -> holds p = true ->
  length (mobj W m) = nw -> inside m tr p -> l = Tau ->
  inv (setpc W s t m p) ((t, l) :: tr).
Proof.
  intros (HA & HB & HC & HD) Hl Hm Hp Hlen Hin ->. unfold inv. simpl. split; [|split; [|split]].
  - intros x. rewrite Hm. destruct (Nat.eqb_spec x t).
    + subst. rewrite Hp. split; auto.
    + rewrite <- HA, Hl. split; congruence.
  - exact Hlen.
  - intros x v. destruct (x =? t); [|apply HC]. intros ->. discriminate.
  - rewrite Hm, Nat.eqb_refl. destruct p; exact Hin.
Qed.

Lemma inv_step s tr t i l s' : inv s tr -> step s t i = Some (l, s') -> inv s' ((t, l) :: tr).
Proof.
  intros HI Hs. assert (HI' := HI). destruct HI as (HA & HB & HC & HD).
  unfold Mailbox_Model.step in Hs.
  assert (Hlk : holds (th W s t) = true -> lock W (sh W s) = Some t) by apply HA.
  (* the thread stays outside the critical section and the shared state is the same *)
  assert (Hout : forall p l0, holds (th W s t) = false -> holds p = false ->
    (forall v, p = PLock W v -> length v = nw) ->
    (forall q, last_post ((t, l0) :: q) = last_post q /\ fresh ((t, l0) :: q) = fresh q) ->
    inv (setpc W s t (sh W s) p) ((t, l0) :: tr)).
  { intros p l0 Hh Hp Hv Hq. unfold inv. simpl. destruct (Hq tr) as (Hq1 & Hq2). simpl in Hq1, Hq2.
    split; [|split; [|split]]; auto.
    - intros x. destruct (Nat.eqb_spec x t).
      + subst. rewrite Hp. rewrite HA, Hh. reflexivity.
      + apply HA.
    - intros x v. destruct (x =? t); [apply Hv|apply HC].
    - rewrite Hq1, Hq2. destruct (lock W (sh W s)) as [x|] eqn:El; auto.
      destruct (Nat.eqb_spec x t).
      + subst. assert (X := proj1 (HA t) eq_refl). congruence.
      + unfold inside in *. simpl. rewrite Hq1, Hq2. exact HD. }
  (* the thread takes the free mutex *)
  assert (Htake : forall p, lock W (sh W s) = None -> holds p = true ->
    (values (sh W s) (last_post tr) /\ mupd W (sh W s) = fresh tr -> inside (with_lock W (sh W s) (Some t)) tr p) ->
    inv (setpc W s t (with_lock W (sh W s) (Some t)) p) ((t, Tau) :: tr)).
  { intros p Hl Hp Hin. rewrite Hl in HD. unfold inv. simpl. split; [|split; [|split]]; auto.
    - intros x. destruct (Nat.eqb_spec x t).
      + subst. rewrite Hp. split; auto.
      + rewrite <- HA, Hl. split; congruence.
    - intros x v. destruct (x =? t); [|apply HC]. intros ->. discriminate.
    - rewrite Nat.eqb_refl. specialize (Hin HD). destruct p; exact Hin. }
  (* the thread releases the mutex *)
  assert (Hrel : forall l0, lock W (sh W s) = Some t ->
    (values (sh W s) (last_post ((t, l0) :: tr)) /\ mupd W (sh W s) = fresh ((t, l0) :: tr)) ->
    inv (setpc W s t (with_lock W (sh W s) None) (Idle W)) ((t, l0) :: tr)).
  { intros l0 Hl Hv. unfold inv. simpl. split; [|split; [|split]]; auto.
    - intros x. destruct (Nat.eqb_spec x t); simpl.
      + split; discriminate.
      + rewrite <- HA, Hl. split; congruence.
    - intros x v. destruct (x =? t); [discriminate|apply HC]. }
  destruct (th W s t) as [|v|v k|v|v a b|v a b|v a b|v a b|r| |a|a b|a b acc|r| | |b] eqn:Ep; simpl in Hlk.
  - (* Idle *) destruct (icall W i) as [v|r|].
    + destruct (Nat.eqb_spec (length v) nw); [|discriminate]. injection Hs as <- <-.
      apply Hout; auto. intros v' [= <-]. exact e.
    + injection Hs as <- <-. apply Hout; auto. discriminate.
    + injection Hs as <- <-. apply Hout; auto. discriminate.
  - (* PLock *) destruct (lock W (sh W s)) eqn:El; [discriminate|]. injection Hs as <- <-.
    apply Htake; auto. intros _. simpl. split; [exact (HC _ _ Ep)|]. split; [lia|reflexivity].
  - (* PObj *) specialize (Hlk eq_refl). rewrite Hlk, Ep in HD. simpl in HD. destruct HD as (Hv & Hk & Hf).
    destruct (Nat.eqb_spec k nw).
    + injection Hs as <- <-. eapply keep_lock; eauto. simpl. subst k.
      rewrite !firstn_all2 in Hf by lia. exact Hf.
    + destruct (nth_error v k) as [w|] eqn:En; [|discriminate]. injection Hs as <- <-.
      eapply keep_lock; eauto; simpl.
      * rewrite upd_length. exact HB.
      * split; [exact Hv|]. split; [lia|]. apply firstn_upd_S; auto. lia.
  - (* PSec *) specialize (Hlk eq_refl). rewrite Hlk, Ep in HD. simpl in HD.
    injection Hs as <- <-. eapply keep_lock; eauto; simpl; auto.
  - specialize (Hlk eq_refl). rewrite Hlk, Ep in HD. simpl in HD. destruct HD as (H1 & H2).
    injection Hs as <- <-. eapply keep_lock; eauto; simpl; auto. repeat split; auto.
  - specialize (Hlk eq_refl). rewrite Hlk, Ep in HD. simpl in HD.
    injection Hs as <- <-. eapply keep_lock; eauto; simpl; auto.
  - specialize (Hlk eq_refl). rewrite Hlk, Ep in HD. simpl in HD.
    injection Hs as <- <-. eapply keep_lock; eauto; simpl; auto.
  - (* PUnlock *) specialize (Hlk eq_refl). rewrite Hlk, Ep in HD. simpl in HD.
    injection Hs as <- <-. apply Hrel; auto.
  - (* GTry *) destruct (lock W (sh W s)) as [x|] eqn:El.
    + injection Hs as <- <-. apply Hout; auto. discriminate.
    + injection Hs as <- <-. apply Htake; auto.
  - specialize (Hlk eq_refl). rewrite Hlk, Ep in HD. simpl in HD. destruct HD as ((H1 & H2 & H3) & H4).
    injection Hs as <- <-. eapply keep_lock; eauto; simpl; auto. repeat split; auto.
  - specialize (Hlk eq_refl). rewrite Hlk, Ep in HD. simpl in HD. destruct HD as ((H1 & H2 & H3) & H4).
    injection Hs as <- <-. eapply keep_lock; eauto; simpl; auto. repeat split; auto.
  - specialize (Hlk eq_refl). rewrite Hlk, Ep in HD. simpl in HD. destruct HD as ((H1 & H2 & H3) & H4 & H5).
    injection Hs as <- <-. eapply keep_lock; eauto; simpl; auto. repeat split; auto. lia.
  - specialize (Hlk eq_refl). rewrite Hlk, Ep in HD. simpl in HD.
    destruct HD as ((H1 & H2 & H3) & H4 & H5 & H6 & H7 & H8).
    destruct (Nat.eqb_spec (length acc) nw).
    + injection Hs as <- <-. eapply keep_lock; eauto; simpl. repeat split; auto.
      subst a b. rewrite H8, firstn_all2 by (rewrite <- H1; lia). destruct (last_post tr); reflexivity.
    + destruct (nth_error (mobj W (sh W s)) (length acc)) as [w|] eqn:En; [|discriminate].
      injection Hs as <- <-. eapply keep_lock; eauto; simpl.
      rewrite app_length. simpl. repeat split; auto; [lia|].
      rewrite Nat.add_1_r, <- (firstn_snoc _ _ w); [congruence|]. rewrite <- H1. exact En.
  - (* GUnlock *) specialize (Hlk eq_refl). rewrite Hlk, Ep in HD. simpl in HD. destruct HD as (H1 & H2 & H3).
    injection Hs as <- <-. apply Hrel; auto.
  - (* HTry *) destruct (lock W (sh W s)) as [x|] eqn:El.
    + injection Hs as <- <-. apply Hout; auto. discriminate.
    + injection Hs as <- <-. apply Htake; auto.
  - specialize (Hlk eq_refl). rewrite Hlk, Ep in HD. simpl in HD. destruct HD as (H1 & H2).
    injection Hs as <- <-. eapply keep_lock; eauto; simpl; auto.
  - specialize (Hlk eq_refl). rewrite Hlk, Ep in HD. simpl in HD. destruct HD as (H1 & H2 & H3).
    injection Hs as <- <-. apply Hrel; auto.
Qed.

Lemma inv_exec s tr : exec s tr -> inv s tr.
Proof. induction 1; [exact inv_init|]. eapply inv_step; eauto. Qed.

Ltac casestep := 
    repeat match goal with H : context [match ?x with _ => _ end] |- _ => destruct x; try discriminate end;
    try discriminate.
Lemma get_done_pc s t i r s' : step s t i = Some (GetDone r, s') -> th W s t = GUnlock W r.
Proof.
  intros Hs. unfold Mailbox_Model.step in Hs. destruct (th W s t) eqn:Ep; casestep. congruence.
Qed.
Lemma has_done_pc s t i b s' : step s t i = Some (HasDone b, s') -> th W s t = HUnlock W b.
Proof.
  intros Hs. unfold Mailbox_Model.step in Hs. destruct (th W s t) eqn:Ep; casestep. congruence.
Qed.

(** Under every interleaving of any number of posts, reads and queries: a read
    that had the mutex returns the object and the time stamp of the last post
    completed before it, whole; a query that had the mutex tells exactly whether
    a post completed since the last such read. *)
Theorem mailbox_reads_last_post : forall s tr t i l s',
  exec s tr -> step s t i = Some (l, s') ->
  (forall r, l = GetDone r -> r = last_post tr) /\
  (forall b, l = HasDone b -> b = fresh tr).
Proof.
  intros s tr t i l s' He Hs. destruct (inv_exec _ _ He) as (HA & HB & HC & HD). split.
  - intros r ->. assert (Ep := get_done_pc _ _ _ _ _ Hs).
    assert (Hl : lock W (sh W s) = Some t) by (apply HA; rewrite Ep; reflexivity).
    rewrite Hl, Ep in HD. simpl in HD. tauto.
  - intros b ->. assert (Ep := has_done_pc _ _ _ _ _ Hs).
    assert (Hl : lock W (sh W s) = Some t) by (apply HA; rewrite Ep; reflexivity).
    rewrite Hl, Ep in HD. simpl in HD. tauto.
Qed.

(** A read that finds the mutex taken returns what it was given, and changes
    nothing. *)
Theorem mailbox_busy_read : forall s t i r s',
  step s t i = Some (GetBusy r, s') -> th W s t = GTry W r /\ sh W s' = sh W s.
Proof.
  intros s t i r s' Hs. unfold Mailbox_Model.step in Hs.
  destruct (th W s t) eqn:Ep;
    repeat match goal with H : context [match ?x with _ => _ end] |- _ => destruct x; try discriminate end;
    try discriminate.
  injection Hs as <- <-. auto.
Qed.

(** Two threads are never in the critical section together. *)
Theorem mailbox_mutual_exclusion : forall s tr t1 t2,
  exec s tr -> holds (th W s t1) = true -> holds (th W s t2) = true -> t1 = t2.
Proof.
  intros s tr t1 t2 He H1 H2. destruct (inv_exec _ _ He) as (HA & _).
  apply HA in H1, H2. congruence.
Qed.

(** Progress: only a post waiting for a taken mutex waits. *)
Theorem mailbox_only_posts_wait : forall s tr t i,
  exec s tr -> th W s t <> Idle W -> step s t i = None ->
  exists v, th W s t = PLock W v /\ exists t', t' <> t /\ lock W (sh W s) = Some t'.
Proof.
  intros s tr t i He Hn Hs. destruct (inv_exec _ _ He) as (HA & HB & HC & HD).
  assert (Hlk : holds (th W s t) = true -> lock W (sh W s) = Some t) by apply HA.
  unfold Mailbox_Model.step in Hs.
  destruct (th W s t) as [|v|v k|v|v a b|v a b|v a b|v a b|r| |a|a b|a b acc|r| | |b] eqn:Ep;
    try discriminate; try congruence.
  - exists v. split; auto. destruct (lock W (sh W s)) as [x|] eqn:El; [|discriminate].
    exists x. split; auto. intros ->. assert (X := proj1 (HA t) eq_refl). rewrite Ep in X. discriminate.
  - simpl in Hlk. specialize (Hlk eq_refl). rewrite Hlk, Ep in HD. simpl in HD. destruct HD as (Hv & Hk & _).
    destruct (Nat.eqb_spec k nw); [discriminate|].
    destruct (nth_error v k) eqn:E; [discriminate|]. apply nth_error_None in E. lia.
  - destruct (lock W (sh W s)); discriminate.
  - simpl in Hlk. specialize (Hlk eq_refl). rewrite Hlk, Ep in HD. simpl in HD. destruct HD as (_ & _ & _ & _ & Hk & _).
    destruct (Nat.eqb_spec (length acc) nw); [discriminate|].
    destruct (nth_error (mobj W (sh W s)) (length acc)) eqn:E; [discriminate|]. apply nth_error_None in E. lia.
  - destruct (lock W (sh W s)); discriminate.
Qed.

(** Steps the holder of the mutex still has to take before releasing it. *)
Definition left (p : pc W) : nat :=
  match p with
  | Idle _ | PLock _ _ | GTry _ _ | HTry _ => 0
  | PObj _ _ i => nw - i + 6
  | PSec _ _ => 5 | PUsec _ _ _ _ => 4 | PUpd _ _ _ _ => 3 | PReady _ _ _ _ => 2 | PUnlock _ _ _ _ => 1
  | GSec _ => nw + 5 | GUsec _ _ => nw + 4 | GUpd _ _ _ => nw + 3
  | GObj _ _ _ acc => nw - length acc + 2 | GUnlock _ _ => 1
  | HRead _ => 2 | HUnlock _ _ => 1
  end.

(** The holder, run alone, releases the mutex within [nw + 6] of its own steps:
    no step of another thread changes how many are left. *)
Theorem mailbox_mutex_released : forall s tr t,
  exec s tr -> lock W (sh W s) = Some t ->
  1 <= left (th W s t) <= nw + 6 /\
  (forall i, exists l s', step s t i = Some (l, s') /\
     ((lock W (sh W s') = Some t /\ left (th W s' t) = left (th W s t) - 1) \/
      lock W (sh W s') = None)) /\
  (forall t' i l s', t' <> t -> step s t' i = Some (l, s') ->
     lock W (sh W s') = Some t /\ th W s' t = th W s t).
Proof.
  intros s tr t He Hl. destruct (inv_exec _ _ He) as (HA & HB & HC & HD). rewrite Hl in HD.
  split; [|split].
  - destruct (th W s t); simpl in *; try contradiction; try lia.
  - intros i. unfold Mailbox_Model.step.
    destruct (th W s t) as [|v|v k|v|v a b|v a b|v a b|v a b|r| |a|a b|a b acc|r| | |b] eqn:Ep;
      simpl in HD; try contradiction.
    2-6: eexists; eexists; split; [reflexivity|]; simpl; rewrite ?Nat.eqb_refl; simpl; auto.
    + destruct HD as (Hv & Hk & _). destruct (Nat.eqb_spec k nw).
      * eexists; eexists; split; [reflexivity|]; simpl; rewrite ?Nat.eqb_refl. left. split; auto. simpl. lia.
      * destruct (nth_error v k) as [w|] eqn:E; [|apply nth_error_None in E; lia].
        eexists; eexists; split; [reflexivity|]; simpl; rewrite ?Nat.eqb_refl. left. split; auto. simpl. lia.
    + eexists; eexists; split; [reflexivity|]; simpl; rewrite ?Nat.eqb_refl. left. split; auto. simpl. lia.
    + eexists; eexists; split; [reflexivity|]; simpl; rewrite ?Nat.eqb_refl. left. split; auto. simpl. lia.
    + eexists; eexists; split; [reflexivity|]; simpl; rewrite ?Nat.eqb_refl. left. split; auto. simpl. lia.
    + destruct HD as (_ & _ & _ & _ & Hk & _). destruct (Nat.eqb_spec (length acc) nw).
      * eexists; eexists; split; [reflexivity|]; simpl; rewrite ?Nat.eqb_refl. left. split; auto. simpl. lia.
      * destruct (nth_error (mobj W (sh W s)) (length acc)) as [w|] eqn:E; [|apply nth_error_None in E; lia].
        eexists; eexists; split; [reflexivity|]; simpl; rewrite ?Nat.eqb_refl. left. split; auto. simpl.
        rewrite app_length. simpl. lia.
    + eexists; eexists; split; [reflexivity|]; simpl; auto.
    + eexists; eexists; split; [reflexivity|]; simpl; rewrite ?Nat.eqb_refl. left. split; auto.
    + eexists; eexists; split; [reflexivity|]; simpl; auto.
  - intros t' i l s' Hne Hs.
    assert (Hh : holds (th W s t') = false).
    { destruct (holds (th W s t')) eqn:E; auto. apply HA in E. congruence. }
    unfold Mailbox_Model.step in Hs.
    destruct (th W s t') eqn:Ep; try discriminate; rewrite ?Hl in Hs; try discriminate;
      repeat match goal with H : context [match ?x with _ => _ end] |- _ => destruct x; try discriminate end;
      injection Hs as <- <-; simpl; rewrite (proj2 (Nat.eqb_neq t t')) by auto; auto.
Qed.

End Mailbox.

(** Non-vacuity: a post by thread 1 of two words, during which thread 2 reads
    busily, then a read by thread 2. *)
Definition ex_in (c : call nat) : input nat := mkIn nat c 17 25.
Definition ex_r : tobj nat := mkT nat [0; 0] None None.
Fixpoint ex_run (s : state nat) (l : list (nat * call nat)) : option (list (label nat) * state nat) :=
  match l with
  | [] => Some ([], s)
  | (t, c) :: r =>
      match step nat 2 s t (ex_in c) with
      | Some (lb, s') => match ex_run s' r with Some (ls, s'') => Some (lb :: ls, s'') | None => None end
      | None => None
      end
  end.
Definition ex_sched : list (nat * call nat) :=
  let p := (1, CPost nat [5; 6]) in let g := (2, CGet nat ex_r) in
  [p; p; p; g; g; p; p; p; p; p; p; p; g; g; g; g; g; g; g; g; g].
Example mailbox_example :
  match ex_run (init nat [0; 0]) ex_sched with
  | Some (ls, _) => filter (fun l => match l with Tau _ => false | _ => true end) ls =
      [GetBusy nat ex_r; PostDone nat (mkT nat [5; 6] (Some 17%Z) (Some 25%Z));
       GetDone nat (mkT nat [5; 6] (Some 17%Z) (Some 25%Z))]
  | None => False
  end.
Proof. vm_compute. reflexivity. Qed.

(** Finding: the time stamp read before any post is indeterminate. *)
Theorem mailbox_initial_timestamp_refuted : forall (W : Type) (nw : nat) obj0,
  tsec W (last_post W obj0 []) = None /\ msec W (sh W (init W obj0)) = None.
Proof. intros. split; reflexivity. Qed.

(** An access to the object signal: when something was posted since the last one and nobody is posting, the
    posted object with its date, and the box has then no update; otherwise the value the signal had.  In all cases what is
    in the box is left there, and the signal does not ask again until another post. *)
Theorem mailbox_signal_access : forall (W : Type) (m : shared W) buf,
  let '(v, m') := sout_access W m buf in
  v = (if ready W m then match lock W m with None => mkT W (mobj W m) (msec W m) (musec W m) | Some _ => buf end else buf) /\
  mobj W m' = mobj W m /\ msec W m' = msec W m /\ musec W m' = musec W m /\ lock W m' = lock W m /\
  ready W m' = false /\
  mupd W m' = (if ready W m then match lock W m with None => false | Some _ => mupd W m end else mupd W m).
Proof.
  intros W m buf. unfold sout_access. destruct (ready W m) eqn:Er; [destruct (lock W m) eqn:El|]; cbn; auto 10.
Qed.

(** Finding: the object signal can miss a post for ever.  With the poster between
    setReady and the release of the mutex, an access to the signal resets the ready
    flag although it could not read; every later access returns the old value
    until another post. *)
Theorem mailbox_signal_misses_post_refuted : forall (W : Type) (m : shared W) t buf,
  ready W m = true -> lock W m = Some t ->
  let '(v1, m1) := sout_access W m buf in
  let m2 := with_lock W m1 None in
  v1 = buf /\ forall n,
    let '(v, m3) := Nat.iter n (fun p => sout_access W (snd p) (fst p)) (v1, m2) in
    v = buf /\ m3 = m2.
Proof.
  intros W m t buf Hr Hl. unfold sout_access at 1. rewrite Hr, Hl. split; auto.
  intros n. induction n as [|n IH]; simpl; auto.
  destruct (Nat.iter n _ _) as [v m3]. destruct IH as [-> ->]. simpl. auto.
Qed.
(** The situation is reached: the poster has just set the flag. *)
Example mailbox_signal_misses_post_example :
  match ex_run (init nat [0; 0]) (repeat (1, CPost nat [5; 6]) 9) with
  | Some (_, s) => ready nat (sh nat s) = true /\ lock nat (sh nat s) = Some 1 /\
      fst (sout_access nat (sh nat s) ex_r) = ex_r
  | None => False
  end.
Proof. vm_compute. repeat split; reflexivity. Qed.

(** Whether a post has completed. *)
Definition posted {W} (tr : list (nat * label W)) : bool := existsb (fun e => match snd e with PostDone _ _ => true | _ => false end) tr.
Definition about_to_release {W} (p : pc W) : bool := match p with PUnlock _ _ _ _ => true | _ => false end.
Lemma ready_inv W nw obj0 (s : state W) tr : exec W nw obj0 s tr ->
  (posted tr = true -> ready W (sh W s) = true) /\
  (ready W (sh W s) = true -> posted tr = true \/ exists t, about_to_release (th W s t) = true) /\
  (forall t, about_to_release (th W s t) = true -> ready W (sh W s) = true).
Proof.
  induction 1 as [|s tr t i l s' He (A & B & C) Hs]; [cbn; repeat split; discriminate|].
  unfold step in Hs.
  destruct (th W s t) eqn:Ep; repeat match type of Hs with context [match ?x with _ => _ end] => destruct x; try discriminate end;
    try discriminate; injection Hs as <- <-; unfold setpc, with_lock, posted in *; cbn [existsb snd orb sh th ready] in *.
  all: repeat split; intros; try (apply A; assumption); auto.
  all: try (left; reflexivity).
  all: try (destruct (Nat.eqb_spec t0 t); [cbn in *; discriminate|eauto]; fail).
  all: try (destruct B as [B|[x B]]; [assumption|now left|right; exists x; destruct (Nat.eqb_spec x t) as [->|]; [rewrite Ep in B; discriminate|exact B]]; fail).
  all: try (right; exists t; now rewrite Nat.eqb_refl).
  all: try (apply (C t); now rewrite Ep).
Qed.

(** The first access to the object signal after any execution, when nobody has the mutex: the last object posted with its
    date if a post completed, the value the signal had otherwise. *)
Theorem mailbox_signal_first_access : forall (W : Type) nw (obj0 : list W) s tr buf,
  length obj0 = nw -> exec W nw obj0 s tr -> lock W (sh W s) = None ->
  fst (sout_access W (sh W s) buf) = if posted tr then last_post W obj0 tr else buf.
Proof.
  intros W nw obj0 s tr buf Hl He Hk. destruct (inv_exec W nw obj0 Hl s tr He) as (HA & _ & _ & HD). rewrite Hk in HD. destruct HD as [(V1 & V2 & V3) _].
  destruct (ready_inv _ _ _ _ _ He) as (A & B & C). unfold sout_access. destruct (posted tr) eqn:Ep.
  - rewrite A by reflexivity. rewrite Hk, V1, V2, V3. destruct (last_post W obj0 tr); reflexivity.
  - destruct (ready W (sh W s)) eqn:Er; [|reflexivity]. destruct (B eq_refl) as [B'|[t B']]; [discriminate|]. exfalso.
    assert (X : holds W (th W s t) = true) by (destruct (th W s t); try discriminate; reflexivity). apply HA in X. congruence.
Qed.
Example mailbox_signal_first_access_example :
  match ex_run (init nat [0; 0]) (repeat (1, CPost nat [5; 6]) 10) with
  | Some (_, s) => lock nat (sh nat s) = None /\ tval nat (fst (sout_access nat (sh nat s) ex_r)) = [5; 6]
  | None => False
  end.
Proof. vm_compute. repeat split; reflexivity. Qed.

Print Assumptions mailbox_reads_last_post.
Print Assumptions mailbox_busy_read.
Print Assumptions mailbox_mutual_exclusion.
Print Assumptions mailbox_only_posts_wait.
Print Assumptions mailbox_mutex_released.
Print Assumptions mailbox_initial_timestamp_refuted.
Print Assumptions mailbox_signal_misses_post_refuted.
Print Assumptions mailbox_signal_access.
Print Assumptions mailbox_signal_first_access.
