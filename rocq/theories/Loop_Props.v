(** C69: calls of the interruptible loop, under every interleaving. The states [s] below are arbitrary: they
    include all those reached by any history of calls interleaved with the steps of the thread. *)
From Coq Require Import List Arith Lia Bool.
From Verif Require Import Loop_Model.
Import ListNotations.

(** ** Specification *)
(** The thread is launched and has not left its loop. *)
Definition alive (s : lstate) : Prop := l_pc s <> P0 /\ l_pc s <> P9 /\ l_pc s <> PEnd.
(** The thread has decided to pause and not done it yet. *)
Definition pausing (s : lstate) : Prop := l_pc s = P7.
(** From [s], with no further call, the loop function is called for ever: once in every five steps. *)
Definition plays_forever (s : lstate) : Prop := forall n, l_iter (works (5 * n) s) = l_iter s + n /\ l_play (works n s) = true.
(** From [s], with no further call, at most [k] iterations end, whatever the time given. *)
Definition at_most (k : nat) (s : lstate) : Prop := forall n, l_iter (works n s) <= l_iter s + k.
(** Exactly [k] iterations end, and the loop is then paused. *)
Definition exactly_then_paused (k : nat) (s : lstate) : Prop :=
  at_most k s /\ forall n, 10 <= n -> l_iter (works n s) = l_iter s + k /\ l_play (works n s) = false.

Lemma works_S n s : works (S n) s = works n (work s).
Proof. unfold works. induction n as [|n IH]; [reflexivity|]. change (work (Nat.iter (S n) work s) = work (Nat.iter n work (work s))). now rewrite IH. Qed.
Lemma works_add a b s : works (a + b) s = works b (works a s).
Proof. revert s. induction a as [|a IH]; intros s; [reflexivity|]. cbn [plus]. rewrite !works_S. apply IH. Qed.

(** ** Pause *)
Definition committed (s : lstate) : nat := match l_pc s with P5 => 1 | _ => 0 end.
Lemma paused_step s : l_play s = false -> l_play (work s) = false /\ l_iter (work s) + committed (work s) = l_iter s + committed s.
Proof. intros Hp. unfold work, committed. destruct s as [q p o r i pc sw a]; cbn in *. subst p. destruct pc, q, o; cbn; split; auto; lia. Qed.
Lemma paused_works n : forall s, l_play s = false -> l_play (works n s) = false /\ l_iter (works n s) + committed (works n s) = l_iter s + committed s.
Proof.
  induction n as [|n IH]; intros s Hp; [auto|]. rewrite works_S. destruct (paused_step s Hp) as [H1 H2].
  destruct (IH _ H1) as [H3 H4]. split; [exact H3|]. lia.
Qed.
(** After pause at most one more iteration ends (the one the thread is about to do). *)
Theorem pause_stops s : let s1 := fold_left oper pause_ops s in
  at_most 1 s1 /\ (l_pc s <> P5 -> at_most 0 s1) /\ forall n, l_play (works n s1) = false.
Proof.
  intros s1. assert (Hp : l_play s1 = false) by reflexivity. split; [|split].
  - intros n. destruct (paused_works n s1 Hp) as [_ E]. assert (committed s1 <= 1) by (unfold committed; destruct (l_pc s1); lia). lia.
  - intros Hc n. destruct (paused_works n s1 Hp) as [_ E].
    assert (committed s1 = 0). { unfold committed. cbn. destruct (l_pc s); try reflexivity. congruence. } lia.
  - intros n. apply (paused_works n s1 Hp).
Qed.

(** ** Play *)
(** Steady play. *)
Definition steady (s : lstate) : Prop := l_play s = true /\ l_once s = false /\ alive s /\ l_pc s <> P7 /\ (l_quit s = false \/ l_pc s = P1).
Lemma steady_step s : steady s -> steady (work s) /\
  l_iter (work s) = l_iter s + (match l_pc s with P5 => 1 | _ => 0 end).
Proof.
  intros (Hp & Ho & (Ha & Hb & Hc) & H7 & Hq). unfold steady, alive, work. destruct s as [q p o r i pc sw a]. cbn in *. subst p o.
  destruct pc; try congruence; destruct Hq as [-> |Hq]; try congruence; cbn; repeat split; auto; try congruence; try lia.
Qed.
Lemma steady_works n : forall s, steady s -> steady (works n s).
Proof. induction n as [|n IH]; intros s Hs; [exact Hs|]. rewrite works_S. apply IH, steady_step, Hs. Qed.
Lemma steady_five s : steady s -> l_iter (works 5 s) = l_iter s + 1.
Proof.
  intros (Hp & Ho & (Ha & Hb & Hc) & H7 & Hq). destruct s as [q p o r i pc sw a]. cbn in Hp, Ho, Ha, Hb, Hc, H7, Hq. subst p o.
  destruct pc; try congruence; destruct Hq as [-> |Hq]; try congruence; cbn; lia.
Qed.
Lemma steady_forever s : steady s -> plays_forever s.
Proof.
  intros Hs n. split; [|apply (steady_works n s Hs)]. revert s Hs. induction n as [|n IH]; intros s Hs; [cbn; lia|].
  replace (5 * S n) with (5 + 5 * n) by lia. rewrite works_add, IH, steady_five by (try apply steady_works; assumption). lia.
Qed.

(** play on a running thread is two writes, with any number of steps of the thread in between. It is obeyed for
    ever unless the thread is pausing at the second one...  Missing: that last case, where the command is
    lost (play_lost, play_lost_refuted). *)
Theorem play_obeyed_partial s k : let s1 := works k (oper s (OOnce false false)) in let s2 := oper s1 (OPlay false true) in
  alive s1 -> l_quit s1 = false -> ~ pausing s1 -> plays_forever s2.
Proof.
  intros s1 s2 Ha Hq H7. apply steady_forever. unfold steady. unfold s2. cbn.
  assert (Ho : l_once s1 = false).
  { unfold s1. clear. generalize (oper s (OOnce false false)) (eq_refl : l_once (oper s (OOnce false false)) = false).
    induction k as [|k IH]; intros t E; [exact E|]. rewrite works_S. apply IH.
    unfold work. destruct t as [q p o r i pc sw a]; cbn in *. destruct pc, q, p, o; cbn; auto. }
  unfold pausing in H7. auto 10.
Qed.
(** ... in which case it is lost. *)
Theorem play_lost s : pausing s -> let s2 := oper s (OPlay false true) in at_most 0 s2 /\ forall n, 1 <= n -> l_play (works n s2) = false.
Proof.
  intros H7 s2. assert (Hw : l_play (work s2) = false /\ l_iter (work s2) = l_iter s2 /\ committed (work s2) = 0).
  { unfold s2. unfold pausing in H7. destruct s as [q p o r i pc sw a]. cbn in *. subst pc. cbn. auto. }
  destruct Hw as (W1 & W2 & W3). split.
  - intros [|n]; [cbn; lia|]. rewrite works_S. destruct (paused_works n _ W1) as [_ E]. lia.
  - intros [|n] Hn; [lia|]. rewrite works_S. apply (paused_works n _ W1).
Qed.
(** On a running thread the other steps of play have no effect; play raises nothing. *)
Theorem play_running s : l_run s = true -> let s1 := fold_left oper [OReadRunning; OStartPlay; OStartThread] s in
  l_abort s1 = false /\ l_quit s1 = l_quit s /\ l_play s1 = l_play s /\ l_once s1 = l_once s /\ l_pc s1 = l_pc s /\ l_iter s1 = l_iter s.
Proof. intros Hr. cbn. rewrite Hr. cbn. auto 10. Qed.

(** The first play starts the loop for ever, whatever the steps of the thread between its writes. *)
Theorem first_play a b : let s0 := fold_left oper [OReadRunning; OStartPlay; OStartThread] l_new in
  plays_forever (oper (works b (oper (works a s0) (OOnce true false))) (OPlay true true)).
Proof.
  intros s0. apply steady_forever.
  assert (S0 : steady s0 /\ l_abort s0 = false) by (cbn; unfold steady, alive; cbn; repeat split; auto; discriminate).
  destruct S0 as [S0 A0].
  assert (AB : forall n t, l_abort (works n t) = l_abort t).
  { clear. induction n as [|n IH]; intros t; [reflexivity|]. rewrite works_S, IH. unfold work. destruct (l_pc t); reflexivity. }
  assert (S1 : steady (oper (works a s0) (OOnce true false))).
  { cbn [oper]. unfold guarded. rewrite AB, A0. cbn [andb]. destruct (steady_works a _ S0) as (A & B & C & D & E).
    unfold steady, alive in *. cbn. auto 10. }
  assert (A1 : l_abort (oper (works a s0) (OOnce true false)) = false).
  { cbn [oper]. unfold guarded. rewrite AB, A0. cbn. rewrite AB. exact A0. }
  revert S1 A1. generalize (oper (works a s0) (OOnce true false)). intros t S1 A1.
  destruct (steady_works b _ S1) as (A & B & C & D & E).
  cbn [oper]. unfold guarded. rewrite AB, A1. unfold steady, alive in *. cbn. auto 10.
Qed.

(** ** Once *)
Lemma once_cases s : l_play s = true -> l_once s = true -> l_quit s = false -> alive s -> ~ pausing s -> l_pc s <> P6 ->
  exists k t, k <= 6 /\ works k s = t /\ l_pc t = P6 /\ l_play t = true /\ l_once t = true /\ l_iter t = l_iter s + 1 /\
    forall j, j <= k -> l_iter (works j s) <= l_iter s + 1.
Proof.
  intros Hp Ho Hq (Ha & Hb & Hc) H7 H6. unfold pausing in H7. destruct s as [q p o r i pc sw a]. cbn in Hp, Ho, Hq, Ha, Hb, Hc, H7, H6. subst.
  destruct pc; try congruence.
  - exists 5. eexists. split; [lia|]. split; [reflexivity|]. cbn. repeat split; try lia.
    intros [|[|[|[|[|[|j]]]]]] Hj; cbn; lia.
  - exists 4. eexists. split; [lia|]. split; [reflexivity|]. cbn. repeat split; try lia.
    intros [|[|[|[|[|j]]]]] Hj; cbn; lia.
  - exists 3. eexists. split; [lia|]. split; [reflexivity|]. cbn. repeat split; try lia.
    intros [|[|[|[|j]]]] Hj; cbn; lia.
  - exists 2. eexists. split; [lia|]. split; [reflexivity|]. cbn. repeat split; try lia.
    intros [|[|[|j]]] Hj; cbn; lia.
  - exists 1. eexists. split; [lia|]. split; [reflexivity|]. cbn. repeat split; try lia.
    intros [|[|j]] Hj; cbn; lia.
  - exists 4. eexists. split; [lia|]. split; [reflexivity|]. cbn. repeat split; try lia.
    intros [|[|[|[|[|j]]]]] Hj; cbn; lia.
Qed.
Lemma once_ends t : l_pc t = P6 -> l_once t = true -> at_most 0 t /\ forall n, 2 <= n -> l_iter (works n t) = l_iter t /\ l_play (works n t) = false.
Proof.
  intros H6 Ho. destruct t as [q p o r i pc sw a]. cbn in H6, Ho. subst.
  set (t := mkL q p true r i P6 sw a). set (u := works 2 t). assert (Pu : l_play u = false) by reflexivity.
  assert (Iu : l_iter u = i /\ committed u = 0) by (split; reflexivity). destruct Iu as [Iu Cu].
  split.
  - intros [|[|n]]; [cbn; lia..|]. rewrite works_S, works_S. change (work (work t)) with u. destruct (paused_works n u Pu) as [_ E]. cbn [l_iter t]. lia.
  - intros [|[|n]] Hn; [lia..|]. rewrite works_S, works_S. change (work (work t)) with u. destruct (paused_works n u Pu) as [A E].
    assert (At : l_iter (works n u) <= l_iter u). { lia. }
    split; [|exact A]. cbn [l_iter t].
    assert (Mono : forall n s, l_iter s <= l_iter (works n s)).
    { clear. induction n as [|n IH]; intros s; [cbn; lia|]. rewrite works_S. specialize (IH (work s)).
      assert (l_iter s <= l_iter (work s)) by (unfold work; destruct (l_pc s); cbn; lia). lia. }
    specialize (Mono n u). lia.
Qed.
(** once (two writes, any steps of the thread in between) on a live thread: exactly one iteration ends and the
    loop is paused; none if the thread was just ending an iteration. *)
Theorem once_once s k : let s1 := works k (oper s (OOnce false true)) in let s2 := oper s1 (OPlay false true) in
  alive s1 -> l_quit s1 = false -> ~ pausing s1 -> exactly_then_paused (if match l_pc s1 with P6 => true | _ => false end then 0 else 1) s2.
Proof.
  intros s1 s2 Ha Hq H7.
  assert (Ho : l_once s1 = true).
  { unfold s1. clear. generalize (oper s (OOnce false true)) (eq_refl : l_once (oper s (OOnce false true)) = true).
    induction k as [|k IH]; intros t E; [exact E|]. rewrite works_S. apply IH.
    unfold work. destruct t as [q p o r i pc sw a]; cbn in *. destruct pc, q, p, o; cbn; auto. }
  assert (E6 : l_pc s1 = P6 \/ l_pc s1 <> P6) by (destruct (l_pc s1); auto; right; discriminate).
  destruct E6 as [E6|E6].
  - rewrite E6. destruct (once_ends s2) as [A B]; [exact E6|exact Ho|]. split; [exact A|]. intros n Hn. destruct (B n ltac:(lia)) as [-> ->]. split; [lia|reflexivity].
  - replace (match l_pc s1 with P6 => true | _ => false end) with false by (destruct (l_pc s1); congruence).
    destruct (once_cases s2) as (j & t & Hj & Et & P & Pl & O & It & Le); try assumption; try reflexivity.
    destruct (once_ends t P O) as [A B]. split.
    + intros n. destruct (le_lt_dec n j) as [L|L]; [apply Le, L|]. replace n with (j + (n - j)) by lia. rewrite works_add, Et.
      specialize (A (n - j)). lia.
    + intros n Hn. replace n with (j + (n - j)) by lia. rewrite works_add, Et. destruct (B (n - j) ltac:(lia)) as [-> ->]. split; [lia|reflexivity].
Qed.

(** The command itself, under every schedule: on a paused, live thread, whatever the steps of the thread before,
    between and after its two writes, once makes exactly one iteration and the loop is paused again. *)
Definition script (sch : list lstep) : list lop := flat_map (fun x => match x with Op o => [o] | Work => [] end) sch.
Lemma script_nil sch : script sch = [] -> forall s, fold_left sexec sch s = works (length sch) s.
Proof.
  induction sch as [|[|o] sch IH]; intros E s; [reflexivity| |discriminate E]. cbn [length]. rewrite works_S. apply (IH E).
Qed.
Lemma script_cons sch o l : script sch = o :: l -> exists k sch', script sch' = l /\ length sch = k + S (length sch') /\
  forall s, fold_left sexec sch s = fold_left sexec sch' (oper (works k s) o).
Proof.
  induction sch as [|[|o'] sch IH]; intros E; [discriminate E| |].
  - destruct (IH E) as (k & sch' & A & L & B). exists (S k), sch'. split; [exact A|]. split; [cbn; lia|]. intros s. rewrite works_S. apply B.
  - cbn in E. injection E as -> E. exists 0, sch. split; [exact E|]. split; [reflexivity|]. reflexivity.
Qed.
(** Paused, with nothing of an iteration left to do. *)
Definition idle (s : lstate) : Prop := l_play s = false /\ l_quit s = false /\ (l_pc s = P3 \/ l_pc s = P4 \/ l_pc s = P8).
Lemma idle_step s : idle s -> idle (work s) /\ l_iter (work s) = l_iter s.
Proof.
  intros (Hp & Hq & Hc). unfold idle, work. destruct s as [q p o r i pc sw a]. cbn in *. subst.
  destruct Hc as [-> | [-> | ->]]; cbn; auto 10.
Qed.
Lemma idle_works n : forall s, idle s -> idle (works n s) /\ l_iter (works n s) = l_iter s.
Proof.
  induction n as [|n IH]; intros s Hs; [auto|]. rewrite works_S. destruct (idle_step s Hs) as [A B]. destruct (IH _ A) as [C D].
  split; [exact C|congruence].
Qed.
Theorem once_scheduled s sch : idle s -> script sch = once_ops ->
  let s' := fold_left sexec sch s in
  l_iter s' <= l_iter s + 1 /\
  forall n, 10 <= n -> l_iter (works n s') = l_iter s + 1 /\ l_play (works n s') = false.
Proof.
  intros Hi E. destruct (script_cons _ _ _ E) as (a & sch1 & E1 & _ & R1). destruct (script_cons _ _ _ E1) as (b & sch2 & E2 & _ & R2).
  cbv zeta. rewrite R1, R2, (script_nil _ E2).
  destruct (idle_works a s Hi) as [I1 N1]. set (u := oper (works a s) (OOnce false true)).
  assert (Iu : idle u) by exact I1. assert (Nu : l_iter u = l_iter s) by exact N1.
  destruct (idle_works b u Iu) as [I2 N2].
  assert (PC := proj2 (proj2 I2)).
  destruct (once_once (works a s) b) as [A B].
  - fold u. unfold alive. destruct PC as [-> | [-> | ->]]; repeat split; discriminate.
  - exact (proj1 (proj2 I2)).
  - fold u. unfold pausing. destruct PC as [-> | [-> | ->]]; discriminate.
  - fold u in A, B.
    replace (match l_pc (works b u) with P6 => true | _ => false end) with false in A, B
      by (destruct PC as [-> | [-> | ->]]; reflexivity).
    assert (N3 : l_iter (oper (works b u) (OPlay false true)) = l_iter s) by (change (l_iter (works b u) = l_iter s); congruence).
    rewrite N3 in B. unfold at_most in A. rewrite N3 in A. split; [apply A|]. intros n Hn. rewrite <- works_add. apply B. lia.
Qed.

(** ** Quit *)
Lemma ended_works n : forall s, l_pc s = PEnd -> works n s = s.
Proof. induction n as [|n IH]; intros s E; [reflexivity|]. rewrite works_S. unfold work at 1. rewrite E. now apply IH. Qed.
(** quit ends the thread, after at most one more iteration, unless the thread was just launched. *)
Theorem quit_ends s : l_pc s <> P0 -> l_pc s <> P1 -> let s1 := fold_left oper quit_ops s in
  at_most 1 s1 /\ forall n, 10 <= n -> l_pc (works n s1) = PEnd /\ (l_pc s <> PEnd -> l_run (works n s1) = false).
Proof.
  intros H0 H1 s1.
  assert (K : exists k, k <= 9 /\ l_pc (works k s1) = PEnd /\ (l_pc s <> PEnd -> l_run (works k s1) = false) /\
     (forall j, j <= k -> l_iter (works j s1) <= l_iter s1 + 1)).
  { unfold s1. destruct s as [q p o r i pc sw a]. cbn in H0, H1. cbn [fold_left quit_ops oper].
    destruct pc; try congruence.
    - exists 3. cbn. repeat split; try lia. intros [|[|[|[|j]]]] Hj; cbn; lia.
    - exists 2. cbn. repeat split; try lia. intros [|[|[|j]]] Hj; cbn; lia.
    - destruct p.
      + destruct o.
        * exists 7. cbn. repeat split; try lia. intros [|[|[|[|[|[|[|[|j]]]]]]]] Hj; cbn; lia.
        * exists 6. cbn. repeat split; try lia. intros [|[|[|[|[|[|[|j]]]]]]] Hj; cbn; lia.
      + exists 4. cbn. repeat split; try lia. intros [|[|[|[|[|j]]]]] Hj; cbn; lia.
    - destruct o.
      + exists 6. cbn. repeat split; try lia. intros [|[|[|[|[|[|[|j]]]]]]] Hj; cbn; lia.
      + exists 5. cbn. repeat split; try lia. intros [|[|[|[|[|[|j]]]]]] Hj; cbn; lia.
    - destruct o.
      + exists 5. cbn. repeat split; try lia. intros [|[|[|[|[|[|j]]]]]] Hj; cbn; lia.
      + exists 4. cbn. repeat split; try lia. intros [|[|[|[|[|j]]]]] Hj; cbn; lia.
    - exists 4. cbn. repeat split; try lia. intros [|[|[|[|[|j]]]]] Hj; cbn; lia.
    - exists 3. cbn. repeat split; try lia. intros [|[|[|[|j]]]] Hj; cbn; lia.
    - exists 1. cbn. repeat split; try lia. intros [|[|j]] Hj; cbn; lia.
    - exists 0. cbn. repeat split; try lia; try congruence. intros [|j] Hj; cbn; lia. }
  destruct K as (k & Hk & E & R & Le). split.
  - intros n. destruct (le_lt_dec n k) as [L|L]; [apply Le, L|]. replace n with (k + (n - k)) by lia. rewrite works_add, ended_works by exact E.
    apply Le. lia.
  - intros n Hn. replace n with (k + (n - k)) by lia. rewrite works_add, ended_works by exact E. auto.
Qed.

(** The command play itself, under every schedule. The first one starts the loop for ever; on a paused loop
    it plays for ever again; when the thread was launched and has not started, it raises, sets isPlay and
    leaves isOnce. *)
Lemma works_abort n : forall t, l_abort (works n t) = l_abort t.
Proof. induction n as [|n IH]; intros t; [reflexivity|]. rewrite works_S, IH. unfold work. destruct (l_pc t); reflexivity. Qed.
Lemma works_saw n : forall t, l_saw (works n t) = l_saw t.
Proof. induction n as [|n IH]; intros t; [reflexivity|]. rewrite works_S, IH. unfold work. destruct (l_pc t); reflexivity. Qed.
Lemma works_new n : forall t, l_pc t = P0 -> works n t = t.
Proof. induction n as [|n IH]; intros s E; [reflexivity|]. rewrite works_S. unfold work at 1. rewrite E. now apply IH. Qed.
Theorem first_play_scheduled sch : script sch = play_ops -> plays_forever (fold_left sexec sch l_new).
Proof.
  intros E. destruct (script_cons _ _ _ E) as (a & s1 & E1 & _ & R1). destruct (script_cons _ _ _ E1) as (b & s2 & E2 & _ & R2).
  destruct (script_cons _ _ _ E2) as (c & s3 & E3 & _ & R3). destruct (script_cons _ _ _ E3) as (d & s4 & E4 & _ & R4).
  destruct (script_cons _ _ _ E4) as (e & s5 & E5 & _ & R5).
  rewrite R1, R2, R3, R4, R5, (script_nil _ E5). apply steady_forever, steady_works.
  rewrite (works_new a), (works_new b), (works_new c) by reflexivity.
  set (t0 := oper _ OStartThread). change t0 with (fold_left oper [OReadRunning; OStartPlay; OStartThread] l_new). clear t0.
  set (t0 := fold_left oper _ l_new). assert (S0 : steady t0) by (unfold steady, alive; cbn; repeat split; auto; discriminate).
  assert (S1 := steady_works d _ S0).
  assert (A1 : l_abort (works d t0) = false) by (rewrite works_abort; reflexivity).
  set (t1 := oper (works d t0) (OOnce true false)).
  assert (S2 : steady t1 /\ l_abort t1 = false).
  { unfold t1. cbn [oper]. unfold guarded. rewrite A1. cbn [andb]. split; [|exact A1]. destruct S1 as (A & B & C & D & F).
    unfold steady, alive in *. cbn. auto 10. }
  destruct S2 as [S2 A2]. assert (S3 := steady_works e _ S2). assert (A3 : l_abort (works e t1) = false) by (now rewrite works_abort).
  cbn [oper]. unfold guarded. rewrite A3. cbn [andb]. destruct S3 as (A & B & C & D & F). unfold steady, alive in *. cbn. auto 10.
Qed.
Lemma idle_run n : forall s, idle s -> l_run (works n s) = l_run s.
Proof.
  induction n as [|n IH]; intros s Hs; [reflexivity|]. rewrite works_S, IH by (apply idle_step, Hs).
  destruct Hs as (_ & _ & [E|[E|E]]); unfold work; rewrite E; reflexivity.
Qed.
Theorem play_scheduled s sch : idle s -> l_run s = true -> script sch = play_ops ->
  let s' := fold_left sexec sch s in l_abort s' = false /\ plays_forever s'.
Proof.
  intros Hi Hr E. destruct (script_cons _ _ _ E) as (a & s1 & E1 & _ & R1). destruct (script_cons _ _ _ E1) as (b & s2 & E2 & _ & R2).
  destruct (script_cons _ _ _ E2) as (c & s3 & E3 & _ & R3). destruct (script_cons _ _ _ E3) as (d & s4 & E4 & _ & R4).
  destruct (script_cons _ _ _ E4) as (e & s5 & E5 & _ & R5).
  cbv zeta. rewrite R1, R2, R3, R4, R5, (script_nil _ E5).
  set (t1 := oper (works a s) OReadRunning).
  assert (K : forall t, idle t -> l_saw t = true -> l_abort t = false -> forall n, idle (works n t) /\ l_saw (works n t) = true /\ l_abort (works n t) = false).
  { intros t I S A n. rewrite works_saw, works_abort. split; [apply idle_works, I|auto]. }
  assert (T1 : idle t1 /\ l_saw t1 = true /\ l_abort t1 = false).
  { split; [exact (proj1 (idle_works a s Hi))|]. split; [|reflexivity]. change (l_run (works a s) = true). now rewrite idle_run. }
  destruct (K t1) with (n := b) as (I2 & S2 & A2); try tauto.
  set (t2 := works b t1) in *. assert (E2' : oper t2 OStartPlay = t2) by (cbn; now rewrite S2). rewrite E2'.
  destruct (K t2) with (n := c) as (I3 & S3 & A3); try tauto.
  set (t3 := works c t2) in *. assert (E3' : oper t3 OStartThread = t3) by (cbn; now rewrite S3). rewrite E3'.
  destruct (K t3) with (n := d) as (I4 & S4 & A4); try tauto. set (t4 := works d t3) in *.
  set (t5 := oper t4 (OOnce true false)).
  assert (T5 : idle t5 /\ l_saw t5 = true /\ l_abort t5 = false /\ l_once t5 = false).
  { unfold t5. cbn [oper]. unfold guarded. rewrite A4. cbn. repeat split; try tauto; apply I4. }
  destruct T5 as (I5 & S5 & A5 & O5). destruct (K t5) with (n := e) as (I6 & S6 & A6); try tauto.
  assert (O6 : l_once (works e t5) = false).
  { clear - O5. revert O5. generalize t5. induction e as [|e IH]; intros t O; [exact O|]. rewrite works_S. apply IH.
    unfold work. destruct (l_pc t); exact O. }
  set (t6 := works e t5) in *. set (t7 := oper t6 (OPlay true true)).
  assert (T7 : steady t7 /\ l_abort t7 = false).
  { unfold t7. cbn [oper]. unfold guarded. rewrite A6. cbn [andb]. destruct I6 as (Ip & Iq & Ic). unfold steady, alive. cbn.
    destruct Ic as [-> | [-> | ->]]; repeat split; auto; discriminate. }
  destruct T7 as [T7 A7]. split; [now rewrite works_abort|]. apply steady_forever, steady_works, T7.
Qed.
Theorem play_raises s : l_run s = false -> l_pc s <> P0 -> let s' := fold_left oper play_ops s in
  l_abort s' = true /\ l_play s' = true /\ l_once s' = l_once s /\ l_iter s' = l_iter s /\ l_quit s' = l_quit s /\ l_pc s' = l_pc s.
Proof.
  destruct s as [q p o r i pc sw a]. cbn. intros -> Hp. destruct pc; try congruence; cbn; auto 10.
Qed.

(** ** What is lost *)
(** Reachable: play during the end of an iteration asked by once. *)
Theorem play_lost_refuted : exists sch, flat_map (fun x => match x with Op o => [o] | Work => [] end) sch = play_ops ++ once_ops ++ play_ops /\
  let s := fold_left sexec sch l_new in l_abort s = false /\ l_quit s = false /\ at_most 0 s /\ forall n, 1 <= n -> l_play (works n s) = false.
Proof.
  exists (map Op (play_ops ++ once_ops) ++ repeat Work 6 ++ map Op play_ops). split; [reflexivity|]. cbv zeta.
  split; [reflexivity|]. split; [reflexivity|].
  set (s1 := fold_left sexec (map Op (play_ops ++ once_ops) ++ repeat Work 6 ++ map Op [OReadRunning; OStartPlay; OStartThread; OOnce true false]) l_new).
  assert (H7 : pausing s1) by reflexivity.
  assert (E : fold_left sexec (map Op (play_ops ++ once_ops) ++ repeat Work 6 ++ map Op play_ops) l_new = oper s1 (OPlay false true))
    by (vm_compute; reflexivity).
  rewrite E. apply (play_lost s1 H7).
Qed.
(** quit just after the first play is lost. *)
Theorem quit_lost_refuted : plays_forever (fold_left oper (play_ops ++ quit_ops) l_new).
Proof. apply steady_forever. unfold steady, alive. cbn. repeat split; auto; discriminate. Qed.
(** Two calls of play before the thread has run: the second raises. *)
Theorem play_twice_refuted : l_abort (fold_left oper (play_ops ++ play_ops) l_new) = true.
Proof. reflexivity. Qed.
(** The loop cannot be played again after quit. *)
Theorem restart_refuted s : l_pc s = PEnd -> l_run s = false -> let s1 := fold_left oper play_ops s in l_abort s1 = true /\ at_most 0 s1.
Proof.
  intros E R. destruct s as [q p o r i pc sw a]. cbn in E, R. subst. cbn. split; [reflexivity|]. intros n. rewrite ended_works by reflexivity. cbn. lia.
Qed.
(** once before play does nothing. *)
Theorem once_first_refuted n : l_iter (works n (fold_left oper once_ops l_new)) = 0.
Proof. assert (G : forall m s, l_pc s = P0 -> works m s = s) by (induction m as [|m IH]; intros s E; [reflexivity|]; rewrite works_S; unfold work at 1; rewrite E; now apply IH). rewrite G; reflexivity. Qed.

Example loop_example :
  let s := fold_left sexec (map Op play_ops ++ repeat Work 12) l_new in
  alive s /\ l_quit s = false /\ l_iter s = 2 /\ ~ pausing s /\ l_run s = true /\
  alive (works 3 (oper s (OOnce false true))) /\ ~ pausing (works 3 (oper s (OOnce false true))).
Proof. vm_compute. repeat split; discriminate. Qed.
Example loop_idle_example : idle (fold_left sexec (map Op (play_ops ++ pause_ops) ++ repeat Work 3) l_new) /\
  script [Work; Op (OOnce false true); Work; Work; Op (OPlay false true); Work] = once_ops.
Proof. vm_compute. repeat split; auto. Qed.

Example play_scheduled_example : let s := fold_left sexec (map Op (play_ops ++ pause_ops) ++ repeat Work 4) l_new in
  idle s /\ l_run s = true /\ script (map Op (firstn 3 play_ops) ++ [Work] ++ map Op (skipn 3 play_ops)) = play_ops /\
  let s := fold_left sexec (map Op (play_ops ++ once_ops)) l_new in l_run s = false /\ l_pc s <> P0 /\ l_once s = true.
Proof. vm_compute. repeat split; auto. discriminate. Qed.

Print Assumptions pause_stops.
Print Assumptions play_obeyed_partial.
Print Assumptions play_lost.
Print Assumptions play_running.
Print Assumptions first_play.
Print Assumptions once_once.
Print Assumptions once_scheduled.
Print Assumptions quit_ends.
Print Assumptions play_lost_refuted.
Print Assumptions quit_lost_refuted.
Print Assumptions play_twice_refuted.
Print Assumptions restart_refuted.
Print Assumptions once_first_refuted.
Print Assumptions first_play_scheduled.
Print Assumptions play_scheduled.
Print Assumptions play_raises.
