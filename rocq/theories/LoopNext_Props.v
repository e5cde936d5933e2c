(** Properties of the shortcuts of the loop (C133): every interleaving of the script with the thread. *)
From Coq Require Import List Arith ZArith Bool Lia.
From Verif Require Import Loop_Model LoopNext_Model.
Import ListNotations.

(** ** Specification *)
Inductive shortcut := Go | Stop | Next | Add (x : Z).
Definition ops (c : shortcut) : list nstep := match c with Go => go_ops | Stop => stop_ops | Next => next_ops | Add x => add_ops x end.
(** A schedule of a script: the steps of the script in order, those of the thread anywhere. *)
Definition schedules (cs : list shortcut) (sch : list nstep) : Prop := script_of sch = flat_map ops cs.
(** The calls a script asks for. *)
Definition asked (cs : list shortcut) : nat := fold_right (fun c n => match c with Next => 1 | Add x => Z.to_nat x | _ => 0 end + n) 0 cs.
(** The loop function is being called twice at once. *)
Definition overlap (s : nstate) : Prop := n_tin s = true /\ n_sin s = true.
(** The loop is paused and the thread is not about to call. *)
Definition at_rest (s : nstate) : Prop := l_play (n_l s) = false /\ n_tin s = false /\ l_pc (n_l s) <> P5.
Definition no_go (cs : list shortcut) : Prop := ~ In Go cs.

(** ** Proofs *)
Definition leaves (l : list nstep) : nat := length (filter (fun x => match x with NLeave => true | _ => false end) l).
Lemma leaves_app a b : leaves (a ++ b) = leaves a + leaves b.
Proof. unfold leaves. now rewrite filter_app, app_length. Qed.
Lemma leaves_script sch : leaves (script_of sch) = leaves sch.
Proof. unfold leaves, script_of. induction sch as [|x sch IH]; [reflexivity|]. destruct x; cbn in *; auto. Qed.
Lemma leaves_ops cs : leaves (flat_map ops cs) = asked cs.
Proof.
  induction cs as [|c cs IH]; [reflexivity|]. cbn [flat_map]. rewrite leaves_app, IH. cbn [asked fold_right]. fold (asked cs). f_equal. destruct c; try reflexivity.
  cbn [ops]. unfold add_ops. induction (Z.to_nat x) as [|n IHn]; [reflexivity|]. cbn [repeat concat]. rewrite leaves_app, IHn. reflexivity.
Qed.
Lemma work_iter s : l_pc s <> P5 -> l_iter (work s) = l_iter s.
Proof. unfold work. destruct (l_pc s); try reflexivity; congruence. Qed.
Lemma oper_iter s o : l_iter (oper s o) = l_iter s.
Proof. destruct o; cbn; unfold guarded; try reflexivity; repeat (match goal with |- context [if ?b then _ else _] => destruct b end); try reflexivity; destruct (l_pc s); reflexivity. Qed.
Lemma calls_step s x : n_calls (nexec s x) + l_iter (n_l s) = n_calls s + l_iter (n_l (nexec s x)) + leaves [x].
Proof.
  destruct x; cbn; try lia; [|rewrite oper_iter; lia]. unfold nwork. destruct (l_pc (n_l s)) eqn:E; cbn; try (rewrite work_iter by congruence; lia).
  destruct (n_tin s); cbn; [|lia]. unfold work. rewrite E. cbn. lia.
Qed.
Lemma calls_run sch : forall s, n_calls (nrun sch s) + l_iter (n_l s) = n_calls s + l_iter (n_l (nrun sch s)) + leaves sch.
Proof.
  induction sch as [|x sch IH]; intros s; [cbn; lia|]. cbn [nrun fold_left]. fold (nrun sch (nexec s x)). pose proof (IH (nexec s x)). pose proof (calls_step s x).
  change (x :: sch) with ([x] ++ sch). rewrite leaves_app. lia.
Qed.

(** Whatever the interleaving: the calls of the loop function are the iterations of the thread and those asked by the script. *)
Theorem shortcut_calls cs sch s : schedules cs sch ->
  n_calls (nrun sch s) = n_calls s + (l_iter (n_l (nrun sch s)) - l_iter (n_l s)) + asked cs /\ l_iter (n_l s) <= l_iter (n_l (nrun sch s)).
Proof.
  intros H. assert (M : forall sch s, l_iter (n_l s) <= l_iter (n_l (nrun sch s))).
  { clear. induction sch as [|x sch IH]; intros s; [reflexivity|]. cbn [nrun fold_left]. fold (nrun sch (nexec s x)). etransitivity; [|apply IH].
    destruct x; cbn; try lia; [|rewrite oper_iter; lia]. unfold nwork. destruct (l_pc (n_l s)) eqn:E; cbn; try (rewrite work_iter by congruence; lia).
    destruct (n_tin s); cbn; [|lia]. unfold work. rewrite E. cbn. lia. }
  specialize (M sch s). pose proof (calls_run sch s) as C. rewrite <- leaves_script, H, leaves_ops in C. lia.
Qed.

(** *** At rest *)
Lemma rest_work s : at_rest s -> at_rest (nwork s) /\ n_calls (nwork s) = n_calls s /\ l_iter (n_l (nwork s)) = l_iter (n_l s) /\ n_sin (nwork s) = n_sin s.
Proof.
  intros (P & T & N). unfold nwork. destruct s as [l ti si ca]. cbn in *. destruct l as [q p o r i pc sw a]. cbn in *. subst p ti.
  destruct pc, q, o; cbn; try congruence; repeat split; auto; discriminate.
Qed.
Lemma rest_steps sch : forall s, at_rest s -> Forall (fun x => x <> NWork -> In x (flat_map ops [Stop; Next])) sch ->
  at_rest (nrun sch s) /\ l_iter (n_l (nrun sch s)) = l_iter (n_l s).
Proof.
  induction sch as [|x sch IH]; intros s R F; [auto|]. inversion F as [|? ? F1 F2]; subst. cbn [nrun fold_left]. fold (nrun sch (nexec s x)).
  assert (Q : at_rest (nexec s x) /\ l_iter (n_l (nexec s x)) = l_iter (n_l s)).
  { destruct x as [|o| |]; cbn [nexec].
    - destruct (rest_work s R) as (A & _ & B & _). auto.
    - destruct (F1 ltac:(discriminate)) as [E|[E|[E|[]]]]; try discriminate E. injection E as <-. destruct R as (P & T & N). cbn. repeat split; auto.
    - destruct R as (P & T & N). repeat split; auto.
    - destruct R as (P & T & N). repeat split; auto. }
  destruct Q as (Q & I). destruct (IH _ Q F2) as (A & B). rewrite B, I. auto.
Qed.
Lemma no_go_steps cs sch : no_go cs -> schedules cs sch -> Forall (fun x => x <> NWork -> In x (flat_map ops [Stop; Next])) sch.
Proof.
  intros G S. apply Forall_forall. intros x Hx Nx. assert (Hs : In x (script_of sch)) by (apply filter_In; split; [exact Hx|destruct x; congruence]).
  rewrite S in Hs. apply in_flat_map in Hs as (c & Hc & Hs). destruct c; cbn [ops] in Hs.
  - contradiction.
  - cbn. destruct Hs as [<-|[]]. auto.
  - cbn. destruct Hs as [<-|[<-|[]]]; auto.
  - unfold add_ops in Hs. apply in_concat in Hs as (l & Hl & Hs). apply repeat_spec in Hl. subst l. cbn. destruct Hs as [<-|[<-|[]]]; auto.
Qed.

(** From rest and without go, under every interleaving: the calls are exactly those asked for, none at the same time as another, and
    the loop stays at rest. *)
Theorem step_by_step cs sch s : at_rest s -> no_go cs -> schedules cs sch ->
  n_calls (nrun sch s) = n_calls s + asked cs /\ at_rest (nrun sch s) /\
  (forall a b, sch = a ++ b -> ~ overlap (nrun a s)).
Proof.
  intros R G S. pose proof (no_go_steps cs sch G S) as F. destruct (rest_steps sch s R F) as (A & I). destruct (shortcut_calls cs sch s S) as (C & _).
  split; [rewrite C, I; lia|]. split; [exact A|]. intros a b -> (T & _). apply Forall_app in F as [Fa _]. destruct (rest_steps a s R Fa) as ((_ & T' & _) & _). congruence.
Qed.
(** stop brings the loop to rest: two steps of the thread later. *)
Definition sane (s : nstate) : Prop := n_tin s = true -> l_pc (n_l s) = P5.
Theorem stop_rests s : sane s -> let s1 := nrun stop_ops s in at_rest (nwork (nwork s1)) /\ n_calls (nwork (nwork s1)) <= n_calls s + 1.
Proof.
  intros H. unfold sane in H. destruct s as [l ti si ca]. cbn in *. destruct l as [q p o r i pc sw a]. cbn in *.
  destruct ti; [rewrite (H eq_refl)|destruct pc]; destruct q, o; cbn; repeat split; cbn; auto; try discriminate; lia.
Qed.
(** Every state that a script can reach is such. *)
Lemma oper_pc s o : l_pc s = P5 -> l_pc (oper s o) = P5.
Proof. intros H. destruct s as [q p o' r i pc sw a]. cbn in H. subst pc. destruct o; cbn; unfold guarded; cbn; repeat (match goal with |- context [if ?b then _ else _] => destruct b end); reflexivity. Qed.
Theorem loop_states_sane sch : sane (nrun sch n_new).
Proof.
  assert (K : forall s x, sane s -> sane (nexec s x)).
  { intros s x H T. destruct x; cbn in *; auto.
    - unfold nwork in *. destruct (l_pc (n_l s)) eqn:E; cbn in *; try (specialize (H T); congruence). destruct (n_tin s); cbn in *; congruence.
    - apply oper_pc. auto. }
  unfold nrun. assert (G : forall s, sane s -> sane (fold_left nexec sch s)).
  { induction sch as [|x sch IH]; intros s H; [exact H|]. cbn. apply IH, K, H. }
  apply G. intro T. discriminate T.
Qed.

(** While the loop plays, and just after stop, next may call the function during a call of the thread. *)
Theorem next_overlap_refuted : (exists sch, schedules [Go; Next] (sch ++ [NLeave]) /\ overlap (nrun sch n_new)) /\
  (exists sch, schedules [Go; Stop; Next] (sch ++ [NLeave]) /\ overlap (nrun sch n_new)).
Proof.
  split.
  - exists (go_ops ++ [NWork; NWork; NWork; NWork; NWork; NEnter]). split; [reflexivity|split; reflexivity].
  - exists (go_ops ++ [NWork; NWork; NWork; NWork] ++ stop_ops ++ [NWork; NEnter]). split; [reflexivity|split; reflexivity].
Qed.
(** The counter of iterations does not count the calls of next. *)
Theorem next_uncounted_refuted s x : (0 < x)%Z -> let s' := nrun (ops (Add x)) s in
  l_iter (n_l s') = l_iter (n_l s) /\ n_calls s' = n_calls s + Z.to_nat x /\ n_calls s' <> n_calls s.
Proof.
  intros Hx s'. assert (I : n_l s' = n_l s).
  { unfold s'. cbn [ops]. unfold add_ops. clear. revert s. induction (Z.to_nat x) as [|n IH]; intro s; [reflexivity|]. cbn [repeat concat]. unfold nrun. rewrite fold_left_app. fold (nrun (concat (repeat next_ops n))). rewrite IH. reflexivity. }
  assert (S : schedules [Add x] (ops (Add x))).
  { unfold schedules. cbn [flat_map]. rewrite app_nil_r. cbn [ops]. unfold add_ops. induction (Z.to_nat x) as [|n IH]; [reflexivity|]. cbn [repeat concat]. unfold script_of in *. rewrite filter_app, IH. reflexivity. }
  destruct (shortcut_calls [Add x] _ s S) as (C & _). fold s' in C. rewrite I in C |- *. cbn [asked fold_right] in C. rewrite Nat.sub_diag in C. assert (0 < Z.to_nat x) by lia. split; [reflexivity|]. lia.
Qed.

(** restart never restarts: on every state that a script reaches it waits, or fails; once the thread has ended it fails with the
    error of a second launch, leaves isPlay set, and no later command makes the thread call the function. *)
Theorem restart_refuted sch s : s = fold_left sexec sch l_new ->
  (l_pc s = P0 -> restart s = RRaised ERuntime s) /\
  (l_pc s <> P0 -> l_pc s <> PEnd -> restart s = RWaits) /\
  (l_pc s = PEnd -> exists s', restart s = RRaised ERuntime s' /\ l_play s' = true /\ l_run s' = false /\
     forall later, l_iter (fold_left sexec later s') = l_iter s).
Proof.
  intros Hs. assert (R : l_pc s = PEnd -> l_run s = false).
  { assert (K : forall x t, (l_pc t = PEnd -> l_run t = false) -> l_pc (sexec t x) = PEnd -> l_run (sexec t x) = false).
    { intros [|o] [q p o' r i pc sw a]; cbn; intros H.
      - unfold work. cbn. destruct pc, q, p, o'; cbn; try discriminate; auto.
      - destruct o; cbn; unfold guarded; cbn; repeat (match goal with |- context [if ?b then _ else _] => destruct b end); cbn; auto; destruct pc; cbn; try discriminate; auto. }
    assert (G : forall l t, (l_pc t = PEnd -> l_run t = false) -> l_pc (fold_left sexec l t) = PEnd -> l_run (fold_left sexec l t) = false).
    { induction l as [|x l IH]; intros t H; [exact H|]. cbn. apply IH, K, H. }
    rewrite Hs. apply G. discriminate. }
  unfold restart. split; [intros ->; reflexivity|]. split; [intros A B; destruct (l_pc s); congruence|]. intros E. specialize (R E). rewrite E. clear Hs.
  destruct s as [q p o r i pc sw a]. cbn in E, R. subst pc r. eexists. split; [reflexivity|]. split; [reflexivity|]. split; [reflexivity|].
  assert (Z : forall l t, l_pc t = PEnd -> l_iter (fold_left sexec l t) = l_iter t).
  2: intros later; rewrite Z; reflexivity.
  induction l as [|x l IH]; intros t P; [reflexivity|]. cbn. rewrite IH.
  - destruct t as [q' p' o' r' i' pc' sw' a']. cbn in P. subst pc'. destruct x as [|c]; [reflexivity|]. destruct c; cbn; unfold guarded; cbn; repeat (match goal with |- context [if ?b then _ else _] => destruct b end); reflexivity.
  - destruct t as [q' p' o' r' i' pc' sw' a']. cbn in P. subst pc'. destruct x as [|c]; [reflexivity|]. destruct c; cbn; unfold guarded; cbn; repeat (match goal with |- context [if ?b then _ else _] => destruct b end); reflexivity.
Qed.
(** A loop that has run, was quit, and is restarted. *)
Example restart_example : let s := fold_left sexec (map Op play_ops ++ repeat Work 9 ++ map Op quit_ops ++ repeat Work 9) l_new in
  l_pc s = PEnd /\ l_iter s = 2 /\ exists s', restart s = RRaised ERuntime s' /\ l_play s' = true.
Proof. vm_compute. repeat split. eexists. split; reflexivity. Qed.

(** go, the thread iterates, stop, rest, and then n + 2. *)
Example shortcuts_example :
  let s := nrun (go_ops ++ repeat NWork 12 ++ stop_ops ++ [NWork; NWork]) n_new in
  at_rest s /\ n_calls s = 2 /\ l_iter (n_l s) = 2 /\
  let sch := [NEnter; NWork; NLeave; NWork; NEnter; NWork; NLeave; NWork] in
  schedules [Add 2] sch /\ n_calls (nrun sch s) = 4 /\ l_iter (n_l (nrun sch s)) = 2.
Proof. vm_compute. repeat split; discriminate. Qed.

Print Assumptions shortcut_calls.
Print Assumptions step_by_step.
Print Assumptions stop_rests.
Print Assumptions loop_states_sane.
Print Assumptions next_overlap_refuted.
Print Assumptions next_uncounted_refuted.
Print Assumptions restart_refuted.
