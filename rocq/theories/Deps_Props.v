(** Outputs follow the inputs: theorems about declared dependencies. *)
From Coq Require Import String List Arith Lia Bool ZArith.
From Verif Require Import Deps_Model Deps_Proofs.
Import ListNotations.
Local Open Scope string_scope.

(** * C108: an output read is the value of its function on the present inputs.

    [n] is any graph of signals, [f] the functions of its output signals, [es]
    any history: inputs assigned, outputs read, computed more often than the
    library has to or not.  When the output [o] declares, directly or not,
    every input it reads, directly or not, and so do the outputs it reads,
    the value [o] holds after being read is the value its function and those of
    the outputs before it give on the present inputs. *)
Theorem outputs_fresh : forall (V : Type) (f : string -> (string -> V) -> V) n v es e o,
  wf n -> respects f n ->
  Forall (event_ok n) es -> event_ok n e ->
  In o (names n) -> complete n o -> touch e o = true ->
  let s := history f n v (es ++ [e]) in
  val s o = ideal f n (val s) o.
Proof.
  intros V f n v es e o W R F OK Ho C T s.
  destruct (names_in _ _ Ho) as (x & Hx & <-).
  unfold s, history. rewrite fold_left_app. cbn [fold_left].
  apply (inv_occur f n W R _ e OK); auto. now apply inv_history.
Qed.

(** The condition is the right one: an output is up to date whatever the
    functions and the history exactly when it is met. *)
Theorem outputs_fresh_iff : forall n o, wf n -> In o (names n) ->
  (complete n o <->
   forall (f : string -> (string -> nat) -> nat) v es e,
     respects f n -> Forall (event_ok n) es -> event_ok n e -> touch e o = true ->
     let s := history f n v (es ++ [e]) in val s o = ideal f n (val s) o).
Proof.
  intros n o W Ho. split.
  - intros C f v es e R F OK T. now apply outputs_fresh.
  - intros H x U i Ri.
    assert (Hx : In x (names n)) by (apply (reaches_out _ _ _ _ Ri)).
    destruct (names_in _ _ Hx) as (y & Hy & Ey). subst x.
    destruct (own_dec n W y i Hy) as [D|D]; [exact D|exfalso].
    assert (Hi := reaches_in _ _ _ _ Ri).
    pose proof (stale_uses n W i (s_name y) Hi Ri D o U) as L.
    cbn zeta in L.
    assert (E1 : event_ok n (lazy (V := nat) [])) by (apply lazy_ok; easy).
    assert (E2 : event_ok n (lazy [(i, 1)])).
    { apply lazy_ok. intros p [<-|[]]. exact Hi. }
    specialize (H (addup n) (fun _ => 0) [lazy []] (lazy [(i, 1)])
                  (addup_respects n (proj1 W)) (Forall_cons _ E1 (Forall_nil _)) E2 eq_refl).
    cbn zeta in H. cbn [app] in H. lia.
Qed.

(** A signal that does not declare an input, directly or not, is not computed
    again when that input alone changes: whatever the function, it keeps the
    value of the former inputs. *)
Theorem undeclared_input_ignored : forall (V : Type) (f : string -> (string -> V) -> V) n v i c o,
  wf n -> respects f n -> ~ In i (names n) -> In o (names n) ->
  ~ reaches s_decl n o i ->
  val (history f n v [lazy []; lazy [(i, c)]]) o = ideal f n v o.
Proof.
  intros V f n v i c o W R Hi Ho D. destruct (names_in _ _ Ho) as (x & Hx & <-).
  destruct (second_reading n W f R v i c x Hi Hx) as [_ Q]. destruct (Q D) as [-> _].
  now apply first_reading.
Qed.

(** ** The outputs of the code that are always up to date. *)
Definition sound_outputs : list (net * string) :=
  [ (generic true, "dim"); (generic true, "error"); (generic true, "jacobian");
    (generic true, "errordot");
    (feature1d, "dim"); (feature1d, "error");
    (joint_limits true, "dim"); (joint_limits true, "widthJl"); (joint_limits true, "error");
    (vector3, "dim"); (vector3, "error");
    (visual_point, "dim"); (visual_point, "error"); (visual_point, "jacobian");
    (point6d, "dim"); (point6d, "error"); (point6d, "jacobian");
    (point6d_relative, "dim"); (point6d_relative, "jacobian");
    (pose, "dim"); (pose, "faMfb"); (pose, "q_faMfb"); (pose, "q_faMfbDes"); (pose, "error");
    (pose, "jacobian"); (pose, "errordot");
    (projecter, "point3Dgaze"); (projecter, "depth"); (projecter, "point2D");
    (op_point true, "jacobian"); (op_point true, "position"); (op_point false, "position");
    (control_pd, "control"); (control_pd, "position_error"); (control_pd, "velocity_error");
    (control_gr, "control");
    (joint_limitator, "widthJl"); (joint_limitator, "control");
    (gripper, "positionReduced"); (gripper, "torqueReduced"); (gripper, "torqueLimitReduced");
    (gripper, "reference");
    (task, "error"); (task, "errorTimeDerivative"); (task, "task"); (task, "jacobian");
    (task_pd, "error"); (task_pd, "errorTimeDerivative"); (task_pd, "errorDotOUT");
    (task_unilateral, "task");
    (task_conti, "error"); (task_conti, "errorTimeDerivative"); (task_conti, "jacobian");
    (solver, "t1.task"); (solver, "t1.jacobian"); (solver, "control") ].

Lemma completeb_sound : forall n o, wfb n = true -> existsb (String.eqb o) (names n) = true ->
  completeb n o = true -> wf n /\ In o (names n) /\ complete n o.
Proof.
  intros n o Wb Hb C. assert (W := wfb_ok n Wb). apply existsb_in in Hb.
  destruct (names_in _ _ Hb) as (x & Hx & <-). split; [exact W|split; [exact Hb|]].
  now apply completeb_ok.
Qed.

(** Missing: the outputs of [stale_outputs] below, for which the statement is
    false. *)
Theorem entities_fresh_partial : forall n o, In (n, o) sound_outputs ->
  forall (V : Type) (f : string -> (string -> V) -> V) v es e,
  respects f n -> Forall (event_ok n) es -> event_ok n e -> touch e o = true ->
  let s := history f n v (es ++ [e]) in val s o = ideal f n (val s) o.
Proof.
  assert (A : forallb (fun p => wfb (fst p) && existsb (String.eqb (snd p)) (names (fst p))
                               && completeb (fst p) (snd p)) sound_outputs = true)
    by (vm_compute; reflexivity).
  intros n o Ho V f v es e R F OK T. rewrite forallb_forall in A. specialize (A _ Ho). cbn in A.
  apply andb_true_iff in A as [A C]. apply andb_true_iff in A as [A B].
  destruct (completeb_sound n o A B C) as (W & Hn & Co). now apply outputs_fresh.
Qed.

(** ** The outputs of the code that are not: the entity, the output, an input
    whose change alone goes unnoticed, and an output of the entity that reads
    that input without declaring it. *)
Definition stale_outputs : list (net * string * string * string) :=
  [ (feature1d, "jacobian", "errorIN", "jacobian");
    (feature1d, "errordot", "ref.errordotIN", "errordot");
    (posture, "error", "posture", "error");
    (posture, "errordot", "postureDot", "errordot");
    (joint_limits true, "jacobian", "upperJl", "jacobian");
    (joint_limits true, "jacobian", "lowerJl", "jacobian");
    (joint_limits false, "jacobian", "joint", "jacobian");
    (joint_limits false, "dim", "upperJl", "dim");
    (joint_limits false, "error", "upperJl", "dim");
    (vector3, "jacobian", "vector", "jacobian");
    (line_distance, "line", "vector", "line");
    (line_distance, "error", "vector", "error");
    (line_distance, "error", "positionRef", "error");
    (line_distance, "jacobian", "vector", "jacobian");
    (line_distance, "jacobian", "positionRef", "jacobian");
    (visual_point, "errordot", "ref.errordotIN", "errordot");
    (point6d, "errordot", "ref.velocity", "errordot");
    (point6d_relative, "error", "ref.positionRef", "error");
    (op_point false, "jacobian", "positionIN", "jacobian");
    (admittance, "w_force", "sensorPose", "w_force");
    (admittance, "dq", "sensorPose", "w_force");
    (kalman, "P", "R", "P");
    (kalman, "P", "H", "P");
    (kalman, "x_est", "R", "P");
    (task_pd, "task", "errorDot", "task");
    (task_conti, "task", "f1.jacobian", "task") ].

(** Whether [o] uses [x], by search. *)
Fixpoint usesb (fuel : nat) (n : net) (o x : string) : bool :=
  match fuel with
  | O => false
  | S k =>
      (String.eqb o x && is_out n o)
      || existsb (fun y => String.eqb (s_name y) o && existsb (fun z => usesb k n z x) (s_reads y)) n
  end.

Lemma usesb_ok : forall k n o x, usesb k n o x = true -> uses n o x.
Proof.
  induction k as [|k IH]; cbn; intros n o x H; [discriminate|].
  apply orb_true_iff in H. destruct H as [H|H].
  - apply andb_true_iff in H as [H1 H2]. apply String.eqb_eq in H1. subst.
    apply uses_self. now apply existsb_in.
  - apply existsb_exists in H. destruct H as (y & Hy & H). apply andb_true_iff in H as [H1 H2].
    apply String.eqb_eq in H1. subst. apply existsb_exists in H2. destruct H2 as (z & Hz & H2).
    eapply uses_read; [exact Hy|exact Hz|]. now apply IH.
Qed.

Theorem entities_fresh_refuted : forall n o i x, In (n, o, i, x) stale_outputs ->
  exists (f : string -> (string -> nat) -> nat) v,
    respects f n /\
    event_ok n (lazy (V := nat) []) /\ event_ok n (lazy [(i, 1)]) /\
    let s := history f n v [lazy []; lazy [(i, 1)]] in
    In o (names n) /\ val s o <> ideal f n (val s) o.
Proof.
  assert (A : forallb (fun '(n, o, i, x) =>
      wfb n && negb (is_out n i) && is_out n x
      && existsb (String.eqb i) (inputs_of s_reads n x)
      && negb (existsb (String.eqb i) (inputs_of s_decl n x))
      && usesb 5 n o x && is_out n o) stale_outputs = true)
    by (vm_compute; reflexivity).
  intros n o i x Hs. rewrite forallb_forall in A. specialize (A _ Hs). cbn beta iota in A.
  repeat (apply andb_true_iff in A as [A ?]).
  assert (W := wfb_ok n A).
  assert (Hi : ~ In i (names n)).
  { intros Q. apply existsb_in in Q. unfold is_out in H4. rewrite Q in H4. discriminate. }
  assert (Hx : In x (names n)) by (now apply existsb_in).
  assert (Ho : In o (names n)) by (now apply existsb_in).
  destruct (names_in _ _ Hx) as (y & Hy & Ey). subst x.
  assert (Rr := inputs_ok n W s_reads (fun a b Q => in_or_app _ _ b (or_intror Q)) y Hy).
  assert (Rd := inputs_ok n W s_decl (fun a b Q => in_or_app _ _ b (or_introl Q)) y Hy).
  exists (addup n), (fun _ => 0).
  split; [apply addup_respects, W|].
  split; [apply lazy_ok; easy|].
  split; [apply lazy_ok; intros p [<-|[]]; exact Hi|].
  cbn zeta. split; [exact Ho|].
  assert (L : val (history (addup n) n (fun _ => 0) [lazy []; lazy [(i, 1)]]) o <
              ideal (addup n) n (val (history (addup n) n (fun _ => 0) [lazy []; lazy [(i, 1)]])) o);
    [|lia].
  apply (stale_uses n W i (s_name y)).
  - exact Hi.
  - apply Rr. now apply existsb_in.
  - intros Q. apply Rd in Q. apply existsb_in in Q. rewrite Q in H1. discriminate.
  - eapply usesb_ok; eassumption.
Qed.

(** The posture feature with its own function: the error of a posture changed
    after it was first read is that of the former posture, as long as the
    state does not move. *)
Definition posture_functions (x : string) (v : string -> list Z) : list Z :=
  if String.eqb x "error"
  then map (fun p => (fst p - snd p)%Z) (combine (v "state") (v "posture"))
  else map Z.opp (v "postureDot").

Theorem posture_error_refuted :
  respects posture_functions posture /\
  forall q p p' : list Z,
    let v := fun x => if String.eqb x "state" then q else if String.eqb x "posture" then p else [] in
    let s := history posture_functions posture v [lazy []; lazy [("posture", p')]] in
    val s "posture" = p' /\
    val s "error" = map (fun p => (fst p - snd p)%Z) (combine q p).
Proof.
  split.
  - intros x v w Hx H. cbn in Hx. destruct Hx as [<-|[<-|[]]]; cbn in *.
    + now rewrite !H by auto.
    + now rewrite !H by auto.
  - intros q p p' v s. split; reflexivity.
Qed.

(** Cases: a chain in which the declaration of an input is indirect, and the
    events of a history that satisfies the hypotheses. *)
Example solver_case : wf solver /\ complete solver "control" /\
  reaches s_reads solver "control" "t1.controlSelec" /\
  ~ In "t1.controlSelec" (s_decl (nth 4 solver (Sig "" [] []))).
Proof.
  destruct (completeb_sound solver "control") as (W & _ & C); [reflexivity..|].
  split; [exact W|split; [exact C|split]].
  - apply (reach_input s_reads solver (nth 4 solver (Sig "" [] []))); cbn; [tauto|tauto|].
    intros H. repeat (destruct H as [H|H]; [discriminate|]). exact H.
  - cbn. intros H. repeat (destruct H as [H|H]; [discriminate|]). exact H.
Qed.

Example event_case : event_ok task
  (Ev [("f1.error", 3)] (fun x => String.eqb x "error") (fun _ => false)).
Proof.
  split.
  - intros p [<-|[]] H. cbn in H. repeat (destruct H as [H|H]; [discriminate|]). exact H.
  - intros x y Hx T Hy Hn. cbn in *. destruct Hx as [<-|[<-|[<-|[<-|[]]]]]; cbn in *; try discriminate.
    repeat (destruct Hy as [<-|Hy]; [exfalso; repeat (destruct Hn as [Hn|Hn]; [discriminate|]); exact Hn|]).
    destruct Hy.
Qed.

(** * C109: the dependencies of a feature follow its reference. *)

Lemma dep_eqb_eq : forall a b, dep_eqb a b = true <-> a = b.
Proof.
  intros [x|] [y|]; cbn; split; intros H; try discriminate; try reflexivity.
  - apply Nat.eqb_eq in H. now subst.
  - inversion H. apply Nat.eqb_refl.
Qed.

Lemma in_rm : forall d x l, In x (rm_dep d l) <-> In x l /\ x <> d.
Proof.
  intros. unfold rm_dep. rewrite filter_In, negb_true_iff. split; intros [A B]; (split; [exact A|]).
  - intros ->. assert (dep_eqb d d = true) by now apply dep_eqb_eq. congruence.
  - destruct (dep_eqb d x) eqn:E; [|reflexivity]. apply dep_eqb_eq in E. now subst.
Qed.

(** After any history of references given and taken away, the error depends
    on the own input and on the input of the present reference. *)
Theorem reference_declared : forall l,
  let s := fold_left set_reference l new_feature in
  In None (r_deps s) /\ (forall r, r_ref s = Some r -> In (Some r) (r_deps s)).
Proof.
  intros l. cbn zeta.
  assert (H0 : In None (r_deps new_feature) /\
    (forall r, r_ref new_feature = Some r -> In (Some r) (r_deps new_feature))).
  { split; [now left|discriminate]. }
  revert H0. generalize new_feature. induction l as [|a l IH]; intros s [A B]; [auto|].
  cbn [fold_left]. apply IH. destruct a as [|r|r]; cbn.
  - split; [|discriminate]. destruct (r_ref s); [|exact A]. apply in_rm. split; [exact A|discriminate].
  - split; [now right|]. intros q E. inversion E. now left.
  - split; [exact A|discriminate].
Qed.

(** When every reference is taken away before another is given, and none is of
    another class, the error depends on nothing else. *)
Fixpoint tidy (cur : option nat) (l : list refarg) : Prop :=
  match l with
  | [] => True
  | RNull :: r => tidy None r
  | RSame x :: r => (cur = None \/ cur = Some x) /\ tidy (Some x) r
  | ROther _ :: r => cur = None /\ tidy None r
  end.

(** Missing: the histories that are not tidy, for which it is false
    ([reference_leftover_refuted]). *)
Theorem reference_only_partial : forall l, tidy None l ->
  let s := fold_left set_reference l new_feature in
  forall r, In (Some r) (r_deps s) -> r_ref s = Some r.
Proof.
  intros l T. cbn zeta.
  assert (H0 : forall r, In (Some r) (r_deps new_feature) -> r_ref new_feature = Some r).
  { intros r [H|[]]. discriminate. }
  change None with (r_ref new_feature) in T.
  revert T H0. generalize new_feature. induction l as [|a l IH]; intros s T H; [exact H|].
  cbn [fold_left]. destruct a as [|r|r]; cbn [tidy] in T.
  - apply IH; [exact T|]. cbn. intros q Q. exfalso. destruct (r_ref s) as [c|] eqn:E.
    + apply in_rm in Q. destruct Q as [Q Ne]. specialize (H q Q). congruence.
    + specialize (H q Q). congruence.
  - destruct T as [C T]. apply IH; [exact T|]. cbn. intros q [Q|Q]; [congruence|].
    specialize (H q Q). destruct C; congruence.
  - destruct T as [C T]. apply IH; [exact T|]. cbn. intros q Q. specialize (H q Q). congruence.
Qed.

(** Giving a second reference keeps the dependency on the first for good: even
    after the reference is taken away; so does giving a feature of another
    class, which takes the reference away and leaves its dependency. *)
Theorem reference_leftover_refuted : forall a b, a <> b ->
  (let s := fold_left set_reference [RSame a; RSame b; RNull] new_feature in
   r_ref s = None /\ In (Some a) (r_deps s)) /\
  (let s := fold_left set_reference [RSame a; ROther b; RNull] new_feature in
   r_ref s = None /\ In (Some a) (r_deps s)).
Proof.
  intros a b Ne. split; cbn zeta; cbn [fold_left set_reference r_ref r_deps new_feature add_dep].
  - split; [reflexivity|]. apply in_rm. split; [right; now left|congruence].
  - split; [reflexivity|now left].
Qed.

Example tidy_case : tidy None [RSame 1; RNull; RSame 2; RSame 2; RNull; ROther 3; RSame 1].
Proof. cbn. intuition. Qed.

Print Assumptions outputs_fresh.
Print Assumptions outputs_fresh_iff.
Print Assumptions undeclared_input_ignored.
Print Assumptions entities_fresh_partial.
Print Assumptions entities_fresh_refuted.
Print Assumptions posture_error_refuted.
Print Assumptions reference_declared.
Print Assumptions reference_only_partial.
Print Assumptions reference_leftover_refuted.
