(** Signals, their declared dependencies and the signals their functions read.

    An output signal of this code base (class [SignalTimeDependent] of the
    dynamic-graph library) holds the value of its last computation.  When it
    is read at a new time, the library computes it again if one of the signals
    the entity DECLARED as a dependency has been assigned or computed since;
    otherwise it hands out the value it holds.  Whether the value handed out
    is the one the function would give on the present inputs therefore rests
    on the list of declared dependencies, which every entity of this
    repository writes by hand in its constructor.

    The model has two parts: the recomputation rule of the library (outside
    /repo, an assumption on the library), and the two lists of every entity:
    the dependencies it declares, and the signals its functions read. *)
From Coq Require Import String List Arith Lia Bool.
Import ListNotations.
Local Open Scope string_scope.

(** An output signal of an entity: the dependencies declared in the
    constructor (or added when a reference, a feature or a task is added) and
    the signals the function accesses. *)
Record sig := Sig { s_name : string; s_decl : list string; s_reads : list string }.

(** The output signals of an entity, or of a whole graph, every signal after
    the output signals it names.  A name that is not the name of an output
    signal of the list is an input. *)
Definition net := list sig.

Definition names (n : net) : list string := map s_name n.
Definition is_out (n : net) (x : string) : bool := existsb (String.eqb x) (names n).

Section Cache.
  Context {V : Type}.

  (** The functions of the output signals: the value of the signals known at
      the time of the call to the value computed. *)
  Variable f : string -> (string -> V) -> V.

  (** What every signal holds, and when it was last assigned or computed
      (zero: never).  [now] is the time of the last event. *)
  Record state := St { val : string -> V; stamp : string -> nat; now : nat }.

  Definition set_at (s : state) (x : string) (v : V) : state :=
    St (fun y => if String.eqb y x then v else val s y)
       (fun y => if String.eqb y x then now s else stamp s y) (now s).

  (** One event: new values given to some inputs, and then the outputs for
      which [touch] holds are read.  [extra] stands for the recomputations
      the library may do beyond those it has to do. *)
  Record event := Ev {
    sets : list (string * V);
    touch : string -> bool;
    extra : string -> bool
  }.

  (** A signal has to be computed when it never was, or when a declared
      dependency is more recent than its own value. *)
  Definition must (s : state) (x : sig) : bool :=
    (Nat.eqb (stamp s (s_name x)) 0)
    || existsb (fun d => Nat.ltb (stamp s (s_name x)) (stamp s d)) (s_decl x).

  Definition refresh (e : event) (s : state) (x : sig) : state :=
    if touch e (s_name x) then
      if must s x || extra e (s_name x)
      then set_at s (s_name x) (f (s_name x) (val s))
      else s
    else s.

  Definition tick (s : state) : state := St (val s) (stamp s) (S (now s)).
  Definition assign (s : state) (l : list (string * V)) : state :=
    fold_left (fun s p => set_at s (fst p) (snd p)) l s.

  Definition occur (n : net) (s : state) (e : event) : state :=
    fold_left (refresh e) n (assign (tick s) (sets e)).

  Definition start (v : string -> V) : state := St v (fun _ => 0) 0.

  Definition history (n : net) (v : string -> V) (es : list event) : state :=
    fold_left (occur n) es (start v).

  (** The values without any cache: every function applied to the values of
      the signals before it. *)
  Definition ideal (n : net) (v : string -> V) : string -> V :=
    fold_left (fun v x => fun y => if String.eqb y (s_name x) then f (s_name x) v else v y)
      n v.

  (** A function looks at nothing but the signals it is said to read. *)
  Definition respects (n : net) : Prop :=
    forall x v w, In x n -> (forall y, In y (s_reads x) -> v y = w y) ->
      f (s_name x) v = f (s_name x) w.
End Cache.
Arguments state V : clear implicits.
Arguments event V : clear implicits.

(** The inputs a signal depends upon through a choice of lists. *)
Inductive reaches (sel : sig -> list string) (n : net) : string -> string -> Prop :=
| reach_input x i : In x n -> In i (sel x) -> ~ In i (names n) ->
    reaches sel n (s_name x) i
| reach_out x y i : In x n -> In y (sel x) -> reaches sel n y i ->
    reaches sel n (s_name x) i.

(** * The entities.

    The name of an input is the name of its signal; [ref.] marks a signal of
    the reference feature, for a feature whose reference is set. *)

(** feature-generic.cpp:35-57, 65-151 and feature-abstract.cpp:29-44, 95-122.
    The dimension reads the error to remember its size, until that size is
    known and not zero (line 70); [known] is that state. *)
Definition generic (known : bool) : net :=
  [ Sig "dim" ["selec"] (if known then ["selec"] else ["selec"; "errorIN"]);
    Sig "error" ["selec"; "errorIN"; "ref.errorIN"]
                ["errorIN"; "selec"; "dim"; "ref.errorIN"];
    Sig "jacobian" ["selec"; "jacobianIN"] ["jacobianIN"; "selec"; "dim"];
    Sig "errordot" ["selec"; "errordotIN"; "ref.errordotIN"]
                   ["selec"; "dim"; "ref.errordotIN"] ].

(** feature-1d.cpp:29-44, 61-84; the time derivative is that of
    feature-abstract.cpp:95-122. *)
Definition feature1d : net :=
  [ Sig "dim" ["selec"] [];
    Sig "error" ["selec"; "errorIN"] ["errorIN"];
    Sig "jacobian" ["selec"; "jacobianIN"] ["jacobianIN"; "errorIN"];
    Sig "errordot" ["selec"; "errordotIN"] ["selec"; "dim"; "ref.errordotIN"] ].

(** feature-posture.cpp:46, 70-103.  The jacobian is a constant (line 47) and
    the dimension a member; both are left out. *)
Definition posture : net :=
  [ Sig "error" ["selec"; "state"] ["state"; "posture"];
    Sig "errordot" ["selec"; "errordotIN"] ["postureDot"] ].

(** feature-joint-limits.cpp:45-51, 78-180.  Of the upper limits, the
    dimension reads the number only (line 78), and of the joints the jacobian
    reads the number only (line 119): [sized] says that these numbers do not
    change, in which case they do not count as read. *)
Definition joint_limits (sized : bool) : net :=
  [ Sig "dim" ["selec"] (if sized then ["selec"] else ["selec"; "upperJl"]);
    Sig "widthJl" ["upperJl"; "lowerJl"] ["upperJl"; "lowerJl"];
    Sig "jacobian" ["selec"]
        (if sized then ["dim"; "selec"; "widthJl"] else ["dim"; "joint"; "selec"; "widthJl"]);
    Sig "error" ["selec"; "joint"; "upperJl"; "lowerJl"]
                ["selec"; "joint"; "upperJl"; "lowerJl"; "widthJl"; "dim"] ].

(** feature-vector3.cpp:44-49, 71-73, 110-112. *)
Definition vector3 : net :=
  [ Sig "dim" ["selec"] [];
    Sig "error" ["selec"; "vector"; "position"; "positionRef"]
                ["position"; "vector"; "positionRef"];
    Sig "jacobian" ["selec"; "position"; "Jq"] ["Jq"; "vector"; "position"] ].

(** feature-line-distance.cpp:42-49, 73-74, 101-104, 135-143, 246-254. *)
Definition line_distance : net :=
  [ Sig "line" ["position"; "positionRef"] ["position"; "vector"];
    Sig "error" ["selec"; "position"] ["line"; "positionRef"];
    Sig "jacobian" ["selec"; "position"; "Jq"]
                   ["Jq"; "vector"; "position"; "line"; "positionRef"] ].

(** feature-visual-point.cpp:38-57, 78-152, the reference being set. *)
Definition visual_point : net :=
  [ Sig "dim" ["selec"] ["selec"];
    Sig "error" ["selec"; "xy"; "Z"; "ref.xy"] ["selec"; "dim"; "xy"; "ref.xy"];
    Sig "jacobian" ["selec"; "xy"; "Z"; "Jq"] ["selec"; "dim"; "Z"; "xy"; "Jq"];
    Sig "errordot" ["selec"; "errordotIN"] ["selec"; "dim"; "ref.errordotIN"] ].

(** feature-point6d.cpp:64-75, 115-119, 161-340, 419-460, the reference being
    set. *)
Definition point6d : net :=
  [ Sig "dim" ["selec"] ["selec"];
    Sig "error" ["selec"; "position"; "ref.position"]
                ["selec"; "position"; "ref.position"; "dim"];
    Sig "jacobian" ["selec"; "position"; "Jq"; "ref.position"]
                   ["Jq"; "dim"; "selec"; "position"; "ref.position"];
    Sig "errordot" ["selec"; "errordotIN"; "velocity"; "position"; "error"]
                   ["ref.velocity"; "position"; "ref.position"; "error"; "selec"; "dim"] ].

(** feature-point6d-relative.cpp:51-56, 77-97, 121-165, with the dependencies
    of the class it derives from (feature-point6d.cpp:64-67, 115-119).  The
    reference is a relative feature (line 137).  The errordot signal keeps the
    function [computeErrordot] of the parent class (feature-point6d.cpp:71);
    [computeErrorDot] of lines 183-250 has another name and is not attached to
    it, so that signal is left out. *)
Definition point6d_relative : net :=
  [ Sig "dim" ["selec"] ["selec"];
    Sig "error" ["selec"; "position"; "ref.position"; "positionRef"]
                ["position"; "positionRef"; "ref.position"; "ref.positionRef"; "selec"; "dim"];
    Sig "jacobian" ["selec"; "position"; "Jq"; "ref.position"; "positionRef"; "JqRef"]
                   ["Jq"; "JqRef"; "position"; "positionRef"; "selec"; "dim"] ].

(** feature-pose.hxx:62-90, 123-170, 199-300. *)
Definition pose : net :=
  [ Sig "dim" ["selec"] ["selec"];
    Sig "faMfb" ["oMja"; "jaMfa"; "oMjb"; "jbMfb"] ["oMja"; "jaMfa"; "oMjb"; "jbMfb"];
    Sig "q_faMfb" ["faMfb"] ["faMfb"];
    Sig "q_faMfbDes" ["faMfbDes"] ["faMfbDes"];
    Sig "error" ["selec"; "q_faMfbDes"; "q_faMfb"] ["selec"; "q_faMfbDes"; "q_faMfb"; "dim"];
    Sig "jacobian" ["selec"; "q_faMfbDes"; "q_faMfb"; "jaJja"; "jbJjb"]
        ["q_faMfb"; "q_faMfbDes"; "dim"; "selec"; "jbJjb"; "jbMfb"; "jaMfa"; "oMja"; "oMjb";
         "jaJja"; "faMfb"];
    Sig "errordot" ["selec"; "errordotIN"; "q_faMfbDes"; "q_faMfb"; "faNufafbDes"]
        ["dim"; "selec"; "q_faMfb"; "q_faMfbDes"; "faNufafbDes"; "faMfbDes"; "faMfb"] ].

(** visual-point-projecter.cpp:30-34, 50-75. *)
Definition projecter : net :=
  [ Sig "point3Dgaze" ["point3D"; "transfo"] ["point3D"; "transfo"];
    Sig "depth" ["point3Dgaze"] ["point3Dgaze"];
    Sig "point2D" ["point3Dgaze"; "depth"] ["point3Dgaze"; "depth"] ].

(** op-point-modifier.cpp:43-50, 78-140.  The jacobian reads the position when
    the point is not the end effector (line 104); [ee] is that mode. *)
Definition op_point (ee : bool) : net :=
  [ Sig "jacobian" ["jacobianIN"] (if ee then ["jacobianIN"] else ["jacobianIN"; "positionIN"]);
    Sig "position" ["positionIN"] ["positionIN"] ].

(** control-pd.cpp:44-54, 85-121.  The two errors are members filled by the
    computation of the control, which they call first: the model lets them
    read the control. *)
Definition control_pd : net :=
  [ Sig "control" ["Kp"; "Kd"; "position"; "desired_position"; "velocity"; "desired_velocity"]
                  ["Kp"; "Kd"; "position"; "desired_position"; "velocity"; "desired_velocity"];
    Sig "position_error" ["control"] ["control"];
    Sig "velocity_error" ["control"] ["control"] ].

(** control-gr.cpp:46-48, 92-94. *)
Definition control_gr : net :=
  [ Sig "control" ["matrixA"; "acceleration"; "gravity"] ["matrixA"; "acceleration"; "gravity"] ].

(** joint-limitator.cpp:28-33, 41-66. *)
Definition joint_limitator : net :=
  [ Sig "widthJl" ["upperJl"; "lowerJl"] ["upperJl"; "lowerJl"];
    Sig "control" ["joint"; "upperJl"; "lowerJl"; "controlIN"]
                  ["joint"; "upperJl"; "lowerJl"; "controlIN"] ].

(** admittance-control-op-point.cpp:36-38, 66-69, 124-125, 146-150, 182-183.
    The integrated velocity is a member, so [w_dq] is not a function of its
    inputs; the lists are what is compared here. *)
Definition admittance : net :=
  [ Sig "w_force" ["force"] ["force"; "sensorPose"];
    Sig "w_dq" ["Kp"; "Kd"; "dqSaturation"; "force"; "w_forceDes"; "opPose"; "sensorPose"; "w_force"]
               ["w_forceDes"; "w_force"; "Kp"; "Kd"; "dqSaturation"];
    Sig "dq" ["w_dq"] ["w_dq"; "opPose"] ].

(** kalman.cpp:78-83, 73-160 after the first computation of both signals at
    time zero.  The variance and state kept in members are left out. *)
Definition kalman : net :=
  [ Sig "P" ["Q"; "F"] ["Q"; "R"; "F"; "H"];
    Sig "x_est" ["y"; "y_pred"; "H"; "Q"; "R"; "x_pred"; "P"] ["P"; "x_pred"; "y_pred"; "y"] ].

(** gripper-control.cpp:29-37, 63-74 with the inputs plugged as the
    constructor plugs them. *)
Definition gripper : net :=
  [ Sig "positionReduced" ["positionFull"; "selec"] ["positionFull"; "selec"];
    Sig "torqueReduced" ["torqueFull"; "selec"] ["torqueFull"; "selec"];
    Sig "torqueLimitReduced" ["torqueLimitFull"; "selec"] ["torqueLimitFull"; "selec"];
    Sig "reference" ["positionReduced"; "positionDes"; "torqueReduced"; "torqueLimitReduced"]
        ["positionReduced"; "positionDes"; "torqueReduced"; "torqueLimitReduced"] ].

(** A task on two features: task.cpp:43-62, 103-108, 143-310.  [fi.x] is the
    signal x of the i-th feature.  The jacobian declares the control selection
    and does not read it (line 268). *)
Definition task : net :=
  [ Sig "error" ["f1.error"; "f2.error"] ["f1.error"; "f2.error"];
    Sig "errorTimeDerivative" ["error"; "f1.errordot"; "f2.errordot"]
                              ["error"; "f1.errordot"; "f2.errordot"];
    Sig "task" ["controlGain"; "error"; "errorTimeDerivative"]
               ["error"; "controlGain"; "errorTimeDerivative"];
    Sig "jacobian" ["controlSelec"; "f1.jacobian"; "f2.jacobian"]
                   ["f1.jacobian"; "f2.jacobian"] ].

(** task-pd.cpp:35-47, 53-85, the error derivative plugged by the user
    instead of the one computed by the task (line 46). *)
Definition task_pd : net :=
  [ Sig "error" ["f1.error"] ["f1.error"];
    Sig "errorTimeDerivative" ["error"; "f1.errordot"] ["error"; "f1.errordot"];
    Sig "errorDotOUT" ["error"] ["error"];
    Sig "task" ["controlGain"; "error"; "errorTimeDerivative"; "errorDotOUT"]
               ["errorDot"; "error"; "controlGain"; "errorTimeDerivative"] ].

(** task-unilateral.cpp:41-51, 61-72. *)
Definition task_unilateral : net :=
  [ Sig "task" ["referenceSup"; "referenceInf"; "dt"; "position"]
               ["position"; "referenceInf"; "referenceSup"; "dt"] ].

(** task-conti.cpp:35-95. *)
Definition task_conti : net :=
  [ Sig "error" ["f1.error"] ["f1.error"];
    Sig "errorTimeDerivative" ["error"; "f1.errordot"] ["error"; "f1.errordot"];
    Sig "jacobian" ["controlSelec"; "f1.jacobian"] ["f1.jacobian"];
    Sig "task" ["controlGain"; "error"; "errorTimeDerivative"]
               ["error"; "controlGain"; "jacobian"] ].

(** A solver with two tasks: sot.cpp:72-73, 210-218, 326-350, 470-600.  The
    control reads the control selection of the tasks (line 331), which the
    jacobian it depends upon declares. *)
Definition solver : net :=
  [ Sig "t1.task" ["t1.controlGain"; "t1.error"] ["t1.controlGain"; "t1.error"];
    Sig "t1.jacobian" ["t1.controlSelec"; "t1.f.jacobian"] ["t1.f.jacobian"];
    Sig "t2.task" ["t2.controlGain"; "t2.error"] ["t2.controlGain"; "t2.error"];
    Sig "t2.jacobian" ["t2.controlSelec"; "t2.f.jacobian"] ["t2.f.jacobian"];
    Sig "control"
      ["damping"; "q0"; "proj0"; "t1.task"; "t1.jacobian"; "t2.task"; "t2.jacobian"]
      ["damping"; "q0"; "proj0"; "t1.jacobian"; "t1.task"; "t1.controlSelec";
       "t2.jacobian"; "t2.task"; "t2.controlSelec"] ].

(** * Changing the reference of a feature.

    feature-abstract.hh:232-264: the macro [DECLARE_REFERENCE_FUNCTIONS] and
    [setReference] of the helper, with the lists of feature-generic.cpp:46-57
    (the other features with a reference have the same shape).  A dependency
    is [None] for an own input and [Some r] for the input of the reference
    [r]. *)
Record rfeat := RF { r_ref : option nat; r_deps : list (option nat) }.

(** What the user passes: nothing, a feature of the same class, a feature of
    another class. *)
Inductive refarg := RNull | RSame (r : nat) | ROther (r : nat).

Definition dep_eqb (a b : option nat) : bool :=
  match a, b with
  | None, None => true
  | Some x, Some y => Nat.eqb x y
  | _, _ => false
  end.

(** dynamic-graph's [addDependency] puts a signal in front of the list and
    [removeDependency] takes out every occurrence. *)
Definition add_dep (d : option nat) (l : list (option nat)) := d :: l.
Definition rm_dep (d : option nat) (l : list (option nat)) :=
  filter (fun x => negb (dep_eqb d x)) l.

Definition set_reference (s : rfeat) (a : refarg) : rfeat :=
  match a with
  | RNull =>
      RF None (match r_ref s with Some r => rm_dep (Some r) (r_deps s) | None => r_deps s end)
  | RSame r => RF (Some r) (add_dep (Some r) (r_deps s))
  | ROther _ => RF None (r_deps s)
  end.

Definition new_feature : rfeat := RF None [None].
