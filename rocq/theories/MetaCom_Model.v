(** The meta task on the center of mass (src/dynamic_graph/sot/core/meta_tasks.py:11-37, meta_tasks_kine.py:33-37), with the
    helper setGain: a FeatureGeneric with its reference, a GainAdaptive and a Task, plugged together.  The meta task on the posture
    (meta_task_posture.py:36-60) is built and plugged the same way, with the position of the robot and the identity.

    The parts are the models of Feature_Model, Gain_Model and Task_Model over the reals; this file only connects them.  [g] is
    the content of uninitialised memory.  Signals are computed again at each read (C108), and one work vector is kept for the
    error of the task: the result does not depend on it (task_error_single).  The jacobian is that of the feature. *)
From Coq Require Import String List Arith ZArith Bool Reals.
From Verif Require Import Base Flags_Model Bound_Model Feature_Model Gain_Model Task_Model Meta_Model.
Import ListNotations.
Local Open Scope R_scope.

Section MetaCom.
Variable g : R.

(** featureDes.errorIN, feature.selec, the gain, feature.dimensionDefault, the buffer of task.error *)
Record ctask := CTask { ct_ref : option (list R); ct_selec : Flags; ct_gain : adaptive; ct_dd : nat; ct_buf : list R }.

(** meta_tasks.py:12-23: nothing is given to the gain (gain-adaptive.cpp:80-86 init()) nor to the reference; everything is
    selected (feature-abstract.cpp:45). *)
Definition ct_new : ctask := CTask None (of_bool true) a_init0 0 [].

(** What a reader of the task gets: task.error, the values of task.task, the jacobian of the feature. *)
Record cread := CRead { cr_error : list R; cr_task : list (MultiBound R); cr_jac : list (list R) }.

(** Reading the task when dyn.com is [com] and dyn.Jcom is [J].  The dimension of the feature is computed first and kept
    whatever follows (feature-generic.cpp:64-77).  A reference that was never set is an exception of dynamic-graph. *)
Definition ct_eval (t : ctask) (com : list R) (J : list (list R)) : ctask * outcome cread :=
  match generic_dimension R (ct_dd t) (ct_selec t) com with
  | Ok (dd, dim) =>
      let t1 := CTask (ct_ref t) (ct_selec t) (ct_gain t) dd (ct_buf t) in
      match (match ct_ref t with
             | None => Throw "signal without a value"
             | Some r => let* e := generic_error R g Rminus (ct_selec t) dim com (Some r) in computeError R 0 g (ct_buf t) [e]
             end) with
      | Ok err =>
          (CTask (ct_ref t) (ct_selec t) (ct_gain t) dd err,
           let* v := computeTaskExponentialDecrease R 0 Ropp Rminus Rmult err (a_computeGain (ct_gain t) err) false [] in
           let* j := generic_jacobian R (ct_selec t) dim J dd in
           Ok (CRead err v j))
      | Throw e => (t1, Throw e)
      | UB => (t1, UB)
      end
  | Throw e => (t, Throw e)
  | UB => (t, UB)
  end.

(** A statement of a script: task.ref = v (meta_tasks.py:35-37), task.feature.selec.value = f, setGain(task.gain, v) (40-49), a
    read of the task. *)
Inductive ccmd := CRef (v : list R) | CSelec (f : Flags) | CGain (v : gainval) | CEval (com : list R) (J : list (list R)).
Definition ct_step (t : ctask) (c : ccmd) : ctask :=
  match c with
  | CRef v => CTask (Some v) (ct_selec t) (ct_gain t) (ct_dd t) (ct_buf t)
  | CSelec f => CTask (ct_ref t) f (ct_gain t) (ct_dd t) (ct_buf t)
  | CGain v => CTask (ct_ref t) (ct_selec t) (setGain (ct_gain t) v) (ct_dd t) (ct_buf t)
  | CEval com J => fst (ct_eval t com J)
  end.
End MetaCom.
