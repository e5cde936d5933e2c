(** Vocabulary used to state the solver theorems: the log of a run. *)
From Coq Require Import ZArith String.
From Verif Require Import Base Flags_Model Solver_Model.
From mathcomp Require Import all_ssreflect all_algebra.
Import Order.TTheory GRing.Theory Num.Theory.
Set Implicit Arguments.
Unset Strict Implicit.
Unset Printing Implicit Defensive.
Local Open Scope ring_scope.

Section Spec.
Variable R : realFieldType.
Variable n : nat.
Variables (th lim : R) (accel : bool).

(** A task handled by the general branch during a run: the task, the state it
    found, the decomposition that was used and the state it left. *)
Record event := Event {
  ev_t : task R n;
  ev_s : st R n;
  ev_d : svdres R (dim ev_t) (projT1 (basis ev_s));
  ev_s' : st R n
}.

(** Jacobian of the task restricted to its selected joints. *)
Definition ev_J (e : event) : 'M[R]_(dim (ev_t e), n) :=
  activated (sel (ev_t e)) (jac (ev_t e)).

(** The run accepted the task (its increment respects the norm limit). *)
Definition ev_acc (e : event) : Prop := accepted th lim (ev_d e).

(** Direction [j] of the task space is controlled: its singular value is above
    the inversion threshold. *)
Definition retained (e : event) (j : 'I_(minn (dim (ev_t e)) (projT1 (basis (ev_s e))))) : Prop :=
  th < svS (ev_d e) 0 j.

(** Value of a task-space vector along direction [j]. *)
Definition along (e : event) j (x : 'cV[R]_(dim (ev_t e))) : R :=
  ((svU (ev_d e))^T *m x) j 0.

(** Every singular value of the task that is not retained is zero. *)
Definition no_discard (e : event) : Prop :=
  forall j, ~ retained (e := e) j -> svS (ev_d e) 0 j = 0.

(** Runs of the loop of computeControlLaw together with their log.  [p] is the
    posture-accelerated last task, if there was one. *)
Inductive loop_log : seq (task R n) -> st R n -> seq event -> option (task R n * st R n) ->
    st R n -> Prop :=
| LL_nil s : loop_log [::] s [::] None s
| LL_posture t s s' :
    [&& accel & isFullPostureTask t] ->
    step_posture t s = Ok s' ->
    loop_log [:: t] s [::] (Some (t, s)) s'
| LL_stop t rest s d s' :
    ~~ [&& nilp rest, accel & isFullPostureTask t] ->
    is_svd (activated (sel t) (jac t) *m projT2 (basis s)) d ->
    step_svd th lim (nilp rest) d = Ok s' ->
    nilp rest || (kcols s' == 0%N) ->
    loop_log (t :: rest) s [:: @Event t s d s'] None s'
| LL_next t rest s d s' L p sf :
    ~~ [&& nilp rest, accel & isFullPostureTask t] ->
    is_svd (activated (sel t) (jac t) *m projT2 (basis s)) d ->
    step_svd th lim (nilp rest) d = Ok s' ->
    ~~ (nilp rest || (kcols s' == 0%N)) ->
    loop_log rest s' L p sf ->
    loop_log (t :: rest) s (@Event t s d s' :: L) p sf.

End Spec.
