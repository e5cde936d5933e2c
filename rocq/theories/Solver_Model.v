(** Model of the hierarchical solver [Sot::computeControlLaw],
    src/sot/sot.cpp:328-396 and 458-643, src/sot/memory-task-sot.cpp.

    Numbers: an arbitrary real field [R]; rounding is not modelled.  Matrices are
    mathcomp matrices, so sizes that the code assumes to agree (the number of
    columns of a task jacobian is nbJoints, asserted at sot.cpp:564; the number of
    its rows is the size of the task) agree by typing.

    Eigen's JacobiSVD is external: the model quantifies over every exact singular
    value decomposition of the matrix given to it ([is_svd]). *)
From Coq Require Import ZArith String.
From Verif Require Import Base Flags_Model.
From mathcomp Require Import all_ssreflect all_algebra.
Import Order.TTheory GRing.Theory Num.Theory.
Set Implicit Arguments.
Unset Strict Implicit.
Unset Printing Implicit Defensive.
Local Open Scope ring_scope.

Section Solver.
Variable R : realFieldType.
(** sot.hh: nbJoints *)
Variable n : nat.

(** What the solver reads from a task of the stack:
    - [jac], [ref]: jacobianSOUT and taskSOUT (all single bounds, sot.cpp:458-467);
    - [sel]: controlSelectionSIN, [None] when the [TaskAbstract] is not a [Task];
    - [posture]: the task is a [Task] with a single feature which is a
      [FeaturePosture] (sot.cpp:389-393);
    - [memDim]: size of the work vector tmpTask, allocated once with the dimension
      the task had when it was first solved (sot.cpp:399-408,
      memory-task-sot.cpp:21-25) and never resized. *)
Record task := mkTask {
  dim : nat;
  jac : 'M[R]_(dim, n);
  ref : 'cV[R]_dim;
  sel : option Flags;
  posture : bool;
  memDim : nat
}.

(** Selection of joint [i]; reading a non negative index never fails. *)
Definition sel_at (f : Flags) (i : nat) : bool :=
  if at_ f (Z.of_nat i) is Ok b then b else false.

(** sot.cpp:328-349.  [if (!controlSelec)] is the conversion to bool of the
    negated Flags. *)
Definition activated m (f : option Flags) (J : 'M[R]_(m, n)) : 'M[R]_(m, n) :=
  match f with
  | None => J
  | Some fl =>
      if to_bool fl then
        if to_bool (not_ fl) then
          \matrix_(i, j) (if ~~ sel_at fl j then 0 else J i j)
        else J
      else 0
  end.

(** Loop state: control, controlIsZero, and the current null space basis
    ([None]: has_kernel = false, the map is 0x0, sot.cpp:509-510). *)
Record st := mkSt {
  control : 'cV[R]_n;
  isZero : bool;
  kernel : option {k : nat & 'M[R]_(n, k)}
}.

(** [kernel.cols()] *)
Definition kcols (s : st) : nat :=
  if kernel s is Some K then projT1 K else 0%N.

(** The matrix the products with [kernel] amount to.  Without a kernel the code
    skips the product, i.e. multiplies by the identity. *)
Definition basis (s : st) : {k : nat & 'M[R]_(n, k)} :=
  if kernel s is Some K then K else existT _ n 1%:M.

(** Result of svd.compute: thin U, singular values, full V (sot.cpp:581-584).  For
    the last task the code asks for the thin V, which is the first columns of the
    full one; only these columns are used then. *)
Record svdres (m k : nat) := mkSvd {
  svU : 'M[R]_(m, minn m k);
  svS : 'rV[R]_(minn m k);
  svV : 'M[R]_k
}.

(** First min(m,k) columns of V. *)
Definition vthin m k (d : svdres m k) : 'M[R]_(k, minn m k) :=
  \matrix_(i, j) svV d i (widen_ord (geq_minr m k) j).

(** Specification of the external JacobiSVD. *)
Definition is_svd m k (A : 'M[R]_(m, k)) (d : svdres m k) : Prop :=
  [/\ (svU d)^T *m svU d = 1%:M,
      (svV d)^T *m svV d = 1%:M,
      (forall j, 0 <= svS d 0 j),
      (forall i j : 'I_(minn m k), (i <= j)%N -> svS d 0 j <= svS d 0 i) &
      A = svU d *m diag_mx (svS d) *m (vthin d)^T].

(** sot.cpp:585-588: number of leading singular values above the threshold. *)
Definition rankJ (th : R) m k (d : svdres m k) : nat :=
  find (fun x => ~~ (th < x)) [seq svS d 0 j | j <- enum 'I_(minn m k)].

(** sot.cpp:370-373: tmpTask.head(rankJ) = S^-1 U^T err.  Entries from rankJ on
    are not read by the code; they are zero here so that the product with the
    first rankJ columns of V is the product with all of them. *)
Definition tmpTask m k (d : svdres m k) (r : nat) (err : 'cV[R]_m) : 'cV[R]_(minn m k) :=
  \col_j (if (j < r)%N then ((svU d)^T *m err) j 0 * (svS d 0 j)^-1 else 0).

Lemma rcol_subproof k r (j : 'I_(k - r)) : (r + j < k)%N.
Proof. by have := ltn_ord j; rewrite ltn_subRL. Qed.
(** [svd.matrixV().rightCols(cols - rankJ)] : columns r, r+1, ... *)
Definition rightCols k (r : nat) (V : 'M[R]_k) : 'M[R]_(k, k - r) :=
  \matrix_(i, j) V i (Ordinal (rcol_subproof j)).

Definition sqnorm m (x : 'cV[R]_m) : R := \sum_i x i 0 ^+ 2.

(** sot.cpp:592: error left by the current control. *)
Definition taskErr (t : task) (s : st) : 'cV[R]_(dim t) :=
  if isZero s then ref t else ref t - activated (sel t) (jac t) *m control s.

(** updateControl, sot.cpp:370-381: the increment the task asks for. *)
Definition increment (th : R) (t : task) (s : st)
    (d : svdres (dim t) (projT1 (basis s))) : 'cV[R]_n :=
  projT2 (basis s) *m (vthin d *m tmpTask d (rankJ th d) (taskErr t s)).

(** sot.cpp:382: [if (tmpControl.squaredNorm() > threshold) return false]. *)
Definition accepted (th lim : R) (t : task) (s : st)
    (d : svdres (dim t) (projT1 (basis s))) : bool :=
  ~~ (lim < sqnorm (increment th d)).

(** One task, general branch: sot.cpp:563-622 with updateControl 361-385.
    [th] is the inversion threshold, [lim] maxControlIncrementSquaredNorm. *)
Definition step_svd (th lim : R) (t : task) (last : bool) (s : st)
    (d : svdres (dim t) (projT1 (basis s))) : outcome st :=
  let r := rankJ th d in
  if (memDim t < r)%N then UB
  else if accepted th lim d then
    Ok (mkSt (control s + increment th d) false
          (if last then kernel s
           else Some (existT (fun k => 'M[R]_(n, k)) (projT1 (basis s) - r)%N
                        (projT2 (basis s) *m rightCols r (svV d)))))
  else Ok s.

(** [control.tail(d)] as a matrix. *)
Definition tailmx (d : nat) : 'M[R]_(d, n) :=
  \matrix_(i, j) ((j : nat) == i + (n - d))%N%:R.

(** sot.cpp:387-397 (the assertion is compiled out in release builds and, on a
    task whose feature is not a posture, dereferences a null pointer in debug
    builds: not modelled).  All joints must be selected. *)
Definition isFullPostureTask (t : task) : bool :=
  [&& posture t, (if sel t is Some f then ~~ to_bool (not_ f) else false)
    & (dim t + 6 == n)%N].

(** sot.cpp:549-562, posture acceleration.  Without a kernel the 0x0 map is asked
    for n-6 columns: UB as soon as n > 6. *)
Definition step_posture (t : task) (s : st) : outcome st :=
  let err := if isZero s then ref t else ref t - tailmx (dim t) *m control s in
  match kernel s with
  | None => if (dim t == 0)%N then Ok (mkSt (control s) false None) else UB
  | Some (existT k K) =>
      Ok (mkSt (control s + K *m ((tailmx (dim t) *m K)^T *m err)) false (kernel s))
  end.

(** The loop sot.cpp:523-637.  A relation because the decomposition is any exact
    one. [last] is true on the final task of the stack. *)
Inductive step_rel (th lim : R) (accel : bool) (t : task) (last : bool) (s : st)
  : outcome st -> Prop :=
| step_rel_posture : [&& last, accel & isFullPostureTask t] ->
    step_rel th lim accel t last s (step_posture t s)
| step_rel_svd (d : svdres (dim t) (projT1 (basis s))) :
    ~~ [&& last, accel & isFullPostureTask t] ->
    is_svd (activated (sel t) (jac t) *m projT2 (basis s)) d ->
    step_rel th lim accel t last s (step_svd th lim last d).

Inductive loop (th lim : R) (accel : bool) : seq task -> st -> outcome st -> Prop :=
| loop_nil s : loop th lim accel [::] s (Ok s)
| loop_ub t rest s :
    step_rel th lim accel t (nilp rest) s UB -> loop th lim accel (t :: rest) s UB
| loop_stop t rest s s' :
    step_rel th lim accel t (nilp rest) s (Ok s') ->
    nilp rest || (kcols s' == 0%N) ->
    loop th lim accel (t :: rest) s (Ok s')
| loop_next t rest s s' o :
    step_rel th lim accel t (nilp rest) s (Ok s') ->
    ~~ (nilp rest || (kcols s' == 0%N)) ->
    loop th lim accel rest s' o ->
    loop th lim accel (t :: rest) s o.

(** proj0SIN: a matrix of any size. *)
Record dmat := mkDmat { drows : nat; dcols : nat; dmx : 'M[R]_(drows, dcols) }.

(** sot.cpp:509-522: a projector with the wrong number of rows is reported and
    ignored. *)
Definition initKernel (p : option dmat) : option {k : nat & 'M[R]_(n, k)} :=
  match p with
  | None => None
  | Some P =>
      match @eqP _ (drows P) n with
      | ReflectT e => Some (existT _ (dcols P) (castmx (e, erefl) (dmx P)))
      | ReflectF _ => None
      end
  end.

(** sot.cpp:486-505: [q0] is the value of q0SIN when plugged. *)
Definition initState (q0 : option (seq R)) (p : option dmat) (ts : seq task) : outcome st :=
  match q0 with
  | Some q =>
      if size q != n then Throw "length_error"
      else Ok (mkSt (\col_i nth 0 q i) false (initKernel p))
  | None =>
      if nilp ts then Throw "logic_error"
      else Ok (mkSt 0 true (initKernel p))
  end.

(** sot.cpp:469-643 *)
Inductive computeControlLaw (th lim : R) (accel : bool) (q0 : option (seq R))
    (p : option dmat) (ts : seq task) : outcome 'cV[R]_n -> Prop :=
| ccl_throw w : initState q0 p ts = Throw w ->
    computeControlLaw th lim accel q0 p ts (Throw w)
| ccl_ub s : initState q0 p ts = Ok s -> loop th lim accel ts s UB ->
    computeControlLaw th lim accel q0 p ts UB
| ccl_ok s s' : initState q0 p ts = Ok s -> loop th lim accel ts s (Ok s') ->
    computeControlLaw th lim accel q0 p ts (Ok (control s')).

End Solver.
