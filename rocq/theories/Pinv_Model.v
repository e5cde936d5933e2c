(** Pseudo inverse and damped inverse, src/matrix/matrix-svd.cpp.

    Numbers: an arbitrary real field; rounding is not modelled.  Eigen's JacobiSVD is external: the
    model takes any exact singular value decomposition of the input.  [p] is min(rows, cols), the
    number of singular values. *)
From mathcomp Require Import all_ssreflect all_algebra.
Import Order.TTheory GRing.Theory Num.Theory.
Set Implicit Arguments.
Unset Strict Implicit.
Unset Printing Implicit Defensive.
Local Open Scope ring_scope.

Section Pinv.
Variable R : realFieldType.

(** Result of the decomposition: thin U, singular values and the columns of V that the code uses
    (all those of the thin V, or the first [p] of the full one). *)
Record tsvd (m k p : nat) := mkT { tU : 'M[R]_(m, p); tS : 'rV[R]_p; tV : 'M[R]_(k, p) }.
Definition is_tsvd m k p (A : 'M[R]_(m, k)) (d : tsvd m k p) : Prop :=
  [/\ (tU d)^T *m tU d = 1%:M, (tV d)^T *m tV d = 1%:M, (forall j, 0 <= tS d 0 j) &
      A = tU d *m diag_mx (tS d) *m (tV d)^T].

(** Full V: svd.matrixV().leftCols(m) with m the number of singular values (matrix-svd.cpp:36-38). *)
Definition leftCols k p (h : (p <= k)%N) (V : 'M[R]_k) : 'M[R]_(k, p) := \matrix_(i, j) V i (widen_ord h j).

(** matrix-svd.cpp:12-27 pseudoInverse *)
Definition pinv_sv (th : R) p (S : 'rV[R]_p) : 'rV[R]_p :=
  \row_j (if th < S 0 j then 1 / S 0 j else 0).
Definition pseudoInverse m k p (th : R) (d : tsvd m k p) : 'M[R]_(k, m) :=
  tV d *m diag_mx (pinv_sv th (tS d)) *m (tU d)^T.
(** No division by zero *)
Definition pinv_defined (th : R) p (S : 'rV[R]_p) : Prop := forall j, th < S 0 j -> S 0 j != 0.

(** matrix-svd.cpp:29-39 dampedInverse *)
Definition damped_sv (l : R) p (S : 'rV[R]_p) : 'rV[R]_p :=
  \row_j (S 0 j / (S 0 j ^+ 2 + l * l)).
Definition dampedInverse m k p (l : R) (d : tsvd m k p) : 'M[R]_(k, m) :=
  tV d *m diag_mx (damped_sv l (tS d)) *m (tU d)^T.
Definition damped_defined (l : R) p (S : 'rV[R]_p) : Prop := forall j, S 0 j ^+ 2 + l * l != 0.
End Pinv.
