(** C55: pseudo inverse and damped inverse. *)
From mathcomp Require Import all_ssreflect all_algebra.
From Verif Require Import Mx_Abel Pinv_Model.
Import Order.TTheory GRing.Theory Num.Theory.
Set Implicit Arguments.
Unset Strict Implicit.
Unset Printing Implicit Defensive.
Local Open Scope ring_scope.

Section Spec.
Variable R : realFieldType.
(** ** Specification *)
Definition penrose m k (A : 'M[R]_(m, k)) (X : 'M[R]_(k, m)) : Prop :=
  [/\ A *m X *m A = A, X *m A *m X = X, (A *m X)^T = A *m X & (X *m A)^T = X *m A].
Definition sqn m (x : 'cV[R]_m) : R := \sum_i x i 0 ^+ 2.
End Spec.

Section Norm.
Variable R : realFieldType.
Lemma mxDE m k (X Y : 'M[R]_(m, k)) i j : (X + Y) i j = X i j + Y i j.
Proof. by rewrite !mxE. Qed.
Lemma mxBE m k (X Y : 'M[R]_(m, k)) i j : (X - Y) i j = X i j - Y i j.
Proof. by rewrite !mxE. Qed.
Lemma mxZE m k a (X : 'M[R]_(m, k)) i j : (a *: X) i j = a * X i j.
Proof. by rewrite !mxE. Qed.
Lemma mxNE m k (X : 'M[R]_(m, k)) i j : (- X) i j = - X i j.
Proof. by rewrite !mxE. Qed.
Lemma sqnE m (x : 'cV[R]_m) : sqn x = (x^T *m x) 0 0.
Proof. by rewrite mxE; apply: eq_bigr => i _; rewrite mxE expr2. Qed.
Lemma sqn_ge0 m (x : 'cV[R]_m) : 0 <= sqn x.
Proof. by apply: sumr_ge0 => i _; apply: sqr_ge0. Qed.
Lemma sqn_eq0 m (x : 'cV[R]_m) : sqn x = 0 -> x = 0.
Proof.
move/eqP; rewrite /sqn psumr_eq0 => [/allP h|i _]; last exact: sqr_ge0.
apply/matrixP => i j; rewrite ord1 mxE.
by have /= := h i (mem_index_enum i); rewrite sqrf_eq0 => /eqP.
Qed.
Lemma sqnD m (x y : 'cV[R]_m) : sqn (x + y) = sqn x + sqn y + (x^T *m y) 0 0 *+ 2.
Proof.
rewrite !sqnE [(x + y)^T]linearD /= mulmxDl !mulmxDr !mxE.
have -> : \sum_j y^T 0 j * x j 0 = \sum_j x^T 0 j * y j 0.
  by apply: eq_bigr => j _; rewrite !mxE mulrC.
by rewrite mulr2n (addrC (\sum_j x^T 0 j * y j 0) (\sum_j y^T 0 j * y j 0)) addrACA.
Qed.
Lemma sqn_orth m k (Q : 'M[R]_(m, k)) (x : 'cV[R]_k) : Q^T *m Q = 1%:M -> sqn (Q *m x) = sqn x.
Proof. by move=> h; rewrite !sqnE trmx_mul mulmxA -(mulmxA x^T) h mulmx1. Qed.
Lemma bessel m k (Q : 'M[R]_(m, k)) (y : 'cV[R]_m) : Q^T *m Q = 1%:M -> sqn (Q^T *m y) <= sqn y.
Proof.
move=> HQ. set W := Q *m (Q^T *m y).
have h : sqn y = sqn (y - W) + sqn (Q^T *m y).
  transitivity (sqn ((y - W) + W)); first by rewrite subrK.
  rewrite sqnD {2}/W (sqn_orth _ HQ).
  rewrite [X in X *+ 2](_ : _ = 0) ?mul0rn ?addr0 //.
  rewrite /W [(y - _)^T]linearB /= trmx_mul trmx_mul trmxK mulmxBl -!mulmxA.
  by rewrite (mulmxA Q^T Q) HQ mul1mx subrr mxE.
by rewrite h ler_addr sqn_ge0.
Qed.
Lemma sqn_diag p (d : 'rV[R]_p) (x : 'cV[R]_p) : sqn (diag_mx d *m x) = \sum_j d 0 j ^+ 2 * x j 0 ^+ 2.
Proof. by apply: eq_bigr => j _; rewrite mul_diag_mx mxE exprMn. Qed.
End Norm.

(** ** Consequences of the four conditions *)
Section Penrose.
Variable R : realFieldType.
Variables (m k : nat) (A : 'M[R]_(m, k)).

(** The four conditions determine the matrix: the result does not depend on the decomposition. *)
Theorem penrose_unique X Y : penrose A X -> penrose A Y -> X = Y.
Proof.
move=> [X1 X2 X3 X4] [Y1 Y2 Y3 Y4].
have E1 : A *m X = A *m Y.
  by rewrite -[LHS]X3 -{1}Y1 -mulmxA trmx_mul X3 Y3 !mulmxA X1.
have E2 : X *m A = Y *m A.
  by rewrite -[LHS]X4 -{1}Y1 -!mulmxA mulmxA trmx_mul X4 Y4 -!mulmxA [A *m (X *m A)]mulmxA X1.
by rewrite -X2 -mulmxA E1 mulmxA E2 Y2.
Qed.

Lemma residual_orth X (b : 'cV[R]_m) : penrose A X -> (A *m (X *m b) - b)^T *m A = 0.
Proof.
move=> [X1 X2 X3 X4]. have E : A^T *m (A *m X) = A^T by rewrite -X3 -trmx_mul X1.
by apply: trmx_inj; rewrite [LHS]trmx_mul trmxK trmx0 mulmxBr [A *m (X *m b)]mulmxA [A^T *m _]mulmxA E subrr.
Qed.

(** Least squares, and smallest norm among the solutions. *)
Theorem penrose_least_squares X b x : penrose A X -> sqn (A *m (X *m b) - b) <= sqn (A *m x - b).
Proof.
move=> HX; have [X1 X2 X3 X4] := HX.
have -> : A *m x - b = A *m (X *m b) - b + A *m (x - X *m b) by rewrite mulmxBr; abel.
rewrite [in X in _ <= X]sqnD.
have -> : ((A *m (X *m b) - b)^T *m (A *m (x - X *m b))) = 0.
  by rewrite mulmxA residual_orth ?mul0mx.
by rewrite mxE mul0rn addr0 ler_addl sqn_ge0.
Qed.
Theorem penrose_least_norm X b x : penrose A X ->
  sqn (A *m x - b) = sqn (A *m (X *m b) - b) -> sqn (X *m b) <= sqn x.
Proof.
move=> HX E; have [X1 X2 X3 X4] := HX.
have Z : A *m (x - X *m b) = 0.
  apply: sqn_eq0. move: E.
  have -> : A *m x - b = A *m (X *m b) - b + A *m (x - X *m b) by rewrite mulmxBr; abel.
  rewrite [in LHS]sqnD.
  have -> : ((A *m (X *m b) - b)^T *m (A *m (x - X *m b))) = 0.
    by rewrite mulmxA residual_orth ?mul0mx.
  by rewrite mxE mul0rn addr0 => /eqP; rewrite -subr_eq0 addrC addKr => /eqP.
have -> : x = X *m b + (x - X *m b) by abel.
rewrite [in X in _ <= X]sqnD.
have -> : (X *m b)^T *m (x - X *m b) = 0.
  have E3 : X *m b = X *m A *m (X *m b) by rewrite mulmxA X2.
  by rewrite {1}E3 trmx_mul X4 -mulmxA -(mulmxA X) Z !mulmx0.
by rewrite mxE mul0rn addr0 ler_addl sqn_ge0.
Qed.
End Penrose.

(** ** The pseudo inverse *)
Section Pseudo.
Variable R : realFieldType.
Variables (m k p : nat) (A : 'M[R]_(m, k)) (d : tsvd R m k p) (th : R).
Hypothesis Hd : is_tsvd A d.
Hypothesis th0 : 0 <= th.
Local Notation U := (tU d).
Local Notation V := (tV d).
Local Notation S := (tS d).
Let HU : U^T *m U = 1%:M. Proof. by case: Hd. Qed.
Let HV : V^T *m V = 1%:M. Proof. by case: Hd. Qed.
Let HS j : 0 <= S 0 j. Proof. by case: Hd. Qed.
Let HA : A = U *m diag_mx S *m V^T. Proof. by case: Hd. Qed.

Lemma UDV (a b : 'rV[R]_p) : U *m diag_mx a *m V^T *m (V *m diag_mx b *m U^T) = U *m diag_mx (\row_j (a 0 j * b 0 j)) *m U^T.
Proof. by rewrite !mulmxA -[_ *m V^T *m V]mulmxA HV mulmx1 -[U *m _ *m diag_mx b]mulmxA mulmx_diag. Qed.
Lemma VDU (a b : 'rV[R]_p) : V *m diag_mx a *m U^T *m (U *m diag_mx b *m V^T) = V *m diag_mx (\row_j (a 0 j * b 0 j)) *m V^T.
Proof. by rewrite !mulmxA -[_ *m U^T *m U]mulmxA HU mulmx1 -[V *m _ *m diag_mx b]mulmxA mulmx_diag. Qed.
Lemma UDU (a b : 'rV[R]_p) : U *m diag_mx a *m U^T *m (U *m diag_mx b *m V^T) = U *m diag_mx (\row_j (a 0 j * b 0 j)) *m V^T.
Proof. by rewrite !mulmxA -[_ *m U^T *m U]mulmxA HU mulmx1 -[U *m _ *m diag_mx b]mulmxA mulmx_diag. Qed.
Lemma VDV (a b : 'rV[R]_p) : V *m diag_mx a *m V^T *m (V *m diag_mx b *m U^T) = V *m diag_mx (\row_j (a 0 j * b 0 j)) *m U^T.
Proof. by rewrite !mulmxA -[_ *m V^T *m V]mulmxA HV mulmx1 -[V *m _ *m diag_mx b]mulmxA mulmx_diag. Qed.
Lemma symQ q (Q : 'M[R]_(q, p)) (a : 'rV[R]_p) : (Q *m diag_mx a *m Q^T)^T = Q *m diag_mx a *m Q^T.
Proof. by rewrite !trmx_mul trmxK tr_diag_mx mulmxA. Qed.

(** The matrix with its small singular values replaced by zero. *)
Definition truncated : 'M[R]_(m, k) := U *m diag_mx (\row_j (if th < S 0 j then S 0 j else 0)) *m V^T.

(** For a threshold that is not negative nothing is divided by zero, and the result is the pseudo
    inverse of the truncated matrix, which differs from the input by at most the threshold. *)
Theorem pinv_truncated : pinv_defined th S /\ penrose truncated (pseudoInverse th d) /\
  forall x : 'cV[R]_k, sqn ((A - truncated) *m x) <= th ^+ 2 * sqn x.
Proof.
have S0 j : th < S 0 j -> S 0 j != 0 by move=> h; rewrite gt_eqF // (le_lt_trans th0).
split=> //; split.
  have E1 j : (if th < S 0 j then S 0 j else 0) * (if th < S 0 j then 1 / S 0 j else 0) = (if th < S 0 j then 1 else 0).
    by case: ifP => h; rewrite ?mulr0 // mul1r divff // S0.
  have E1' j : (if th < S 0 j then 1 / S 0 j else 0) * (if th < S 0 j then S 0 j else 0) = (if th < S 0 j then 1 else 0).
    by rewrite mulrC E1.
  split.
  - rewrite /truncated /pseudoInverse UDV UDU; congr (_ *m diag_mx _ *m _).
    by apply/matrixP=> i j; rewrite !mxE E1; case: ifP; rewrite ?mul1r ?mul0r.
  - rewrite /truncated /pseudoInverse VDU VDV; congr (_ *m diag_mx _ *m _).
    by apply/matrixP=> i j; rewrite !mxE E1'; case: ifP; rewrite ?mul1r ?mul0r.
  - by rewrite /truncated /pseudoInverse UDV symQ.
  - by rewrite /truncated /pseudoInverse VDU symQ.
move=> x; rewrite [X in X - _]HA /truncated -mulmxBl -mulmxBr -linearB /= -!mulmxA.
rewrite (sqn_orth _ HU) sqn_diag.
apply: le_trans (_ : th ^+ 2 * sqn (V^T *m x) <= _); last first.
  by apply: ler_wpmul2l; [exact: sqr_ge0|exact: bessel].
rewrite /sqn mulr_sumr; apply: ler_sum => j _; apply: ler_wpmul2r; first exact: sqr_ge0.
rewrite !mxE; case: ifP => h; first by rewrite subrr expr0n sqr_ge0.
by rewrite subr0 ler_pexpn2r // ?nnegrE // leNgt h.
Qed.

(** With every non zero singular value above the threshold it is the pseudo inverse of the input. *)
Theorem pinv_penrose : (forall j, th < S 0 j \/ S 0 j = 0) -> penrose A (pseudoInverse th d).
Proof.
move=> HJ. have -> : A = truncated.
  rewrite {1}HA /truncated; congr (_ *m diag_mx _ *m _); apply/matrixP=> i j; rewrite !mxE ord1.
  by case: ifP => // h; case: (HJ j) => //; rewrite h.
by case: pinv_truncated => _ [].
Qed.
End Pseudo.

(** A negative threshold divides by zero on a singular matrix. *)
Theorem pinv_negative_threshold_refuted (R : realFieldType) :
  exists th (A : 'M[R]_1) (d : tsvd R 1 1 1), th < 0 /\ is_tsvd A d /\ ~ pinv_defined th (tS d).
Proof.
exists (-1), 0, (mkT 1%:M 0 1%:M); split; first by rewrite oppr_lt0 ltr01.
split; last by move/(_ 0); rewrite !mxE oppr_lt0 ltr01 eqxx => /(_ isT).
split=> /=; rewrite ?trmx1 ?mulmx1 //; first by move=> j; rewrite mxE.
by rewrite mul1mx linear0.
Qed.

(** ** The damped inverse *)
Section Damped.
Variable R : realFieldType.
Variables (m k p : nat) (A : 'M[R]_(m, k)) (d : tsvd R m k p) (l : R).
Hypothesis Hd : is_tsvd A d.
Hypothesis l0 : l != 0.
Local Notation U := (tU d).
Local Notation V := (tV d).
Local Notation S := (tS d).
Let HU : U^T *m U = 1%:M. Proof. by case: Hd. Qed.
Let HV : V^T *m V = 1%:M. Proof. by case: Hd. Qed.
Let HA : A = U *m diag_mx S *m V^T. Proof. by case: Hd. Qed.
Local Notation D := (dampedInverse l d).

Lemma den_gt0 (s : R) : 0 < s ^+ 2 + l * l.
Proof. by apply: ltr_paddl; [exact: sqr_ge0|rewrite -expr2 lt_def sqrf_eq0 l0 sqr_ge0]. Qed.
Lemma damped_def : damped_defined l S.
Proof. by move=> j; rewrite gt_eqF // den_gt0. Qed.

Lemma regular q r (B : 'M[R]_(q, r)) : B^T *m B + (l * l)%:M \in unitmx.
Proof.
rewrite -row_free_unit -kermx_eq0; apply/rowV0P => v /sub_kermxP E.
have Z : sqn (B *m v^T) + l * l * sqn v^T = 0.
  have : (v *m (B^T *m B + (l * l)%:M) *m v^T) 0 0 = 0 by rewrite E mul0mx mxE.
  rewrite mulmxDr mulmxDl mxDE => <-; congr (_ + _); first by rewrite sqnE trmx_mul trmxK !mulmxA.
  by rewrite sqnE trmxK mul_mx_scalar -scalemxAl [RHS]mxE.
have [l1 l2] : 0 < l * l /\ 0 <= sqn v^T by split; [rewrite -expr2 lt_def sqrf_eq0 l0 sqr_ge0|exact: sqn_ge0].
have : sqn v^T = 0.
  apply/eqP; rewrite eq_le sqn_ge0 andbT -(pmulr_rle0 _ l1).
  by rewrite -Z ler_addr sqn_ge0.
by move/sqn_eq0 => H; rewrite -[v]trmxK H trmx0.
Qed.

(** The damped inverse is (A^T A + l^2 I)^-1 A^T, which is also A^T (A A^T + l^2 I)^-1. *)
Theorem damped_formula : damped_defined l S /\
  A^T *m A + (l * l)%:M \in unitmx /\ D = invmx (A^T *m A + (l * l)%:M) *m A^T /\
  A *m A^T + (l * l)%:M \in unitmx /\ D = A^T *m invmx (A *m A^T + (l * l)%:M).
Proof.
split; first exact: damped_def. split; first exact: regular.
have AT : A^T = V *m diag_mx S *m U^T by rewrite HA !trmx_mul trmxK tr_diag_mx mulmxA.
have SD : forall j, S 0 j * (S 0 j * (S 0 j / (S 0 j ^+ 2 + l * l))) + l * l * (S 0 j / (S 0 j ^+ 2 + l * l)) = S 0 j.
  by move=> j; rewrite mulrA -expr2 -mulrDl mulrCA divff ?mulr1 // damped_def.
have E1 : (A^T *m A + (l * l)%:M) *m D = A^T.
  rewrite mulmxDl mul_scalar_mx AT {1}HA (VDU Hd) /dampedInverse (VDV Hd) scalemxAl scalemxAr.
  rewrite -mulmxDl -mulmxDr; congr (_ *m _ *m _); apply/matrixP=> i j; rewrite !mxE.
  case: eqP => [->|_]; last by rewrite !mulr0n mulr0 addr0.
  by rewrite !mulr1n -[S 0 _ * S 0 _ * _]mulrA; exact: SD.
split; first by rewrite -{2}E1 mulKmx // regular.
have RU : A *m A^T + (l * l)%:M \in unitmx by have := regular A^T; rewrite trmxK.
split=> //.
have E2 : D *m (A *m A^T + (l * l)%:M) = A^T.
  rewrite mulmxDr mul_mx_scalar AT {1}HA /dampedInverse mulmxA (VDU Hd) (VDV Hd) scalemxAl scalemxAr.
  rewrite -mulmxDl -mulmxDr; congr (_ *m _ *m _); apply/matrixP=> i j; rewrite !mxE.
  case: eqP => [->|_]; last by rewrite !mulr0n mulr0 addr0.
  rewrite !mulr1n -[RHS]SD; congr (_ + _). by rewrite [_ * S 0 j]mulrC [_ / _ * S 0 j]mulrC.
by rewrite -{1}E2 mulmxK.
Qed.

(** It minimises the residual plus the weighted norm of the solution. *)
Theorem damped_minimises (b : 'cV[R]_m) (x : 'cV[R]_k) :
  sqn (A *m (D *m b) - b) + l ^+ 2 * sqn (D *m b) <= sqn (A *m x - b) + l ^+ 2 * sqn x.
Proof.
have [_ [U1 [E _]]] := damped_formula.
set y := D *m b. have Ny : (A^T *m A + (l * l)%:M) *m y = A^T *m b by rewrite /y E -mulmxA mulKVmx.
clearbody y.
set z := x - y.
have -> : A *m x - b = (A *m y - b) + A *m z by rewrite /z mulmxBr; abel.
have -> : x = y + z by rewrite /z; abel.
rewrite [sqn (A *m y - b + _)]sqnD [sqn (y + z)]sqnD.
have C : ((A *m y - b)^T *m (A *m z)) 0 0 + l ^+ 2 * (y^T *m z) 0 0 = 0.
  have : (z^T *m ((A^T *m A + (l * l)%:M) *m y - A^T *m b)) 0 0 = 0 by rewrite Ny subrr mulmx0 mxE.
  have T1 : ((A *m y - b)^T *m (A *m z)) 0 0 = (z^T *m (A^T *m (A *m y - b))) 0 0.
    by rewrite -[LHS]trace_mx11 -[RHS]trace_mx11 -mxtrace_tr !trmx_mul trmxK mulmxA.
  have T2 : (y^T *m z) 0 0 = (z^T *m y) 0 0.
    by rewrite -[LHS]trace_mx11 -[RHS]trace_mx11 -mxtrace_tr trmx_mul trmxK.
  rewrite T1 T2 => <-. rewrite mulmxDl mul_scalar_mx !(mulmxDr, mulmxN, mulmxA) -scalemxAr !(mxDE, mxNE, mxZE) expr2.
  by abel.
set a := ((A *m y - b)^T *m (A *m z)) 0 0 in C *. set c := (y^T *m z) 0 0 in C *.
have -> : sqn (A *m y - b) + sqn (A *m z) + a *+ 2 + l ^+ 2 * (sqn y + sqn z + c *+ 2) =
   sqn (A *m y - b) + l ^+ 2 * sqn y + (sqn (A *m z) + l ^+ 2 * sqn z) + (a + l ^+ 2 * c) *+ 2.
  by rewrite !mulr2n !mulrDr; abel.
rewrite C mul0rn addr0 ler_addl addr_ge0 ?sqn_ge0 // mulr_ge0 ?sqr_ge0 ?sqn_ge0 //.
Qed.

(** The gain is bounded by 1/(2 l): never more, even at singularities. *)
Theorem damped_bound (b : 'cV[R]_m) : 4%:R * l ^+ 2 * sqn (D *m b) <= sqn b.
Proof.
apply: le_trans (_ : sqn (U^T *m b) <= _); last exact: bessel.
rewrite /dampedInverse -!mulmxA (sqn_orth _ HV) sqn_diag mulr_sumr; apply: ler_sum => j _.
rewrite mulrA -[X in _ <= X]mul1r; apply: ler_wpmul2r; first exact: sqr_ge0.
rewrite mxE expr_div_n mulrA ler_pdivr_mulr ?mul1r; last by rewrite exprn_gt0 // den_gt0.
rewrite -subr_ge0.
have -> : (S 0 j ^+ 2 + l * l) ^+ 2 - 4%:R * l ^+ 2 * S 0 j ^+ 2 = (S 0 j ^+ 2 - l * l) ^+ 2.
  rewrite sqrrD sqrrB; set t := S 0 j ^+ 2 * (l * l) *+ 2.
  have -> : 4%:R * l ^+ 2 * S 0 j ^+ 2 = t + t.
    by rewrite -mulrA [l ^+ 2 * _]mulrC mulr_natl expr2 /t -mulrnDr.
  by abel.
exact: sqr_ge0.
Qed.
End Damped.

(** Without damping a singular matrix gives 0 / 0. *)
Theorem damped_zero_refuted (R : realFieldType) :
  exists (A : 'M[R]_1) (d : tsvd R 1 1 1), is_tsvd A d /\ ~ damped_defined 0 (tS d).
Proof.
exists 0, (mkT 1%:M 0 1%:M); split; last by move/(_ 0); rewrite !mxE expr0n mul0r addr0 eqxx.
split=> /=; rewrite ?trmx1 ?mulmx1 //; first by move=> j; rewrite mxE.
by rewrite mul1mx linear0.
Qed.

(** The columns of the full V that are used are orthonormal, so that the variant with the full V
    computes the same. *)
Theorem left_cols_orthonormal (R : realFieldType) k p (h : (p <= k)%N) (V : 'M[R]_k) :
  V^T *m V = 1%:M -> (leftCols h V)^T *m leftCols h V = 1%:M.
Proof.
move=> HV; apply/matrixP=> i j.
have := congr1 (fun M : 'M_k => M (widen_ord h i) (widen_ord h j)) HV.
by rewrite !mxE => E; transitivity ((widen_ord h i == widen_ord h j)%:R : R) => //; rewrite -E; apply: eq_bigr => l _; rewrite !mxE.
Qed.

(** Example: the matrix (2 0) of the rationals, singular values (2). *)
Example pinv_example :
  let A : 'M[rat_realFieldType]_(1, 2) := \matrix_(i, j) (if j == 0 then 2%:Q else 0) in
  let d := mkT 1%:M (\row_j 2%:Q) (\matrix_(i, j) (if i == 0 then 1 else 0)) : tsvd rat_realFieldType 1 2 1 in
  is_tsvd A d /\ (forall j, (1%:Q < tS d 0 j) \/ tS d 0 j = 0).
Proof.
split; last by move=> j; left; rewrite mxE.
split=> /=; first by rewrite trmx1 mulmx1.
- by apply/matrixP=> i j; rewrite !ord1 !mxE !big_ord_recl big_ord0 !mxE.
- by move=> j; rewrite mxE.
- by apply/matrixP=> i j; rewrite !ord1 mul1mx mul_diag_mx !mxE; case: ifP => _; rewrite ?mulr1 ?mulr0.
Qed.

Print Assumptions penrose_unique.
Print Assumptions penrose_least_squares.
Print Assumptions penrose_least_norm.
Print Assumptions pinv_truncated.
Print Assumptions pinv_penrose.
Print Assumptions pinv_negative_threshold_refuted.
Print Assumptions damped_formula.
Print Assumptions damped_minimises.
Print Assumptions damped_bound.
Print Assumptions damped_zero_refuted.
Print Assumptions left_cols_orthonormal.
