(** Proofs about the hierarchical solver model. *)
From Coq Require Import ZArith String.
From Verif Require Import Base Flags_Model Flags_Proofs Solver_Model.
From mathcomp Require Import all_ssreflect all_algebra.
Import Order.TTheory GRing.Theory Num.Theory.
Set Implicit Arguments.
Unset Strict Implicit.
Unset Printing Implicit Defensive.
Local Open Scope ring_scope.

Section Norm.
Variable R : realFieldType.

Lemma mxBE m k (X Y : 'M[R]_(m, k)) i j : (X - Y) i j = X i j - Y i j.
Proof. by rewrite !mxE. Qed.
Lemma mxDE m k (X Y : 'M[R]_(m, k)) i j : (X + Y) i j = X i j + Y i j.
Proof. by rewrite !mxE. Qed.

Lemma sqnormE m (x : 'cV[R]_m) : sqnorm x = (x^T *m x) 0 0.
Proof. by rewrite mxE; apply: eq_bigr => i _; rewrite mxE expr2. Qed.

Lemma sqnorm_ge0 m (x : 'cV[R]_m) : 0 <= sqnorm x.
Proof. by apply: sumr_ge0 => i _; apply: sqr_ge0. Qed.

Lemma sqnorm_eq0 m (x : 'cV[R]_m) : (sqnorm x == 0) = (x == 0).
Proof.
apply/idP/eqP => [|->]; last first.
  by rewrite /sqnorm big1 // => i _; rewrite mxE expr0n.
rewrite /sqnorm psumr_eq0 => [/allP h|i _]; last exact: sqr_ge0.
apply/matrixP => i j; rewrite ord1 mxE.
by have /= := h i (mem_index_enum i); rewrite sqrf_eq0 => /eqP.
Qed.

Lemma sqnormD m (x y : 'cV[R]_m) :
  sqnorm (x + y) = sqnorm x + sqnorm y + (x^T *m y) 0 0 *+ 2.
Proof.
rewrite !sqnormE [(x + y)^T]linearD /= mulmxDl !mulmxDr !mxE.
have -> : \sum_j y^T 0 j * x j 0 = \sum_j x^T 0 j * y j 0.
  by apply: eq_bigr => j _; rewrite !mxE mulrC.
by rewrite mulr2n (addrC (\sum_j x^T 0 j * y j 0) (\sum_j y^T 0 j * y j 0)) addrACA.
Qed.

Lemma sqnorm_orth m k (Q : 'M[R]_(m, k)) (x : 'cV[R]_k) :
  Q^T *m Q = 1%:M -> sqnorm (Q *m x) = sqnorm x.
Proof.
by move=> h; rewrite !sqnormE trmx_mul mulmxA -(mulmxA x^T) h mulmx1.
Qed.

Lemma sum_right k r (F : 'I_k -> R) :
  \sum_(l < k - r) F (Ordinal (rcol_subproof l)) = \sum_(i < k | (r <= i)%N) F i.
Proof.
pose G i := if insub i is Some o then F o else 0.
have GE (o : 'I_k) : G o = F o by rewrite /G valK.
under eq_bigr => l _ do rewrite -GE /=.
under [RHS]eq_bigr => i _ do rewrite -GE.
rewrite -(big_mkord xpredT (fun l => G (r + l)%N)).
have := @big_geq_mkord _ _ (GRing.add_comoid R) r k xpredT G; rewrite /= => <-.
rewrite -[X in index_iota X k]add0n big_addn.
by apply: eq_bigr => i _; rewrite addnC.
Qed.

End Norm.

Section OneSvd.
Variable R : realFieldType.
Variables (m k : nat) (A : 'M[R]_(m, k)) (d : svdres R m k) (th : R).
Hypothesis Hsvd : is_svd A d.
Local Notation p := (minn m k).
Local Notation r := (rankJ th d).
Local Notation U := (svU d).
Local Notation S := (svS d).
Local Notation V := (svV d).
Local Notation Vt := (vthin d).
Local Notation V2 := (rightCols r V).

Let HU : U^T *m U = 1%:M. Proof. by case: Hsvd. Qed.
Let HV : V^T *m V = 1%:M. Proof. by case: Hsvd. Qed.
Let HVr : V *m V^T = 1%:M. Proof. exact: mulmx1C. Qed.
Let HS j : 0 <= S 0 j. Proof. by case: Hsvd. Qed.
Let HA : A = U *m diag_mx S *m Vt^T. Proof. by case: Hsvd. Qed.

Lemma rank_gt (j : 'I_p) : (j < r)%N = (th < S 0 j).
Proof.
have nthE (i : 'I_p) : nth 0 [seq S 0 x | x <- enum 'I_p] i = S 0 i.
  by rewrite (nth_map i) ?size_enum_ord // nth_ord_enum.
apply/idP/idP => [hj|].
  by have := before_find 0 hj; rewrite nthE => /negbT; rewrite negbK.
apply: contraTT; rewrite -leqNgt -leNgt => hr.
have hrp : (r < p)%N by apply: leq_ltn_trans (ltn_ord j).
have hf : has (fun x => ~~ (th < x)) [seq S 0 x | x <- enum 'I_p].
  by rewrite has_find size_map size_enum_ord.
have := nth_find 0 hf; rewrite -/(rankJ th d) -[r]/(nat_of_ord (Ordinal hrp)) nthE -leNgt.
case: Hsvd => _ _ _ hsort _; apply: le_trans; exact: hsort.
Qed.

Lemma rank_le_p : (r <= p)%N.
Proof.
by have := find_size (fun x => ~~ (th < x)) [seq S 0 x | x <- enum 'I_p];
  rewrite size_map size_enum_ord.
Qed.

Lemma rank_le_k : (r <= k)%N.
Proof. exact: leq_trans rank_le_p (geq_minr m k). Qed.

Lemma VtV j i : (Vt^T *m V) j i = (widen_ord (geq_minr m k) j == i)%:R.
Proof.
have := congr1 (fun M : 'M_k => M (widen_ord (geq_minr m k) j) i) HV.
rewrite !mxE => <-; apply: eq_bigr => l _; by rewrite !mxE.
Qed.

Lemma Vt_orth : Vt^T *m Vt = 1%:M.
Proof.
apply/matrixP => i j.
have := VtV i (widen_ord (geq_minr m k) j).
rewrite !mxE => E; rewrite -[RHS]/((i == j)%:R).
have -> : (i == j) = (widen_ord (geq_minr m k) i == widen_ord (geq_minr m k) j) by [].
rewrite -E; apply: eq_bigr => l _; by rewrite !mxE.
Qed.

Lemma VtV2 j l : (Vt^T *m V2) j l = ((j : nat) == r + l)%N%:R.
Proof.
have := VtV j (Ordinal (rcol_subproof l)).
rewrite !mxE => E; rewrite -[LHS]/(_) .
transitivity ((widen_ord (geq_minr m k) j == Ordinal (rcol_subproof l))%:R : R) => //.
by rewrite -E; apply: eq_bigr => i _; rewrite !mxE.
Qed.

Lemma V2_orth : V2^T *m V2 = 1%:M.
Proof.
apply/matrixP => i j.
have := congr1 (fun M : 'M_k => M (Ordinal (rcol_subproof i)) (Ordinal (rcol_subproof j))) HV.
rewrite !mxE => E.
have -> : (i == j) = (Ordinal (rcol_subproof i) == Ordinal (rcol_subproof j)).
  by rewrite -!val_eqE /= eqn_add2l.
by rewrite -E; apply: eq_bigr => l _; rewrite !mxE.
Qed.

Lemma UtA : U^T *m A = diag_mx S *m Vt^T.
Proof. by rewrite HA !mulmxA HU mul1mx. Qed.

Lemma UtAE j (y : 'cV[R]_k) : (U^T *m A *m y) j 0 = S 0 j * (Vt^T *m y) j 0.
Proof. by rewrite UtA -mulmxA mul_diag_mx mxE. Qed.

(** The retained left singular directions do not see the new null space. *)
Lemma retained_annihilate j (z : 'cV[R]_(k - r)) :
  th < S 0 j -> (U^T *m A *m (V2 *m z)) j 0 = 0.
Proof.
rewrite -rank_gt => hj; rewrite UtAE mulmxA mxE big1 ?mulr0 // => l _.
rewrite VtV2; case: eqP => [e|_]; last by rewrite mul0r.
by move: hj; rewrite e ltnNge leq_addr.
Qed.

(** Converse: the new null space is everything they do not see. *)
Lemma annihilated_span (y : 'cV[R]_k) : 0 <= th ->
  (forall j, th < S 0 j -> (U^T *m A *m y) j 0 = 0) -> y = V2 *m (V2^T *m y).
Proof.
move=> th0 h.
have h0 (i : 'I_k) : (i < r)%N -> (V^T *m y) i 0 = 0.
  move=> hi.
  have hp : (i < p)%N by apply: leq_trans rank_le_p.
  have hs : th < S 0 (Ordinal hp) by rewrite -rank_gt.
  have := h _ hs; rewrite UtAE => /eqP; rewrite mulf_eq0 => /orP[|/eqP].
    by rewrite gt_eqF // (le_lt_trans th0).
  by rewrite !mxE => E; rewrite -[RHS]E; apply: eq_bigr => l _; rewrite !mxE;
    congr (V _ _ * _); apply: val_inj.
rewrite -{1}(mul1mx y) -HVr -mulmxA.
apply/matrixP => i j; rewrite ord1 !mxE.
rewrite (bigID (fun q : 'I_k => (r <= q)%N)) /= [X in _ + X]big1 ?addr0; last first.
  by move=> q; rewrite -ltnNge => hq; rewrite h0 // mulr0.
rewrite -(sum_right r (fun q => V i q * (V^T *m y) q 0)).
by apply: eq_bigr => l _; rewrite !mxE; congr (_ * _); apply: eq_bigr => q _; rewrite !mxE.
Qed.

(** Nothing is lost when the discarded singular values are zero. *)
Hypothesis Hdisc : forall j, ~~ (th < S 0 j) -> S 0 j = 0.

Lemma A_V2_0 : A *m V2 = 0.
Proof.
apply/matrixP => i l; rewrite HA -!mulmxA [in RHS]mxE mxE big1 // => j _.
rewrite mul_diag_mx mxE VtV2.
case: eqP => [e|_]; last by rewrite !mulr0.
rewrite Hdisc ?mul0r ?mulr0 // -rank_gt e; by rewrite -leqNgt leq_addr.
Qed.
End OneSvd.

Section OneSvd2.
Variable R : realFieldType.
Variables (m k : nat) (A : 'M[R]_(m, k)) (d : svdres R m k) (th : R).
Hypothesis Hsvd : is_svd A d.
Hypothesis th0 : 0 <= th.
Variable err : 'cV[R]_m.
Local Notation p := (minn m k).
Local Notation r := (rankJ th d).
Local Notation U := (svU d).
Local Notation S := (svS d).
Local Notation V := (svV d).
Local Notation Vt := (vthin d).
Local Notation V2 := (rightCols r V).
Local Notation tt := (tmpTask d r err).
Local Notation x0 := (Vt *m tt).

Let HU : U^T *m U = 1%:M. Proof. by case: Hsvd. Qed.
Let HV : V^T *m V = 1%:M. Proof. by case: Hsvd. Qed.
Let HS j : 0 <= S 0 j. Proof. by case: Hsvd. Qed.
Let HA : A = U *m diag_mx S *m Vt^T. Proof. by case: Hsvd. Qed.

Lemma S_tmpTask j :
  (diag_mx S *m tt) j 0 = if th < S 0 j then (U^T *m err) j 0 else 0.
Proof.
rewrite mul_diag_mx mxE [tmpTask _ _ _ _ _]mxE (rank_gt th Hsvd).
case: ifP => [hs|_]; last by rewrite mulr0.
by rewrite mulrCA divff ?mulr1 // gt_eqF // (le_lt_trans th0).
Qed.

Lemma UtA_x0 j : (U^T *m A *m x0) j 0 = if th < S 0 j then (U^T *m err) j 0 else 0.
Proof.
by rewrite (UtA Hsvd) -mulmxA (mulmxA Vt^T) (Vt_orth Hsvd) mul1mx S_tmpTask.
Qed.

Lemma A_x0 : A *m x0 = U *m (diag_mx S *m tt).
Proof. by rewrite HA -!mulmxA (mulmxA Vt^T) (Vt_orth Hsvd) mul1mx. Qed.

(** The task gets its reference on every retained direction. *)
Lemma retained_reached j : th < S 0 j -> (U^T *m (err - A *m x0)) j 0 = 0.
Proof.
by move=> hs; rewrite mulmxBr mulmxA mxBE UtA_x0 hs subrr.
Qed.

Lemma x0_V2 (z : 'cV[R]_(k - r)) : (x0^T *m (V2 *m z)) 0 0 = 0.
Proof.
rewrite trmx_mul -mulmxA (mulmxA Vt^T) mxE big1 // => j _.
rewrite mxE [tmpTask _ _ _ _ _]mxE; case: ifP => hj; last by rewrite mul0r.
rewrite [X in _ * X](_ : _ = 0) ?mulr0 //.
rewrite mxE big1 // => l _; rewrite (VtV2 Hsvd).
case: eqP => [e|_]; last by rewrite mul0r.
by move: hj; rewrite e ltnNge leq_addr.
Qed.

Lemma bessel (y : 'cV[R]_k) : sqnorm (Vt^T *m y) <= sqnorm y.
Proof.
set W := Vt *m (Vt^T *m y).
have h : sqnorm y = sqnorm (y - W) + sqnorm (Vt^T *m y).
  transitivity (sqnorm ((y - W) + W)); first by rewrite subrK.
  rewrite sqnormD {2}/W (sqnorm_orth _ (Vt_orth Hsvd)).
  rewrite [X in X *+ 2](_ : _ = 0) ?mul0rn ?addr0 //.
  rewrite /W [(y - _)^T]linearB /= trmx_mul trmx_mul trmxK mulmxBl -!mulmxA.
  by rewrite (mulmxA Vt^T Vt) (Vt_orth Hsvd) mul1mx subrr mxE.
by rewrite h ler_addr sqnorm_ge0.
Qed.

(** What later tasks can do to this one is bounded by the threshold. *)
Lemma disturbance_bound (z : 'cV[R]_(k - r)) :
  sqnorm (A *m (V2 *m z)) <= th ^+ 2 * sqnorm z.
Proof.
rewrite HA -!mulmxA (sqnorm_orth _ HU).
have hb := bessel (V2 *m z).
rewrite (sqnorm_orth _ (V2_orth th Hsvd)) in hb.
apply: le_trans (_ : th ^+ 2 * sqnorm (Vt^T *m (V2 *m z)) <= _); last first.
  by apply: ler_wpmul2l => //; apply: sqr_ge0.
rewrite /sqnorm mulr_sumr; apply: ler_sum => j _.
rewrite mul_diag_mx mxE exprMn.
case: (boolP (th < S 0 j)) => hs.
  have -> : (Vt^T *m (V2 *m z)) j 0 = 0.
    rewrite mulmxA mxE big1 // => l _; rewrite (VtV2 Hsvd).
    case: eqP => [e|_]; last by rewrite mul0r.
    by move: hs; rewrite -(rank_gt th Hsvd) e ltnNge leq_addr.
  by rewrite expr0n /= !mulr0.
apply: ler_wpmul2r; first exact: sqr_ge0.
rewrite ler_pexpn2r // ?nnegrE //.
by rewrite leNgt.
Qed.

Hypothesis Hdisc : forall j, ~~ (th < S 0 j) -> S 0 j = 0.

Lemma normal_equation : A^T *m (err - A *m x0) = 0.
Proof.
have -> : A^T = Vt *m diag_mx S *m U^T.
  by rewrite HA !trmx_mul trmxK tr_diag_mx mulmxA.
rewrite -!mulmxA; apply/matrixP => i j; rewrite ord1 [in RHS]mxE mxE big1 // => q _.
rewrite mul_diag_mx mxE.
case: (boolP (th < S 0 q)) => hs; last by rewrite Hdisc // mul0r mulr0.
by rewrite retained_reached // !mulr0.
Qed.

Lemma least_squares (z : 'cV[R]_k) : sqnorm (err - A *m x0) <= sqnorm (err - A *m z).
Proof.
have -> : err - A *m z = (err - A *m x0) + A *m (x0 - z).
  by rewrite mulmxBr addrA subrK.
rewrite (sqnormD (err - A *m x0)) -addrA ler_addl.
rewrite [X in X *+ 2](_ : _ = 0) ?mul0rn ?addr0 ?sqnorm_ge0 //.
have e : (err - A *m x0)^T *m A = 0.
  by rewrite -[LHS]trmxK trmx_mul trmxK normal_equation trmx0.
by rewrite mulmxA e mul0mx mxE.
Qed.

Lemma x0_range : exists y, x0 = A^T *m y.
Proof.
exists (U *m (\col_j (tt j 0 * (if th < S 0 j then (S 0 j)^-1 else 0)))).
have -> : A^T = Vt *m diag_mx S *m U^T.
  by rewrite HA !trmx_mul trmxK tr_diag_mx mulmxA.
rewrite -!mulmxA (mulmxA U^T) HU mul1mx; congr (_ *m _).
apply/matrixP => j l; rewrite ord1 mul_diag_mx [in RHS]mxE.
rewrite [(\col_j _) _ _]mxE.
case: (boolP (th < S 0 j)) => hs.
  by rewrite mulrCA divff ?mulr1 // gt_eqF // (le_lt_trans th0).
by rewrite !mulr0 mxE (rank_gt th Hsvd) (negbTE hs).
Qed.

Lemma least_norm (z : 'cV[R]_k) : A *m z = A *m x0 -> sqnorm x0 <= sqnorm z.
Proof.
move=> h; have [y hy] := x0_range.
have -> : z = x0 + (z - x0) by rewrite addrC subrK.
rewrite sqnormD -addrA ler_addl.
rewrite [X in X *+ 2](_ : _ = 0) ?mul0rn ?addr0 ?sqnorm_ge0 //.
by rewrite {1}hy trmx_mul trmxK -mulmxA mulmxBr h subrr mulmx0 mxE.
Qed.
End OneSvd2.
