(** Exact singular value decompositions of matrices with orthonormal rows exist over any real field
    (products of reflections), so the solver is defined on orthogonal tasks: used by Closed_Props. *)
From Coq Require Import ZArith String.
From Verif Require Import Base Flags_Model Solver_Model Solver_Spec Solver_Proofs Solver_Proofs2 Solver_Props Closed_Solver.
From mathcomp Require Import all_ssreflect all_algebra.
Import Order.TTheory GRing.Theory Num.Theory.
Set Implicit Arguments.
Unset Strict Implicit.
Unset Printing Implicit Defensive.
Local Open Scope ring_scope.

Section Reflection.
Variable R : realFieldType.
Variable k : nat.
Local Notation dot x y := ((x *m y^T) 0 0).
Implicit Types x y v b e : 'rV[R]_k.

Lemma mxBE m p (A B : 'M[R]_(m, p)) i j : (A - B) i j = A i j - B i j.
Proof. by rewrite !mxE. Qed.

Lemma dotC x y : dot x y = dot y x.
Proof. by rewrite !mxE; apply: eq_bigr => i _; rewrite !mxE mulrC. Qed.

Lemma dot_eq0 v : dot v v = 0 -> v = 0.
Proof.
rewrite mxE => /eqP; rewrite (eq_bigr (fun i => v 0 i ^+ 2)) => [|i _]; last by rewrite !mxE expr2.
rewrite psumr_eq0 => [/allP h|i _]; last exact: sqr_ge0.
apply/matrixP => a i; rewrite ord1 [in RHS]mxE.
by have := h i (mem_index_enum _); rewrite sqrf_eq0 => /eqP.
Qed.

(** The reflection that exchanges two rows of the same length. *)
Definition refl v : 'M[R]_k := 1%:M - (2%:R / dot v v) *: (v^T *m v).

Lemma refl_row x v : x *m refl v = x - (2%:R * dot x v / dot v v) *: v.
Proof.
rewrite /refl mulmxBr mulmx1 -scalemxAr mulmxA {1}[x *m v^T]mx11_scalar mul_scalar_mx scalerA.
congr (_ - _ *: _); exact: mulrAC.
Qed.

Lemma refl_id x v : dot x v = 0 -> x *m refl v = x.
Proof. by move=> h; rewrite refl_row h mulr0 mul0r scale0r subr0. Qed.

Lemma refl_swap b e : dot b b = 1 -> dot e e = 1 -> b *m refl (b - e) = e.
Proof.
move=> hb he; case: (eqVneq (b - e) 0) => [h|h].
  rewrite refl_id; last by rewrite h trmx0 mulmx0 mxE.
  by apply/eqP; rewrite -subr_eq0 h.
have hv : dot (b - e) (b - e) = 2%:R * dot b (b - e).
  rewrite [(b - e)^T]linearB /= !mulmxBl !mulmxBr !mxBE hb he [dot e b]dotC.
  by rewrite mulrBr mulr1 opprB mulr_natl mulr2n opprD addrACA.
have hn : dot (b - e) (b - e) != 0 by apply: contra_neq h => /dot_eq0.
by rewrite refl_row -hv divff // scale1r opprB addrC subrK.
Qed.

Lemma refl_sym v : (refl v)^T = refl v.
Proof. by rewrite /refl linearB /= trmx1 linearZ /= trmx_mul trmxK. Qed.

Lemma refl_inv v : refl v *m refl v = 1%:M.
Proof.
case: (eqVneq v 0) => [->|h]; first by rewrite /refl mulmx0 scaler0 subr0 mulmx1.
have hn : dot v v != 0 by apply: contra_neq h => /dot_eq0.
apply/row_matrixP => i; rewrite row_mul.
set x := row i (refl v); rewrite refl_row.
pose e : 'rV[R]_k := delta_mx 0 i.
have hx : x = e - (2%:R * dot e v / dot v v) *: v by rewrite /x rowE refl_row.
have hd : dot x v = - dot e v.
  rewrite hx mulmxBl mxBE -scalemxAl [in X in _ - X]mxE divfK //.
  by rewrite mulr_natl mulr2n opprD addrA subrr add0r.
by rewrite hd {1}hx mulrN mulNr scaleNr opprK subrK rowE mulmx1.
Qed.
End Reflection.

Section Svd.
Variable R : realFieldType.

Lemma complete m k (A : 'M[R]_(m, k)) : A *m A^T = 1%:M ->
  (m <= k)%N /\ exists Q : 'M[R]_k, [/\ Q^T *m Q = 1%:M, Q *m Q^T = 1%:M &
    forall (i : 'I_m) (j : 'I_k), (A *m Q) i j = ((i : nat) == j)%:R].
Proof.
elim: m A => [|m IH] A hA.
  by split=> //; exists 1%:M; split; rewrite ?trmx1 ?mulmx1 // => -[].
pose A1 : 'M[R]_(m, k) := \matrix_(i, j) A (widen_ord (leqnSn m) i) j.
pose a : 'rV[R]_k := row ord_max A.
have hA1 : A1 *m A1^T = 1%:M.
  apply/matrixP => i j; have := congr1 (fun M : 'M_m.+1 => M (widen_ord (leqnSn m) i) (widen_ord (leqnSn m) j)) hA.
  rewrite !mxE => E; rewrite (eq_bigr (fun l => A (widen_ord (leqnSn m) i) l * A^T l (widen_ord (leqnSn m) j))) ?E //.
  by move=> l _; rewrite !mxE.
have [hm [Q [h1 h2 h3]]] := IH A1 hA1.
pose b := a *m Q.
have hb : (b *m b^T) 0 0 = 1.
  rewrite /b trmx_mul mulmxA -(mulmxA a) h2 mulmx1.
  have := congr1 (fun M : 'M_m.+1 => M ord_max ord_max) hA; rewrite [in X in _ = X -> _]mxE eqxx mulr1n => <-.
  by rewrite !mxE; apply: eq_bigr => l _; rewrite !mxE.
have hb0 (j : 'I_k) : (j < m)%N -> b 0 j = 0.
  move=> hj; pose i : 'I_m := Ordinal hj.
  have e : row i (A1 *m Q) = delta_mx 0 j.
    by apply/matrixP => x y; rewrite ord1 mxE h3 !mxE /= ?eqxx /= -val_eqE eq_sym.
  have : (b *m (row i (A1 *m Q))^T) 0 0 = 0.
    rewrite row_mul trmx_mul /b mulmxA -(mulmxA a) h2 mulmx1.
    have := congr1 (fun M : 'M_m.+1 => M ord_max (widen_ord (leqnSn m) i)) hA.
    rewrite [in X in _ = X -> _]mxE -val_eqE /= gtn_eqF // mulr0n => <-.
    by rewrite !mxE; apply: eq_bigr => l _; rewrite !mxE.
  by rewrite e trmx_delta -colE mxE.
have hmk : (m < k)%N.
  rewrite ltn_neqAle hm andbT; apply/eqP => e; move: hb; rewrite mxE big1 => [/eqP|l _].
    by rewrite eq_sym oner_eq0.
  by rewrite hb0 ?mul0r // (leq_trans (ltn_ord l)) // e.
split=> //; pose om : 'I_k := Ordinal hmk; pose e : 'rV[R]_k := delta_mx 0 om.
have he : (e *m e^T) 0 0 = 1 by rewrite /e trmx_delta mul_delta_mx mxE !eqxx.
exists (Q *m refl (b - e)); split.
- by rewrite trmx_mul refl_sym mulmxA -(mulmxA _ _^T) h1 mulmx1 refl_inv.
- by rewrite trmx_mul refl_sym mulmxA -(mulmxA Q) refl_inv mulmx1.
move=> i j; rewrite mulmxA.
case: (unliftP ord_max i) => [i0 ei|ei].
  have hi : (i : nat) = i0 by rewrite ei lift_max.
  have hik : (i0 < k)%N by exact: ltn_trans (ltn_ord i0) (hmk).
  have er : row i (A *m Q) = delta_mx 0 (Ordinal hik).
    apply/matrixP => x y; rewrite ord1 mxE.
    have -> : (A *m Q) i y = (A1 *m Q) i0 y.
      by rewrite !mxE; apply: eq_bigr => l _; rewrite mxE; congr (A _ _ * _); apply: val_inj; rewrite /= hi.
    by rewrite h3 !mxE ?eqxx /= -val_eqE eq_sym.
  have -> : (A *m Q *m refl (b - e)) i j = (row i (A *m Q) *m refl (b - e)) 0 j by rewrite -row_mul [in RHS]mxE.
  rewrite er refl_id; first by rewrite !mxE eqxx /= -val_eqE hi eq_sym.
  rewrite -rowE [LHS]mxE [LHS]mxE mxBE hb0 //= [e _ _]mxE -val_eqE /=.
  have -> : (Ordinal hik == om) = false by rewrite -val_eqE; exact: ltn_eqF (ltn_ord i0).
  by rewrite subr0.
have -> : (A *m Q *m refl (b - e)) i j = (row i (A *m Q) *m refl (b - e)) 0 j by rewrite -row_mul [in RHS]mxE.
by rewrite ei row_mul -/a -/b refl_swap // !mxE eqxx /= -val_eqE eq_sym.
Qed.

Lemma row_svd_exists m k (A : 'M[R]_(m, k)) : A *m A^T = 1%:M -> exists d, is_svd A d.
Proof.
move=> hA; have [hm [Q [h1 h2 h3]]] := complete hA.
exists (mkSvd (\matrix_(i, j) ((i : nat) == j)%:R) (const_mx 1) Q).
have hmin : minn m k = m by apply/minn_idPl.
split=> //=.
- apply/matrixP => i j; rewrite !mxE.
  have hi : (i < m)%N by rewrite (leq_trans (ltn_ord i)) // hmin.
  rewrite (bigD1 (Ordinal hi)) //= !mxE eqxx mul1r big1 ?addr0 // => l hl.
  rewrite !mxE; case: eqP => [e|_]; last by rewrite mul0r.
  by move: hl; rewrite -val_eqE /= e eqxx.
- by move=> j; rewrite mxE ler01.
- by move=> i j _; rewrite !mxE.
have -> : diag_mx (const_mx 1) = 1%:M :> 'M[R]_(minn m k).
  by apply/matrixP => i j; rewrite !mxE.
rewrite mulmx1; apply/matrixP => i j.
have hi : (i < minn m k)%N by rewrite hmin.
rewrite mxE (bigD1 (Ordinal hi)) //= !mxE eqxx mul1r big1 ?addr0 => [|l hl]; last first.
  rewrite !mxE; case: eqP => [e|_]; last by rewrite mul0r.
  by move: hl; rewrite -val_eqE /= -e eqxx.
have -> : A = A *m Q *m Q^T by rewrite -mulmxA h2 mulmx1.
rewrite mxE (bigD1 (widen_ord (geq_minr m k) (Ordinal hi))) //= h3 /= eqxx mul1r mxE big1 ?addr0 // => l hl.
by rewrite h3; case: eqP => [e|_]; [move: hl; rewrite -val_eqE /= e eqxx|rewrite mul0r].
Qed.
End Svd.

Section Exists.
Variable R : realFieldType.
Variable n : nat.
Variables (th lim : R).
Hypothesis th0 : 0 <= th.
Hypothesis th1 : th < 1.

Lemma loop_exists (ts : seq (task R n)) s :
  zinv s -> orth s -> all_ortho lim ts -> (forall t, List.In t ts -> Closed_Solver.free s t) ->
  exists s', loop th lim false ts s (Ok s').
Proof.
elim: ts s => [|t ts IH] s hz ho ha hf; first by exists s; constructor.
case: ha => ht hort ha.
have hft : Closed_Solver.free s t by apply: hf; left.
have [d Hd] := row_svd_exists (step_A hft ht).
have [s' Hs] : exists s', step_svd th lim (nilp ts) d = Ok s'.
  rewrite /step_svd ifF; last first.
    apply/negbTE; rewrite -leqNgt; case: ht => _ hm _; apply: leq_trans hm.
    apply: leq_trans (geq_minl _ (projT1 (basis s))).
    rewrite /rankJ -[X in (_ <= X)%N](size_enum_ord).
    by rewrite (leq_trans (find_size _ _)) // ?size_map.
  by case: ifP => _; [exists (mkSt (control s + increment th d) false
     (if nilp ts then kernel s else Some (existT (fun k => 'M[R]_(n, k)) (projT1 (basis s) - rankJ th d)%N
                        (projT2 (basis s) *m rightCols (rankJ th d) (svV d)))))|exists s].
have hstep : step_rel th lim false t (nilp ts) s (Ok s').
  by rewrite -Hs; apply: step_rel_svd => //; rewrite andbF.
case E : (nilp ts || (kcols s' == 0)%N); first by exists s'; apply: loop_stop.
have [sf hl] : exists sf, loop th lim false ts s' (Ok sf).
  apply: IH => //; first exact: step_zinv Hs hz.
    exact: step_orth Hd Hs ho.
  move=> t' hin; case: (hort _ hin) => o1 o2; apply: (step_free th0 th1 Hd Hs) => //.
    by case: (nilp ts) E.
  by apply: hf; right.
by exists sf; apply: loop_next hstep _ hl; rewrite E.
Qed.

Lemma solve_exists (ts : seq (task R n)) : ~~ nilp ts -> all_ortho lim ts ->
  exists u, computeControlLaw th lim false None None ts (Ok u).
Proof.
move=> hne ha; pose s := @mkSt R n 0 true None.
have hi : initState None None ts = Ok s by rewrite /initState (negbTE hne).
have [s' hl] : exists s', loop th lim false ts s (Ok s').
  apply: loop_exists => //.
    by rewrite /orth /= trmx1 mulmx1.
  by move=> t _; split; rewrite /= ?mulmx0 // trmx1 mulmx1 mul1mx.
by exists (control s'); apply: ccl_ok hl.
Qed.
End Exists.
