(** The solver on tasks whose jacobians have orthonormal rows, orthogonal to those of the other
    tasks (selections of different joints for instance): used by Closed_Props. *)
From Coq Require Import ZArith String.
From Verif Require Import Base Flags_Model Solver_Model Solver_Spec Solver_Proofs Solver_Proofs2 Solver_Props.
From mathcomp Require Import all_ssreflect all_algebra.
Import Order.TTheory GRing.Theory Num.Theory.
Set Implicit Arguments.
Unset Strict Implicit.
Unset Printing Implicit Defensive.
Local Open Scope ring_scope.

Section Ortho.
Variable R : realFieldType.
Variable n : nat.
Variables (th lim : R).
Hypothesis th0 : 0 <= th.
Hypothesis th1 : th < 1.
Local Notation st := (st R n).
Local Notation task := (task R n).
Local Notation loop_log := (@loop_log R n th lim false).
Local Notation bas s := (projT2 (basis s)).
Local Notation J t := (activated (sel t) (jac t)).

(** A matrix with orthonormal rows has only singular values one. *)
Section Svd.
Variables (m k : nat) (A : 'M[R]_(m, k)) (d : svdres R m k).
Hypothesis Hd : is_svd A d.
Hypothesis HA : A *m A^T = 1%:M.

Lemma row_svd_U : svU d *m (svU d)^T = 1%:M.
Proof.
have [HU _ _ _ E] := Hd.
have e : A = svU d *m (diag_mx (svS d) *m (vthin d)^T) by rewrite mulmxA.
have h : svU d *m (svU d)^T *m A = A by rewrite {1}e !mulmxA -(mulmxA _ _^T) HU mulmx1 -mulmxA -e.
by rewrite -[LHS]mulmx1 -HA !mulmxA h.
Qed.

Lemma row_svd_S j : svS d 0 j = 1.
Proof.
have [HU _ S0 _ E] := Hd.
have h : (diag_mx (svS d) *m diag_mx (svS d)) j j = 1.
  have -> : diag_mx (svS d) *m diag_mx (svS d) = (svU d)^T *m (A *m A^T) *m svU d.
    rewrite {1}E {1}E !trmx_mul trmxK tr_diag_mx !mulmxA HU mul1mx -!mulmxA HU mulmx1.
    by rewrite (mulmxA _^T (vthin d)) (Vt_orth Hd) mul1mx.
  by rewrite HA mulmx1 HU mxE eqxx.
move: h; rewrite mul_diag_mx mxE mxE eqxx mulr1n -expr2 => /eqP.
rewrite sqrf_eq1 => /orP[/eqP//|/eqP h].
by have := S0 j; rewrite h oppr_ge0 ler10.
Qed.

Lemma row_svd_x0 (err : 'cV[R]_m) :
  vthin d *m tmpTask d (rankJ th d) err = A^T *m err.
Proof.
have hall j : th < svS d 0 j by rewrite row_svd_S.
have [y hy] := x0_range Hd th0 err.
have h : A *m (vthin d *m tmpTask d (rankJ th d) err) = err.
  apply/eqP; rewrite eq_sym -subr_eq0; apply/eqP.
  rewrite -[LHS]mul1mx -row_svd_U -mulmxA.
  rewrite [(svU d)^T *m _](_ : _ = 0) ?mulmx0 //; apply/matrixP => i j; rewrite ord1 [in RHS]mxE.
  exact: (retained_reached Hd th0).
by rewrite hy; congr (_ *m _); rewrite -h hy mulmxA HA mul1mx.
Qed.

Lemma row_svd_null (y : 'cV[R]_k) : A *m y = 0 ->
  y = rightCols (rankJ th d) (svV d) *m ((rightCols (rankJ th d) (svV d))^T *m y).
Proof. by move=> h; apply: (annihilated_span Hd) => // j _; rewrite -mulmxA h mulmx0 mxE. Qed.

Lemma row_svd_kill : A *m rightCols (rankJ th d) (svV d) = 0.
Proof. by apply: (A_V2_0 Hd) => j; rewrite row_svd_S th1. Qed.
End Svd.

(** [t] can be solved exactly from [s]: its rows are in the span of the basis and the control
    does not act on it yet. *)
Definition free (s : st) (t : task) : Prop :=
  bas s *m (bas s)^T *m (J t)^T = (J t)^T /\ J t *m control s = 0.

Definition ortho (t t' : task) : Prop := J t *m (J t')^T = 0.
Definition simple (t : task) : Prop :=
  [/\ J t *m (J t)^T = 1%:M, (dim t <= memDim t)%N & sqnorm (ref t) <= lim].

Fixpoint all_ortho (ts : seq task) : Prop :=
  if ts is t :: r then [/\ simple t, (forall t', List.In t' r -> ortho t t' /\ ortho t' t) & all_ortho r]
  else True.

Section Step.
Variables (t : task) (last : bool) (s : st) (d : svdres R (dim t) (projT1 (basis s))) (s' : st).
Hypothesis Hd : is_svd (J t *m bas s) d.
Hypothesis Hs : step_svd th lim last d = Ok s'.
Hypothesis hz : zinv s.
Hypothesis ho : orth s.
Hypothesis hf : free s t.
Hypothesis ht : simple t.

Lemma step_A : (J t *m bas s) *m (J t *m bas s)^T = 1%:M.
Proof.
case: ht => h _ _; case: hf => h1 _.
by rewrite trmx_mul mulmxA -(mulmxA (J t)) -mulmxA h1.
Qed.

Lemma step_increment : increment th d = (J t)^T *m ref t.
Proof.
case: hf => h1 h2.
rewrite /increment taskErrE // h2 subr0 (row_svd_x0 Hd step_A).
by rewrite trmx_mul !mulmxA h1.
Qed.

Lemma step_accepted : accepted th lim d.
Proof.
case: ht => h _ hl; rewrite /accepted step_increment -leNgt.
by rewrite (sqnorm_orth _ (Q := (J t)^T)) // trmxK.
Qed.

Lemma step_control : control s' = control s + (J t)^T *m ref t.
Proof.
case: (step_svd_cases Hs) => [[hna _]|[_ -> _ _]]; last by rewrite step_increment.
by rewrite step_accepted in hna.
Qed.

Lemma step_solved : J t *m control s' = ref t.
Proof.
by rewrite step_control mulmxDr mulmxA; case: ht hf => -> _ _ [_ ->]; rewrite mul1mx add0r.
Qed.

Lemma step_kernel : last = false ->
  exists (k : nat) (V : 'M[R]_(projT1 (basis s), k)),
    [/\ kernel s' = Some (existT (fun k => 'M[R]_(n, k)) k (bas s *m V)),
        J t *m (bas s *m V) = 0 &
        forall y : 'cV[R]_(projT1 (basis s)), J t *m bas s *m y = 0 -> y = V *m (V^T *m y)].
Proof.
move=> hl; case: (step_svd_cases Hs) => [[hna _]|[_ _ _]].
  by rewrite step_accepted in hna.
rewrite hl => hk; exists (projT1 (basis s) - rankJ th d)%N, (rightCols (rankJ th d) (svV d)); split=> //.
  by rewrite mulmxA (row_svd_kill Hd step_A).
exact: row_svd_null.
Qed.

Lemma step_free t' : last = false -> ortho t t' -> ortho t' t -> free s t' -> free s' t'.
Proof.
move=> hl o1 o2 [f1 f2]; split; last first.
  by rewrite step_control mulmxDr f2 add0r mulmxA o2 mul0mx.
have [k [V [hk _ hV]]] := step_kernel hl.
rewrite (basis_next hk) /= trmx_mul.
have h : J t *m bas s *m ((bas s)^T *m (J t')^T) = 0 by rewrite -!mulmxA (mulmxA (bas s)) f1.
have hm : V *m (V^T *m ((bas s)^T *m (J t')^T)) = (bas s)^T *m (J t')^T.
  apply/matrixP => i j; set M := (bas s)^T *m (J t')^T.
  pose v : 'cV[R]__ := delta_mx j 0.
  have hc : J t *m bas s *m (M *m v) = 0 by rewrite mulmxA h mul0mx.
  have := congr1 (fun M : 'cV_ _ => M i 0) (hV _ hc).
  by rewrite !mulmxA -(mulmxA V) -!colE !mxE => ->.
by rewrite -!mulmxA hm mulmxA f1.
Qed.

Lemma step_after (x : 'cV[R]_(projT1 (basis s'))) : last = false -> J t *m (bas s' *m x) = 0.
Proof.
move=> hl; have [k [V [hk h0 _]]] := step_kernel hl.
by move: x; rewrite (basis_next hk) /= => x; rewrite mulmxA h0 mul0mx.
Qed.
End Step.

Lemma no_ord k (i : 'I_k) : k = 0%N -> False.
Proof. by case: i => i hi e; rewrite e in hi. Qed.

Lemma free0 s t : simple t -> free s t -> projT1 (basis s) = 0%N -> dim t = 0%N.
Proof.
case=> h _ _ [f _] hk; have h0 : (J t)^T = 0.
  rewrite -f; apply/matrixP => i j; rewrite !mxE big1 // => l _; rewrite mxE big1 ?mul0r // => q _.
  by case: (no_ord q hk).
case E : (dim t) => [//|m]; have := h; rewrite h0 mulmx0.
move/(congr1 (fun M : 'M_(dim t) => \tr M)); rewrite mxtrace0 mxtrace1 E => /eqP.
by rewrite eq_sym pnatr_eq0.
Qed.

Lemma in_cat_l (t : task) tops others : List.In t tops -> List.In t (tops ++ others).
Proof. by move=> h; apply: List.in_or_app; left. Qed.

(** What the control is for these tasks at the end, and when there is nothing else. *)
Lemma log_ortho ts s L p sf :
  loop_log ts s L p sf -> forall tops others, ts = tops ++ others ->
  zinv s -> orth s -> all_ortho tops -> (forall t, List.In t tops -> free s t) ->
  (forall t, List.In t tops -> J t *m control sf = ref t) /\
  (others = [::] -> control sf = control s + \sum_(t <- tops) (J t)^T *m ref t).
Proof.
elim=> {ts s L p sf} [s|t s s'|t rest s d s' Hp Hd Hs Hstop|t rest s d s' L p sf Hp Hd Hs Hn Hl IH] tops others E hz ho ha hf //.
- by case: tops E ha hf => // _ _ _; split=> // _; rewrite big_nil addr0.
- case: tops E ha hf => [|t0 tops] /=.
    move=> E _ _; split=> // E2; rewrite E2 in E; discriminate.
  case=> <- E2 [ht hort ha] hf.
  have hft : free s t by apply: hf; left.
  have hrest t' : List.In t' tops -> dim t' = 0%N.
    move=> hin; have : rest <> [::] by rewrite E2; case: tops hin {hort ha hf E2}.
    case: rest {Hp} Hs Hstop E2 => // t1 r Hs /= Hstop E2 _.
    have f' : free s' t' by case: (hort _ hin) => o1 o2; apply: (step_free Hd Hs) => //; apply: hf; right.
    have hs' : simple t'.
      by elim: tops hin ha {hort hf E2} => //= t2 tops IH [->|h] [] // h1 h2 h3; apply: IH.
    apply: (free0 hs' f').
    have [k [V [hk _ _]]] := step_kernel Hd Hs hz hft ht (erefl _).
    by rewrite (basis_next hk) /=; move: Hstop; rewrite /kcols hk /= => /eqP.
  split=> [t' [<-|hin]|_].
  + exact: (step_solved Hd Hs).
  + by have h0 := hrest _ hin; apply/matrixP => i j; case: (no_ord i h0).
  + have hz0 t' : List.In t' tops -> (J t')^T *m ref t' = 0.
      move=> /hrest h0; apply/matrixP => i j; rewrite !mxE big1 // => l _.
      by case: (no_ord l h0).
    have hsum : \sum_(t <- tops) (J t)^T *m ref t = 0.
      elim: tops hz0 {hort ha hf E2 hrest} => [|t2 tops IH] h; first by rewrite big_nil.
      by rewrite big_cons h ?add0r; [apply: IH => t' ht'; apply: h; right|left].
    by rewrite (step_control Hd Hs) // big_cons hsum addr0.
- case: tops E ha hf => [|t0 tops] /=.
    move=> E _ _; split=> // E2; rewrite E2 in E; discriminate.
  case=> <- E2 [ht hort ha] hf.
  have hft : free s t by apply: hf; left.
  case: rest {Hp} Hs Hn Hl IH E2 => // t1 r Hs Hn Hl IH E2.
  have [IH1 IH2] : (forall t, List.In t tops -> J t *m control sf = ref t) /\
     (others = [::] -> control sf = control s' + \sum_(t <- tops) (J t)^T *m ref t).
    apply: IH => //; first exact: step_zinv Hs hz.
      exact: step_orth Hd Hs ho.
    by move=> t' hin; case: (hort _ hin) => o1 o2; apply: (step_free Hd Hs) => //; apply: hf; right.
  split=> [t' [<-|hin]|Eo]; last 2 first.
  + exact: IH1.
  + by rewrite IH2 // (step_control Hd Hs) // big_cons addrA.
  have [z ->] := log_control_in Hl.
  by rewrite mulmxDr (step_solved Hd Hs) // (step_after Hd Hs) // addr0.
Qed.

(** The control given by the stack: started from zero, without projector nor shortcut. *)
Lemma solve_ortho tops others u :
  @computeControlLaw R n th lim false None None (tops ++ others) (Ok u) -> all_ortho tops ->
  (forall t, List.In t tops -> J t *m u = ref t) /\
  (others = [::] -> u = \sum_(t <- tops) (J t)^T *m ref t).
Proof.
move=> /solver_runs [s [L [pt [sf [Hi [Hl ->]]]]]] ha.
have hz := init_zinv Hi; have hk := init_kernel Hi.
have hc : control s = 0 by move: Hi; rewrite /initState; case: ifP => // _ [<-].
have hb : basis s = existT _ n 1%:M by rewrite /basis hk.
have [h1 h2] : (forall t, List.In t tops -> J t *m control sf = ref t) /\
  (others = [::] -> control sf = control s + \sum_(t <- tops) (J t)^T *m ref t).
  apply: (log_ortho Hl) => //; first by rewrite /orth hb /= trmx1 mulmx1.
  by move=> t _; split; rewrite ?hc ?mulmx0 // hb /= trmx1 mulmx1 mul1mx.
by split=> // E; rewrite h2 // hc add0r.
Qed.
End Ortho.
