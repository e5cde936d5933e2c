(** The solver: theorems for properties C09-C14 and C70-C72.

    Vocabulary (Solver_Spec.v): [loop_log th lim accel ts s L p sf] says that running
    the solver loop on the tasks [ts] (highest priority first) from state [s] can end
    in [sf]; [L] lists the tasks that were solved, in order, with the decomposition
    used for each; [p] is the last task when it went through the posture shortcut.
    For an event [e] of [L], [ev_J e] is the jacobian of the task restricted to the
    selected joints, [ev_acc] says that its increment passed the norm limit, and
    [along j x] is the coordinate of [x] on the j-th left singular direction, which
    is controlled ([retained]) when its singular value is above the threshold. *)
From Coq Require Import ZArith String.
From Verif Require Import Base Flags_Model Solver_Model Solver_Spec Solver_Proofs Solver_Proofs2.
From mathcomp Require Import all_ssreflect all_algebra.
Import Order.TTheory GRing.Theory Num.Theory.
Set Implicit Arguments.
Unset Strict Implicit.
Unset Printing Implicit Defensive.
Local Open Scope ring_scope.

Section Props.
Variable R : realFieldType.
Variable n : nat.
Variables (th lim : R) (accel : bool).
Hypothesis th0 : 0 <= th.
Local Notation st := (st R n).
Local Notation task := (task R n).
Local Notation event := (event R n).
Local Notation loop_log := (@loop_log R n th lim accel).
Local Notation solve := (@computeControlLaw R n th lim accel).

(** Start of a run without projector input: null space basis is the whole space. *)
Definition start (q0 : option (seq R)) (ts : seq task) (s : st) : Prop :=
  initState q0 None ts = Ok s.

(** [u] gives the task of event [e] its reference on every direction it controls. *)
Definition meets (e : event) (u : 'cV[R]_n) : Prop :=
  forall j, retained th j -> along (e := e) j (ev_J e *m u) = along j (ref (ev_t e)).

Lemma init_zinv q0 p ts (s : st) : initState q0 p ts = Ok s -> zinv s.
Proof.
rewrite /initState; case: q0 => [q|]; case: ifP => // _ [<-] //.
Qed.

Lemma init_kernel q0 p ts (s : st) : initState q0 p ts = Ok s -> kernel s = initKernel n p.
Proof. by rewrite /initState; case: q0 => [q|]; case: ifP => // _ [<-]. Qed.

Lemma start_full q0 ts (s : st) : start q0 ts s -> full_basis s.
Proof. by move/init_kernel. Qed.

Lemma full_orth (s : st) : full_basis s -> orth s.
Proof. by rewrite /orth /basis => -> /=; rewrite trmx1 mulmx1. Qed.

(** The value of the control law is exactly the value at the end of some logged run. *)
Theorem solver_runs q0 p ts u :
  solve q0 p ts (Ok u) <->
  exists s L pt sf, initState q0 p ts = Ok s /\ loop_log ts s L pt sf /\ u = control sf.
Proof.
split.
  move=> H; inversion H as [|s|s s' Hi Hl E]; subst.
  have [L [pt HL]] := loop_has_log Hl (erefl _).
  by exists s, L, pt, s'.
case=> s [L [pt [sf [Hi [Hl ->]]]]]; apply: ccl_ok Hi _.
exact: log_is_loop Hl.
Qed.

(** ** C09 *)

(** Whatever follows in the stack (including a posture shortcut), the final control
    gives each accepted task its reference on every direction it controls. *)
Theorem solver_priority q0 p ts s L pt sf e :
  initState q0 p ts = Ok s -> loop_log ts s L pt sf ->
  List.In e L -> ev_acc th lim e ->
  meets e (control sf) /\ meets e (control (ev_s' e)).
Proof.
move=> Hi Hl Hin hacc; have hz := init_zinv Hi; split=> j hj.
  exact: final_retained th0 Hl hz Hin hacc hj.
exact: after_retained th0 (log_ev_ok Hl hz Hin) hacc hj.
Qed.

(** A task without discarded singular value keeps exactly the value it had right
    after it was solved. *)
Theorem solver_priority_exact q0 p ts s L pt sf e :
  initState q0 p ts = Ok s -> loop_log ts s L pt sf ->
  List.In e L -> ev_acc th lim e -> no_discard th e ->
  ev_J e *m control sf = ev_J e *m control (ev_s' e).
Proof. by move=> /init_zinv hz Hl; exact: final_exact Hl hz. Qed.

(** In general the lower priorities disturb a task by at most the threshold times
    their own contribution. *)
Theorem solver_priority_bound q0 ts s L pt sf e :
  start q0 ts s -> loop_log ts s L pt sf ->
  List.In e L -> ev_acc th lim e ->
  sqnorm (ev_J e *m (control sf - control (ev_s' e))) <=
  th ^+ 2 * sqnorm (control sf - control (ev_s' e)).
Proof.
move=> Hi Hl; apply: final_bound th0 Hl (init_zinv Hi) _.
exact: full_orth (start_full Hi).
Qed.

(** ** C10 *)

(** The final control is at least as good for an accepted task as any vector [u]
    that serves the higher priorities. *)
Theorem solver_optimal q0 ts s L1 e L2 pt sf u :
  start q0 ts s -> loop_log ts s (L1 ++ e :: L2) pt sf ->
  ev_acc th lim e -> no_discard th e ->
  (forall e', List.In e' L1 -> ev_acc th lim e' -> meets e' u) ->
  sqnorm (ref (ev_t e) - ev_J e *m control sf) <= sqnorm (ref (ev_t e) - ev_J e *m u).
Proof.
move=> Hi Hl hacc hnd hu; have hz := init_zinv Hi.
have Hin : List.In e (L1 ++ e :: L2) by apply: List.in_or_app; right; left.
rewrite (final_exact Hl hz Hin hacc hnd).
by apply: (optimal_after th0 Hl hz (start_full Hi) hacc hnd) => e' h1 h2 j; apply: hu.
Qed.

(** The increment is the smallest change that serves the higher priorities and gives
    the task this value. *)
Theorem solver_smallest_increment q0 ts s L1 e L2 pt sf u :
  start q0 ts s -> loop_log ts s (L1 ++ e :: L2) pt sf ->
  ev_acc th lim e ->
  (forall e', List.In e' L1 -> ev_acc th lim e' -> meets e' u) ->
  ev_J e *m u = ev_J e *m control (ev_s' e) ->
  sqnorm (control (ev_s' e) - control (ev_s e)) <= sqnorm (u - control (ev_s e)).
Proof.
move=> Hi Hl hacc hu; apply: (smallest_increment th0 Hl (init_zinv Hi) (start_full Hi) hacc).
by move=> e' h1 h2 j; apply: hu.
Qed.

(** ** C72: characterisation of the result.  Without posture shortcut the result is the
    unique vector closest to the initial control that meets every accepted task. *)
Theorem solver_characterised q0 ts s L sf u :
  start q0 ts s -> loop_log ts s L None sf ->
  (forall e, List.In e L -> ev_acc th lim e -> meets e u) ->
  sqnorm (control sf - control s) <= sqnorm (u - control s) /\
  (sqnorm (u - control s) = sqnorm (control sf - control s) -> u = control sf).
Proof.
move=> Hi Hl hu; apply: (run_least_norm th0 Hl (init_zinv Hi) (start_full Hi)).
by move=> e h1 h2 j; apply: hu.
Qed.

(** ** C12 *)
Theorem solver_basis_orthonormal q0 p ts s L pt sf e :
  initState q0 p ts = Ok s -> orth s -> loop_log ts s L pt sf -> List.In e L ->
  orth (ev_s e) /\ orth (ev_s' e).
Proof.
move=> Hi ho Hl Hin; have hoe := log_orth Hl ho Hin; split=> //.
by have [Hd [last Hs] _] := log_ev_ok Hl (init_zinv Hi) Hin; exact: step_orth Hd Hs hoe.
Qed.

(** The start is orthonormal without projector, or with an orthonormal one. *)
Theorem solver_start_orthonormal q0 p ts (s : st) :
  initState q0 p ts = Ok s ->
  (forall P, p = Some P -> drows P = n -> (dmx P)^T *m dmx P = 1%:M) -> orth s.
Proof.
move=> /init_kernel hk hp; rewrite /orth /basis hk /initKernel.
case: p hp {hk} => [P|] hp /=; last by rewrite trmx1 mulmx1.
case: eqP => [e|_] /=; last by rewrite trmx1 mulmx1.
have := hp P (erefl _) e; case: P e {hp} => r c M /= e; case: _ / e => h.
by rewrite castmx_id.
Qed.

Theorem solver_increments_orthogonal q0 p ts s L1 e1 L2 e2 L3 pt sf :
  initState q0 p ts = Ok s -> orth s ->
  loop_log ts s (L1 ++ e1 :: L2 ++ e2 :: L3) pt sf ->
  ev_acc th lim e1 -> ev_acc th lim e2 ->
  ((control (ev_s' e1) - control (ev_s e1))^T *m (control (ev_s' e2) - control (ev_s e2))) 0 0 = 0.
Proof.
move=> Hi ho Hl h1 h2; have hz := init_zinv Hi.
have i1 : List.In e1 (L1 ++ e1 :: L2 ++ e2 :: L3) by apply: List.in_or_app; right; left.
have i2 : List.In e2 (L1 ++ e1 :: L2 ++ e2 :: L3).
  by apply: List.in_or_app; right; right; apply: List.in_or_app; right; left.
rewrite (event_control (log_ev_ok Hl hz i1) h1) (event_control (log_ev_ok Hl hz i2) h2).
rewrite ![_ + _ - _]addrC !addrA !addNr !add0r.
exact: increments_orthogonal Hl hz ho h1.
Qed.

(** ** C13 *)
Theorem solver_start_checked q0 p ts w :
  solve q0 p ts (Throw w) <->
  (w = "length_error"%string /\ exists q, q0 = Some q /\ size q <> n) \/
  (w = "logic_error"%string /\ q0 = None /\ ts = [::]).
Proof.
split.
  move=> H; inversion H as [w' Hi E|s|s s']; subst; move: Hi; rewrite /initState.
  case: q0 {H} => [q|].
    by case: eqP => //= h [<-]; left; split=> //; exists q.
  by case: ts => //= -[<-]; right.
case=> [[-> [q [-> /eqP h]]]|[-> [-> ->]]]; apply: ccl_throw => //.
by rewrite /initState h.
Qed.

Lemma log_all_rejected ts s L sf :
  loop_log ts s L None sf -> (forall e, List.In e L -> ~ ev_acc th lim e) -> sf = s.
Proof.
move E : None => p H; elim: H E => {ts s L p sf} [s|t s s' Hp Hs|t rest s d s' Hp Hd Hs Hstop|t rest s d s' L p sf Hp Hd Hs Hn Hl IH] E // hr.
- have := hr _ (or_introl (erefl _)); rewrite /ev_acc /=.
  by case/step_svd_cases: Hs => [[_ ->]|[]].
- rewrite IH //; last by move=> e he; apply: hr; right.
  have := hr _ (or_introl (erefl _)); rewrite /ev_acc /=.
  by case/step_svd_cases: Hs => [[_ ->]|[]].
Qed.

(** With no accepted task the result is the initial control: [q0], or zero. *)
Theorem solver_start_kept q0 p ts s L sf :
  initState q0 p ts = Ok s -> loop_log ts s L None sf ->
  (forall e, List.In e L -> ~ ev_acc th lim e) ->
  forall i, control sf i 0 = if q0 is Some q then nth 0 q i else 0.
Proof.
move=> Hi Hl hr i; rewrite (log_all_rejected Hl hr); move: Hi; rewrite /initState.
by case: q0 => [q|]; case: ifP => // _ [<-] /=; rewrite mxE.
Qed.

(** ** C14 *)

(** The jacobian used by the solver is the task's, without the excluded joints. *)
Theorem solver_selection m f (J : 'M[R]_(m, n)) i (j : 'I_n) b :
  at_ f (Z.of_nat j) = Ok b -> activated (Some f) J i j = if b then J i j else 0.
Proof. by rewrite sel_at_ok => -[<-]; exact: activatedE. Qed.

(** A joint excluded by every task of the stack keeps its initial control. *)
Theorem solver_excluded_joint q0 ts u (i : 'I_n) :
  (forall t, List.In t ts -> exists f, sel t = Some f /\ at_ f (Z.of_nat i) = Ok false) ->
  solve q0 None ts (Ok u) ->
  u i 0 = if q0 is Some q then nth 0 q i else 0.
Proof.
move=> hsel /solver_runs [s [L [pt [sf [Hi [Hl ->]]]]]].
rewrite (excluded_joint th0 Hl (init_zinv Hi) (start_full Hi)); last first.
  by move=> t /hsel [f [h1 h2]]; exists f; split=> //; rewrite /sel_at h2.
move: Hi; rewrite /initState.
by case: q0 => [q|]; case: ifP => // _ [<-] /=; rewrite mxE.
Qed.

(** ** C11 *)

(** The norm test is exactly the documented one, and a rejected task changes nothing. *)
Theorem solver_rejected_unchanged q0 p ts s L pt sf e :
  initState q0 p ts = Ok s -> loop_log ts s L pt sf -> List.In e L ->
  (ev_acc th lim e <-> sqnorm (increment th (ev_d e)) <= lim) /\
  (lim < sqnorm (increment th (ev_d e)) -> ev_s' e = ev_s e) /\
  (sqnorm (increment th (ev_d e)) <= lim ->
   control (ev_s' e) = control (ev_s e) + increment th (ev_d e)).
Proof.
move=> Hi Hl Hin; have Hok := log_ev_ok Hl (init_zinv Hi) Hin.
have [_ [last Hs] _] := Hok.
have E : ev_acc th lim e <-> sqnorm (increment th (ev_d e)) <= lim.
  by rewrite /ev_acc /accepted -leNgt.
split=> //; split; first by move=> h; exact: rejected_same h Hs.
by move/E; exact: event_control Hok.
Qed.

(** Partial: the remaining tasks are solved as if the rejected one were absent, provided
    a null space basis exists at that point (some task before was accepted, or a
    projector was given).  Without that condition it is false, see
    [solver_rejected_first_refuted]. *)
Theorem solver_rejected_skipped_partial pre t post s L1 e L2 pt sf :
  loop_log (pre ++ t :: post) s (L1 ++ e :: L2) pt sf ->
  size L1 = size pre -> post <> [::] ->
  lim < sqnorm (increment th (ev_d e)) -> kcols (ev_s e) <> 0%N ->
  loop_log (pre ++ post) s (L1 ++ L2) pt sf.
Proof.
elim: pre L1 s => [|t1 pre IH] [|e1 L1] s //= H hsz hpost hrej hk.
- move E : (t :: post) H => ts; move E' : (e :: L2) => LL H.
  case: H E E' => // {s pt sf ts LL}.
  + move=> t0 rest s d s' Hp Hd Hs Hstop [E1 E2] [E3 E4]; subst.
    have E := rejected_same hrej Hs; rewrite /= in E; subst s'.
    by case: rest Hp Hs Hstop hpost => //= t1 r _ _ /eqP.
  + by move=> t0 rest s d s' L0 p0 sf0 Hp Hd Hs Hn Hl [E1 E2] [E3 E4]; subst;
      have E := rejected_same hrej Hs; rewrite /= in E; subst s'.
- case: hsz => hsz.
  move E1 : (t1 :: pre ++ t :: post) H => ts; move E' : (e1 :: L1 ++ e :: L2) => LL H.
  have nn : nilp (pre ++ post) = nilp (pre ++ t :: post).
    by case: pre {IH hsz E1} => //=; case: post hpost.
  case: H E1 E' IH => // {s pt sf ts LL}.
  + by move=> t0 rest s d s' Hp Hd Hs Hstop [_ _] [_]; case: L1 {hsz}.
  + move=> t0 rest s d s' L0 p0 sf0 Hp Hd Hs Hn Hl [E1 E2] [E3 E4] IH; subst.
    apply: LL_next; rewrite ?nn //.
    exact: IH.
Qed.

(** ** C71: evaluation is defined when no task grew since it was first
    solved. Missing: tasks that grew since they were first solved;
    undefined there. *)
Theorem solver_defined_partial q0 p ts :
  ~~ accel -> (forall t, List.In t ts -> (dim t <= memDim t)%N) ->
  ~ solve q0 p ts UB.
Proof.
move=> ha hm H; inversion H as [|s Hi Hl|]; subst.
move: Hl; move E : UB => o Hl; elim: Hl E hm {H Hi} => {s o ts} [s|t rest s Hs|t rest s s' Hs Hn|t rest s s' o Hs Hn Hl IH] E hm //; last first.
  by apply: (IH E) => t' h; apply: hm; right.
inversion Hs as [Hp Ho|d Hp Hd Ho]; first by case/and3P: Hp => _; rewrite (negbTE ha).
move: Ho; rewrite /step_svd; case: ifP => [h|_]; last by case: ifP.
have h1 := rank_le_p d th.
have h2 : (rankJ th d <= dim t)%N by apply: leq_trans h1 (geq_minl _ _).
have h3 := hm t (or_introl (erefl _)).
by move: h; rewrite ltnNge (leq_trans h2 h3).
Qed.

(** ** C70: the posture shortcut *)

(** As the first task, without projector, it reads an empty matrix: the step is undefined and the
    run never delivers a control. *)
Theorem solver_posture_first_refuted q0 t u :
  accel -> isFullPostureTask t -> (0 < dim t)%N ->
  ~ solve q0 None [:: t] (Ok u) /\ (forall s, kernel s = None -> step_posture t s = UB).
Proof.
move=> ha ht hd; split; last first.
  by move=> s hk; rewrite /step_posture hk; move: hd; rewrite lt0n => /negbTE ->.
move=> /solver_runs [s [L [pt [sf [Hi [Hl _]]]]]].
have hk := start_full Hi.
move E : [:: t] Hl => ts Hl; case: Hl E hk => // {ts s sf pt L Hi}.
- move=> t0 s s' Hp Hs [E] hk; subst t0; move: Hs; rewrite /step_posture hk.
  by move: hd; rewrite lt0n => /negbTE ->.
- by move=> t0 rest s d s' Hp _ _ _ [E1 E2] _; subst; rewrite ha ht in Hp.
- by move=> t0 rest s d s' L p sf Hp _ _ _ _ [E1 E2] _; subst; rewrite ha ht in Hp.
Qed.

(** When the joint part of the null space basis has orthonormal columns
    (the free-flyer rows of the basis are zero) the shortcut is optimal.
    Missing: bases that move the free flyer, and the posture as first task
    without projector; false of the code there. *)
Theorem solver_posture_optimal_partial t s s' (k : nat) (K : 'M[R]_(n, k)) z :
  zinv s -> kernel s = Some (existT _ k K) ->
  (tailmx R n (dim t) *m K)^T *m (tailmx R n (dim t) *m K) = 1%:M ->
  step_posture t s = Ok s' ->
  sqnorm (ref t - tailmx R n (dim t) *m control s') <=
  sqnorm (ref t - tailmx R n (dim t) *m (control s + K *m z)).
Proof.
rewrite /step_posture => hz -> ho [<-] /=.
set T := tailmx R n (dim t) in ho *.
have -> : (if isZero s then ref t else ref t - T *m control s) = ref t - T *m control s.
  by case E : (isZero s) => //; rewrite (hz E) mulmx0 subr0.
set e := ref t - T *m control s.
set A := T *m K in ho *.
have h1 (w : 'cV_k) : ref t - T *m (control s + K *m w) = e - A *m w.
  by rewrite mulmxDr opprD addrA mulmxA.
rewrite !h1; clearbody A e.
have -> : e - A *m z = (e - A *m (A^T *m e)) + A *m (A^T *m e - z).
  by rewrite mulmxBr addrA subrK.
rewrite (sqnormD (e - _)) -addrA ler_addl.
have -> : ((e - A *m (A^T *m e))^T *m (A *m (A^T *m e - z))) = 0.
  rewrite linearB /= trmx_mul trmx_mul trmxK mulmxBl -!mulmxA (mulmxA A^T A) ho mul1mx.
  by rewrite subrr.
by rewrite mxE mul0rn addr0 sqnorm_ge0.
Qed.

End Props.

(** ** Concrete runs, over the rationals. *)
Section Examples.
Local Notation Q := rat_realFieldType.

(** A decomposition of a one row matrix whose only non zero entry is a leading 1. *)
Definition svd1 k : svdres Q 1 k := mkSvd (const_mx 1) (const_mx 1) 1%:M.

Lemma minn1 k : (0 < k)%N -> minn 1 k = 1%N.
Proof. by move=> h; apply/minn_idPl. Qed.

Lemma ord_uniq k (i j : 'I_(minn 1 k)) : i = j.
Proof.
apply: val_inj => /=.
have h (x : 'I_(minn 1 k)) : nat_of_ord x = 0%N.
  by have := leq_trans (ltn_ord x) (geq_minl 1 k); rewrite ltnS leqn0 => /eqP.
by rewrite !h.
Qed.

Lemma svd1_ok k (A : 'M[Q]_(1, k)) :
  (0 < k)%N -> (forall i j, A i j = (j == 0%N :> nat)%:R) -> is_svd A (svd1 k).
Proof.
move=> hk hA; split=> /=.
- apply/matrixP => i j; rewrite (ord_uniq i j) !mxE eqxx.
  by rewrite big_ord1 !mxE mulr1.
- by rewrite trmx1 mulmx1.
- by move=> j; rewrite mxE.
- by move=> i j _; rewrite !mxE.
- apply/matrixP => i j; rewrite hA -mulmxA mxE.
  have hk' : (0 < minn 1 k)%N by rewrite minn1.
  rewrite (bigD1 (Ordinal hk')) //= big1 ?addr0; last first.
    by move=> l; rewrite (ord_uniq l (Ordinal hk')) eqxx.
  by rewrite mul_diag_mx !mxE !mul1r -val_eqE /= eq_sym.
Qed.

Lemma rank_svd1 k : (0 < k)%N -> rankJ 0 (svd1 k) = 1%N.
Proof.
move=> hk; have h1 := rank_le_p (svd1 k) 0; rewrite minn1 // in h1.
have hsvd : is_svd (\row_j (j == 0%N :> nat)%:R : 'M[Q]_(1, k)) (svd1 k).
  by apply: svd1_ok => // i j; rewrite mxE.
have hk' : (0 < minn 1 k)%N by rewrite minn1.
have := rank_gt 0 hsvd (Ordinal hk'); rewrite mxE ltr01 /= => h2.
by apply/eqP; rewrite eqn_leq h1 h2.
Qed.

(** A task of dimension 1. *)
Definition task1 n (J : 'M[Q]_(1, n)) (r : Q) : task Q n :=
  @mkTask Q n 1 J (const_mx r) None false 1.

Lemma incr_svd1 n J r (s : st Q n) :
  (0 < projT1 (basis s))%N -> orth s ->
  sqnorm (increment 0 (svd1 _ : svdres Q (dim (task1 J r)) (projT1 (basis s))))
  = sqnorm (taskErr (task1 J r) s).
Proof.
move=> hk ho.
rewrite increment_in (sqnorm_orth _ ho).
have hsvd : is_svd (\row_j (j == 0%N :> nat)%:R : 'M[Q]_(1, _)) (svd1 (projT1 (basis s))).
  by apply: svd1_ok => // i j; rewrite mxE.
rewrite (sqnorm_orth _ (Vt_orth hsvd)) /sqnorm big_ord1.
have hk' : (0 < minn 1 (projT1 (basis s)))%N by rewrite minn1.
rewrite (bigD1 (Ordinal hk')) //= big1 ?addr0; last first.
  by move=> l; rewrite (ord_uniq l (Ordinal hk')) eqxx.
by rewrite mxE (rank_svd1 hk) /= mxE big_ord1 !mxE invr1 mulr1 mul1r.
Qed.

(** Two joints; the first task wants 1 on joint 0, the second 2 on joint 1. *)
Definition ex_t1 : task Q 2 := task1 (\row_j (j == 0%N :> nat)%:R) 1.
Definition ex_t2 : task Q 2 := task1 (\row_j (j == 1%N :> nat)%:R) 2.
Definition ex_s0 : st Q 2 := mkSt 0 true None.

Example solver_example : exists L sf,
  [/\ start None [:: ex_t1; ex_t2] ex_s0,
      loop_log 0 10 false [:: ex_t1; ex_t2] ex_s0 L None sf,
      size L = 2%N &
      forall e, List.In e L -> ev_acc 0 10 e /\ no_discard 0 e].
Proof.
pose d1 : svdres Q (dim ex_t1) (projT1 (basis ex_s0)) := svd1 2.
have hd1 : is_svd (activated (sel ex_t1) (jac ex_t1) *m projT2 (basis ex_s0)) d1.
  by apply: svd1_ok => // i j; rewrite mulmx1 mxE.
have o0 : orth ex_s0 by apply: full_orth.
have a1 : accepted 0 10 d1.
  rewrite /accepted (incr_svd1 _ _ _ o0) // /taskErr /= /sqnorm big_ord1 mxE.
  by rewrite -leNgt.
pose s1 : st Q 2 := mkSt (control ex_s0 + increment 0 d1) false
   (Some (existT (fun k => 'M[Q]_(2, k)) (2 - rankJ 0 d1)%N (1%:M *m rightCols (rankJ 0 d1) (svV d1)))).
have r1 : rankJ 0 d1 = 1%N by apply: rank_svd1.
have hs1 : step_svd 0 10 false d1 = Ok s1.
  by rewrite /step_svd a1 ifF // r1.
have o1 : orth s1 := step_orth hd1 hs1 o0.
have k1 : projT1 (basis s1) = 1%N by rewrite /= r1.
pose d2 : svdres Q (dim ex_t2) (projT1 (basis s1)) := svd1 _.
have hd2 : is_svd (activated (sel ex_t2) (jac ex_t2) *m projT2 (basis s1)) d2.
  apply: svd1_ok; first by rewrite k1.
  move=> i j.
  have hj : nat_of_ord j = 0%N.
    have h : (j < 1)%N by rewrite -[X in (_ < X)%N]k1; exact: ltn_ord.
    by move: h; rewrite ltnS leqn0 => /eqP.
  rewrite /= mul1mx mxE !big_ord_recl big_ord0 !mxE /= !mul0r add0r addr0 mul1r.
  by rewrite -val_eqE /= hj addn0 -/d1 r1.
have c1 (i : 'I_2) : nat_of_ord i = 1%N -> control s1 i 0 = 0.
  move=> hi; rewrite /= add0r /increment /= mul1mx mxE big1 // => l _.
  by rewrite mxE mxE -val_eqE /= hi (_ : nat_of_ord l = 0%N) ?mul0r //; case: l => -[].
have a2 : accepted 0 10 d2.
  rewrite /accepted (incr_svd1 _ _ _ o1) ?k1 // /taskErr /= /sqnorm big_ord1.
  rewrite mxBE [const_mx _ _ _]mxE [(_ *m _) _ _]mxE big1 ?subr0 -?leNgt //.
  move=> l _; rewrite mxE; case: eqP => [h|_]; last by rewrite mul0r.
  by rewrite (c1 l h) mulr0.
have hs2 : step_svd 0 10 true d2 = Ok (mkSt (control s1 + increment 0 d2) false (kernel s1)).
  by rewrite /step_svd a2 ifF // rank_svd1 // k1.
exists [:: Event d1 s1; Event d2 (mkSt (control s1 + increment 0 d2) false (kernel s1))].
exists (mkSt (control s1 + increment 0 d2) false (kernel s1)).
split=> //.
  apply: (@LL_next _ _ _ _ _ _ _ _ d1) => //; first by rewrite /kcols /= r1.
  exact: (@LL_stop _ _ _ _ _ _ _ _ d2).
have nd k : forall j, ~ (0 < svS (svd1 k) 0 j) -> svS (svd1 k) 0 j = 0.
  by move=> j; rewrite mxE.
by move=> e /= [<-|[<-|//]]; split=> // j; exact: nd.
Qed.

(** Non-vacuity of [solver_rejected_skipped_partial]: the middle task asks for 100. *)
Definition ex_t3 : task Q 2 := task1 (\row_j (j == 1%N :> nat)%:R) 100.
Example solver_rejected_example : exists e1 e2 e3 sf,
  [/\ loop_log 0 10 false [:: ex_t1; ex_t3; ex_t2] ex_s0 ([:: e1] ++ e2 :: [:: e3]) None sf,
      10 < sqnorm (increment 0 (ev_d e2)) & kcols (ev_s e2) <> 0%N].
Proof.
pose d1 : svdres Q (dim ex_t1) (projT1 (basis ex_s0)) := svd1 2.
have hd1 : is_svd (activated (sel ex_t1) (jac ex_t1) *m projT2 (basis ex_s0)) d1.
  by apply: svd1_ok => // i j; rewrite mulmx1 mxE.
have o0 : orth ex_s0 by apply: full_orth.
have a1 : accepted 0 10 d1.
  rewrite /accepted (incr_svd1 _ _ _ o0) // /taskErr /= /sqnorm big_ord1 mxE.
  by rewrite -leNgt.
pose s1 : st Q 2 := mkSt (control ex_s0 + increment 0 d1) false
   (Some (existT (fun k => 'M[Q]_(2, k)) (2 - rankJ 0 d1)%N (1%:M *m rightCols (rankJ 0 d1) (svV d1)))).
have r1 : rankJ 0 d1 = 1%N by apply: rank_svd1.
have hs1 : step_svd 0 10 false d1 = Ok s1.
  by rewrite /step_svd a1 ifF // r1.
have o1 : orth s1 := step_orth hd1 hs1 o0.
have k1 : projT1 (basis s1) = 1%N by rewrite /= r1.
have hd r : is_svd (activated (sel (task1 (jac ex_t2) r)) (jac (task1 (jac ex_t2) r)) *m projT2 (basis s1)) (svd1 _).
  apply: svd1_ok; first by rewrite k1.
  move=> i j.
  have hj : nat_of_ord j = 0%N.
    have h : (j < 1)%N by rewrite -[X in (_ < X)%N]k1; exact: ltn_ord.
    by move: h; rewrite ltnS leqn0 => /eqP.
  rewrite /= mul1mx mxE !big_ord_recl big_ord0 !mxE /= !mul0r add0r addr0 mul1r.
  by rewrite -val_eqE /= hj addn0 -/d1 r1.
have c1 (i : 'I_2) : nat_of_ord i = 1%N -> control s1 i 0 = 0.
  move=> hi; rewrite /= add0r /increment /= mul1mx mxE big1 // => l _.
  by rewrite mxE mxE -val_eqE /= hi (_ : nat_of_ord l = 0%N) ?mul0r //; case: l => -[].
pose d2 : svdres Q (dim ex_t3) (projT1 (basis s1)) := svd1 _.
pose d3 : svdres Q (dim ex_t2) (projT1 (basis s1)) := svd1 _.
have ex (r : Q) : sqnorm (taskErr (task1 (jac ex_t2) r) s1) = r ^+ 2.
  rewrite /taskErr /= /sqnorm big_ord1.
  rewrite mxBE [const_mx _ _ _]mxE [(_ *m _) _ _]mxE big1 ?subr0 //.
  move=> l _; rewrite mxE; case: eqP => [h|_]; last by rewrite mul0r.
  by rewrite (c1 l h) mulr0.
have a2 : 10 < sqnorm (increment 0 d2).
  by rewrite (incr_svd1 _ _ _ o1) ?k1 // ex.
have a3 : accepted 0 10 d3.
  by rewrite /accepted (incr_svd1 _ _ _ o1) ?k1 // ex.
have hs2 : step_svd 0 10 false d2 = Ok s1.
  by rewrite /step_svd ifF ?rank_svd1 ?k1 // /accepted a2.
have hs3 : step_svd 0 10 true d3 = Ok (mkSt (control s1 + increment 0 d3) false (kernel s1)).
  by rewrite /step_svd a3 ifF // rank_svd1 // k1.
exists (Event d1 s1), (Event d2 s1), (Event d3 (mkSt (control s1 + increment 0 d3) false (kernel s1))).
exists (mkSt (control s1 + increment 0 d3) false (kernel s1)).
have kc : kcols s1 = 1%N by rewrite /kcols /= r1.
split=> //; last by rewrite /= kc.
apply: (@LL_next _ _ _ _ _ _ _ _ d1) => //; first by rewrite kc.
apply: (@LL_next _ _ _ _ _ _ _ _ d2) => //; [exact: hd | by rewrite kc |].
by apply: (@LL_stop _ _ _ _ _ _ _ _ d3) => //; exact: hd.
Qed.

(** Non-vacuity of [solver_excluded_joint]: only joint 0 is selected, the task uses both. *)
Example solver_excluded_example : exists u,
  computeControlLaw 0 10 false None None
    [:: @mkTask Q 2 1 (const_mx 1) (const_mx 1) (Some (of_vector [:: true])) false 1] (Ok u).
Proof.
set t := mkTask _ _ _ _ _.
pose d1 : svdres Q (dim t) (projT1 (basis ex_s0)) := svd1 2.
have hd1 : is_svd (activated (sel t) (jac t) *m projT2 (basis ex_s0)) d1.
  apply: svd1_ok => // i j; rewrite mulmx1 /= mxE.
  by case: j => -[|[|j]] hj //=; rewrite mxE.
have o0 : orth ex_s0 by apply: full_orth.
have hr : rankJ 0 d1 = 1%N by apply: rank_svd1.
have : exists s', step_svd 0 10 true d1 = Ok s'.
  rewrite /step_svd ifF ?hr //; by case: ifP => _; eexists.
case=> s' hs'; exists (control s'); apply: (@ccl_ok _ _ _ _ _ _ _ _ ex_s0) => //.
by apply: loop_stop => //; rewrite -hs'; apply: step_rel_svd.
Qed.

(** C11 is false for the first task: one joint, norm limit 1; the first task asks for 2,
    is rejected, and the second one (asking for 1/2) is then never solved, whereas the
    stack without the rejected task delivers 1/2. *)
Definition rej_t1 : task Q 1 := task1 1%:M 2.
Definition rej_t2 : task Q 1 := task1 1%:M (1 / 2%:R).

Theorem solver_rejected_first_refuted :
  exists u, computeControlLaw 0 1 false None None [:: rej_t1; rej_t2] (Ok u) /\
  (forall s (d : svdres Q (dim rej_t1) (projT1 (basis s))),
     start None [:: rej_t1; rej_t2] s ->
     is_svd (activated (sel rej_t1) (jac rej_t1) *m projT2 (basis s)) d ->
     ~~ accepted 0 1 d) /\
  forall u', computeControlLaw 0 1 false None None [:: rej_t2] (Ok u') -> u' <> u.
Proof.
have key r (s : st Q 1) (d : svdres Q (dim (task1 1%:M r)) (projT1 (basis s))) :
    kernel s = None -> isZero s ->
    is_svd (activated (sel (task1 1%:M r)) (jac (task1 1%:M r)) *m projT2 (basis s)) d ->
    increment 0 d = const_mx r :> 'cV_1.
  case: s d => c z k /= d hk hz hd; subst k; rewrite /= in d hd *.
  have hnd j : ~~ (0 < svS d 0 j) -> svS d 0 j = 0.
    rewrite -leNgt => h; apply/eqP; rewrite eq_le h /=.
    by case: hd => _ _ ->.
  have := least_squares hd (lexx 0) (const_mx r) hnd (const_mx r).
  rewrite !mul1mx subrr => h.
  have : sqnorm (const_mx r - vthin d *m tmpTask d (rankJ 0 d) (const_mx r)) == 0.
    by rewrite eq_le sqnorm_ge0 andbT (le_trans h) // /sqnorm big1 // => i _; rewrite mxE expr0n.
  rewrite sqnorm_eq0 subr_eq0 => /eqP e.
  by rewrite /increment /taskErr /= hz mul1mx -e.
have nr (s : st Q 1) (d : svdres Q (dim rej_t1) (projT1 (basis s))) :
    kernel s = None -> isZero s ->
    is_svd (activated (sel rej_t1) (jac rej_t1) *m projT2 (basis s)) d -> ~~ accepted 0 1 d.
  move=> h1 h2 h3; rewrite /accepted negbK (key _ _ _ h1 h2 h3) /sqnorm big_ord1 mxE.
  by [].
exists 0; split; last split.
- pose s0 : st Q 1 := mkSt 0 true None.
  pose d1 : svdres Q (dim rej_t1) (projT1 (basis s0)) := svd1 1.
  have hd1 : is_svd (activated (sel rej_t1) (jac rej_t1) *m projT2 (basis s0)) d1.
    by apply: svd1_ok => // i j; rewrite !ord1 mulmx1 mxE.
  have hs1 : step_svd 0 1 false d1 = Ok s0.
    by rewrite /step_svd (negbTE (nr _ _ _ _ hd1)) // ifF // rank_svd1.
  apply: (@ccl_ok _ _ _ _ _ _ _ _ s0 s0) => //; apply: loop_stop => //.
  by rewrite -hs1; apply: step_rel_svd.
- by move=> s d [E]; apply: nr; rewrite -E.
- move=> u' /solver_runs [s [L [p [sf [[Hi] [Hl E]]]]]] E0; subst u'.
  subst s.
  have hL := log_is_loop Hl; inversion hL as [|t0 r0 s0 H0|t0 r0 s0 s1 Hs Hn E1 E2 E3|t0 r0 s0 s1 o Hs Hn _]; subst; last by [].
  inversion Hs as [|d Hp Hd Ho].
  have Hinc := key _ _ d (erefl _) (erefl _) Hd.
  have : accepted 0 1 d.
    by rewrite /accepted Hinc /sqnorm big_ord1 mxE -leNgt.
  move: Ho; rewrite /step_svd; case: ifP => // _ Ho ha; rewrite ha in Ho.
  case: Ho => Ho; move: E0; rewrite -Ho /= add0r Hinc => /matrixP /(_ 0 0).
  by rewrite !mxE.
Qed.

(** C71: a task that grew after its first resolution overruns its work vector. *)
Theorem solver_growth_undefined_refuted :
  exists t : task Q 1, (memDim t < dim t)%N /\
  computeControlLaw 0 1 false None None [:: t] UB.
Proof.
pose t : task Q 1 := @mkTask Q 1 1 1%:M 0 None false 0.
exists t; split=> //.
pose s0 : st Q 1 := mkSt 0 true None.
pose d1 : svdres Q (dim t) (projT1 (basis s0)) := svd1 1.
have hd1 : is_svd (activated (sel t) (jac t) *m projT2 (basis s0)) d1.
  by apply: svd1_ok => // i j; rewrite !ord1 mulmx1 mxE.
apply: (@ccl_ub _ _ _ _ _ _ _ _ s0) => //; apply: loop_ub.
have <- : step_svd 0 1 true d1 = UB :> outcome (st Q 1).
  by rewrite /step_svd ifT // rank_svd1.
exact: step_rel_svd.
Qed.

(** C70: with a null space basis that moves the free-flyer, the posture shortcut is not
    optimal.  Seven joints, basis (3/5, 0, 0, 0, 0, 0, 4/5), reference 1 for the joint:
    the shortcut leaves 9/25 of the error, the general computation would leave 0. *)
Definition pos_K : 'M[Q]_(7, 1) :=
  \matrix_(i, j) (if i == 0%N :> nat then 3%:R / 5%:R else
                  if i == 6%N :> nat then 4%:R / 5%:R else 0).
Definition pos_t : task Q 7 :=
  @mkTask Q 7 1 (tailmx _ 7 1) (const_mx 1) (Some (of_bool true)) true 1.
Definition pos_s : st Q 7 := mkSt 0 true (Some (existT (fun k => 'M[Q]_(7, k)) 1%N pos_K)).

Lemma pos_tailK : tailmx _ 7 1 *m pos_K = const_mx (4%:R / 5%:R).
Proof.
apply/matrixP => i j; rewrite !ord1 mxE !big_ord_recl big_ord0 !mxE /=.
by rewrite !mul0r !add0r addr0 mul1r.
Qed.

Theorem solver_posture_not_optimal_refuted :
  exists s' z,
  [/\ orth pos_s, isFullPostureTask pos_t, step_posture pos_t pos_s = Ok s' &
      sqnorm (ref pos_t - tailmx _ 7 1 *m (control pos_s + pos_K *m z)) <
      sqnorm (ref pos_t - tailmx _ 7 1 *m control s')].
Proof.
eexists; exists (const_mx (5%:R / 4%:R)); split=> //=.
- apply/matrixP => i j; rewrite !ord1 /= mxE !big_ord_recl big_ord0 !mxE /=.
  by [].
- rewrite !add0r !mulmxA pos_tailK /sqnorm !big_ord1.
  by rewrite !mxE !big_ord1 !mxE !big_ord1 !mxE.
Qed.

(** Non-vacuity of [solver_posture_optimal_partial]: the basis only moves the joint. *)
Example solver_posture_example :
  let K : 'M[Q]_(7, 1) := \matrix_(i, j) (i == 6%N :> nat)%:R in
  let s : st Q 7 := mkSt 0 true (Some (existT (fun k => 'M[Q]_(7, k)) 1%N K)) in
  [/\ zinv s, (tailmx _ 7 1 *m K)^T *m (tailmx _ 7 1 *m K) = 1%:M,
      isFullPostureTask pos_t & exists s', step_posture pos_t s = Ok s'].
Proof.
move=> K s; have E : tailmx _ 7 1 *m K = 1%:M.
  apply/matrixP => i j; rewrite !ord1 mxE !big_ord_recl big_ord0 !mxE /=.
  by rewrite !mul0r !add0r addr0 mul1r.
by split=> //; [rewrite E trmx1 mulmx1 | eexists].
Qed.

End Examples.

Print Assumptions solver_runs.
Print Assumptions solver_priority.
Print Assumptions solver_priority_exact.
Print Assumptions solver_priority_bound.
Print Assumptions solver_optimal.
Print Assumptions solver_smallest_increment.
Print Assumptions solver_characterised.
Print Assumptions solver_basis_orthonormal.
Print Assumptions solver_start_orthonormal.
Print Assumptions solver_increments_orthogonal.
Print Assumptions solver_start_checked.
Print Assumptions solver_start_kept.
Print Assumptions solver_selection.
Print Assumptions solver_excluded_joint.
Print Assumptions solver_rejected_unchanged.
Print Assumptions solver_rejected_skipped_partial.
Print Assumptions solver_defined_partial.
Print Assumptions solver_posture_first_refuted.
Print Assumptions solver_posture_optimal_partial.
Print Assumptions solver_rejected_first_refuted.
Print Assumptions solver_growth_undefined_refuted.
Print Assumptions solver_posture_not_optimal_refuted.
