(** Proofs about runs of the solver. *)
From Coq Require Import ZArith String.
From Verif Require Import Base Flags_Model Flags_Proofs Solver_Model Solver_Spec Solver_Proofs.
From mathcomp Require Import all_ssreflect all_algebra.
Import Order.TTheory GRing.Theory Num.Theory.
Set Implicit Arguments.
Unset Strict Implicit.
Unset Printing Implicit Defensive.
Local Open Scope ring_scope.

Section Runs.
Variable R : realFieldType.
Variable n : nat.
Variables (th lim : R) (accel : bool).
Local Notation st := (st R n).
Local Notation task := (task R n).
Local Notation event := (event R n).
Local Notation bas s := (projT2 (basis s)).
Local Notation loop_log := (@Solver_Spec.loop_log R n th lim accel).

(** Every run has a log, and logs are runs. *)
Lemma loop_has_log ts s o :
  loop th lim accel ts s o -> forall sf, o = Ok sf -> exists L p, loop_log ts s L p sf.
Proof.
elim=> {ts s o} [s|t rest s H|t rest s s' Hs Hstop|t rest s s' o Hs Hn Hl IH] sf //.
- by case=> <-; exists [::], None; constructor.
- case=> <-; inversion Hs as [Hp Ho|d Hp Hd Ho].
    move: Hp; case/and3P=> Hnil Ha Hf.
    case: rest Hs Hstop Hnil => // _ _ _.
    by exists [::], (Some (t, s)); constructor => //; rewrite Ha Hf.
  by exists [:: Event d s'], None; apply: LL_stop.
- move=> Eo; have [L [p HL]] := IH _ Eo.
  inversion Hs as [Hp Ho|d Hp Hd Ho].
    by move: Hn; case/and3P: Hp => ->.
  by exists (Event d s' :: L), p; apply: LL_next.
Qed.

Lemma log_is_loop ts s L p sf : loop_log ts s L p sf -> loop th lim accel ts s (Ok sf).
Proof.
elim=> {ts s L p sf} [s|t s s' Hp Hs|t rest s d s' Hp Hd Hs Hstop|t rest s d s' L p sf Hp Hd Hs Hn _ IH].
- by constructor.
- by apply: loop_stop => //; rewrite -Hs; apply: step_rel_posture.
- by apply: loop_stop Hstop; rewrite -Hs; apply: step_rel_svd.
- by apply: loop_next Hn IH; rewrite -Hs; apply: step_rel_svd.
Qed.

(** One general step. *)
Lemma step_svd_cases (t : task) last (s : st) (d : svdres R (dim t) (projT1 (basis s))) s' :
  step_svd th lim last d = Ok s' ->
  (~~ accepted th lim d /\ s' = s) \/
  [/\ accepted th lim d, control s' = control s + increment th d, isZero s' = false &
      kernel s' = if last then kernel s
        else Some (existT (fun k => 'M[R]_(n, k)) (projT1 (basis s) - rankJ th d)%N
                        (bas s *m rightCols (rankJ th d) (svV d)))].
Proof.
rewrite /step_svd; case: ifP => // _; case: ifP => ha; case=> <-; last by left.
by right.
Qed.

Lemma basis_next (s' : st) k (K : 'M[R]_(n, k)) :
  kernel s' = Some (existT _ k K) -> basis s' = existT _ k K.
Proof. by rewrite /basis => ->. Qed.

Lemma basis_same (s s' : st) : kernel s' = kernel s -> basis s' = basis s.
Proof. by rewrite /basis => ->. Qed.

(** The basis after a step spans part of the basis before. *)
Lemma step_basis_sub (t : task) last (s : st) (d : svdres R (dim t) (projT1 (basis s))) s' :
  step_svd th lim last d = Ok s' -> exists M, bas s' = bas s *m M.
Proof.
case/step_svd_cases => [[_ ->]|[_ _ _]]; first by exists 1%:M; rewrite mulmx1.
case: last => hk.
  by rewrite (basis_same hk); exists 1%:M; rewrite mulmx1.
by rewrite (basis_next hk) /=; exists (rightCols (rankJ th d) (svV d)).
Qed.

Lemma step_control_in (t : task) last (s : st) (d : svdres R (dim t) (projT1 (basis s))) s' :
  step_svd th lim last d = Ok s' -> exists z, control s' = control s + bas s *m z.
Proof.
case/step_svd_cases => [[_ ->]|[_ -> _ _]]; first by exists 0; rewrite mulmx0 addr0.
by rewrite /increment; eexists.
Qed.

Lemma posture_control_in (t : task) (s s' : st) :
  step_posture t s = Ok s' -> exists z, control s' = control s + bas s *m z.
Proof.
rewrite /step_posture /basis; case: (kernel s) => [[k K]|].
  by case=> <- /=; eexists.
by case: ifP => // _ [<-] /=; exists 0; rewrite mulmx0 addr0.
Qed.

(** All later controls stay in control + range of the basis. *)
Lemma log_control_in ts s L p sf :
  loop_log ts s L p sf -> exists z, control sf = control s + bas s *m z.
Proof.
elim=> {ts s L p sf} [s|t s s' Hp Hs|t rest s d s' Hp Hd Hs Hstop|t rest s d s' L p sf Hp Hd Hs Hn _ [z IH]].
- by exists 0; rewrite mulmx0 addr0.
- exact: posture_control_in Hs.
- exact: step_control_in Hs.
- have [z1 h1] := step_control_in Hs; have [M hM] := step_basis_sub Hs.
  by exists (z1 + M *m z); rewrite IH h1 hM -addrA mulmxDr mulmxA.
Qed.

Lemma log_event_in ts s L p sf e :
  loop_log ts s L p sf -> List.In e L ->
  (exists z, control (ev_s e) = control s + bas s *m z) /\
  (exists M, bas (ev_s e) = bas s *m M).
Proof.
elim=> {ts s L p sf} [s|t s s' Hp Hs|t rest s d s' Hp Hd Hs Hstop|t rest s d s' L p sf Hp Hd Hs Hn _ IH] //=.
- case=> // <- /=; split; first by exists 0; rewrite mulmx0 addr0.
  by exists 1%:M; rewrite mulmx1.
- case=> [<-|/IH [[z hz] [M hM]]] /=.
    split; first by exists 0; rewrite mulmx0 addr0.
    by exists 1%:M; rewrite mulmx1.
  have [z1 h1] := step_control_in Hs; have [M1 hM1] := step_basis_sub Hs.
  split.
    by exists (z1 + M1 *m z); rewrite hz h1 hM1 -addrA mulmxDr mulmxA.
  by exists (M1 *m M); rewrite hM hM1 mulmxA.
Qed.

(** controlIsZero is only set when the control is zero. *)
Definition zinv (s : st) : Prop := isZero s -> control s = 0.

Lemma step_zinv (t : task) last (s : st) (d : svdres R (dim t) (projT1 (basis s))) s' :
  step_svd th lim last d = Ok s' -> zinv s -> zinv s'.
Proof.
by case/step_svd_cases => [[_ ->]|[_ _ hz _]] // _; rewrite /zinv hz.
Qed.

Lemma taskErrE (t : task) (s : st) :
  zinv s -> taskErr t s = ref t - activated (sel t) (jac t) *m control s.
Proof. by rewrite /taskErr /zinv; case: isZero => // ->; rewrite // mulmx0 subr0. Qed.

(** Facts holding at each event of a log. *)
Definition ev_ok (e : event) : Prop :=
  [/\ is_svd (ev_J e *m bas (ev_s e)) (ev_d e),
      exists last, step_svd th lim last (ev_d e) = Ok (ev_s' e) &
      zinv (ev_s e)].

Lemma log_ev_ok ts s L p sf e :
  loop_log ts s L p sf -> zinv s -> List.In e L -> ev_ok e.
Proof.
elim=> {ts s L p sf} [s|t s s' Hp Hs|t rest s d s' Hp Hd Hs Hstop|t rest s d s' L p sf Hp Hd Hs Hn _ IH] hz //=.
- by case=> // <-; split=> //=; exists (nilp rest).
- case=> [<-|]; first by split=> //=; exists (nilp rest).
  by apply: IH; apply: step_zinv Hs hz.
Qed.

(** After an accepted event, the rest of the run moves inside the new null space. *)
Lemma log_after ts s L p sf e :
  loop_log ts s L p sf -> List.In e L -> ev_acc th lim e ->
  exists z : 'cV[R]_(projT1 (basis (ev_s e)) - rankJ th (ev_d e)),
    control sf = control (ev_s' e) +
       bas (ev_s e) *m (rightCols (rankJ th (ev_d e)) (svV (ev_d e)) *m z).
Proof.
elim=> {ts s L p sf} [s|t s s' Hp Hs|t rest s d s' Hp Hd Hs Hstop|t rest s d s' L p sf Hp Hd Hs Hn Hl IH] //=.
- by case=> // <- _ /=; exists 0; rewrite !mulmx0 addr0.
- case=> [<-|Hin] Hacc; last exact: IH.
  rewrite /ev_acc /= in Hacc.
  have [z hz] := log_control_in Hl.
  case/step_svd_cases: (Hs) => [[hna _]|[_ _ _]]; first by rewrite Hacc in hna.
  have -> : nilp rest = false by apply/negbTE; move: Hn; rewrite negb_or; case/andP.
  move=> hk; move: z hz; rewrite (basis_next hk) /= => z hz.
  by exists z; rewrite hz mulmxA.
Qed.

Lemma increment_in (t : task) (s : st) (d : svdres R (dim t) (projT1 (basis s))) :
  increment th d = bas s *m (vthin d *m tmpTask d (rankJ th d) (taskErr t s)).
Proof. by []. Qed.

Lemma event_control e : ev_ok e -> ev_acc th lim e ->
  control (ev_s' e) = control (ev_s e) + increment th (ev_d e).
Proof.
case=> _ [last /step_svd_cases h] _ Hacc.
by case: h => [[hna _]|[]] //; rewrite /ev_acc in Hacc; rewrite Hacc in hna.
Qed.

(** C09, retained directions. *)
Lemma final_retained ts s L p sf e j :
  0 <= th -> loop_log ts s L p sf -> zinv s -> List.In e L -> ev_acc th lim e ->
  retained th j ->
  along j (ev_J e *m control sf) = along (e := e) j (ref (ev_t e)).
Proof.
move=> th0 Hl hz Hin Hacc Hret.
have Hok := log_ev_ok Hl hz Hin; case: (Hok) => [Hd _ hze].
have [z ->] := log_after Hl Hin Hacc.
rewrite (event_control Hok Hacc) increment_in /along.
rewrite !mulmxDr !mxDE.
rewrite !(mulmxA (ev_J e)) (mulmxA (svU _)^T _ (rightCols _ _ *m z)).
rewrite (retained_annihilate Hd) // addr0.
have := retained_reached Hd th0 (taskErr (ev_t e) (ev_s e)) Hret.
rewrite mulmxBr mxBE {1}(taskErrE _ hze) -/(ev_J e) mulmxBr mxBE => /eqP.
rewrite subr_eq0 => /eqP h.
by rewrite -h addrC subrK.
Qed.

Lemma after_retained e j :
  0 <= th -> ev_ok e -> ev_acc th lim e -> retained th j ->
  along j (ev_J e *m control (ev_s' e)) = along (e := e) j (ref (ev_t e)).
Proof.
move=> th0 Hok Hacc Hret; case: (Hok) => [Hd _ hze].
rewrite (event_control Hok Hacc) increment_in /along mulmxDr mulmxDr mxDE.
rewrite !(mulmxA (ev_J e)).
have := retained_reached Hd th0 (taskErr (ev_t e) (ev_s e)) Hret.
rewrite mulmxBr mxBE {1}(taskErrE _ hze) -/(ev_J e) mulmxBr mxBE => /eqP.
rewrite subr_eq0 => /eqP h.
by rewrite -h addrC subrK.
Qed.

Lemma ndP (e : event) : no_discard th e -> forall j, ~~ (th < svS (ev_d e) 0 j) -> svS (ev_d e) 0 j = 0.
Proof. by move=> h j hj; apply: h => hr; rewrite /retained in hr; rewrite hr in hj. Qed.

(** C09, no discarded value: the task value is exactly kept. *)
Lemma final_exact ts s L p sf e :
  loop_log ts s L p sf -> zinv s -> List.In e L -> ev_acc th lim e -> no_discard th e ->
  ev_J e *m control sf = ev_J e *m control (ev_s' e).
Proof.
move=> Hl hz Hin Hacc Hnd.
have [Hd _ _] := log_ev_ok Hl hz Hin.
have [z ->] := log_after Hl Hin Hacc.
rewrite mulmxDr; move: (A_V2_0 Hd (ndP Hnd)).
by rewrite !mulmxA => ->; rewrite mul0mx addr0.
Qed.

(** Orthonormality. *)
Definition orth (s : st) : Prop := (bas s)^T *m bas s = 1%:M.

Lemma orth_mul k l (B : 'M[R]_(n, k)) (Q : 'M[R]_(k, l)) :
  B^T *m B = 1%:M -> Q^T *m Q = 1%:M -> (B *m Q)^T *m (B *m Q) = 1%:M.
Proof. by move=> hB hQ; rewrite trmx_mul mulmxA -(mulmxA Q^T) hB mulmx1. Qed.

Lemma step_orth (t : task) last (s : st) (d : svdres R (dim t) (projT1 (basis s))) s' :
  is_svd (activated (sel t) (jac t) *m bas s) d ->
  step_svd th lim last d = Ok s' -> orth s -> orth s'.
Proof.
move=> Hd; case/step_svd_cases => [[_ ->]|[_ _ _]] // hk ho; move: hk.
case: last => hk; first by rewrite /orth (basis_same hk).
rewrite /orth (basis_next hk) /=.
by apply: orth_mul => //; exact: (V2_orth th Hd).
Qed.

Lemma log_orth ts s L p sf e :
  loop_log ts s L p sf -> orth s -> List.In e L -> orth (ev_s e).
Proof.
elim=> {ts s L p sf} [s|t s s' Hp Hs|t rest s d s' Hp Hd Hs Hstop|t rest s d s' L p sf Hp Hd Hs Hn _ IH] ho //=.
- by case=> // <-.
- by case=> [<-|] //; apply: IH; apply: step_orth Hs ho.
Qed.

(** Bound on the disturbance in general. *)
Lemma final_bound ts s L p sf e :
  0 <= th -> loop_log ts s L p sf -> zinv s -> orth s -> List.In e L -> ev_acc th lim e ->
  sqnorm (ev_J e *m (control sf - control (ev_s' e))) <=
  th ^+ 2 * sqnorm (control sf - control (ev_s' e)).
Proof.
move=> th0 Hl hz ho Hin Hacc.
have [Hd _ _] := log_ev_ok Hl hz Hin.
have hoe := log_orth Hl ho Hin.
have [z ->] := log_after Hl Hin Hacc.
rewrite addrC addrA addNr add0r.
rewrite (sqnorm_orth _ hoe) (sqnorm_orth _ (V2_orth th Hd)) (mulmxA (ev_J e)).
exact: (disturbance_bound Hd th0).
Qed.

(** Increments are mutually orthogonal. *)
Lemma log_split ts s L1 e L2 p sf :
  loop_log ts s (L1 ++ e :: L2) p sf ->
  exists ts', loop_log ts' (ev_s e) (e :: L2) p sf.
Proof.
elim: L1 ts s => [|e1 L1 IH] ts s /= H.
  by exists ts; inversion H; subst => //=.
inversion H; subst.
- by destruct L1.
- by apply: IH; eassumption.
Qed.

Lemma log_head ts s e L p sf :
  loop_log ts s (e :: L) p sf ->
  (L = [::] /\ p = None /\ sf = ev_s' e) \/
  (step_svd th lim false (ev_d e) = Ok (ev_s' e) /\
   exists rest, loop_log rest (ev_s' e) L p sf).
Proof.
move E : (e :: L) => L0 H; case: H E => // {ts s L0 p sf}.
- by move=> t rest s d s' _ _ _ _ [-> ->]; left.
- move=> t rest s d s' L0 p sf Hp Hd Hs Hn Hl [-> ->]; right; split; last by exists rest.
  by move: Hs; have -> : nilp rest = false by apply/negbTE; move: Hn; rewrite negb_or; case/andP.
Qed.

Lemma increments_orthogonal ts s L1 e1 L2 e2 L3 p sf :
  loop_log ts s (L1 ++ e1 :: L2 ++ e2 :: L3) p sf ->
  zinv s -> orth s -> ev_acc th lim e1 ->
  ((increment th (ev_d e1))^T *m increment th (ev_d e2)) 0 0 = 0.
Proof.
move=> H hz ho Hacc.
have Hin1 : List.In e1 (L1 ++ e1 :: L2 ++ e2 :: L3).
  by apply: List.in_or_app; right; left.
have Hoe := log_orth H ho Hin1.
have [Hd1 _ _] := log_ev_ok H hz Hin1.
have [ts' H1] := log_split H.
case: (log_head H1) => [[e _]|[Hs [rest Hr]]]; first by case: L2 e {H Hin1 H1}.
have Hin2 : List.In e2 (L2 ++ e2 :: L3) by apply: List.in_or_app; right; left.
have [_ [M hM]] := log_event_in Hr Hin2.
rewrite (increment_in (ev_d e2)) hM.
rewrite /ev_acc /= in Hacc.
case/step_svd_cases: Hs => [[hna _]|[_ _ _ hk]]; first by rewrite Hacc in hna.
move: M {hM}; rewrite (basis_next hk) /= => M.
rewrite increment_in trmx_mul -!mulmxA (mulmxA (bas (ev_s e1))^T) Hoe mul1mx.
exact: (x0_V2 Hd1).
Qed.


Lemma log_head_s ts s e L p sf : loop_log ts s (e :: L) p sf -> ev_s e = s.
Proof.
move E : (e :: L) => L0 H; case: H E => // {ts s L0 p sf}.
- by move=> t rest s d s' _ _ _ _ [-> _].
- by move=> t rest s d s' L0 p sf Hp Hd Hs Hn Hl [-> _].
Qed.

(** [x] does not change what the accepted tasks of [L] control. *)
Definition unseen (L : seq event) (x : 'cV[R]_n) : Prop :=
  forall e, List.In e L -> ev_acc th lim e ->
  forall j, retained th j -> along (e := e) j (ev_J e *m x) = 0.

Lemma log_span ts s L1 e L2 p sf y :
  0 <= th -> loop_log ts s (L1 ++ e :: L2) p sf -> zinv s ->
  unseen L1 (bas s *m y) -> exists z, bas s *m y = bas (ev_s e) *m z.
Proof.
move=> th0; elim: L1 ts s y => [|e1 L1 IH] ts s y /= H hz hu.
  by have := log_head_s H; move=> ?; subst s; exists y.
have Hin1 : List.In e1 (e1 :: L1 ++ e :: L2) by left.
have [Hd1 _ _] := log_ev_ok H hz Hin1.
have E := log_head_s H; subst s.
case: (log_head H) => [[E _]|[Hs [rest Hr]]]; first by case: L1 E {IH H hu Hin1}.
have hz' := step_zinv Hs hz.
have hu' : unseen L1 (bas (ev_s e1) *m y) by move=> e0 h; apply: hu; right.
case/step_svd_cases: (Hs) => [[hna E]|[hacc _ _ hk]].
  by rewrite E in Hr hz'; apply: IH Hr hz' hu'.
have h0 : forall j, th < svS (ev_d e1) 0 j ->
    ((svU (ev_d e1))^T *m (ev_J e1 *m bas (ev_s e1)) *m y) j 0 = 0.
  move=> j hj; have := hu e1 (or_introl (erefl _)) hacc j hj.
  by rewrite /along !mulmxA.
have Ey := annihilated_span Hd1 th0 h0.
set w := _ *m y in Ey.
have E2 : exists w', bas (ev_s e1) *m y = bas (ev_s' e1) *m w'.
  by rewrite (basis_next hk) /=; exists w; rewrite -mulmxA -Ey.
case: E2 => w' E2; rewrite E2; apply: IH Hr hz' _.
by rewrite -E2.
Qed.

Lemma log_range_unseen ts s L1 e L2 p sf z :
  loop_log ts s (L1 ++ e :: L2) p sf -> zinv s ->
  unseen L1 (bas (ev_s e) *m z).
Proof.
elim: L1 ts s => [|e1 L1 IH] ts s /= H hz //.
have Hin1 : List.In e1 (e1 :: L1 ++ e :: L2) by left.
have [Hd1 _ _] := log_ev_ok H hz Hin1.
have E := log_head_s H; subst s.
case: (log_head H) => [[E _]|[Hs [rest Hr]]]; first by case: L1 E {IH H Hin1}.
have hz' := step_zinv Hs hz.
move=> e0 /= [<-|Hin] hacc j hj; last exact: (IH _ _ Hr hz') hj.
have hin : List.In e (L1 ++ e :: L2) by apply: List.in_or_app; right; left.
have [_ [M ->]] := log_event_in Hr hin.
case/step_svd_cases: (Hs) => [[hna _]|[_ _ _ hk]].
  by rewrite /ev_acc in hacc; rewrite hacc in hna.
move: M; rewrite (basis_next hk) /= => M.
have := retained_annihilate Hd1 (M *m z) hj.
by rewrite /along !mulmxA.
Qed.

(** C10 *)
Lemma unseen_diff ts s L1 e L2 p sf u :
  0 <= th -> loop_log ts s (L1 ++ e :: L2) p sf -> zinv s ->
  (forall e', List.In e' L1 -> ev_acc th lim e' -> forall j, retained th j ->
     along (e := e') j (ev_J e' *m u) = along j (ref (ev_t e'))) ->
  unseen L1 (u - control (ev_s e)).
Proof.
move=> th0 H hz hu e' Hin hacc j hj.
have [ts' H'] := log_split H.
have [z hzf] := log_control_in H'.
have h1 := log_range_unseen z H hz Hin hacc hj.
have Hin' : List.In e' (L1 ++ e :: L2) by apply: List.in_or_app; left.
have h2 := final_retained th0 H hz Hin' hacc hj.
move: h2; rewrite hzf -(hu e' Hin hacc j hj) /along.
rewrite !mulmxDr mxDE; rewrite /along in h1; rewrite h1 addr0 => h2.
by rewrite !mulmxN mxBE h2 subrr.
Qed.

Definition full_basis (s : st) := kernel s = None.

Lemma full_any s (x : 'cV[R]_n) : full_basis s -> exists y, x = bas s *m y.
Proof. by rewrite /full_basis /basis => -> /=; exists x; rewrite mul1mx. Qed.

Lemma optimal_after ts s L1 e L2 p sf u :
  0 <= th -> loop_log ts s (L1 ++ e :: L2) p sf -> zinv s -> full_basis s ->
  ev_acc th lim e -> no_discard th e ->
  (forall e', List.In e' L1 -> ev_acc th lim e' -> forall j, retained th j ->
     along (e := e') j (ev_J e' *m u) = along j (ref (ev_t e'))) ->
  sqnorm (ref (ev_t e) - ev_J e *m control (ev_s' e)) <=
  sqnorm (ref (ev_t e) - ev_J e *m u).
Proof.
move=> th0 H hz hf hacc hnd hu.
have Hin : List.In e (L1 ++ e :: L2) by apply: List.in_or_app; right; left.
have Hok := log_ev_ok H hz Hin; case: (Hok) => [Hd _ hze].
have hun := unseen_diff th0 H hz hu.
have [y hy] := full_any (u - control (ev_s e)) hf.
rewrite hy in hun; have [z hzz] := log_span th0 H hz hun.
have -> : u = control (ev_s e) + bas (ev_s e) *m z.
  by rewrite -hzz -hy addrC subrK.
rewrite (event_control Hok hacc) increment_in !mulmxDr !opprD !addrA.
have -> : ref (ev_t e) - ev_J e *m control (ev_s e) = taskErr (ev_t e) (ev_s e).
  by rewrite (taskErrE _ hze).
rewrite !(mulmxA (ev_J e)).
exact: (least_squares Hd th0 _ (ndP hnd)).
Qed.

Lemma smallest_increment ts s L1 e L2 p sf u :
  0 <= th -> loop_log ts s (L1 ++ e :: L2) p sf -> zinv s -> full_basis s ->
  ev_acc th lim e -> 
  (forall e', List.In e' L1 -> ev_acc th lim e' -> forall j, retained th j ->
     along (e := e') j (ev_J e' *m u) = along j (ref (ev_t e'))) ->
  (ev_J e *m u = ev_J e *m control (ev_s' e)) ->
  sqnorm (control (ev_s' e) - control (ev_s e)) <= sqnorm (u - control (ev_s e)).
Proof.
move=> th0 H hz hf hacc hu hJ.
have Hin : List.In e (L1 ++ e :: L2) by apply: List.in_or_app; right; left.
have Hok := log_ev_ok H hz Hin; case: (Hok) => [Hd _ hze].
have ho : orth s by rewrite /orth /basis hf /= trmx1 mulmx1.
have hoe := log_orth H ho Hin.
have hun := unseen_diff th0 H hz hu.
have [y hy] := full_any (u - control (ev_s e)) hf.
rewrite hy in hun; have [z hzz] := log_span th0 H hz hun.
have hue : u = control (ev_s e) + bas (ev_s e) *m z.
  by rewrite -hzz -hy addrC subrK.
rewrite hue (event_control Hok hacc) ![_ + _ - _]addrC !addrA !addNr !add0r.
rewrite increment_in !(sqnorm_orth _ hoe).
apply: (least_norm Hd) => //.
move: hJ; rewrite hue (event_control Hok hacc) increment_in !mulmxDr => /addrI.
by rewrite !mulmxA.
Qed.

(** The whole run: the change is the smallest one reaching every controlled direction. *)
Lemma run_perp ts s L p sf y :
  0 <= th -> loop_log ts s L p sf -> p = None -> zinv s -> orth s ->
  unseen L (bas s *m y) ->
  ((control sf - control s)^T *m (bas s *m y)) 0 0 = 0.
Proof.
move=> th0 H; elim: H y => {ts s L p sf} [s|t s s' Hp Hs|t rest s d s' Hp Hd Hs Hstop|t rest s d s' L p sf Hp Hd Hs Hn Hl IH] y hp hz ho hun //.
- by rewrite subrr trmx0 mul0mx mxE.
- case/step_svd_cases: (Hs) => [[_ ->]|[hacc -> _ _]].
    by rewrite subrr trmx0 mul0mx mxE.
  rewrite addrC addrA addNr add0r increment_in trmx_mul -mulmxA (mulmxA (bas s)^T) ho mul1mx.
  have h0 : forall j, th < svS d 0 j ->
      ((svU d)^T *m (activated (sel t) (jac t) *m bas s) *m y) j 0 = 0.
    move=> j hj.
    have := hun (Event d s') (or_introl (erefl _)) hacc j hj.
    by rewrite /along /ev_J /= !mulmxA.
  rewrite (annihilated_span Hd th0 h0); exact: (x0_V2 Hd).
- have hz' := step_zinv Hs hz; have ho' := step_orth Hd Hs ho.
  case/step_svd_cases: (Hs) => [[_ E]|[hacc hc _]].
    rewrite E in IH hz' ho'; apply: IH => // e he; apply: hun; by right.
  have -> : nilp rest = false by apply/negbTE; move: Hn; rewrite negb_or; case/andP.
  move=> hk.
  have h0 : forall j, th < svS d 0 j ->
      ((svU d)^T *m (activated (sel t) (jac t) *m bas s) *m y) j 0 = 0.
    move=> j hj.
    have := hun (Event d s') (or_introl (erefl _)) hacc j hj.
    by rewrite /along /ev_J /= !mulmxA.
  have Ey := annihilated_span Hd th0 h0.
  have -> : control sf - control s = (control sf - control s') + increment th d.
    by rewrite hc opprD addrA subrK.
  rewrite linearD /= mulmxDl mxDE.
  have -> : ((increment th d)^T *m (bas s *m y)) 0 0 = 0.
    rewrite increment_in trmx_mul -mulmxA (mulmxA (bas s)^T) ho mul1mx Ey.
    exact: (x0_V2 Hd).
  rewrite addr0.
  have [w hw] : exists w, bas s *m y = bas s' *m w.
    by rewrite (basis_next hk) /=; exists ((rightCols (rankJ th d) (svV d))^T *m y); rewrite -mulmxA -Ey.
  rewrite hw; apply: IH => // e he; rewrite -hw; apply: hun; by right.
Qed.

Lemma run_least_norm ts s L sf u :
  0 <= th -> loop_log ts s L None sf -> zinv s -> full_basis s ->
  (forall e, List.In e L -> ev_acc th lim e -> forall j, retained th j ->
     along (e := e) j (ev_J e *m u) = along j (ref (ev_t e))) ->
  sqnorm (control sf - control s) <= sqnorm (u - control s) /\
  (sqnorm (u - control s) = sqnorm (control sf - control s) -> u = control sf).
Proof.
move=> th0 H hz hf hu.
have ho : orth s by rewrite /orth /basis hf /= trmx1 mulmx1.
have [y hy] := full_any (u - control sf) hf.
have hun : unseen L (u - control sf).
  move=> e he hacc j hj.
  have h2 := final_retained th0 H hz he hacc hj.
  have h1 := hu e he hacc j hj.
  by move: h1; rewrite -h2 /along !mulmxBr mxBE => ->; rewrite subrr.
rewrite hy in hun.
have hperp := run_perp th0 H (erefl _) hz ho hun.
rewrite -hy in hperp.
have -> : u - control s = (control sf - control s) + (u - control sf).
  by rewrite [RHS]addrC addrA subrK.
rewrite (sqnormD (control sf - control s)) hperp mul0rn addr0; split.
  by rewrite ler_addl sqnorm_ge0.
move/eqP; rewrite -subr_eq0 addrC addrA addNr add0r sqnorm_eq0 subr_eq0.
by move/eqP.
Qed.

(** Joint selection. *)
Lemma sel_at_ok f i : at_ f (Z.of_nat i) = Ok (sel_at f i).
Proof. by rewrite /sel_at at_nth //; exact: Nat2Z.is_nonneg. Qed.

Lemma sel_at_not f i : sel_at (not_ f) i = ~~ sel_at f i.
Proof.
rewrite /sel_at !at_nth; try exact: Nat2Z.is_nonneg.
by rewrite not_nth.
Qed.

Lemma sel_at_true f i : sel_at f i -> to_bool f = true.
Proof.
move=> h; apply/to_bool_iff; exists (Z.of_nat i); split; first exact: Nat2Z.is_nonneg.
by rewrite sel_at_ok h.
Qed.

Lemma activatedE m f (J : 'M[R]_(m, n)) i j :
  activated (Some f) J i j = if sel_at f j then J i j else 0.
Proof.
rewrite /activated.
case E1 : (to_bool f); last first.
  rewrite mxE; case h : (sel_at f j) => //.
  by rewrite (sel_at_true h) in E1.
case E2 : (to_bool (not_ f)); first by rewrite mxE; case: sel_at.
case h : (sel_at f j) => //.
have : to_bool (not_ f) = true; last by rewrite E2.
by apply: (@sel_at_true _ j); rewrite sel_at_not h.
Qed.

Lemma excluded_joint ts s L p sf (i : 'I_n) :
  0 <= th -> loop_log ts s L p sf -> zinv s -> full_basis s ->
  (forall t, List.In t ts -> exists f, sel t = Some f /\ sel_at f i = false) ->
  control sf i 0 = control s i 0.
Proof.
move=> th0 H hz hf hsel.
have hts e : List.In e L -> List.In (ev_t e) ts.
  elim: H {hsel hz hf} => {ts s L p sf} [s|t s s' Hp Hs|t rest s d s' Hp Hd Hs Hstop|t rest s d s' L p sf Hp Hd Hs Hn Hl IH] //=.
    by case=> // <-; left.
  by case=> [<-|/IH]; [left|right].
have ho : orth s by rewrite /orth /basis hf /= trmx1 mulmx1.
have hp : p = None.
  elim: H hsel {hz hf hts ho} => {ts s L p sf} [s|t s s' Hp Hs|t rest s d s' Hp Hd Hs Hstop|t rest s d s' L p sf Hp Hd Hs Hn Hl IH] hsel //=; last first.
    by apply: IH => t' ht'; apply: hsel; right.
  have [f [Ef hfi]] := hsel t (or_introl (erefl _)).
  move: Hp; rewrite /isFullPostureTask Ef => /and4P [_ _ hn _].
  move: hn; suff -> : to_bool (not_ f) = true by [].
  by apply: (@sel_at_true _ i); rewrite sel_at_not hfi.
have hun : unseen L (bas s *m (bas s)^T *m delta_mx i 0).
  have -> : bas s *m (bas s)^T *m delta_mx i 0 = delta_mx i 0 :> 'cV_n.
    by rewrite /basis hf /= trmx1 mulmx1 mul1mx.
  move=> e he hacc j hj.
  have [f [Ef hfi]] := hsel _ (hts _ he).
  suff -> : ev_J e *m (delta_mx i 0 : 'cV_n) = 0 by rewrite /along mulmx0 mxE.
  apply/matrixP => a b; rewrite mxE big1 ?mxE // => l _.
  rewrite [delta_mx _ _ _ _]mxE; case: eqP => [->|_]; last by rewrite mulr0.
  by rewrite /ev_J Ef activatedE hfi mul0r.
rewrite -mulmxA in hun.
have := run_perp th0 H hp hz ho hun.
rewrite mulmxA /basis hf /= trmx1 mul1mx mulmx1 -colE mxE.
by rewrite !mxE => /eqP; rewrite subr_eq0 => /eqP.
Qed.

(** Rejected tasks. *)
Lemma rejected_same (t : task) last (s : st) (d : svdres R (dim t) (projT1 (basis s))) s' :
  lim < sqnorm (increment th d) -> step_svd th lim last d = Ok s' -> s' = s.
Proof.
move=> h /step_svd_cases [[_ ->]|[]] //.
by rewrite /accepted h.
Qed.

End Runs.
