(** C54: the Kalman filter. *)
From Coq Require Import ZArith String.
From mathcomp Require Import all_ssreflect all_algebra.
From Verif Require Import Mx_Abel Kalman_Model.
Import Order.TTheory GRing.Theory Num.Theory.
Set Implicit Arguments.
Unset Strict Implicit.
Unset Printing Implicit Defensive.
Local Open Scope ring_scope.

Section Spec.
Variable R : realFieldType.
(** ** Specification *)
(** Symmetric positive semidefinite matrices, and the order they define. *)
Definition psd n (A : 'M[R]_n) : Prop := A^T = A /\ forall x : 'cV[R]_n, 0 <= (x^T *m A *m x) 0 0.
Definition mle n (A B : 'M[R]_n) : Prop := psd (B - A).
(** Covariance of the estimation error after a correction with an arbitrary gain [G]. *)
Definition corrected n m (H : 'M[R]_(m, n)) (Rn : 'M[R]_m) (Pp : 'M[R]_n) (G : 'M[R]_(n, m)) : 'M[R]_n :=
  (1%:M - G *m H) *m Pp *m (1%:M - G *m H)^T + G *m Rn *m G^T.
End Spec.

Section Props.
Variable R : realFieldType.
Variables n m : nat.
Implicit Types (F Q P Pp : 'M[R]_n) (H : 'M[R]_(m, n)) (Rn : 'M[R]_m).

Lemma psd_add k (A B : 'M[R]_k) : psd A -> psd B -> psd (A + B).
Proof.
move=> [SA PA] [SB PB]; split; first by rewrite linearD /= SA SB.
by move=> x; rewrite mulmxDr mulmxDl mxE addr_ge0.
Qed.
Lemma psd_conj k l (A : 'M[R]_(k, l)) (B : 'M[R]_l) : psd B -> psd (A *m B *m A^T).
Proof.
move=> [SB PB]; split; first by rewrite !trmx_mul trmxK SB mulmxA.
move=> x; have := PB (A^T *m x); by rewrite trmx_mul trmxK !mulmxA.
Qed.
Lemma psd_sym k (A : 'M[R]_k) : psd A -> A^T = A. Proof. by case. Qed.

Lemma predicted_psd F Q P : psd P -> psd Q -> psd (predicted F Q P).
Proof. by move=> HP HQ; apply: psd_add HQ; apply: psd_conj. Qed.
Lemma innovation_psd H Rn Pp : psd Pp -> psd Rn -> psd (innovation H Rn Pp).
Proof. by move=> HP HR; apply: psd_add HR; apply: psd_conj. Qed.

Section Step.
Variables (H : 'M[R]_(m, n)) (Rn : 'M[R]_m) (Pp : 'M[R]_n).
Hypothesis HP : psd Pp.
Hypothesis HR : psd Rn.
Let S := innovation H Rn Pp.
Hypothesis HS : S \in unitmx.
Let K := gain H Rn Pp.

Lemma gainS : K *m S = Pp *m H^T.
Proof. by rewrite /K /gain -mulmxA mulVmx ?mulmx1. Qed.
Lemma Sgain : S *m K^T = H *m Pp.
Proof.
have E := gainS. have SS : S^T = S by apply: psd_sym; apply: innovation_psd.
by apply: trmx_inj; rewrite [LHS]trmx_mul [RHS]trmx_mul trmxK SS (psd_sym HP).
Qed.

(** Any gain: the covariance of the error is the one of the filter plus the square of the difference
    of gains. *)
Lemma corrected_gain G : corrected H Rn Pp G = updated H Rn Pp + (G - K) *m S *m (G - K)^T.
Proof.
have E1 := gainS. have E2 := Sgain.
have -> : (G - K) *m S *m (G - K)^T = G *m S *m G^T - Pp *m H^T *m G^T - (G *m (H *m Pp) - K *m (H *m Pp)).
  rewrite [(G - K)^T]linearB /= mulmxBr !mulmxBl E1.
  by rewrite -[G *m S *m K^T]mulmxA -[Pp *m H^T *m K^T]mulmxA E2; congr (_ - (_ - _)); rewrite mulmxA -E1 -!mulmxA E2.
rewrite /corrected [(_ - _)^T]linearB /= trmx1 trmx_mul !mulmxBl !mulmxBr !mul1mx !mulmx1.
rewrite /updated /S /innovation -/K mulmxDr mulmxDl !mulmxA.
set a := Pp *m H^T *m G^T. set b := G *m H *m Pp. set c := K *m H *m Pp.
set d := G *m H *m Pp *m H^T *m G^T. set f := G *m Rn *m G^T.
by abel.
Qed.

(** One correction.  The covariance is symmetric positive semidefinite, not larger than the predicted
    one, and the smallest that a linear correction can reach, whatever its gain. *)
Theorem variance_psd : psd (updated H Rn Pp).
Proof.
have E := corrected_gain K. rewrite subrr mul0mx mul0mx addr0 in E. rewrite -E.
by apply: psd_add; apply: psd_conj.
Qed.
Theorem variance_decreases : mle (updated H Rn Pp) Pp.
Proof.
rewrite /mle /updated -/K opprB addrC addrNK -mulmxA -Sgain mulmxA.
by apply: psd_conj; apply: innovation_psd.
Qed.
Theorem gain_optimal G : mle (updated H Rn Pp) (corrected H Rn Pp G).
Proof.
rewrite /mle corrected_gain addrC addKr. by apply: psd_conj; apply: innovation_psd.
Qed.

(** With an invertible prediction and measurement noise, the informations add up and the estimate is
    the weighted least squares solution. *)
Theorem variance_information : Pp \in unitmx -> Rn \in unitmx ->
  updated H Rn Pp *m (invmx Pp + H^T *m invmx Rn *m H) = 1%:M.
Proof.
move=> UP UR. rewrite mulmxDr /updated -/K mulmxBl mulmxV // -mulmxA mulmxV // mulmx1.
have -> : (Pp - K *m H *m Pp) *m (H^T *m invmx Rn *m H) = K *m H.
  rewrite mulmxBl !mulmxA -gainS /S /innovation mulmxDr !mulmxA.
  by rewrite -!mulmxBl [_ + K *m Rn]addrC addrK -[K *m Rn *m _]mulmxA mulmxV // mulmx1.
by abel.
Qed.
Theorem state_least_squares (xp : 'cV[R]_n) (y : 'cV[R]_m) : Pp \in unitmx -> Rn \in unitmx ->
  let x := xp + gain H Rn Pp *m (y - H *m xp) in
  (invmx Pp + H^T *m invmx Rn *m H) *m x = invmx Pp *m xp + H^T *m invmx Rn *m y.
Proof.
move=> UP UR x. have I := variance_information UP UR. have I' := mulmx1C I.
have KE : K = updated H Rn Pp *m H^T *m invmx Rn.
  rewrite /updated -/K mulmxBl -gainS /S /innovation mulmxDr !mulmxA.
  by rewrite [_ + K *m Rn]addrC addrK -mulmxA mulmxV // mulmx1.
rewrite /x -/K KE mulmxDr; set A := invmx Pp + _ in I I' *.
have -> z : A *m (updated H Rn Pp *m H^T *m invmx Rn *m z) = H^T *m invmx Rn *m z by rewrite !mulmxA I' mul1mx.
rewrite /A mulmxBr mulmxDl !mulmxA.
by abel.
Qed.
(** An exact measurement is met exactly, and leaves no variance in the measured directions. *)
Theorem exact_measurement (xp : 'cV[R]_n) (y : 'cV[R]_m) : Rn = 0 ->
  H *m (xp + gain H Rn Pp *m (y - H *m xp)) = y /\ H *m updated H Rn Pp = 0.
Proof.
move=> R0. have E : H *m K = 1%:M.
  have ES : H *m Pp *m H^T = S by rewrite /S /innovation R0 addr0.
  by rewrite /K /gain -/S !mulmxA ES mulmxV.
split; first by rewrite mulmxDr mulmxA -/K E mul1mx; abel.
by rewrite /updated -/K mulmxBr -[K *m H *m Pp]mulmxA [H *m (K *m _)]mulmxA E mul1mx subrr.
Qed.
End Step.

(** Error of the estimate, for a linear system with transition noise [w] and measurement noise [v]. *)
Theorem estimation_error (F : 'M[R]_n) H Rn Pp (x x_est w : 'cV[R]_n) (v : 'cV[R]_m) :
  let x' := F *m x + w in
  let xp := F *m x_est in
  let x_est' := xp + gain H Rn Pp *m (H *m x' + v - H *m xp) in
  x' - x_est' = (1%:M - gain H Rn Pp *m H) *m (F *m (x - x_est) + w) - gain H Rn Pp *m v.
Proof.
move=> x' xp x_est'. rewrite /x_est' /x' /xp. set K := gain H Rn Pp.
rewrite !(mulmxBl, mulmxBr, mulmxDl, mulmxDr, mul1mx, mulmxA).
by abel.
Qed.

(** ** Histories *)
(** One tick at a new time: whatever outputs are asked, in whatever order and however often, the
    covariance makes exactly one step; the estimate is corrected when it is asked for. *)
Definition before (s : kalman R n m) (t : nat) : Prop :=
  (forall t' v, kPout s = Some (t', v) -> (t' < t)%N) /\ (forall t' v, kxout s = Some (t', v) -> (t' < t)%N).

Theorem tick_spec (s : kalman R n m) t (i : kin R n m) l :
  (0 < t)%N -> before s t -> l <> [::] ->
  let Pp := predicted (iF i) (iQ i) (kP s) in
  innovation (iH i) (iR i) Pp \in unitmx ->
  exists s', tick (Some s) ((t, i), l) = Some s' /\
    kP s' = updated (iH i) (iR i) Pp /\ kPout s' = Some (t, kP s') /\
    (if false \in l
     then kx s' = ixp i + gain (iH i) (iR i) Pp *m (iy i - iyp i) /\ kxout s' = Some (t, kx s')
     else kx s' = kx s /\ kxout s' = kxout s).
Proof.
move=> Ht [Hb1 Hb2] Hl Pp HU. have tn0 : (t == 0%N) = false by case: t Ht {Hb1 Hb2}.
have VU : varianceUpdate s t i = Some (mkK (updated (iH i) (iR i) Pp) (kx s) (gain (iH i) (iR i) Pp) (Some (t, updated (iH i) (iR i) Pp)) (kxout s)).
  by rewrite /varianceUpdate tn0 HU.
have RP : recomputeP s t i = varianceUpdate s t i.
  by rewrite /recomputeP; case E: (kPout s) => [[t' v]|//]; rewrite leqNgt (Hb1 _ _ E).
set s1 := mkK (updated (iH i) (iR i) Pp) (kx s) (gain (iH i) (iR i) Pp) (Some (t, updated (iH i) (iR i) Pp)) (kxout s) in VU *.
set x := ixp i + gain (iH i) (iR i) Pp *m (iy i - iyp i).
set s2 := mkK (kP s1) x (kK s1) (kPout s1) (Some (t, x)).
have P1 : recomputeP s1 t i = Some s1 by rewrite /recomputeP /= leqnn.
have X1 : recomputeX s1 t i = Some s2.
  have -> : recomputeX s1 t i = stateUpdate s1 t i.
    by rewrite /recomputeX /=; case E: (kxout s) => [[t' v]|//]; rewrite leqNgt (Hb2 _ _ E).
  by rewrite /stateUpdate tn0 P1.
have P2 : recomputeP s2 t i = Some s2 by rewrite /recomputeP /= leqnn.
have X2 : recomputeX s2 t i = Some s2 by rewrite /recomputeX /= leqnn.
have X0 : recomputeX s t i = Some s2.
  have -> : recomputeX s t i = stateUpdate s t i.
    by rewrite /recomputeX; case E: (kxout s) => [[t' v]|//]; rewrite leqNgt (Hb2 _ _ E).
  by rewrite /stateUpdate tn0 RP VU.
have F2 l' : tick (Some s2) ((t, i), l') = Some s2.
  by rewrite /tick /=; elim: l' => [//|[] l' IH] /=; rewrite ?P2 ?X2.
have F1 l' : tick (Some s1) ((t, i), l') = Some (if false \in l' then s2 else s1).
  rewrite /tick /=; elim: l' => [//|[] l' IH] /=; first by rewrite P1 IH inE.
  rewrite X1; exact: F2.
case: l Hl => [//|[] l] _.
- exists (if false \in l then s2 else s1); split.
    by have := F1 l; rewrite /tick /= RP VU => ->.
  by rewrite inE /=; case: (false \in l).
- exists s2; split; last by rewrite inE /=.
  by have := F2 l; rewrite /tick /= X0 => ->.
Qed.

(** Ticks at increasing times from the initialisation on: the covariance makes one step of the
    recurrence at every tick, whichever outputs are asked. *)
Fixpoint increasing (t0 : nat) (l : seq ((nat * kin R n m) * seq bool)) : Prop :=
  if l is x :: l' then (t0 < x.1.1)%N /\ x.2 <> [::] /\ increasing x.1.1 l' else True.
Definition riccati (P : 'M[R]_n) (i : kin R n m) : 'M[R]_n :=
  updated (iH i) (iR i) (predicted (iF i) (iQ i) P).
Fixpoint regular (P : 'M[R]_n) (l : seq ((nat * kin R n m) * seq bool)) : Prop :=
  if l is x :: l' then innovation (iH x.1.2) (iR x.1.2) (predicted (iF x.1.2) (iQ x.1.2) P) \in unitmx
                       /\ regular (riccati P x.1.2) l' else True.

Theorem covariance_history (P0 : 'M[R]_n) x0 l : increasing 0 l -> regular P0 l ->
  exists s, foldl (@tick R n m) (Some (kstart m P0 x0)) l = Some s /\
    kP s = foldl riccati P0 [seq x.1.2 | x <- l].
Proof.
have B0 : before (kstart m P0 x0) 1 by split=> t' v /=; case=> <- _.
have : kP (kstart m P0 x0) = P0 by [].
move: (kstart m P0 x0) B0 => s0.
elim: l P0 s0 0%N => [|[[t i] l] L IH] P s t0 HB EP; first by exists s.
move=> /= [Ht [Hl HI]] [HU HR].
have HB' : before s t by case: HB => B1 B2; split=> t' v E; [have := B1 _ _ E|have := B2 _ _ E]; rewrite ltnS => Q; apply: leq_ltn_trans Q Ht.
rewrite -EP in HU HR *.
have [s' [E [E1 [E2 E3]]]] := tick_spec (leq_ltn_trans (leq0n _) Ht) HB' Hl HU.
rewrite E. apply: (IH _ s' t) => //.
split=> t' v; first by rewrite E2 => -[<- _].
case: (false \in l) E3 => [[_ ->] [<- _] //|[_ ->] Q]. case: HB' => _ B2. exact: ltnW (B2 _ _ Q).
Qed.

(** Initial conditions: each setter writes its own member, whatever the order and the number of calls, and the output at
    time zero is the first value given: a second initialisation is not seen there, although the next tick starts from it. *)
Definition ksetter (s : kalman R n m) (c : 'M[R]_n + 'cV[R]_n) : kalman R n m :=
  match c with inl P => setP s P | inr x => setX s x end.
Definition Ps (l : seq ('M[R]_n + 'cV[R]_n)) : seq 'M[R]_n := pmap (fun c => if c is inl P then Some P else None) l.
Definition xs (l : seq ('M[R]_n + 'cV[R]_n)) : seq 'cV[R]_n := pmap (fun c => if c is inr x then Some x else None) l.
Theorem initial_conditions (l : seq ('M[R]_n + 'cV[R]_n)) :
  let s := foldl ksetter (mkK 0 0 0 None None) l in
  kP s = last 0 (Ps l) /\ kx s = last 0 (xs l) /\
  kPout s = (if Ps l is P :: _ then Some (0%N, P) else None) /\ kxout s = (if xs l is x :: _ then Some (0%N, x) else None).
Proof.
elim/last_ind: l => [//|l c] /=; rewrite foldl_rcons /Ps /xs -!cats1 !pmap_cat -/(Ps l) -/(xs l).
set s := foldl _ _ _; case=> EP [Ex [EPo Exo]].
case: c => [P|x] /=; rewrite ?cats0 ?last_cat /= ?EP ?Ex ?EPo ?Exo /at_zero; do ?split=> //.
- by case: (Ps l).
- by case: (xs l).
Qed.

(** Every covariance output after any history of ticks (any times, any outputs asked) and of
    initialisations is symmetric positive semidefinite. *)
Inductive kcmd := KTick of nat & kin R n m & seq bool | KSetP of 'M[R]_n | KSetX of 'cV[R]_n.
Definition kexec (o : option (kalman R n m)) (c : kcmd) : option (kalman R n m) :=
  match c with
  | KTick t i l => tick o ((t, i), l)
  | KSetP P => if o is Some s then Some (setP s P) else None
  | KSetX x => if o is Some s then Some (setX s x) else None
  end.
Definition kcmd_ok (c : kcmd) : Prop :=
  match c with KTick _ i _ => psd (iQ i) /\ psd (iR i) | KSetP P => psd P | KSetX _ => True end.

Theorem covariance_psd (P0 : 'M[R]_n) x0 (l : seq kcmd) sf :
  psd P0 -> (forall c, List.In c l -> kcmd_ok c) ->
  foldl kexec (Some (kstart m P0 x0)) l = Some sf ->
  psd (kP sf) /\ forall t P, kPout sf = Some (t, P) -> psd P.
Proof.
move=> H0.
pose inv (o : option (kalman R n m)) := forall s, o = Some s -> psd (kP s) /\ forall t P, kPout s = Some (t, P) -> psd P.
have VI s t i s' : psd (iQ i) -> psd (iR i) -> inv (Some s) -> recomputeP s t i = Some s' -> inv (Some s').
  move=> HQ HR I E s2 [<-]. have [I1 I2] := I s erefl.
  have VV : varianceUpdate s t i = Some s' -> psd (kP s') /\ forall t P, kPout s' = Some (t, P) -> psd P.
    rewrite /varianceUpdate; case: ifP => [_ [<-] /=|_]; first by split=> // t' P [_ <-].
    case: ifP => [HU [<-]|//] /=.
    have HV : psd (updated (iH i) (iR i) (predicted (iF i) (iQ i) (kP s))).
      by apply: variance_psd => //; apply: predicted_psd.
    by split=> // t' P [_ <-].
  move: E; rewrite /recomputeP; case Ep: (kPout s) => [[t' v]|] //.
  by case: ifP => [_ [<-]|_]; [rewrite Ep in I2; split=> // t2 P2; rewrite Ep; apply: I2|].
have XI s t i s' : psd (iQ i) -> psd (iR i) -> inv (Some s) -> recomputeX s t i = Some s' -> inv (Some s').
  move=> HQ HR I.
  have UU : stateUpdate s t i = Some s' -> inv (Some s').
    rewrite /stateUpdate; case: ifP => [_ [<-]|_]; first by move=> s2 [<-] /=; apply: (I s).
    case E: (recomputeP s t i) => [s1|//] [<-] s2 [<-] /=. exact: (VI s t i s1 HQ HR I E s1 erefl).
  rewrite /recomputeX; case: (kxout s) => [[t' v]|] //.
  by case: ifP => [_ [<-]|_].
have TI o t i a : psd (iQ i) -> psd (iR i) -> inv o -> inv (tick o ((t, i), a)).
  move=> HQ HR. rewrite /tick /=; elim: a o => [//|b a IH] o I /=. apply: IH.
  case: o I => [s1|//] I; case: b => /= s2 E.
  - exact: (VI s1 t i s2 HQ HR I E s2 erefl).
  - exact: (XI s1 t i s2 HQ HR I E s2 erefl).
move=> Hl. have : inv (Some (kstart m P0 x0)) by move=> s1 [<-] /=; split=> // t P [_ <-].
move: (Some (kstart m P0 x0)) Hl. elim: l => [|c l IH] o Hl I /= E; first exact: I.
apply: (IH (kexec o c)) E; first by move=> c' Hc; apply: Hl; right.
have Hc : kcmd_ok c by apply: Hl; left.
case: c Hc {Hl} => [t i a|P|x] /=; first by case=> HQ HR; apply: TI.
- case: o I => [s1|//] I HP s2 [<-] /=; split=> // t' P'. rewrite /at_zero.
  case Ep: (kPout s1) => [[t1 v1]|]; last by case=> _ <-.
  case=> _ <-. have [_ I2] := I s1 erefl. exact: (I2 _ _ Ep).
- case: o I => [s1|//] I _ s2 [<-] /=. exact: (I s1 erefl).
Qed.
End Props.

(** Signals read by the covariance but not declared: a change of the measurement model or noise alone
    does not make it compute again. *)
Theorem variance_dependencies_refuted :
  exists sg, List.In sg variance_reads /\ ~ List.In sg variance_dependencies.
Proof. by exists "H"%string; split; [right; right; right; left|case=> [|[]]]. Qed.

(** Example over the rationals: one state, one measure. *)
Example kalman_example :
  let c (q : rat) : 'M[rat_realFieldType]_1 := q%:M in
  psd (c 1) /\ innovation (c 1) (c 1) (predicted (c 1) (c 1) (c 1)) \in unitmx /\
  updated (c 1) (c 1) (predicted (c 1) (c 1) (c 1)) = c (2%:Q / 3%:Q).
Proof.
have P1 : psd (1%:M : 'M[rat_realFieldType]_1).
  split; first exact: trmx1.
  move=> x; rewrite mulmx1 mxE; apply: sumr_ge0 => i _; rewrite mxE; exact: sqr_ge0.
have E : innovation (1%:M : 'M[rat_realFieldType]_1) 1%:M (predicted 1%:M 1%:M 1%:M) = (3%:Q)%:M.
  by rewrite /innovation /predicted !trmx1 !(mulmx1, mul1mx); apply/matrixP=> i j; rewrite !ord1 !mxE.
have U : innovation (1%:M : 'M[rat_realFieldType]_1) 1%:M (predicted 1%:M 1%:M 1%:M) \in unitmx.
  by rewrite E unitmxE det_scalar1.
split=> //; split=> //.
rewrite /updated /gain E /predicted !trmx1 !(mulmx1, mul1mx) invmx_scalar.
have -> : 1%:M + 1%:M = (2%:Q)%:M :> 'M[rat]_1 by apply/matrixP=> i j; rewrite !ord1 !mxE.
by rewrite -!scalar_mxM -raddfB.
Qed.

Print Assumptions variance_psd.
Print Assumptions variance_decreases.
Print Assumptions gain_optimal.
Print Assumptions variance_information.
Print Assumptions state_least_squares.
Print Assumptions exact_measurement.
Print Assumptions estimation_error.
Print Assumptions tick_spec.
Print Assumptions covariance_psd.
Print Assumptions initial_conditions.
Print Assumptions variance_dependencies_refuted.
Print Assumptions covariance_history.
