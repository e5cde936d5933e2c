(** The closed loop of posture tasks (C111).

    A robot of [n] dofs is run tick after tick: [d k] is the device at tick [k].  Several tasks, each
    with a posture feature on some joints, have the highest priorities; any other tasks, which may
    change at every tick, follow.  The statements use only the commands sent to the features, the
    goals, the gains and the configuration of the device. *)
From Coq Require Import ZArith String List.
From Verif Require Import Base Flags_Model Bound_Model Solver_Model.
From Verif Require Feature_Model Feature_Props Task_Model Device_Model.
From Verif Require Import Solver_Spec Solver_Proofs Solver_Proofs2 Solver_Props.
From Verif Require Import Closed_Model Closed_Solver Closed_Lists Closed_Facts Closed_Svd.
From mathcomp Require Import all_ssreflect all_algebra.
Import Order.TTheory GRing.Theory Num.Theory.
Set Implicit Arguments.
Unset Strict Implicit.
Unset Printing Implicit Defensive.
Local Open Scope ring_scope.

Lemma range (R : realFieldType) (x : R) : (-1 < 1 - x < 1) = (0 < x < 2%:R).
Proof.
rewrite [RHS]andbC; congr (_ && _); last by rewrite ltr_subl_addr ltr_addl.
by rewrite ltr_subr_addr addrC ltr_subl_addr.
Qed.

Section Loop.
Variable R : realFieldType.
Variable g : R.
Variable ffint : list R -> list R -> R -> R * R * R * R * R * R.
Variable n : nat.
Variables (th lim dt : R).
Hypothesis th0 : 0 <= th.
Hypothesis th1 : th < 1.
Local Notation device := (Device_Model.device R).

(** A posture task: the selectDof commands received by its feature, its gain at each tick as a
    function of the error of the task (a constant, or any gain entity), whether it uses the derivative, the joints it may use, the size of its work vector, and at each tick the wanted
    posture and its velocity. *)
Record goal_task := GoalTask {
  cmds : list (nat * bool);
  tgain : nat -> list R -> R;
  tder : bool;
  tsel : Flags;
  tmem : nat;
  goal : nat -> list R;
  goalDot : nat -> list R
}.
(** The dofs it controls. *)
Definition dofs_of (p : goal_task) : seq nat := dofs n (cmds p).

Definition at_tick (k : nat) (p : goal_task) : ptask R * inputs R :=
  (PTask (Feature_Props.posture_run 0 1 n (cmds p)) (tgain p k) (tder p) (tsel p) (tmem p),
   Inputs (goal p k) (goalDot p k)).

Definition run (ps : list goal_task) (others : nat -> list (task R n)) (d : nat -> device) : Prop :=
  forall k, tick g ffint th lim dt (List.map (at_tick k) ps) (others k) (d k) (d k.+1).

Definition conf (d : device) (i : nat) : R := List.nth i (Device_Model.state d) 0.
Definition goal_at (p : goal_task) (k i : nat) : R := List.nth i (goal p k) 0.
Definition speed_at (p : goal_task) (k i : nat) : R :=
  if tder p then List.nth i (goalDot p k) 0 else 0.

(** The task controls joints (not the free flyer) that its selection allows; the wanted posture
    has the size of the robot and moves, between two ticks, with the velocity given to the task. *)
Record well_posed (p : goal_task) : Prop := WellPosed {
  wp_joint : forall i : nat, i \in dofs_of p -> (6 <= i)%N;
  wp_sel : forall i : nat, i \in dofs_of p -> at_ (tsel p) (Z.of_nat i) = Ok true;
  wp_mem : (size (dofs_of p) <= tmem p)%N;
  wp_goal : forall k, length (goal p k) = n /\ length (goalDot p k) = n;
  wp_moves : forall k i : nat, i \in dofs_of p -> goal_at p k.+1 i = goal_at p k i + speed_at p k i * dt
}.

(** The error announced for dof [i] at tick [k], and the velocity it takes. *)
Fixpoint err (d0 : device) (p : goal_task) (k i : nat) : R :=
  if k is m.+1
  then (1 - tgain p m (List.map (err d0 p m) (dofs_of p)) * dt) * err d0 p m i
  else conf d0 i - goal_at p 0 i.
Definition gain_at (d0 : device) (p : goal_task) (k : nat) : R :=
  tgain p k (List.map (err d0 p k) (dofs_of p)).
Definition velocity (d0 : device) (p : goal_task) (k i : nat) : R :=
  speed_at p k i - gain_at d0 p k * err d0 p k i.

(** The limits that the code enforces do not act: the velocities of a task fit in the limit of
    the stack, and with the checks on the announced positions are within the bounds. *)
Definition within_limits (d0 : device) (p : goal_task) : Prop :=
  forall k, \sum_(i <- dofs_of p) velocity d0 p k i ^+ 2 <= lim /\
  (Device_Model.sanity d0 = true -> forall i : nat, i \in dofs_of p ->
     List.nth i (Device_Model.loP d0) 0 <= goal_at p k i + err d0 p k i <=
     List.nth i (Device_Model.upP d0) 0).

Definition disjoint (p p' : goal_task) : Prop := forall i : nat, i \in dofs_of p -> i \notin dofs_of p'.

(** A robot of [n] dofs controlled in velocity. *)
Definition robot (d0 : device) : Prop :=
  length (Device_Model.state d0) = n /\ Device_Model.ctype d0 = Device_Model.OneInteg.

Section Tick.
Variables (d0 d d' : device) (ps : list goal_task) (others : list (task R n)) (k : nat).
Hypothesis Hps : forall p, List.In p ps -> well_posed p /\ within_limits d0 p.
Hypothesis Hdis : ForallOrdPairs disjoint ps.
Hypothesis Hn : (0 < n)%N.
Hypothesis Hlen : length (Device_Model.state d) = n.
Hypothesis Hlaw : forall p, List.In p ps -> forall i : nat, i \in dofs_of p ->
  conf d i = goal_at p k i + err d0 p k i.

(** What the solver reads from a task. *)
Definition reads (p : goal_task) (t : task R n) : Prop :=
  controls t (dofs_of p) /\ simple lim t /\
  forall (o : 'I_(dim t)), ref t o 0 = velocity d0 p k (nth 0%N (dofs_of p) o).

Lemma tick_read p t :
  List.In p ps ->
  (exists be bj, buffer_ok n bj /\
     read_task g n be bj (at_tick k p).1 (Device_Model.state d) (at_tick k p).2 = Ok t) ->
  reads p t.
Proof.
move=> hin [be [bj [hb hr]]]; have [hw hl] := Hps hin.
have [hg1 hg2] := wp_goal hw k.
have [t' [hr' [h1 [h2 [h3 [h4 h5]]]]]] :=
  read_is g be (cmds p) (tgain p k) (tder p) (tsel p) (tmem p) Hn hb Hlen hg1 hg2.
rewrite hr in hr'; case: hr' => ?; subst t'.
have hc : controls t (dofs_of p).
  split=> //; [|exact: dofs_uniq|by move=> i; apply: dofs_lt].
  move=> i j; rewrite h2 activatedE h4 nthE -/(dofs_of p).
  case: eqP => [e|_]; last by case: ifP.
  have /(wp_sel hw) : (j : nat) \in dofs_of p by rewrite -e; apply: mem_nth; rewrite -(lenE (dofs_of p)) -h1.
  by rewrite sel_at_ok => -[->].
have hv (o : 'I_(dim t)) : ref t o 0 = velocity d0 p k (nth 0%N (dofs_of p) o).
  rewrite h5 (nthE 0%N) -/(dofs_of p) /asked; set i := nth _ _ _.
  have hi : i \in dofs_of p by apply: ctl_nth hc _.
  have -> : List.map (fun j => List.nth j (Device_Model.state d) 0 - List.nth j (goal p k) 0) (dofs_of p)
          = List.map (err d0 p k) (dofs_of p).
    apply: List.map_ext_in => j /Closed_Facts.inE hj.
    by rewrite -/(conf d j) -/(goal_at p k j) (Hlaw hin hj) addrC addKr.
  rewrite -/(gain_at d0 p k) -/(conf d i) -/(goal_at p k i) -/(speed_at p k i) (Hlaw hin hi).
  by rewrite /velocity [in X in X - _]addrC addrK mulNr addrC [gain_at _ _ _ * _]mulrC.
split=> //; split=> //; split; first exact: ctl_unit hc.
  by rewrite h3 h1 lenE; exact: wp_mem.
rewrite /sqnorm (eq_bigr (fun o : 'I_(dim t) => velocity d0 p k (nth 0%N (dofs_of p) o) ^+ 2)) => [|o _]; last by rewrite hv.
by rewrite (ctl_sum hc (fun i => velocity d0 p k i ^+ 2)); case: (hl k).
Qed.

Lemma read_all l ts : (forall p, List.In p l -> List.In p ps) ->
  Forall2 (fun p t => exists be bj, buffer_ok n bj /\
     read_task g n be bj p.1 (Device_Model.state d) p.2 = Ok t) (List.map (at_tick k) l) ts ->
  Forall2 reads l ts.
Proof.
elim: l ts => [|p l IH] ts /= hin hread; inversion hread as [|? t ? r h1 h2]; subst; first by constructor.
constructor; first by apply: tick_read h1; apply: hin; left.
by apply: IH => // p' hp'; apply: hin; right.
Qed.

Lemma tick_ortho ts : Forall2 reads ps ts -> all_ortho lim ts.
Proof.
move: Hdis; move: ps ts; elim=> [|p l IH] ts hd hf; inversion hf as [|? t ? r [hc [hs _]] hr]; subst => //=.
inversion hd as [|? ? hdp hdl]; subst; split=> //; last exact: IH.
move=> t' hin.
have [p' [hp' [hc' _]]] : exists p', List.In p' l /\ reads p' t'.
  elim: hr hin {IH hd hf hdp hdl} => [|x y lx ly hxy _ IH] //= [<-|/IH [p' [h1 h2]]].
    by exists x; split=> //; left.
  by exists p'; split=> //; right.
have hdd : disjoint p p' by move/List.Forall_forall: hdp => h; apply: h.
split; first exact: ctl_ortho hc hc' hdd.
by apply: (ctl_ortho hc' hc) => i hi; apply/negP => /hdd; rewrite hi.
Qed.

Lemma solve_values ts u : Forall2 reads ps ts ->
  computeControlLaw th lim false None None (ts ++ others) (Ok u) ->
  (forall p (o : 'I_n), List.In p ps -> (o : nat) \in dofs_of p -> u o 0 = velocity d0 p k o) /\
  (others = [::] -> forall o : 'I_n, (forall p, List.In p ps -> (o : nat) \notin dofs_of p) -> u o 0 = 0).
Proof.
move=> hf hsolve.
have [hs1 hs2] := solve_ortho th0 th1 hsolve (tick_ortho hf).
split=> // [p o hin ho|hnil o ho].
  have [t [hin' [hc [_ hv]]]] : exists t, List.In t ts /\ reads p t.
    elim: hf hin {hsolve hs1 hs2} => [|x y lx ly hxy _ IH] //= [<-|/IH [t [h1 h2]]].
      by exists y; split=> //; left.
    by exists t; split=> //; right.
  have [i hi] := ctl_index hc ho.
  have := congr1 (fun M : 'cV_(dim t) => M i 0) (hs1 t hin').
  by rewrite (ctl_mul hc _ _ (o := o)) // => ->; rewrite hv hi.
rewrite hs2 // summxE.
elim: hf ho {hsolve hs1 hs2} => [|x y lx ly [hc _] _ IH] ho; first by rewrite big_nil.
rewrite big_cons IH ?addr0 => [|p hp]; last by apply: ho; right.
by apply: (ctl_tr _ hc); apply: ho; left.
Qed.

(** The control, when there are no other tasks. *)
Definition whole : 'cV[R]_n :=
  \col_(o < n) (if List.find (fun p => (o : nat) \in dofs_of p) ps is Some p then velocity d0 p k o else 0).

Lemma tick_exists :
  ps <> nil -> (6 <= n)%N -> Device_Model.ctype d = Device_Model.OneInteg -> sized d -> others = [::] ->
  exists d1, device_increment ffint d (coefs whole) dt = Ok d1 /\ sized d1 /\
    tick g ffint th lim dt (List.map (at_tick k) ps) others d d1.
Proof.
move=> hne hn6 hct hsz hoth.
have hul (u : 'cV[R]_n) : length (coefs u) = length (Device_Model.state d) by rewrite coefs_length Hlen.
have h6 : (6 <= length (Device_Model.state d))%coq_nat by rewrite Hlen; apply/ssrnat.leP.
have [ts hts] : exists ts, Forall2 (fun p t => exists be bj, buffer_ok n bj /\
     read_task g n be bj p.1 (Device_Model.state d) p.2 = Ok t) (List.map (at_tick k) ps) ts.
  have : forall p, List.In p ps -> List.In p ps by [].
  move: {1 3}ps; elim=> [|p l IH] hin; first by exists nil; constructor.
  have [|ts hts] := IH; first by move=> p' hp'; apply: hin; right.
  have [hw _] := Hps (hin p (or_introl erefl)); have [hg1 hg2] := wp_goal hw k.
  have hb : buffer_ok n (Task_Model.mkMat 0 0 (fun _ _ => 0 : R)) by left.
  have [t [ht _]] :=
    read_is g nil (cmds p) (tgain p k) (tder p) (tsel p) (tmem p) Hn hb Hlen hg1 hg2.
  exists (t :: ts); constructor=> //; exists nil; exists (Task_Model.mkMat 0 0 (fun _ _ => 0)).
  by split.
have hf : Forall2 reads ps ts by exact: read_all hts.
have hnil : ~~ nilp ts by case: ts hf hts hne => //= h _; inversion h.
have [u hu] := solve_exists th0 th1 hnil (tick_ortho hf).
have hu' : computeControlLaw th lim false None None (ts ++ others) (Ok u) by rewrite hoth cats0.
have [v1 v2] := solve_values hf hu'.
have hw : u = whole.
  apply/matrixP => o j; rewrite ord1 [in RHS]mxE.
  case E : (List.find _ ps) => [p|].
    by have [hp ho] := List.find_some _ _ E; rewrite (v1 p o).
  by rewrite (v2 hoth) // => p hp; rewrite (List.find_none _ _ E).
have [d1 [hd1 hs1]] := device_defined (2%:R^-1) +%R *%R (fun a b => a < b) (fun _ => false) ffint d (coefs u) dt
  (fun _ => erefl) hct (hul u) h6 hsz.
exists d1; split; first by rewrite -hw.
by split=> //; apply: Tick hts hu' hd1.
Qed.

Hypothesis Htick : tick g ffint th lim dt (List.map (at_tick k) ps) others d d'.
Hypothesis Hct : Device_Model.ctype d = Device_Model.OneInteg.

Lemma tick_step :
  exists u : 'cV[R]_n,
    [/\ device_increment ffint d (coefs u) dt = Ok d',
        forall p (o : 'I_n), List.In p ps -> (o : nat) \in dofs_of p -> u o 0 = velocity d0 p k o &
        others = [::] -> forall o : 'I_n, (forall p, List.In p ps -> (o : nat) \notin dofs_of p) -> u o 0 = 0].
Proof.
case: Htick => ts u hread hsolve hdev; exists u.
have hf : Forall2 reads ps ts by exact: read_all hread.
by have [h1 h2] := solve_values hf hsolve.
Qed.

End Tick.

(** Between two bounds nothing is cut. *)
Lemma saturate_in (v lo up : R) : lo <= v <= up ->
  fst (Device_Model.saturateBounds R (fun a b => a < b) v lo up) = v.
Proof.
case/andP => h1 h2; rewrite /Device_Model.saturateBounds.
by rewrite ltNge h1 /= ltNge h2.
Qed.

Lemma law_step (gl e a l : R) : gl + e + (a - l * e) * dt = gl + a * dt + (1 - l * dt) * e.
Proof. by rewrite !mulrBl mul1r -!addrA (addrCA e) [l * e * dt]mulrAC. Qed.

(** What stays true at every tick. *)
Definition inv (ps : list goal_task) (d0 d : device) (k : nat) : Prop :=
  robot d /\ Device_Model.sanity d = Device_Model.sanity d0 /\
  Device_Model.loP d = Device_Model.loP d0 /\ Device_Model.upP d = Device_Model.upP d0 /\
  forall p, List.In p ps -> forall i : nat, i \in dofs_of p -> conf d i = goal_at p k i + err d0 p k i.

Lemma inv_step ps (others : list (task R n)) d0 d d' k :
  (forall p, List.In p ps -> well_posed p /\ within_limits d0 p) -> ForallOrdPairs disjoint ps ->
  tick g ffint th lim dt (List.map (at_tick k) ps) others d d' ->
  (0 < n)%N -> inv ps d0 d k ->
  inv ps d0 d' k.+1 /\
  (others = [::] -> forall i, (6 <= i < n)%N -> (forall p, List.In p ps -> i \notin dofs_of p) ->
     conf d' i = let v := conf d i in
       if Device_Model.sanity d0
       then fst (Device_Model.saturateBounds R (fun a b => a < b) v (List.nth i (Device_Model.loP d0) 0)
                  (List.nth i (Device_Model.upP d0) 0)) else v).
Proof.
move=> hps hdis ht hn [[hlen hct] [hsan [hlo [hup hlaw]]]].
have [u [hdev hu hz]] := tick_step hps hdis hn hlen hlaw ht.
have hul : length (coefs u) = length (Device_Model.state d) by rewrite coefs_length hlen.
have [e1 [e2 [e3 [e4 [e5 e6]]]]] := device_step _ _ _ _ _ _ _ _ _ _ hdev (fun _ => erefl) hct hul.
have hnth i (hi : (6 <= i < n)%N) : conf d' i = let v := conf d i + List.nth i (coefs u) 0 * dt in
       if Device_Model.sanity d0
       then fst (Device_Model.saturateBounds R (fun a b => a < b) v (List.nth i (Device_Model.loP d0) 0)
                  (List.nth i (Device_Model.upP d0) 0)) else v.
  have hi' : (6 <= i)%coq_nat /\ (i < length (Device_Model.state d))%coq_nat.
    by case/andP: hi => h1 h2; rewrite hlen; split; apply/ssrnat.leP.
  by rewrite /conf (e6 i 0 hi') hsan hlo hup.
split.
  split; first by split; rewrite ?e1.
  split; first by rewrite e3.
  split; first by rewrite e4.
  split; first by rewrite e5.
  move=> p hp i hi; have [hw hl] := hps p hp.
  have hin : (i < n)%N by apply: dofs_lt hi.
  have h6 := wp_joint hw hi.
  rewrite hnth ?h6 ?hin //.
  have -> : List.nth i (coefs u) 0 = velocity d0 p k i.
    by rewrite -[i]/(nat_of_ord (Ordinal hin)) coefs_nth (hu p (Ordinal hin)).
  have ev : conf d i + velocity d0 p k i * dt = goal_at p k.+1 i + err d0 p k.+1 i.
    rewrite (hlaw p hp i hi) (wp_moves hw k hi) /velocity.
    exact: law_step.
  rewrite /= ev; case E : (Device_Model.sanity d0) => //.
  by rewrite saturate_in //; case: (hl k.+1) => _; apply.
move=> hnil i hi hno; rewrite hnth //.
have hin : (i < n)%N by case/andP: hi.
have -> : List.nth i (coefs u) 0 = 0 by rewrite -[i]/(nat_of_ord (Ordinal hin)) coefs_nth hz.
by rewrite mul0r addr0.
Qed.

Lemma inv_run ps (others : nat -> list (task R n)) d :
  robot (d 0%N) -> (forall p, List.In p ps -> well_posed p /\ within_limits (d 0%N) p) ->
  ForallOrdPairs disjoint ps -> run ps others d -> (0 < n)%N ->
  forall k, inv ps (d 0%N) (d k) k.
Proof.
move=> hr hps hdis hrun hn; elim=> [|k IH].
  split=> //; split=> //; split=> //; split=> // p hp i hi.
  by rewrite /= addrC subrK.
by have [] := inv_step hps hdis (hrun k) hn IH.
Qed.

(** The values of the gain are those that the gain entity gives for the errors of the joints. *)
Definition errors (p : goal_task) (k : nat) (d : device) : list R :=
  List.map (fun i => conf d i - goal_at p k i) (dofs_of p).
Definition gain_now (p : goal_task) (k : nat) (d : device) : R := tgain p k (errors p k d).

(** Every controlled joint follows its goal, the error being multiplied by 1 - gain * dt at each
    tick, whatever the tasks of lower priority. *)
Theorem posture_tasks_decrease (ps : list goal_task) (others : nat -> list (task R n)) (d : nat -> device) :
  robot (d 0%N) ->
  (forall p, List.In p ps -> well_posed p /\ within_limits (d 0%N) p) ->
  ForallOrdPairs disjoint ps ->
  run ps others d ->
  forall p i k, List.In p ps -> i \in dofs_of p ->
    conf (d k) i - goal_at p k i =
    (\prod_(j < k) (1 - gain_now p j (d j) * dt)) * (conf (d 0%N) i - goal_at p 0 i).
Proof.
move=> hr hps hdis hrun p i k hp hi.
have hn : (0 < n)%N by apply: leq_ltn_trans (dofs_lt hi).
have he j m : m \in dofs_of p -> conf (d j) m - goal_at p j m = err (d 0%N) p j m.
  by move=> hm; have [_ [_ [_ [_ h]]]] := inv_run hr hps hdis hrun hn j; rewrite (h p hp m hm) addrC addKr.
have hg j : gain_now p j (d j) = gain_at (d 0%N) p j.
  by rewrite /gain_now /gain_at; congr (tgain _ _ _); apply: List.map_ext_in => m /Closed_Facts.inE; exact: he.
rewrite he //; elim: k => [|k IH]; first by rewrite big_ord0 mul1r.
by rewrite big_ord_recr [RHS]/= hg [X in _ = X * _]mulrC -mulrA -IH.
Qed.

(** With a constant gain, the error is a geometric sequence. *)
Theorem posture_tasks_constant_gain (ps : list goal_task) (others : nat -> list (task R n)) (d : nat -> device) :
  robot (d 0%N) ->
  (forall p, List.In p ps -> well_posed p /\ within_limits (d 0%N) p) ->
  ForallOrdPairs disjoint ps ->
  run ps others d ->
  forall p i k c, List.In p ps -> i \in dofs_of p -> (forall j e, tgain p j e = c) ->
    conf (d k) i - goal_at p k i = (1 - c * dt) ^+ k * (conf (d 0%N) i - goal_at p 0 i).
Proof.
move=> hr hps hdis hrun p i k c hp hi hc; rewrite (posture_tasks_decrease hr hps hdis hrun _ hp hi).
rewrite (eq_bigr (fun _ => 1 - c * dt)) => [|j _]; last by rewrite /gain_now hc.
by rewrite prodr_const card_ord.
Qed.

(** Without other tasks the joints that no task controls do not move. *)
Theorem posture_tasks_others_still (ps : list goal_task) (d : nat -> device) :
  robot (d 0%N) ->
  (forall p, List.In p ps -> well_posed p /\ within_limits (d 0%N) p) ->
  ForallOrdPairs disjoint ps ->
  run ps (fun _ => [::]) d ->
  forall i, (6 <= i < n)%N -> (forall p, List.In p ps -> i \notin dofs_of p) ->
    (Device_Model.sanity (d 0%N) = true ->
       List.nth i (Device_Model.loP (d 0%N)) 0 <= conf (d 0%N) i <= List.nth i (Device_Model.upP (d 0%N)) 0) ->
  forall k, conf (d k) i = conf (d 0%N) i.
Proof.
move=> hr hps hdis hrun i hi hno hb; elim=> [//|k IH].
have hn : (0 < n)%N by case/andP: hi => _; apply: leq_ltn_trans.
have [_ h] := inv_step hps hdis (hrun k) hn (inv_run hr hps hdis hrun hn k).
by rewrite (h (erefl _) i hi hno) IH /=; case E : (Device_Model.sanity _) => //; rewrite saturate_in // hb.
Qed.

(** The loop is defined: from every configuration it can be run for ever (an exact decomposition
    exists for each task, the work vectors and the bounds are large enough). *)
Theorem posture_tasks_run (ps : list goal_task) (d0 : device) :
  robot d0 -> sized d0 -> (6 <= n)%N -> ps <> nil ->
  (forall p, List.In p ps -> well_posed p /\ within_limits d0 p) ->
  ForallOrdPairs disjoint ps ->
  exists d, d 0%N = d0 /\ run ps (fun _ => [::]) d.
Proof.
move=> hr hsz hn6 hne hps hdis.
have hn : (0 < n)%N by apply: leq_trans hn6.
pose d : nat -> device := nat_rect (fun _ => device) d0 (fun k dk =>
  if device_increment ffint dk (coefs (whole d0 ps k)) dt is Ok d1 then d1 else dk).
have H k : inv ps d0 (d k) k /\ sized (d k) /\
    tick g ffint th lim dt (List.map (at_tick k) ps) ([::] : list (task R n)) (d k) (d k.+1).
  have step : inv ps d0 (d k) k -> sized (d k) ->
    sized (d k.+1) /\ tick g ffint th lim dt (List.map (at_tick k) ps) ([::] : list (task R n)) (d k) (d k.+1).
    move=> hI hs; have [[hlen hct] [hsan [hlo [hup hlaw]]]] := hI.
    have [d1 [e [hs1 ht1]]] := tick_exists hps hdis hn hlen hlaw hne hn6 hct hs (erefl _).
    by rewrite [d k.+1]/= e.
  elim: k step => [|k IH] step.
    have h0 : inv ps d0 (d 0%N) 0.
      split=> //; split=> //; split=> //; split=> // p hp i hi.
      by rewrite /= addrC subrK.
    by have [_ h] := step h0 hsz.
  have [|h1 [h2 h3]] := IH.
    move=> hI hs; have [[hlen hct] [hsan [hlo [hup hlaw]]]] := hI.
    have [d1 [e [hs1 ht1]]] := tick_exists hps hdis hn hlen hlaw hne hn6 hct hs (erefl _).
    by rewrite [d k.+1]/= e.
  have hs : sized (d k.+1).
    have [[hlen hct] [hsan [hlo [hup hlaw]]]] := h1.
    have [d1 [e [hs1 ht1]]] := tick_exists hps hdis hn hlen hlaw hne hn6 hct h2 (erefl _).
    by rewrite [d k.+1]/= e.
  have [hi _] := inv_step hps hdis h3 hn h1.
  by have [_ h] := step hi hs.
by exists d; split=> // k; have [_ [_ h]] := H k.
Qed.

(** For which gains: the error of a joint that is not at its goal gets smaller exactly when
    0 < gain * dt < 2, and does not change sign exactly when gain * dt <= 1. *)
Theorem posture_gain_range (ps : list goal_task) (others : nat -> list (task R n)) (d : nat -> device) :
  robot (d 0%N) ->
  (forall p, List.In p ps -> well_posed p /\ within_limits (d 0%N) p) ->
  ForallOrdPairs disjoint ps ->
  run ps others d ->
  forall p i k, List.In p ps -> i \in dofs_of p -> conf (d k) i != goal_at p k i ->
    (`|conf (d k.+1) i - goal_at p k.+1 i| < `|conf (d k) i - goal_at p k i| <->
       0 < gain_now p k (d k) * dt < 2%:R) /\
    (0 <= (conf (d k.+1) i - goal_at p k.+1 i) * (conf (d k) i - goal_at p k i) <->
       gain_now p k (d k) * dt <= 1).
Proof.
move=> hr hps hdis hrun p i k hp hi hne.
have e : conf (d k.+1) i - goal_at p k.+1 i = (1 - gain_now p k (d k) * dt) * (conf (d k) i - goal_at p k i).
  have H m := posture_tasks_decrease hr hps hdis hrun m hp hi.
  by rewrite (H k.+1) (H k) big_ord_recr [LHS]/= [X in X * _ = _]mulrC mulrA.
have h0 : conf (d k) i - goal_at p k i != 0 by rewrite subr_eq0.
rewrite e; split.
  rewrite normrM -[X in _ < X]mul1r ltr_pmul2r ?normr_gt0 // ltr_norml.
  by rewrite range.
by rewrite -mulrA pmulr_lge0 ?subr_ge0 // lt_def mulf_neq0 //= -expr2 sqr_ge0.
Qed.

(** Limits that are enough: a fixed goal, no overshoot, an initial velocity that fits, and bounds
    that contain the initial configuration and the goal. *)
Theorem posture_limits_suffice (p : goal_task) (d0 : device) (gmax : R) :
  well_posed p -> (forall k i : nat, i \in dofs_of p -> speed_at p k i = 0) ->
  (forall k e, 0 <= tgain p k e <= gmax) -> 0 <= dt -> gmax * dt <= 1 ->
  gmax ^+ 2 * (\sum_(i <- dofs_of p) (conf d0 i - goal_at p 0 i) ^+ 2) <= lim ->
  (Device_Model.sanity d0 = true -> forall i : nat, i \in dofs_of p ->
     List.nth i (Device_Model.loP d0) 0 <= conf d0 i <= List.nth i (Device_Model.upP d0) 0 /\
     List.nth i (Device_Model.loP d0) 0 <= goal_at p 0 i <= List.nth i (Device_Model.upP d0) 0) ->
  within_limits d0 p.
Proof.
move=> hw hs hgn dt0 hgd hl hb k.
pose r := \prod_(j < k) (1 - gain_at d0 p j * dt).
have hge j : 0 <= gain_at d0 p j <= gmax by exact: hgn.
have hr1 j : 0 <= 1 - gain_at d0 p j * dt <= 1.
  have /andP[h0 h1] := hge j; rewrite subr_ge0 ler_subl_addr ler_addl mulr_ge0 // andbT.
  by apply: le_trans hgd; rewrite ler_wpmul2r.
have r0 : 0 <= r by apply: prodr_ge0 => j _; case/andP: (hr1 j).
have r1 : r <= 1.
  apply: le_trans (_ : \prod_(j < k) 1 <= 1); last by rewrite big1.
  by apply: ler_prod => j _; exact: hr1.
have er i : err d0 p k i = r * (conf d0 i - goal_at p 0 i).
  rewrite /r {r r0 r1}; elim: k => [|k IH]; first by rewrite big_ord0 mul1r.
  by rewrite big_ord_recr [LHS]/= IH -/(gain_at d0 p k) mulrA [X in X * _ = _]mulrC.
have hg m : forall i : nat, i \in dofs_of p -> goal_at p m i = goal_at p 0 i.
  elim: m => [//|m IH] i hi.
  by rewrite (wp_moves hw m hi) hs // mul0r addr0 IH.
split.
  apply: le_trans hl; rewrite mulr_sumr big_seq [X in _ <= X]big_seq; apply: ler_sum => i hi.
  rewrite /velocity hs // sub0r sqrrN exprMn.
  have /andP[h0 h1] := hge k.
  apply: ler_pmul; rewrite ?sqr_ge0 //; first by rewrite ler_expn2r // nnegrE //; exact: le_trans h0 h1.
  rewrite er exprMn ler_pimull ?sqr_ge0 //.
  by rewrite exprn_ile1.
move=> hsan i hi; have [/andP[a1 a2] /andP[b1 b2]] := hb hsan i hi.
rewrite hg // er.
have -> : goal_at p 0 i + r * (conf d0 i - goal_at p 0 i) = (1 - r) * goal_at p 0 i + r * conf d0 i.
  by rewrite mulrBr mulrBl mul1r addrA addrAC.
have r1' : 0 <= 1 - r by rewrite subr_ge0.
have conv x : x = (1 - r) * x + r * x by rewrite -mulrDl subrK mul1r.
apply/andP; split.
  by rewrite [X in X <= _]conv ler_add // ler_wpmul2l.
by rewrite [X in _ <= X]conv ler_add // ler_wpmul2l.
Qed.
End Loop.

Section Convergence.
Variable R : archiFieldType.

Lemma geometric (a : R) k : 0 <= a <= 1 -> a ^+ k * (1 + (1 - a) *+ k) <= 1.
Proof.
case/andP => a0 a1; have h0 : 0 <= 1 - a by rewrite subr_ge0.
elim: k => [|k IH]; first by rewrite expr0 mulr0n addr0 mul1r.
apply: le_trans IH; rewrite exprSr -mulrA ler_wpmul2l ?exprn_ge0 //.
set h := 1 - a in h0 *; have ea : a = 1 - h by rewrite /h opprB addrC subrK.
rewrite {}ea; move: h h0 => {a a0 a1} h h0.
have hP : 0 <= h * (h *+ k.+1) by rewrite mulr_ge0 // mulrn_wge0.
rewrite mulrBl mul1r mulrDr mulr1; move: hP; set P := h * _ => hP.
by rewrite mulrS opprD [h + _]addrC !addrA addrK ler_subl_addr ler_addl.
Qed.

Lemma geometric_vanishes (a e eps : R) : `|a| < 1 -> 0 < eps ->
  exists K, forall k, (K <= k)%N -> `|a ^+ k * e| < eps.
Proof.
move=> ha heps; have h : 0 < 1 - `|a| by rewrite subr_gt0.
have hx : 0 <= `|e| / ((1 - `|a|) * eps) by rewrite divr_ge0 // mulr_ge0 ?ltW.
exists (Num.ExtraDef.archi_bound (`|e| / ((1 - `|a|) * eps))) => k hk.
have hK := archi_boundP hx.
have hkk : `|e| < (1 - `|a|) * eps *+ k.
  rewrite -mulr_natl -ltr_pdivr_mulr ?mulr_gt0 //.
  by apply: lt_le_trans hK _; rewrite ler_nat.
rewrite normrM normrX.
have hg : `|a| ^+ k * (1 + (1 - `|a|) *+ k) <= 1 by rewrite geometric // normr_ge0 ltW.
have hp : 0 < 1 + (1 - `|a|) *+ k by rewrite ltr_spaddl // mulrn_wge0 // ltW.
rewrite -(ltr_pmul2r hp) mulrAC; apply: le_lt_trans (ler_wpmul2r (normr_ge0 e) hg) _.
rewrite mul1r mulrDr mulr1; apply: lt_trans hkk _.
by rewrite mulrnAr [eps * _]mulrC ltr_addr.
Qed.

Lemma prod_bound (f : nat -> R) (a : R) k : (forall j, `|f j| <= a) -> `|\prod_(j < k) f j| <= a ^+ k.
Proof.
move=> hf; have a0 : 0 <= a by apply: le_trans (hf 0%N).
elim: k => [|k IH]; first by rewrite big_ord0 normr1 expr0.
by rewrite big_ord_recr /= normrM exprSr ler_pmul.
Qed.

(** With gains in the range, away from its ends, every controlled joint reaches its goal, up to any
    margin and for ever after some tick, whatever the tasks of lower priority.  For an adaptive gain
    the two ends are its values at infinity and at zero (C23). *)
Theorem posture_tasks_converge (g : R) ffint n (th lim dt : R)
    (ps : list (goal_task R)) (others : nat -> list (task R n)) (d : nat -> Device_Model.device R) :
  0 <= th < 1 ->
  robot n (d 0%N) ->
  (forall p, List.In p ps -> well_posed n dt p /\ within_limits n lim dt (d 0%N) p) ->
  ForallOrdPairs (disjoint n) ps ->
  run g ffint th lim dt ps others d ->
  forall p i gmin gmax eps, List.In p ps -> i \in dofs_of n p ->
    (forall k e, gmin <= tgain p k e <= gmax) -> 0 < dt -> 0 < gmin -> gmax * dt < 2%:R -> 0 < eps ->
    exists K, forall k, (K <= k)%N -> `|conf (d k) i - goal_at p k i| < eps.
Proof.
case/andP => th0 th1 hr hps hdis hrun p i gmin gmax eps hp hi hgain hdt hmin hmax heps.
have hmm : gmin <= gmax by have /andP[h1 h2] := hgain 0%N nil; apply: le_trans h1 h2.
pose a := Num.max (1 - gmin * dt) (gmax * dt - 1).
have ha0 : 0 <= a.
  rewrite /a le_maxr; case: (lerP (gmin * dt) 1) => [h|h]; first by rewrite subr_ge0 h.
  rewrite [X in _ || X]subr_ge0; apply/orP; right; apply: le_trans (ltW h) _.
  by rewrite ler_pmul2r.
have ha1 : `|a| < 1.
  rewrite ger0_norm // /a lt_maxl ltr_subl_addr ltr_addl mulr_gt0 //=.
  by rewrite ltr_subl_addr.
have hf j : `|1 - gain_now n p j (d j) * dt| <= a.
  have /andP[h1 h2] := hgain j (errors n p j (d j)).
  rewrite /gain_now; move: (tgain _ _ _) h1 h2 => x h1 h2.
  rewrite ler_norml /a; apply/andP; split.
    rewrite ler_oppl le_maxr opprB; apply/orP; right.
    by rewrite ler_add2r ler_pmul2r.
  rewrite le_maxr; apply/orP; left.
  by rewrite ler_add2l ler_opp2 ler_pmul2r.
have [K hK] := geometric_vanishes (conf (d 0%N) i - goal_at p 0 i) ha1 heps.
exists K => k hk; rewrite (posture_tasks_decrease th0 th1 hr hps hdis hrun _ hp hi).
apply: le_lt_trans (hK k hk); rewrite !normrM ler_wpmul2r //.
apply: le_trans (prod_bound k hf) _.
by rewrite ger0_norm ?exprn_ge0.
Qed.
End Convergence.


(** A robot of 7 dofs with one joint at 1 (lower bounds -2, upper bounds 2), a task of gain 1 that
    wants it at 0, and a period of 1/2: the loop runs and the joint is at 1/2^k at tick k. *)
Section Case.
Local Notation ratF := [realFieldType of rat].
Let zeros : list ratF := [:: 0; 0; 0; 0; 0; 0; 0].
Let bounds (x : ratF) : list ratF := [:: x; x; x; x; x; x; x].
Let dev : Device_Model.device ratF :=
  Device_Model.mkDevice [:: 0; 0; 0; 0; 0; 0; 1] zeros zeros true Device_Model.OneInteg
    (bounds 2%:R) (bounds 2%:R) (bounds 2%:R) (bounds (- 2%:R)) (bounds (- 2%:R)) (bounds (- 2%:R)) zeros zeros.
Let task6 : goal_task ratF := GoalTask [:: (6%N, true)] (fun _ _ => 1) false (mkFlags nil true) 1 (fun _ => zeros) (fun _ => zeros).
Let ff (_ _ : list ratF) (_ : ratF) := (0, 0, 0, 0, 0, 0) : ratF * ratF * ratF * ratF * ratF * ratF.

Lemma task6_dofs : dofs_of 7 task6 = [:: 6%N].
Proof. by vm_compute. Qed.

Lemma task6_posed : well_posed 7 (1 / 2%:R) task6.
Proof.
split; rewrite ?task6_dofs //.
- by move=> i; rewrite mem_seq1 => /eqP ->.
- by move=> i; rewrite mem_seq1 => /eqP ->.
- by move=> k i _; rewrite /speed_at /= mul0r addr0.
Qed.

Lemma task6_limits : within_limits 7 1 (1 / 2%:R) dev task6.
Proof.
apply: (posture_limits_suffice (gmax := 1) task6_posed) => //.
- by rewrite task6_dofs big_seq1 /goal_at /conf /= subr0 expr1n mul1r.
- by move=> _ i; rewrite task6_dofs mem_seq1 => /eqP ->.
Qed.

Example posture_tasks_case : exists d : nat -> Device_Model.device ratF,
  d 0%N = dev /\ run 0 ff (1 / 10%:R) 1 (1 / 2%:R) [:: task6] (fun _ => [::] : list (task ratF 7)) d /\
  forall k, conf (d k) 6 = (1 / 2%:R) ^+ k.
Proof.
have hps p : List.In p [:: task6] -> well_posed 7 (1 / 2%:R) p /\ within_limits 7 1 (1 / 2%:R) dev p.
  by case=> // <-; split; [exact: task6_posed|exact: task6_limits].
have hdis : ForallOrdPairs (@disjoint ratF 7) [:: task6] by constructor; constructor.
have hr : robot 7 dev by [].
have hs : sized dev by move=> _; split; split; exact: le_n.
have [d [e h]] := posture_tasks_run 0 ff (th := 1 / 10%:R) isT isT hr hs isT (fun e => nil_cons (esym e)) hps hdis.
exists d; split=> //; split=> // k.
rewrite -e in hr hps.
have t0 : 0 <= 1 / 10%:R :> ratF by [].
have t1 : 1 / 10%:R < 1 :> ratF by [].
have h6 : 6%N \in dofs_of 7 task6 by rewrite task6_dofs.
have := posture_tasks_constant_gain t0 t1 hr hps hdis h k (c := 1) (or_introl erefl) h6 (fun _ _ => erefl).
rewrite e /goal_at /conf /= !subr0 mulr1 mul1r => ->.
by congr (_ ^+ _); apply/eqP.
Qed.
End Case.

Print Assumptions posture_tasks_decrease.
Print Assumptions posture_tasks_constant_gain.
Print Assumptions posture_tasks_others_still.
Print Assumptions posture_tasks_run.
Print Assumptions posture_gain_range.
Print Assumptions posture_limits_suffice.
Print Assumptions posture_tasks_converge.
