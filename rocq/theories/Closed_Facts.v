(** Facts used by Closed_Props: what the solver reads from a posture task. *)
From Coq Require Import ZArith String List Lia PeanoNat.
From Verif Require Import Base Flags_Model Bound_Model Solver_Model.
From Verif Require Feature_Model Feature_Props Task_Model Task_Props Device_Model.
From Verif Require Import Solver_Spec Solver_Proofs Solver_Proofs2 Solver_Props Closed_Model Closed_Solver Closed_Lists.
From mathcomp Require Import all_ssreflect all_algebra.
Import Order.TTheory GRing.Theory Num.Theory.
Set Implicit Arguments.
Unset Strict Implicit.
Unset Printing Implicit Defensive.
Local Open Scope ring_scope.

Section Facts.
Variable R : realFieldType.
Variable g : R.
Variable n : nat.

Lemma ml_single (l : list R) : taskVectorToMlVector (List.map (mb_single 0) l) = Ok l.
Proof. by elim: l => //= x l ->. Qed.

Lemma bind_assoc A B C (m : outcome A) (f : A -> outcome B) (k : B -> outcome C) :
  bind m (fun a => bind (f a) k) = bind (bind m f) k.
Proof. by case: m. Qed.

Lemma bind_ok A B (a : A) (f : A -> outcome B) : bind (Ok a) f = f a.
Proof. by []. Qed.

(** The dofs of a feature after the commands [cmds], in increasing order. *)
Definition dofs (cmds : list (nat * bool)) : list nat := Feature_Props.active_dofs n cmds.

(** What the task asks of dof [i]. *)
Definition asked (gn : R) (wd : bool) (q post dot : list R) (i : nat) : R :=
  - (List.nth i q 0 - List.nth i post 0) * gn + (if wd then List.nth i dot 0 else 0).

Section Read.
Variables (be : list R) (bj : Task_Model.mat R) (cmds : list (nat * bool)).
Variables (gn : list R -> R) (wd : bool) (sl : Flags) (mem : nat) (q post dot : list R).
Hypothesis Hn : (0 < n)%N.
Hypothesis Hb : buffer_ok n bj.
Hypothesis Hq : length q = n.
Hypothesis Hp : length post = n.
Hypothesis Hd : length dot = n.
Let ft := Feature_Props.posture_run 0 1 n cmds : Feature_Model.posture R.

Lemma read_is :
  exists t, read_task g n be bj (PTask ft gn wd sl mem) q (Inputs post dot) = Ok t /\
    dim t = length (dofs cmds) /\ sel t = Some sl /\ memDim t = mem /\
    (forall i j, jac t i j = (List.nth i (dofs cmds) 0%N == j)%:R) /\
    (forall i, ref t i 0 = asked (gn (List.map (fun i => List.nth i q 0 - List.nth i post 0) (dofs cmds))) wd q post dot (List.nth i (dofs cmds) 0%N)).
Proof.
have [E1 [E2 [E3 [E4 E5]]]] :=
  Feature_Props.posture_consistent_partial 0 1 g (fun a : R => - a) (fun a b => a - b) n cmds q post dot 0 Hq Hp Hd.
rewrite -/ft -/(dofs cmds) in E1 E2 E3 E4 E5.
set D := dofs cmds in E1 E2 E3 E4 E5 *.
rewrite /read_task; cbn [feature gain withDerivative selec memory posture_in postureDot_in].
rewrite E2 bind_ok Task_Props.task_error_single bind_ok.
set err := List.map _ D.
rewrite -/err; set gv := gn err.
set ref := List.map (fun i => asked gv wd q post dot i) D.
have HR : (let* de := (if wd then
       let* d := Feature_Model.posture_errordot R g (fun a => - a) ft dot in
       Task_Model.computeErrorTimeDerivative R g err (d :: nil) else Ok nil) in
   Task_Model.computeTaskExponentialDecrease R 0 (fun a => - a) (fun a b => a - b)
              (fun a b => a * b) err gv wd de) = Ok (List.map (mb_single 0) ref).
  case: (wd) @ref => ref.
  - rewrite E3 bind_ok.
    have [_ hd] := Task_Props.task_derivative_sizes g err
      [:: List.map (fun i => - List.nth i dot 0) D].
    rewrite hd; last by rewrite /= List.app_nil_r !List.map_length.
    rewrite bind_ok [List.concat _]/= List.app_nil_r !List.map_length Nat.sub_diag [List.repeat _ _]/= List.app_nil_r.
    rewrite Task_Props.decrease_ok; last by left; rewrite !List.map_length.
    rewrite /err List.map_map map2_map /ref; congr Ok; congr (List.map _ _); apply: List.map_ext => i.
    by rewrite /asked opprK.
  - rewrite bind_ok Task_Props.decrease_ok; last by right.
    rewrite /err /ref !List.map_map; congr Ok; apply: List.map_ext => i; congr mb_single.
    by rewrite /asked addr0.
rewrite bind_assoc HR bind_ok.
have [J [EJ [Jr [Jc JE]]]] := jac_single g bj (posture_jacobian ft (length q)) n
  (elimT ssrnat.ltP Hn) Hq Hb.
rewrite EJ bind_ok ml_single bind_ok.
rewrite /= in Jr; rewrite Jr Jc E4 !List.map_length !eqxx /=.
eexists; split; first reflexivity.
split=> //; split=> //; split=> //.
split=> [i j|i].
  rewrite mxE JE /=; last exact/ssrnat.ltP.
    have hi : (i < length D)%coq_nat by apply/ssrnat.ltP; exact: ltn_ord i.
    have [k hk] : exists k, nth_error D i = Some k.
      by case E : (nth_error D i) => [k|]; [exists k|move/nth_error_None: E; lia].
    rewrite (E5 i k j hk); last exact/ssrnat.ltP.
    rewrite (nth_error_nth _ _ 0%N hk).
    by rewrite -[Nat.eqb _ _]/(eqn j k) -/(eq_op _ _) eq_sym; case: eqP.
  rewrite E4; exact/ssrnat.ltP/(ltn_ord i).
rewrite mxE (nth_indep _ 0 (asked gv wd q post dot 0%N)); first by rewrite List.map_nth.
by rewrite List.map_length; apply/ssrnat.ltP; exact: ltn_ord i.
Qed.
End Read.

Lemma nthE (A : Type) (x : A) (l : list A) i : List.nth i l x = nth x l i.
Proof. by elim: l i => [|a l IH] [|i] //=. Qed.

Lemma lenE (A : Type) (l : list A) : length l = size l.
Proof. by []. Qed.

Lemma inE (l : list nat) i : List.In i l <-> i \in l.
Proof.
elim: l => [|a l IH] //=; rewrite in_cons; split.
  by case=> [->|/IH ->]; rewrite ?eqxx ?orbT.
by case/orP => [/eqP ->|/IH h]; [left|right].
Qed.

Lemma dofs_lt cmds i : i \in dofs cmds -> (i < n)%N.
Proof.
move/inE; rewrite /dofs /Feature_Props.active_dofs => /filter_In [/in_seq [_ h] _].
exact/ssrnat.ltP.
Qed.

Lemma dofs_uniq cmds : uniq (dofs cmds).
Proof.
have : List.NoDup (dofs cmds) by apply: List.NoDup_filter; exact: seq_NoDup.
by elim: (dofs cmds) => //= a l IH h; inversion_clear h as [|? ? h1 h2]; rewrite IH // andbT; apply/negP => /inE.
Qed.

(** A task that controls the dofs [D] of the robot. *)
Record controls (t : task R n) (D : seq nat) : Prop := Controls {
  c_dim : dim t = size D;
  c_J : forall i j, activated (sel t) (jac t) i j = (nth 0%N D i == j)%:R;
  c_uniq : uniq D;
  c_lt : forall i, i \in D -> (i < n)%N
}.

Section Ctl.
Variables (t : task R n) (D : seq nat).
Hypothesis h : controls t D.
Local Notation J := (activated (sel t) (jac t)).

Lemma ctl_nth (i : 'I_(dim t)) : nth 0%N D i \in D.
Proof. by apply: mem_nth; rewrite -(c_dim h). Qed.

Lemma ctl_mul k (B : 'M[R]_(n, k)) (i : 'I_(dim t)) j (o : 'I_n) :
  nth 0%N D i = o -> (J *m B) i j = B o j.
Proof.
move=> e; rewrite mxE (bigD1 o) //= (c_J h) e eqxx mul1r big1 ?addr0 // => l /negbTE hl.
rewrite (c_J h) e; case: eqP => [e2|_]; last by rewrite mul0r.
by move: hl; rewrite -val_eqE /= -e2 eqxx.
Qed.

Lemma ctl_index k : k \in D -> exists i : 'I_(dim t), nth 0%N D i = k.
Proof.
move=> hk; have hi : (index k D < dim t)%N by rewrite (c_dim h) index_mem.
by exists (Ordinal hi); rewrite /= nth_index.
Qed.

Lemma ctl_sum (F : nat -> R) : \sum_(i < dim t) F (nth 0%N D i) = \sum_(k <- D) F k.
Proof. by rewrite (big_nth 0%N) big_mkord -(c_dim h). Qed.

Lemma ctl_unit : J *m J^T = 1%:M.
Proof.
apply/matrixP => i j.
rewrite (ctl_mul _ _ (o := Ordinal (c_lt h (ctl_nth i)))) // !mxE (c_J h) /=.
by rewrite nth_uniq ?(c_uniq h) -?(c_dim h) // eq_sym.
Qed.
End Ctl.

Lemma ctl_ortho t t' D D' : controls t D -> controls t' D' ->
  (forall i, i \in D -> i \notin D') -> ortho t t'.
Proof.
move=> h h' hd; apply/matrixP => i j.
rewrite (ctl_mul h _ _ (o := Ordinal (c_lt h (ctl_nth h i)))) // !mxE (c_J h') /=.
case: eqP => // e; have := hd _ (ctl_nth h i).
by rewrite -e (ctl_nth h').
Qed.

(** A coefficient of the control of a joint that no task controls. *)
Lemma ctl_tr t D (v : 'cV[R]_(dim t)) (o : 'I_n) : controls t D -> (o : nat) \notin D ->
  ((activated (sel t) (jac t))^T *m v) o 0 = 0.
Proof.
move=> h ho; rewrite mxE big1 // => i _; rewrite mxE (c_J h).
case: eqP => [e|_]; last by rewrite mul0r.
by move: ho; rewrite -e (ctl_nth h).
Qed.

Lemma coefs_nth (u : 'cV[R]_n) (o : 'I_n) : List.nth o (coefs u) 0 = u o 0.
Proof. by rewrite nthE /coefs (nth_map o) ?size_enum_ord // nth_ord_enum. Qed.

Lemma coefs_length (u : 'cV[R]_n) : length (coefs u) = n.
Proof. by rewrite lenE size_map size_enum_ord. Qed.

End Facts.
