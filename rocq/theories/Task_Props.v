(** Theorems about tasks (properties C16-C20). *)
From Coq Require Import String Ascii List Arith Lia ZArith Bool Reals Lra.
From Verif Require Import Base Flags_Model Flags_Proofs Flags_Props Bound_Model Task_Model Task_Proofs.
Import ListNotations.
Local Open Scope nat_scope.
Local Open Scope list_scope.

Section T.
Context {num : Type}.
Variables (zero g : num) (opp : num -> num) (add sub mul div : num -> num -> num).

(** ** C16 *)

(** The full property, [computeError] returns the concatenation of the features'
    errors, holds when the buffer is already large enough (the size of the buffer is
    the size of the previous value; an empty one counts for 1). *)
Theorem task_error_concat (buffer : list num) (features : list (list num)) :
  features <> [] ->
  length (concat features) <= Nat.max 1 (length buffer) ->
  computeError num zero g buffer features = Ok (concat features).
Proof.
  intros Hne Hle. destruct (computeError_shape zero g buffer features Hne) as (pre & post & H1 & H2 & H3 & H4).
  unfold total in *. rewrite H2. rewrite (H3 Hle) in *. simpl in *. subst. reflexivity.
Qed.

(** In general only a non-empty suffix of the features is right: what was
    written before the last reallocation reads as zero. The size is always
    right. Missing: the features whose error was written before the last
    reallocation of a buffer that is too small; the full concatenation is
    false there. *)
Theorem task_error_concat_partial (buffer : list num) (features : list (list num)) :
  features <> [] ->
  exists pre post, features = pre ++ post /\
    computeError num zero g buffer features =
      Ok (repeat zero (length (concat pre)) ++ concat post) /\
    length (repeat zero (length (concat pre)) ++ concat post) = length (concat features) /\
    post <> [].
Proof.
  intros Hne. destruct (computeError_shape zero g buffer features Hne) as (pre & post & H1 & H2 & H3 & H4).
  exists pre, post. repeat split; auto; subst. rewrite concat_app, !app_length, repeat_length. reflexivity.
Qed.

(** A single feature is always copied faithfully. *)
Theorem task_error_single (buffer e : list num) :
  computeError num zero g buffer [e] = Ok e.
Proof.
  destruct (computeError_shape zero g buffer [e]) as (pre & post & H1 & H2 & _ & H3); [congruence|].
  rewrite H2. destruct pre as [|p [|q pre]]; simpl in H1; inversion H1; subst.
  - simpl. rewrite app_nil_r. reflexivity.
  - congruence.
Qed.

(** No feature: an exception, whatever the buffer. *)
Theorem task_error_empty (buffer : list num) :
  computeError num zero g buffer [] = Throw "EMPTY_LIST".
Proof. reflexivity. Qed.

(** Histories.  A signal keeps a few buffers and uses one of them at each evaluation
    (a dynamic-graph signal alternates between two); [use] names the one used. *)
Definition eval_error (bufs : nat -> list num) (ev : nat * list (list num))
  : outcome (nat -> list num) :=
  let '(k, features) := ev in
  let* r := computeError num zero g (bufs k) features in
  Ok (fun i => if i =? k then r else bufs i).

(** As long as the dimension of the task does not change, an evaluation in a buffer that
    was used before is exact, whatever the history. *)
Theorem task_error_history (bufs bufs' : nat -> list num) (h : list (nat * list (list num)))
    (k dim : nat) (features : list (list num)) :
  ofold eval_error h bufs = Ok bufs' ->
  (forall ev, In ev h -> length (concat (snd ev)) = dim) ->
  In k (map fst h) -> features <> [] -> length (concat features) = dim ->
  computeError num zero g (bufs' k) features = Ok (concat features).
Proof.
  intros Hrun Hdim Hin Hne Hd.
  apply task_error_concat; auto. rewrite Hd.
  assert (HL : length (bufs' k) = dim).
  { clear Hd Hne features.
    assert (G : forall h bufs, ofold eval_error h bufs = Ok bufs' ->
       (forall ev, In ev h -> length (concat (snd ev)) = dim) ->
       In k (map fst h) \/ length (bufs k) = dim -> length (bufs' k) = dim).
    { clear. induction h as [|[j fs] h IH]; intros bufs Hrun Hdim Hin.
      - simpl in *. inversion Hrun; subst. destruct Hin; tauto.
      - cbn [ofold] in Hrun. unfold eval_error at 1 in Hrun.
        destruct (computeError num zero g (bufs j) fs) as [r| |] eqn:E; try discriminate.
        cbn [bind] in Hrun. apply (IH _ Hrun); [intros; apply Hdim; right; auto|].
        assert (Hr : length r = dim).
        { destruct fs as [|f fs]; [discriminate|].
          destruct (computeError_shape zero g (bufs j) (f :: fs)) as (pre & post & H1 & H2 & _); [congruence|].
          rewrite H2 in E. inversion E. specialize (Hdim (j, f :: fs) (or_introl eq_refl)). simpl snd in Hdim.
          rewrite H1, concat_app, !app_length in Hdim. rewrite app_length, repeat_length.
          unfold total. exact Hdim. }
        cbn [map fst In] in Hin.
        destruct (Nat.eqb_spec k j) as [->|Hn]; [right; exact Hr|].
        destruct Hin as [[->|Hin]|Hin]; auto; congruence. }
    apply (G h bufs); auto. }
  lia.
Qed.

(** ** C17 *)

(** Buffers: never evaluated (0 x 0), or with the right number of columns, whatever its
    number of rows and its content. *)
Theorem task_jacobian_stack (buffer : mat num) (features : list (mat num)) (c : nat) :
  features <> [] -> 0 < c -> (forall P, In P features -> cols P = c) ->
  (rows buffer = 0 /\ cols buffer = 0 \/ cols buffer = c) ->
  exists J, computeJacobian num g buffer features = Ok J /\ cols J = c /\
    rows_of J = concat (map rows_of features).
Proof. intros; apply computeJacobian_ok; auto. Qed.

(** Features whose jacobians have different numbers of columns are refused. *)
Theorem task_jacobian_mixed (buffer : mat num) (P : mat num) pre post (c : nat) :
  0 < c -> pre <> [] -> (forall Q, In Q pre -> cols Q = c) -> cols P <> c ->
  (rows buffer = 0 /\ cols buffer = 0 \/ cols buffer = c) ->
  computeJacobian num g buffer (pre ++ P :: post) = Throw "NON_ADEQUATE_FEATURES".
Proof. intros. apply (computeJacobian_mixed g buffer pre P post c); auto. Qed.

(** Finding: once evaluated with c columns a task can never be evaluated with another
    number of columns: the previous value decides. *)
Theorem task_jacobian_columns_fixed (buffer : mat num) (P : mat num) post :
  0 < cols buffer -> cols P <> cols buffer ->
  computeJacobian num g buffer (P :: post) = Throw "NON_ADEQUATE_FEATURES".
Proof.
  intros H1 H2. apply (computeJacobian_mixed g buffer [] P post (cols buffer)); auto.
  intros Q [].
Qed.

Theorem task_jacobian_empty (buffer : mat num) :
  computeJacobian num g buffer [] = Throw "EMPTY_LIST".
Proof. reflexivity. Qed.

(** Histories: same convention as for the error; from fresh buffers every evaluation with
    features of [c] columns stacks them. *)
Definition eval_jacobian (bufs : nat -> mat num) (ev : nat * list (mat num))
  : outcome (nat -> mat num) :=
  let '(k, features) := ev in
  let* r := computeJacobian num g (bufs k) features in
  Ok (fun i => if i =? k then r else bufs i).

Theorem task_jacobian_history (h : list (nat * list (mat num))) (bufs : nat -> mat num)
    (c k : nat) (features : list (mat num)) :
  0 < c ->
  (forall i, rows (bufs i) = 0 /\ cols (bufs i) = 0) ->
  (forall ev, In ev ((k, features) :: h) -> snd ev <> [] /\ forall P, In P (snd ev) -> cols P = c) ->
  exists bufs' J, ofold eval_jacobian h bufs = Ok bufs' /\
    computeJacobian num g (bufs' k) features = Ok J /\
    rows_of J = concat (map rows_of features).
Proof.
  intros Hc Hfresh Hall.
  assert (G : forall h bufs, (forall i, rows (bufs i) = 0 /\ cols (bufs i) = 0 \/ cols (bufs i) = c) ->
     (forall ev, In ev h -> snd ev <> [] /\ forall P, In P (snd ev) -> cols P = c) ->
     exists bufs', ofold eval_jacobian h bufs = Ok bufs' /\
       forall i, rows (bufs' i) = 0 /\ cols (bufs' i) = 0 \/ cols (bufs' i) = c).
  { clear - Hc. induction h as [|[j fs] h IH]; intros bufs Hb Hall.
    - exists bufs. split; auto.
    - destruct (Hall (j, fs) (or_introl eq_refl)) as [Hne Hcols]. simpl in Hne, Hcols.
      destruct (task_jacobian_stack (bufs j) fs c Hne Hc Hcols (Hb j)) as (J & E & HJ & _).
      destruct (IH (fun i => if i =? j then J else bufs i)) as (bufs' & E' & Hb').
      + intros i. destruct (i =? j); auto.
      + intros ev Hev. apply Hall. right; exact Hev.
      + exists bufs'. split; [|exact Hb']. cbn [ofold]. unfold eval_jacobian at 1. rewrite E. exact E'. }
  destruct (G h bufs) as (bufs' & E & Hb).
  - intros i. left. apply Hfresh.
  - intros ev Hev. apply Hall. right; exact Hev.
  - destruct (Hall (k, features) (or_introl eq_refl)) as [Hne Hcols]. simpl in Hne, Hcols.
    destruct (task_jacobian_stack (bufs' k) features c Hne Hc Hcols (Hb k)) as (J & EJ & _ & HJ).
    exists bufs', J. auto.
Qed.

(** ** C18 *)
Theorem task_derivative_concat (buffer error : list num) (features : list (list num * list num)) :
  (forall f, In f features -> length (snd f) = length (fst f)) ->
  computeError num zero g buffer (map fst features) = Ok error ->
  computeErrorTimeDerivative num g error (map snd features) = Ok (concat (map snd features)) /\
  length (concat (map snd features)) = length error.
Proof.
  intros Hlen Herr.
  assert (HL : length error = total (map snd features)).
  { destruct features as [|f fs]; [discriminate|].
    destruct (computeError_shape zero g buffer (map fst (f :: fs))) as (pre & post & H1 & H2 & _);
      [simpl; congruence|].
    rewrite H2 in Herr. inversion Herr. rewrite app_length, repeat_length.
    unfold total. rewrite <- app_length, <- concat_app, <- H1.
    clear - Hlen. revert Hlen. generalize (f :: fs). intros l.
    induction l as [|x l IH]; intros Hlen; simpl; auto.
    rewrite !app_length, IH by (intros; apply Hlen; right; auto).
    rewrite (Hlen x (or_introl eq_refl)). reflexivity. }
  split; [|symmetry; exact HL].
  unfold computeErrorTimeDerivative.
  destruct (dot_fold (map snd features) 0 (repeat g (length error))) as (r' & E & Hr').
  { rewrite repeat_length. lia. }
  rewrite E. cbn [bind]. f_equal. rewrite Hr'. rewrite skipn_all2 by (rewrite repeat_length; lia).
  simpl. apply app_nil_r.
Qed.

(** What happens when the sizes differ: too many components write outside the result;
    too few leave its tail unset. *)
Theorem task_derivative_sizes (error : list num) (dots : list (list num)) :
  (length error < length (concat dots) -> computeErrorTimeDerivative num g error dots = UB) /\
  (length (concat dots) <= length error ->
    computeErrorTimeDerivative num g error dots =
      Ok (concat dots ++ repeat g (length error - length (concat dots)))).
Proof.
  unfold computeErrorTimeDerivative. split; intros H.
  - rewrite dot_fold_ub; auto.
    + simpl. lia.
    + rewrite repeat_length. exact H.
  - destruct (dot_fold dots 0 (repeat g (length error))) as (r' & E & Hr').
    { rewrite repeat_length. exact H. }
    rewrite E. cbn [bind]. f_equal. rewrite Hr'. simpl. f_equal.
    unfold total. revert H. generalize (length (concat dots)) (length error). clear.
    intros n m H. revert m H. induction n; intros [|m] H; simpl; auto; try lia. apply IHn. lia.
Qed.

(** ** C19 *)

(** The bound [b] is the single value [v]. *)
Definition is_single (b : MultiBound num) (v : num) : Prop :=
  getSingleBound b = Ok v /\ forall side, exists w, getDoubleBound b side = Throw w.

Lemma is_single_mb v : is_single (mb_single zero v) v.
Proof. split; [reflexivity|]. intros []; eexists; reflexivity. Qed.

Lemma nth_error_map2 {A B C} (f : A -> B -> C) a b i x y :
  nth_error a i = Some x -> nth_error b i = Some y ->
  nth_error (map2 f a b) i = Some (f x y).
Proof.
  revert b i; induction a as [|p a IH]; intros [|q b] [|i]; simpl; intros H1 H2; try discriminate.
  - congruence.
  - apply IH; auto.
Qed.
Lemma map2_length {A B C} (f : A -> B -> C) a b :
  length a <= length b -> length (map2 f a b) = length a.
Proof. revert b; induction a as [|p a IH]; intros [|q b] H; simpl in *; auto; try lia. rewrite IH; lia. Qed.

Lemma decrease_ok error gain (wd : bool) de :
  length error <= length de \/ wd = false ->
  computeTaskExponentialDecrease num zero opp sub mul error gain wd de =
  Ok (map (mb_single zero)
        (if wd then map2 (fun v d => sub v d) (map (fun e => mul (opp e) gain) error) de
         else map (fun e => mul (opp e) gain) error)).
Proof.
  intros H. unfold computeTaskExponentialDecrease.
  rewrite <- (map_map (fun e => mul (opp e) gain) (mb_single zero)).
  destruct wd; [|reflexivity].
  rewrite minus_all_ok; [reflexivity|]. rewrite map_length. destruct H; [auto|discriminate].
Qed.

(** With a derivative shorter than the error, the reference is read out of bounds. *)
Theorem task_derivative_short_undefined (error de : list num) (gain : num) :
  length de < length error ->
  computeTaskExponentialDecrease num zero opp sub mul error gain true de = UB.
Proof.
  unfold computeTaskExponentialDecrease. revert de. induction error as [|e error IH]; intros de L; [cbn in L; lia|].
  destruct de as [|d de]; [reflexivity|]. cbn in L. cbn [map minus_all]. cbn [getSingleBound mb_single bmode boundSingle bind].
  rewrite IH by lia. reflexivity.
Qed.

Theorem task_reference (error de : list num) (gain : num) (wd : bool) :
  (wd = true -> length de = length error) ->
  exists ref,
    computeTaskExponentialDecrease num zero opp sub mul error gain wd de = Ok ref /\
    length ref = length error /\
    forall i e, nth_error error i = Some e ->
      exists b, nth_error ref i = Some b /\
        match wd with
        | false => is_single b (mul (opp e) gain)
        | true => exists d, nth_error de i = Some d /\ is_single b (sub (mul (opp e) gain) d)
        end.
Proof.
  intros H.
  assert (Hs : length error <= length de \/ wd = false).
  { destruct wd; auto. left. rewrite H by auto. auto. }
  rewrite decrease_ok by exact Hs.
  eexists. split; [reflexivity|]. rewrite map_length.
  destruct wd.
  - specialize (H eq_refl). rewrite map2_length by (rewrite map_length; lia).
    rewrite map_length. split; [reflexivity|]. intros i e He.
    destruct (nth_error de i) as [d|] eqn:Ed.
    + eexists. split.
      * apply map_nth_error. apply nth_error_map2; [apply map_nth_error; exact He | exact Ed].
      * exists d. split; [reflexivity|]. apply is_single_mb.
    + apply nth_error_None in Ed. assert (i < length error) by (apply nth_error_Some; congruence). lia.
  - rewrite map_length. split; [reflexivity|]. intros i e He. eexists. split.
    + do 2 apply map_nth_error. exact He.
    + apply is_single_mb.
Qed.

(** TaskPD: over any history of errors the derivative used is the difference of
    consecutive errors, zero at first and when the size changes. *)
Fixpoint pd_run (prev : list num) (errs : list (list num)) : list (list num) :=
  match errs with
  | [] => []
  | e :: r => let '(p, d) := pd_errorDot num zero sub prev e in d :: pd_run p r
  end.

Theorem taskpd_errordot (errs : list (list num)) (k : nat) (e prev : list num) :
  nth_error errs k = Some e ->
  (match k with 0 => Some [] | S j => nth_error errs j end) = Some prev ->
  exists d, nth_error (pd_run [] errs) k = Some d /\ length d = length e /\
    forall i x, nth_error e i = Some x ->
      nth_error d i = Some (if length prev =? length e then
                              match nth_error prev i with Some y => sub x y | None => zero end
                            else zero).
Proof.
  intros He Hp.
  assert (G : forall errs p0 k, nth_error errs k = Some e ->
     (match k with 0 => Some p0 | S j => nth_error errs j end) = Some prev ->
     nth_error (pd_run p0 errs) k = Some (snd (pd_errorDot num zero sub prev e))).
  { clear. induction errs as [|a errs IH]; intros p0 [|k] H1 H2; simpl in *; try discriminate.
    - inversion H1; inversion H2; subst; reflexivity.
    - apply IH; auto. destruct k; simpl in *; auto. }
  exists (snd (pd_errorDot num zero sub prev e)). split; [apply G; auto|].
  unfold pd_errorDot. cbn [snd]. destruct (Nat.eqb_spec (length prev) (length e)) as [Hl|Hl].
  - split; [apply map2_length; lia|]. intros i x Hx.
    destruct (nth_error prev i) as [y|] eqn:Ey.
    + rewrite (nth_error_map2 sub e prev i x y Hx Ey). reflexivity.
    + apply nth_error_None in Ey. assert (i < length e) by (apply nth_error_Some; congruence). lia.
  - split; [apply repeat_length|]. intros i x Hx.
    assert (i < length e) by (apply nth_error_Some; congruence).
    rewrite (nth_error_nth_lt (repeat zero (length e)) i zero) by (rewrite repeat_length; auto).
    rewrite nth_repeat_lt; auto.
Qed.

Theorem taskpd_reference (error de errorDot : list num) (gain beta : num) (wd : bool) :
  (wd = true -> length de = length error) -> length errorDot = length error ->
  exists ref,
    pd_task num zero opp sub mul error gain wd de beta errorDot = Ok ref /\
    length ref = length error /\
    forall i e edot, nth_error error i = Some e -> nth_error errorDot i = Some edot ->
      exists b, nth_error ref i = Some b /\
        match wd with
        | false => is_single b (sub (mul (opp e) gain) (mul beta edot))
        | true => exists d, nth_error de i = Some d /\
                    is_single b (sub (sub (mul (opp e) gain) d) (mul beta edot))
        end.
Proof.
  intros H Hdot. unfold pd_task.
  assert (Hs : length error <= length de \/ wd = false).
  { destruct wd; auto. left. rewrite H by auto. auto. }
  rewrite decrease_ok by exact Hs. cbn [bind].
  set (vs := if wd then _ else _).
  assert (HL : length vs = length error).
  { unfold vs. destruct wd.
    - rewrite map2_length; rewrite map_length; auto. rewrite H; auto.
    - apply map_length. }
  rewrite minus_all_ok by lia. eexists. split; [reflexivity|].
  rewrite map_length, map2_length by lia. split; [exact HL|].
  intros i e edot He Hed. unfold vs. destruct wd.
  - destruct (nth_error de i) as [d|] eqn:Ed.
    + eexists. split.
      * apply map_nth_error. apply nth_error_map2; [|exact Hed].
        apply nth_error_map2; [apply map_nth_error; exact He | exact Ed].
      * exists d. split; [reflexivity|]. apply is_single_mb.
    + apply nth_error_None in Ed. assert (i < length error) by (apply nth_error_Some; congruence).
      rewrite H in Ed by auto. lia.
  - eexists. split.
    + apply map_nth_error. apply nth_error_map2; [apply map_nth_error; exact He | exact Hed].
    + apply is_single_mb.
Qed.

(** TaskUnilateral: both bounds of each component are the distances to the references
    divided by the time step. *)
Definition is_double (b : MultiBound num) (inf sup : num) : Prop :=
  getDoubleBound b BOUND_INF = Ok inf /\ getDoubleBound b BOUND_SUP = Ok sup /\
  exists w, getSingleBound b = Throw w.

Theorem task_unilateral_bounds (position refInf refSup : list num) (dt : num) :
  length position <= length refInf -> length position <= length refSup ->
  exists ref, unilateral num zero sub div position refInf refSup dt = Ok ref /\
    length ref = length position /\
    forall i p lo hi, nth_error position i = Some p -> nth_error refInf i = Some lo ->
      nth_error refSup i = Some hi ->
      exists b, nth_error ref i = Some b /\ is_double b (div (sub lo p) dt) (div (sub hi p) dt).
Proof.
  revert refInf refSup; induction position as [|p ps IH]; intros [|lo li] [|hi ls] H1 H2;
    simpl in *; try lia;
    try (exists []; split; [reflexivity|]; split; [reflexivity|]; intros [|i]; simpl; discriminate).
  destruct (IH li ls ltac:(lia) ltac:(lia)) as (ref & E & HL & Hi).
  rewrite E. cbn [bind]. eexists. split; [reflexivity|]. split; [simpl; lia|].
  intros [|i] p' lo' hi' Hp Hlo Hhi; simpl in *.
  - inversion Hp; inversion Hlo; inversion Hhi; subst. eexists. split; [reflexivity|].
    repeat split. eexists; reflexivity.
  - eapply Hi; eauto.
Qed.

Theorem task_unilateral_short_undefined (position refInf refSup : list num) (dt : num) :
  length refInf < length position \/ length refSup < length position ->
  unilateral num zero sub div position refInf refSup dt = UB.
Proof.
  revert refInf refSup; induction position as [|p ps IH]; intros [|lo li] [|hi ls] H;
    simpl in *; try lia; auto.
  rewrite IH; [reflexivity|lia].
Qed.

End T.

(** ** TaskConti over the reals *)
Section Conti.
Local Open Scope R_scope.
(** exp((timeRef - timecurr) * mu / 200): task-conti.cpp:68-70 *)
Definition conti_decay (mu : R) (d : Z) : R := exp (IZR d * (mu / 200)).
Notation conti_R g mu := (conti R 0 Ropp Rplus Rminus Rmult 1 (conti_decay mu)).

Definition row_dot (J : mat R) (i : nat) (q0 : list R) : R :=
  fold_left Rplus (map2 Rmult (map (fun j => coef J i j) (seq 6 (cols J - 6))) q0) 0.

(** The reference, before the time reference is set (None) or after. *)
Theorem taskconti_reference (error : list R) (lambda mu : R) (J : mat R) (q0 : list R)
    (timeRef : option Z) (t : Z) :
  (length q0 + 6 = cols J)%nat -> rows J = length error ->
  (0 <= match timeRef with None => t | Some r => r end)%Z ->
  exists ref, conti_R g mu error lambda J q0 timeRef t =
      Ok (Some (match timeRef with None => t | Some r => r end), ref) /\
    length ref = length error /\
    forall i e, nth_error error i = Some e ->
      exists b, nth_error ref i = Some b /\
        let k := exp (IZR (match timeRef with None => t | Some r => r end - t) * (mu / 200)) in
        is_single b (- lambda * e + k * (row_dot J i q0 + lambda * e)).
Proof.
  intros Hq Hr Ht. unfold conti.
  destruct (Nat.eqb_spec (length q0 + 6) (cols J)); [|lia]. cbn [negb].
  set (tr := match timeRef with None => t | Some r => r end) in *.
  destruct (Z.ltb_spec tr 0); [lia|].
  rewrite map_length, seq_length.
  destruct (Nat.eqb_spec (rows J) (length error)); [|lia].
  eexists. split; [reflexivity|]. split.
  - rewrite map2_length; [reflexivity|]. rewrite map_length, seq_length. lia.
  - intros i x Hx. assert (Hi : (i < length error)%nat) by (apply nth_error_Some; congruence).
    eexists. split.
    + apply nth_error_map2; [exact Hx|]. apply map_nth_error.
      rewrite (nth_error_nth_lt (seq 0 (rows J)) i 0%nat) by (rewrite seq_length; lia).
      rewrite seq_nth by lia. reflexivity.
    + cbv zeta. unfold conti_decay. fold tr.
      replace (- lambda * x + exp (IZR (tr - t) * (mu / 200)) * (row_dot J i q0 + lambda * x))
        with (x * ((exp (IZR (tr - t) * (mu / 200)) - 1) * lambda) +
              dot R 0 Rplus Rmult (map (fun j : nat => coef J (0 + i) j) (seq 6 (cols J - 6))) q0 *
              exp (IZR (tr - t) * (mu / 200))).
      * apply is_single_mb.
      * unfold dot, row_dot. simpl. ring.
Qed.

(** Continuity: at the first evaluation the reference is the velocity J q0 of the previous
    control, whatever the error and the gain. *)
Theorem taskconti_continuous (error : list R) (lambda mu : R) (J : mat R) (q0 : list R) (t : Z) :
  (length q0 + 6 = cols J)%nat -> rows J = length error -> (0 <= t)%Z ->
  exists ref, conti_R g mu error lambda J q0 None t = Ok (Some t, ref) /\
    length ref = length error /\
    forall i, (i < length error)%nat ->
      exists b, nth_error ref i = Some b /\ is_single b (row_dot J i q0).
Proof.
  intros Hq Hr Ht.
  destruct (taskconti_reference error lambda mu J q0 None t Hq Hr Ht) as (ref & E & HL & Hi).
  exists ref. split; [exact E|]. split; [exact HL|]. intros i Hlt.
  destruct (nth_error error i) as [e|] eqn:Ee; [|apply nth_error_None in Ee; lia].
  destruct (Hi i e Ee) as (b & Hb & Hs). exists b. split; [exact Hb|].
  cbv zeta in Hs. rewrite Z.sub_diag, Rmult_0_l, exp_0 in Hs.
  replace (row_dot J i q0) with (- lambda * e + 1 * (row_dot J i q0 + lambda * e)) by ring. exact Hs.
Qed.

(** Not started (negative reference): the exponential decrease. *)
Theorem taskconti_not_started (error : list R) (lambda mu : R) (J : mat R) (q0 : list R) (r t : Z) :
  (length q0 + 6 = cols J)%nat -> (r < 0)%Z ->
  exists ref, conti_R g mu error lambda J q0 (Some r) t = Ok (Some r, ref) /\
    length ref = length error /\
    forall i e, nth_error error i = Some e ->
      exists b, nth_error ref i = Some b /\ is_single b (- lambda * e).
Proof.
  intros Hq Hr. unfold conti.
  destruct (Nat.eqb_spec (length q0 + 6) (cols J)); [|lia]. cbn [negb].
  destruct (Z.ltb_spec r 0); [|lia]. eexists. split; [reflexivity|].
  rewrite map_length. split; [reflexivity|]. intros i x Hx. eexists. split.
  - apply map_nth_error. exact Hx.
  - apply is_single_mb.
Qed.
End Conti.

(** ** C20 *)

(** Selection of joint [i] read from the commands, last one first. *)
Fixpoint selected (rev_cmds : list selcmd) (i : Z) (v : bool) : Prop :=
  match rev_cmds with
  | [] => v = true
  | SetSel f :: _ => at_ f i = Ok v
  | ClearSel :: _ => v = false
  | AddSel f :: r => exists a b, at_ f i = Ok a /\ selected r i b /\ v = (b && a)
  end.

Theorem selection_history (cmds : list selcmd) (i : Z) : (0 <= i)%Z ->
  exists v, at_ (fold_left sel_exec cmds sel_init) i = Ok v /\ selected (rev cmds) i v.
Proof.
  intros Hi.
  assert (G : forall r, exists v, at_ (fold_left sel_exec (rev r) sel_init) i = Ok v /\ selected r i v);
    [|rewrite <- (rev_involutive cmds); rewrite (rev_involutive (rev cmds)); apply G].
  induction r as [|c r IH].
  - simpl. exists true. split; [|reflexivity]. rewrite at_nth by exact Hi.
    destruct (Z.to_nat i); reflexivity.
  - cbn [rev]. rewrite fold_left_app. cbn [fold_left]. destruct IH as (b & E & Hs).
    set (s := fold_left sel_exec (rev r) sel_init) in *.
    destruct c as [f|f|]; cbn [sel_exec selected].
    + rewrite at_nth by exact Hi. eauto.
    + destruct (flags_and_pointwise s f i Hi) as (x & y & H1 & H2 & _ & H3).
      rewrite H3. rewrite E in H1. inversion H1; subst. eauto 10.
    + exists false. split; [|reflexivity]. rewrite at_nth by exact Hi.
      destruct (Z.to_nat i); reflexivity.
Qed.

(** A joint once selected out stays out until the selection is set again. *)
Theorem selection_only_shrinks (cmds adds : list selcmd) (i : Z) : (0 <= i)%Z ->
  (forall c, In c adds -> match c with SetSel _ => False | _ => True end) ->
  at_ (fold_left sel_exec cmds sel_init) i = Ok false ->
  at_ (fold_left sel_exec (cmds ++ adds) sel_init) i = Ok false.
Proof.
  intros Hi Hadds H. rewrite fold_left_app. revert H.
  generalize (fold_left sel_exec cmds sel_init). induction adds as [|c r IH]; intros s H; auto.
  cbn [fold_left]. apply IH; [intros; apply Hadds; right; auto|].
  specialize (Hadds c (or_introl eq_refl)). destruct c as [f|f|]; [tauto| |]; cbn [sel_exec].
  - destruct (flags_and_pointwise s f i Hi) as (x & y & H1 & H2 & _ & H3).
    rewrite H3. rewrite H in H1. inversion H1; subst. reflexivity.
  - rewrite at_nth by exact Hi. destruct (Z.to_nat i); reflexivity.
Qed.

(** Feature list: the features added since the last clear, in order, and the error signal
    depends on exactly these. *)
Fixpoint added_since_clear (rev_cmds : list flcmd) : list nat :=
  match rev_cmds with
  | [] => []
  | ClearF :: _ => []
  | AddF f :: r => added_since_clear r ++ [f]
  end.

Lemma remove_all (l d : list nat) :
  (forall x, In x d -> In x l) -> fold_left (fun d f => List.remove Nat.eq_dec f d) l d = [].
Proof.
  revert d; induction l as [|a l IH]; intros d H; simpl.
  - destruct d as [|x d]; auto. destruct (H x (or_introl eq_refl)).
  - apply IH. intros x Hx. apply in_remove in Hx. destruct Hx as [Hx Hn].
    destruct (H x Hx); [congruence|auto].
Qed.

Theorem feature_list_history (cmds : list flcmd) :
  let t := fold_left fl_exec cmds (mkFL [] []) in
  featureList t = added_since_clear (rev cmds) /\ errorDeps t = added_since_clear (rev cmds).
Proof.
  cbv zeta.
  assert (G : forall r, featureList (fold_left fl_exec (rev r) (mkFL [] [])) = added_since_clear r /\
                        errorDeps (fold_left fl_exec (rev r) (mkFL [] [])) = added_since_clear r);
    [|rewrite <- (rev_involutive cmds); rewrite (rev_involutive (rev cmds)); apply G].
  induction r as [|c r IH]; [auto|].
  cbn [rev]. rewrite !fold_left_app. cbn [fold_left]. destruct IH as [H1 H2].
  destruct c as [f|]; cbn [fl_exec added_since_clear].
  - unfold add_feature. cbn. rewrite H1, H2. auto.
  - unfold clear_features. cbn. split; [reflexivity|]. rewrite H1, H2.
    apply remove_all. auto.
Qed.

(** The [list] command identifies the features: two tasks with the same listing have the
    same sequence of feature names, names having no quote. *)
Definition quote_free (s : string) : Prop := forall c, In c (list_ascii_of_string s) -> c <> "'"%char.

Lemma list_features_ind (name : nat -> string) l acc :
  (fold_left (fun r f => r ++ "'" ++ name f ++ "',") l acc =
   acc ++ fold_right (fun f r => "'" ++ name f ++ "'," ++ r) "" l)%string.
Proof.
  assert (A : forall a b c, ((a ++ b) ++ c = a ++ (b ++ c))%string).
  { induction a; intros; simpl; auto. rewrite IHa. reflexivity. }
  assert (N : forall a, (a ++ "" = a)%string).
  { induction a; simpl; auto. rewrite IHa. reflexivity. }
  revert acc; induction l as [|f l IH]; intros acc; cbn [fold_left fold_right].
  - rewrite N. reflexivity.
  - rewrite IH. rewrite !A. reflexivity.
Qed.

Lemma cut_quote (a b x y : string) : quote_free a -> quote_free b ->
  (a ++ "'" ++ x = b ++ "'" ++ y)%string -> a = b /\ x = y.
Proof.
  revert b; induction a as [|c a IH]; intros [|d b] Ha Hb H; simpl in H; inversion H; subst; auto.
  - exfalso. apply (Hb "'"%char); simpl; auto.
  - exfalso. apply (Ha "'"%char); simpl; auto.
  - destruct (IH b) as [-> ->]; auto.
    + intros z Hz. apply Ha. simpl; auto.
    + intros z Hz. apply Hb. simpl; auto.
Qed.

Theorem list_features_injective (name1 name2 : nat -> string) (t1 t2 : flist) :
  (forall f, quote_free (name1 f)) -> (forall f, quote_free (name2 f)) ->
  list_features name1 t1 = list_features name2 t2 ->
  map name1 (featureList t1) = map name2 (featureList t2).
Proof.
  intros Q1 Q2. unfold list_features. rewrite !list_features_ind.
  assert (A : forall a b c, ((a ++ b) ++ c = a ++ (b ++ c))%string).
  { induction a; intros; simpl; auto. rewrite IHa. reflexivity. }
  rewrite !A. simpl. intros H. inversion H as [H']. clear H. revert H'.
  generalize (featureList t1) (featureList t2). clear t1 t2.
  induction l as [|f l IH]; intros [|f' l'] H; cbn [fold_right map] in *; auto.
  - simpl in H. discriminate.
  - simpl in H. discriminate.
  - simpl in H. inversion H as [H1]. clear H.
    destruct (cut_quote (name1 f) (name2 f')
       ("," ++ fold_right (fun f r => "'" ++ name1 f ++ "'," ++ r)%string "" l ++ "]")%string
       ("," ++ fold_right (fun f r => "'" ++ name2 f ++ "'," ++ r)%string "" l' ++ "]")%string
       (Q1 f) (Q2 f')) as [H2 H3].
    { simpl. rewrite !A in H1. simpl in H1. exact H1. }
    simpl in H3. inversion H3 as [H4]. rewrite H2. f_equal. apply IH. exact H4.
Qed.

(** ** Examples and findings *)

(** Finding (C16): the first evaluation, in a fresh buffer, of a task with two
    one-dimensional features loses the error of the first. *)
Theorem task_error_lost_refuted : forall (num : Type) (zero g x y : num),
  computeError num zero g [] [[x]; [y]] = Ok [zero; y].
Proof. reflexivity. Qed.

(** The same task in a buffer of the right size. *)
Example task_error_example :
  computeError nat 0 9 [7; 7] [[1]; [2]] = Ok [1; 2] /\
  computeError nat 0 9 [7; 7; 7; 7; 7] [[1; 2]; []; [3]] = Ok [1; 2; 3] /\
  computeError nat 0 9 [7; 7] [[1]; [2]; [3; 4; 5; 6]] = Ok [0; 0; 3; 4; 5; 6].
Proof. repeat split. Qed.

(** Two buffers used alternately: the first value is wrong, the third is right. *)
Example task_error_history_example :
  exists b, ofold (eval_error 0 9) [(0, [[1]; [2]]); (1, [[3]; [4]])] (fun _ => []) = Ok b /\
    b 0 = [0; 2] /\ b 1 = [0; 4] /\
    computeError nat 0 9 (b 0) [[5]; [6]] = Ok [5; 6].
Proof. eexists. split; [reflexivity|]. repeat split. Qed.

Definition mat_of (l : list (list nat)) (c : nat) : mat nat :=
  mkMat (length l) c (fun i j => nth j (nth i l []) 0).
Example task_jacobian_example :
  exists J, computeJacobian nat 9 (mkMat 0 0 (fun _ _ => 7))
      [mat_of [[1; 2; 3]] 3; mat_of [[4; 5; 6]; [7; 8; 9]] 3] = Ok J /\
    rows_of J = [[1; 2; 3]; [4; 5; 6]; [7; 8; 9]].
Proof. eexists. split; reflexivity. Qed.
Example task_jacobian_mixed_example :
  computeJacobian nat 9 (mkMat 0 0 (fun _ _ => 7))
      [mat_of [[1; 2; 3]] 3; mat_of [[4; 5]] 2] = Throw "NON_ADEQUATE_FEATURES".
Proof. reflexivity. Qed.

(** Finding (C17): a buffer with rows and no column (the value of a task whose features
    had no column) makes the next evaluation write out of the matrix. *)
Theorem task_jacobian_swapped_resize_refuted : forall (num : Type) (g x : num),
  let buffer := mkMat 3 0 (fun _ _ => g) in
  computeJacobian num g buffer [mkMat 2 1 (fun _ _ => x)] = UB.
Proof. reflexivity. Qed.

Example task_derivative_example :
  computeErrorTimeDerivative nat 9 [0; 0; 0] [[1]; [2; 3]] = Ok [1; 2; 3].
Proof. reflexivity. Qed.

Example task_reference_example :
  exists r, computeTaskExponentialDecrease Z 0%Z Z.opp Z.sub Z.mul [1; -2]%Z 3%Z true [10; 20]%Z = Ok r /\
    map getSingleBound r = [Ok (-13)%Z; Ok (-14)%Z].
Proof. eexists. split; reflexivity. Qed.

Example taskpd_example :
  pd_run 0%Z Z.sub [] [[5]; [8]; [8; 1]; [7; 7]]%Z = [[0]; [3]; [0; 0]; [-1; 6]]%Z.
Proof. reflexivity. Qed.

Example task_unilateral_example :
  exists r, unilateral Z 0%Z Z.sub Z.div [1; 2]%Z [-3; 0]%Z [5; 4]%Z 2%Z = Ok r /\
    map (fun b => (getDoubleBound b BOUND_INF, getDoubleBound b BOUND_SUP)) r =
      [(Ok (-2), Ok 2); (Ok (-1), Ok 1)]%Z.
Proof. eexists. split; reflexivity. Qed.

Example taskconti_hypotheses :
  (length [1%R] + 6 = cols (mkMat 1 7 (fun _ _ => 1%R)))%nat /\
  rows (mkMat 1 7 (fun _ _ => 1%R)) = length [2%R] /\
  row_dot (mkMat 1 7 (fun _ _ => 1%R)) 0 [1%R] = 1%R.
Proof. repeat split. unfold row_dot. simpl. lra. Qed.

Example selection_example :
  map (at_ (fold_left sel_exec
    [AddSel (mkFlags [true; true; false] true); AddSel (mkFlags [false] true)] sel_init)) [0; 1; 2; 3]%Z
  = [Ok false; Ok true; Ok false; Ok true].
Proof. reflexivity. Qed.

Example feature_list_example :
  featureList (fold_left fl_exec [AddF 1; ClearF; AddF 2; AddF 3; AddF 2] (mkFL [] [])) = [2; 3; 2] /\
  list_features (fun f => if Nat.eqb f 2 then "a"%string else "b"%string)
    (fold_left fl_exec [AddF 1; ClearF; AddF 2; AddF 3] (mkFL [] [])) = "['a','b',]"%string.
Proof. split; reflexivity. Qed.

Print Assumptions task_error_concat.
Print Assumptions task_error_concat_partial.
Print Assumptions task_error_single.
Print Assumptions task_error_history.
Print Assumptions task_jacobian_stack.
Print Assumptions task_jacobian_mixed.
Print Assumptions task_jacobian_columns_fixed.
Print Assumptions task_jacobian_history.
Print Assumptions task_derivative_concat.
Print Assumptions task_derivative_sizes.
Print Assumptions task_reference.
Print Assumptions taskpd_errordot.
Print Assumptions taskpd_reference.
Print Assumptions task_unilateral_bounds.
Print Assumptions taskconti_reference.
Print Assumptions taskconti_continuous.
Print Assumptions selection_history.
Print Assumptions selection_only_shrinks.
Print Assumptions feature_list_history.
Print Assumptions list_features_injective.
Print Assumptions task_derivative_short_undefined.
