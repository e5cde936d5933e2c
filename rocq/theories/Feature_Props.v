(** Theorems about features (properties C26-C30, C73).

    [chosen fl n] is the list of the selected indices below [n] in increasing order, a flag
    being what reading the selection at that index returns (Feature_Proofs.v). *)
From Coq Require Import String Ascii List Arith Lia ZArith Bool Reals Lra.
From Verif Require Import Base Flags_Model Flags_Proofs Feature_Model Feature_Proofs.
Import ListNotations.
Local Open Scope nat_scope.
Local Open Scope list_scope.

(** What [chosen] is, independently of its definition. *)
Theorem chosen_spec (fl : Flags) (n : nat) :
  (forall i, In i (chosen fl n) <-> i < n /\ at_ fl (Z.of_nat i) = Ok true) /\
  (forall a b x y, nth_error (chosen fl n) a = Some x -> nth_error (chosen fl n) b = Some y ->
     a < b -> x < y).
Proof.
  split.
  - intros i. unfold chosen. rewrite filter_In, in_seq, at_flag. split.
    + intros [H1 H2]. split; [lia|]. rewrite H2. reflexivity.
    + intros [H1 H2]. split; [lia|]. inversion H2. reflexivity.
  - unfold chosen. generalize 0 as k. induction n as [|n IH]; intros k a b x y Ha Hb Hab.
    + destruct a; discriminate.
    + cbn [seq filter] in *. destruct (flag fl k); [|eapply IH; eauto].
      destruct b as [|b]; [lia|]. cbn in Hb. destruct a as [|a].
      * cbn in Ha. inversion Ha; subst. apply nth_error_In in Hb.
        apply filter_In in Hb. destruct Hb as [Hb _]. apply in_seq in Hb. lia.
      * cbn in Ha. eapply IH; eauto. lia.
Qed.

Section F.
Context {num : Type}.
Variables (zero one g : num) (opp : num -> num) (add sub mul div : num -> num -> num).

(** ** C26 *)

(** Over any history in which the size of the error input stays [n] > 0, whatever the
    selection at each access. *)
Definition generic_history (h : list (Flags * list num)) : outcome nat :=
  ofold (fun dd ev => let* (dd', _) := generic_dimension num dd (fst ev) (snd ev) in Ok dd') h 0.

Theorem generic_dimension_history (h : list (Flags * list num)) (fl : Flags) (err : list num) (n : nat) :
  (forall ev, In ev h -> length (snd ev) = n) -> length err = n ->
  exists dd, generic_history h = Ok dd /\
    exists dd', generic_dimension num dd fl err = Ok (dd', length (chosen fl n)).
Proof.
  intros Hh Hn.
  assert (G : forall h dd, (forall ev, In ev h -> length (snd ev) = n) -> dd = 0 \/ dd = n ->
     exists dd', ofold (fun dd ev => let* (dd', _) := generic_dimension num dd (fst ev) (snd ev) in Ok dd') h dd = Ok dd'
       /\ (dd' = 0 \/ dd' = n)).
  { clear. induction h as [|ev h IH]; intros dd Hh Hdd; cbn [ofold]; [eauto|].
    unfold generic_dimension at 1. rewrite count_flags_ok. cbn [bind].
    apply IH; [intros; apply Hh; right; auto|].
    destruct (Nat.eqb_spec dd 0); [|lia]. right. apply Hh. left; auto. }
  destruct (G h 0 Hh (or_introl eq_refl)) as (dd & E & Hdd). exists dd. split; [exact E|].
  unfold generic_dimension. rewrite count_flags_ok. cbn [bind]. eexists.
  destruct (Nat.eqb_spec dd 0) as [->|Hd]; [rewrite Hn|destruct Hdd as [-> | ->]; [lia|]]; reflexivity.
Qed.

(** The error: selected components of err - ref, in order; as many as the dimension.  Missing: inputs whose size changes after the first access (generic_resize_undefined_refuted). *)
Theorem generic_error_selected_partial (fl : Flags) (err ref : list num) (n : nat) (d : num) :
  length err = n -> length ref = n ->
  generic_error num g sub fl (length (chosen fl n)) err (Some ref) =
  Ok (map (fun i => sub (nth i err d) (nth i ref d)) (chosen fl n)).
Proof.
  intros He Hr. unfold generic_error.
  assert (Hc : length (chosen fl n) <= n).
  { unfold chosen. rewrite <- (seq_length n 0) at 2. clear. induction (seq 0 n); simpl; auto.
    destruct (flag fl a); simpl; lia. }
  destruct (Nat.ltb_spec (length err) (length (chosen fl n))); [lia|].
  destruct (Nat.ltb_spec (length ref) (length (chosen fl n))); [lia|].
  rewrite He. apply collect_full.
  - intros i Hi _. rewrite (vget_ok err i d), (vget_ok ref i d) by lia. reflexivity.
  - rewrite repeat_length. reflexivity.
Qed.

Theorem generic_error_no_reference (fl : Flags) (err : list num) (n : nat) (d : num) :
  length err = n ->
  generic_error num g sub fl (length (chosen fl n)) err None =
  Ok (map (fun i => nth i err d) (chosen fl n)).
Proof.
  intros He. unfold generic_error.
  assert (Hc : length (chosen fl n) <= n).
  { unfold chosen. rewrite <- (seq_length n 0) at 2. clear. induction (seq 0 n); simpl; auto.
    destruct (flag fl a); simpl; lia. }
  destruct (Nat.ltb_spec (length err) (length (chosen fl n))); [lia|].
  rewrite He. apply collect_full.
  - intros i Hi _. rewrite (vget_ok err i d) by lia. reflexivity.
  - rewrite repeat_length. reflexivity.
Qed.

(** The jacobian: the selected rows.  Rows beyond the error are never read. *)
Theorem generic_jacobian_selected (fl : Flags) (Jac : list (list num)) (n : nat) (d : list num) :
  n <= length Jac ->
  generic_jacobian num fl (length (chosen fl n)) Jac n = Ok (map (fun i => nth i Jac d) (chosen fl n)).
Proof.
  intros Hn. unfold generic_jacobian, chosen.
  pose proof (jac_loop_ok fl Jac d n 0 Hn ltac:(lia)) as E. rewrite Nat.sub_0_r in E. exact E.
Qed.

(** Inputs shorter than the dimension are refused. *)
Theorem generic_error_sizes (fl : Flags) (err : list num) (ref : option (list num)) (dim : nat) :
  length err < dim \/ (exists r, ref = Some r /\ length r < dim) ->
  generic_error num g sub fl dim err ref = Throw "UNCOMPATIBLE_SIZE".
Proof.
  intros H. unfold generic_error. destruct (Nat.ltb_spec (length err) dim); [reflexivity|].
  destruct H as [H|(r & -> & H)]; [lia|]. destruct (Nat.ltb_spec (length r) dim); [reflexivity|lia].
Qed.

(** ** C27 *)
Theorem errordot_selected (fl : Flags) (errdotDes : list num) (n : nat) (d : num) :
  length errdotDes = n ->
  abstract_errordot num zero g opp fl (length (chosen fl n)) (Some errdotDes) =
  Ok (map (fun i => opp (nth i errdotDes d)) (chosen fl n)).
Proof.
  intros He. unfold abstract_errordot.
  assert (Hc : length (chosen fl n) <= n).
  { unfold chosen. rewrite <- (seq_length n 0) at 2. clear. induction (seq 0 n); simpl; auto.
    destruct (flag fl a); simpl; lia. }
  destruct (Nat.ltb_spec (length errdotDes) (length (chosen fl n))); [lia|].
  rewrite He. apply collect_full.
  - intros i Hi _. rewrite (vget_ok errdotDes i d) by lia. reflexivity.
  - rewrite repeat_length. reflexivity.
Qed.

Theorem errordot_zero (fl : Flags) (dim : nat) :
  abstract_errordot num zero g opp fl dim None = Ok (repeat zero dim).
Proof. reflexivity. Qed.

(** A derivative that is too short is refused; one with selected entries beyond the feature
    writes outside the result (finding). *)
Theorem errordot_sizes (fl : Flags) (errdotDes : list num) (dim : nat) :
  (length errdotDes < dim ->
     abstract_errordot num zero g opp fl dim (Some errdotDes) = Throw "UNCOMPATIBLE_SIZE") /\
  (dim <= length errdotDes -> dim < length (chosen fl (length errdotDes)) ->
     abstract_errordot num zero g opp fl dim (Some errdotDes) = UB).
Proof.
  split; intros H; unfold abstract_errordot.
  - destruct (Nat.ltb_spec (length errdotDes) dim); [reflexivity|lia].
  - intros H2. destruct (Nat.ltb_spec (length errdotDes) dim); [lia|].
    destruct errdotDes as [|x0 r] eqn:Ed; [simpl in *; lia|]. rewrite <- Ed in *.
    apply (collect_ub fl _ (fun i => opp (nth i errdotDes x0))).
    + intros i Hi _. rewrite (vget_ok errdotDes i x0) by lia. reflexivity.
    + rewrite repeat_length. exact H2.
Qed.

(** ** C28 *)

(** The active dofs after a history of selectDof(dof, on) on a robot with [dim] dofs: the last
    accepted command on a dof decides. *)
Fixpoint dof_active (rev_cmds : list (nat * bool)) (i : nat) : bool :=
  match rev_cmds with
  | [] => false
  | (j, b) :: r => if j =? i then b else dof_active r i
  end.
Definition active_dofs (dim : nat) (cmds : list (nat * bool)) : list nat :=
  filter (dof_active (rev cmds)) (seq 0 dim).

Definition posture_run (dim : nat) (cmds : list (nat * bool)) : posture num :=
  fold_left (fun p c => snd (selectDof num zero one p dim dim (fst c) (snd c))) cmds posture_init.

Lemma filter_ext_in {A} (f h : A -> bool) l : (forall a, In a l -> f a = h a) -> filter f l = filter h l.
Proof.
  induction l as [|a l IH]; intros H; simpl; auto. rewrite (H a) by (left; auto).
  rewrite IH by (intros; apply H; right; auto). reflexivity.
Qed.

Lemma count_upd l i b : i < length l -> nth i l false = negb b ->
  length (filter (fun x : bool => x) (upd l i b)) =
  (if b then S (length (filter (fun x => x) l)) else length (filter (fun x => x) l) - 1) /\
  (b = false -> 1 <= length (filter (fun x => x) l)).
Proof.
  revert i; induction l as [|a l IH]; intros [|i] Hi Hn; simpl in *; try lia.
  - subst a. destruct b; simpl; split; auto; try lia; discriminate.
  - destruct (IH i ltac:(lia) Hn) as [E1 E2]. destruct a; simpl; split; auto; try lia.
    destruct b; simpl in *; lia.
Qed.

Lemma upd_same {A} (l : list A) i d : upd l i (nth i l d) = l.
Proof. revert i; induction l as [|a l IH]; intros [|i]; simpl; auto. rewrite IH. reflexivity. Qed.

Definition pinv (dim : nat) (f : nat -> bool) (p : posture num) : Prop :=
  (active p = [] /\ nbActive p = 0 /\ pjac p = [] /\ forall i, i < dim -> f i = false) \/
  (length (active p) = dim /\ (forall i, i < dim -> nth i (active p) false = f i) /\
   nbActive p = length (filter (fun b => b) (active p)) /\
   (pjac p = select_rows num zero one dim 0 (active p) \/ pjac p = [] /\ nbActive p = 0)).

Lemma select_rows_nil dim (l : list bool) : forall k, length (filter (fun b => b) l) = 0 ->
  select_rows num zero one dim k l = [].
Proof.
  induction l as [|b l IH]; intros k H; simpl in *; auto. destruct b; simpl in *; [lia|]. apply IH; auto.
Qed.

Lemma repeat_false_count dim : length (filter (fun b : bool => b) (repeat false dim)) = 0.
Proof. induction dim; simpl; auto. Qed.

Lemma pinv_step dim f p c : pinv dim f p ->
  pinv dim (fun i => if fst c =? i then snd c else f i)
    (snd (selectDof num zero one p dim dim (fst c) (snd c))).
Proof.
  destruct c as [j b]. cbn [fst snd]. intros H. unfold selectDof. rewrite Nat.eqb_refl. cbn [negb].
  set (p1 := if length (active p) =? dim then p else mkPosture (repeat false dim) 0 (pjac p)).
  assert (H1 : length (active p1) = dim /\ (forall i, i < dim -> nth i (active p1) false = f i) /\
     nbActive p1 = length (filter (fun b => b) (active p1)) /\
     (pjac p1 = select_rows num zero one dim 0 (active p1) \/ pjac p1 = [] /\ nbActive p1 = 0)).
  { unfold p1. destruct H as [(A & B & C & D)|(A & B & C & D)].
    - rewrite A. destruct dim as [|dim]; cbn [length Nat.eqb].
      + rewrite A, B, C. simpl. repeat split; auto. intros; lia.
      + cbn [active nbActive pjac]. rewrite repeat_length, repeat_false_count.
        repeat split; auto. intros i Hi. rewrite D by exact Hi. apply nth_repeat_lt. exact Hi.
    - rewrite A, Nat.eqb_refl. auto. }
  clearbody p1. clear H p. destruct H1 as (A & B & C & D).
  destruct (Nat.leb_spec dim j) as [Hj|Hj].
  - cbn [snd]. right. repeat split; auto. intros i Hi. rewrite B by exact Hi.
    destruct (Nat.eqb_spec j i); [lia|reflexivity].
  - cbn [snd]. right. cbn [active nbActive pjac].
    set (act := if Bool.eqb _ b then _ else _).
    assert (Hact : act = upd (active p1) j b).
    { unfold act. destruct (Bool.eqb (nth j (active p1) false) b) eqn:E; auto.
      apply Bool.eqb_prop in E. rewrite <- E. symmetry. apply upd_same. }
    rewrite Hact. split; [rewrite upd_length; exact A|]. split; [|split; [|left; reflexivity]].
    + intros i Hi. rewrite nth_upd. destruct (Nat.eqb_spec j i) as [->|Hn]; cbn [andb].
      * destruct (Nat.ltb_spec i (length (active p1))); [reflexivity|lia].
      * apply B. exact Hi.
    + destruct (Bool.eqb (nth j (active p1) false) b) eqn:E.
      * apply Bool.eqb_prop in E. rewrite <- E, upd_same. exact C.
      * assert (En : nth j (active p1) false = negb b).
        { destruct (nth j (active p1) false), b; simpl in *; congruence. }
        destruct (count_upd (active p1) j b ltac:(lia) En) as [E1 _]. rewrite E1, C.
        destruct b; lia.
Qed.

Lemma posture_inv dim cmds : pinv dim (dof_active (rev cmds)) (posture_run dim cmds).
Proof.
  unfold posture_run.
  assert (G : forall r, pinv dim (dof_active r)
     (fold_left (fun p c => snd (selectDof num zero one p dim dim (fst c) (snd c))) (rev r) posture_init));
    [|rewrite <- (rev_involutive cmds) at 2; apply G].
  induction r as [|c r IH].
  - left. repeat split; auto.
  - cbn [rev]. rewrite fold_left_app. cbn [fold_left].
    pose proof (pinv_step dim _ _ c IH) as H. destruct c as [j b]. exact H.
Qed.

Lemma filter_flags (f : nat -> bool) l k :
  (forall i, i < length l -> nth i l false = f (k + i)) ->
  length (filter (fun b => b) l) = length (filter f (seq k (length l))).
Proof.
  revert k; induction l as [|b l IH]; intros k H; simpl; auto.
  assert (E : length (filter (fun b => b) l) = length (filter f (seq (S k) (length l)))).
  { apply IH. intros i Hi. specialize (H (S i) ltac:(simpl; lia)). simpl in H. rewrite H. f_equal. lia. }
  specialize (H 0 ltac:(simpl; lia)). rewrite Nat.add_0_r in H. simpl in H. rewrite H.
  destruct (f k); simpl; rewrite E; reflexivity.
Qed.

Lemma select_rows_form (f : nat -> bool) dim l : forall k,
  (forall i, i < length l -> nth i l false = f (k + i)) ->
  select_rows num zero one dim k l =
  map (fun i => upd (repeat zero dim) i one) (filter f (seq k (length l))).
Proof.
  induction l as [|b l IH]; intros k H; simpl; auto.
  specialize (IH (S k)). assert (H0 := H 0 ltac:(simpl; lia)). rewrite Nat.add_0_r in H0. simpl in H0.
  rewrite <- H0. rewrite IH.
  - destruct b; reflexivity.
  - intros i Hi. specialize (H (S i) ltac:(simpl; lia)). simpl in H. rewrite H. f_equal. lia.
Qed.

Lemma posture_facts dim cmds :
  let p := posture_run dim cmds in
  nbActive p = length (active_dofs dim cmds) /\
  pjac p = map (fun i => upd (repeat zero dim) i one) (active_dofs dim cmds) /\
  chosen (mkFlags (active p) false) (length (active p)) = active_dofs dim cmds.
Proof.
  cbv zeta. unfold active_dofs. pose proof (posture_inv dim cmds) as H.
  set (p := posture_run dim cmds) in *. set (f := dof_active (rev cmds)) in *.
  destruct H as [(A & B & C & D)|(A & B & C & D)].
  - assert (E : filter f (seq 0 dim) = []).
    { rewrite (filter_ext_in f (fun _ => false)).
      - clear. induction (seq 0 dim); auto.
      - intros a Ha. apply in_seq in Ha. apply D. lia. }
    rewrite E, A, B, C. repeat split.
  - pose proof (filter_flags f (active p) 0) as F. rewrite A in F. simpl in F. specialize (F B).
    split; [congruence|]. split.
    + pose proof (select_rows_form f dim (active p) 0) as S1. rewrite A in S1. specialize (S1 B).
      rewrite <- S1. destruct D as [D|[D1 D2]]; auto.
      rewrite D1. symmetry. apply select_rows_nil. congruence.
    + unfold chosen. rewrite A. apply filter_ext_in. intros a Ha. apply in_seq in Ha.
      unfold flag. rewrite at_nth by lia. rewrite Nat2Z.id. cbn [flags outOfRangeFlag].
      apply B. lia.
Qed.

(** Dimension, error, derivative and jacobian after any history of commands (including refused
    ones) all refer to the active dofs, in increasing order.  Missing: a robot whose size changes
    (posture_resize_inconsistent_refuted). *)
Theorem posture_consistent_partial (dim : nat) (cmds : list (nat * bool)) (state post postDot : list num) (d : num) :
  let p := posture_run dim cmds in
  length state = dim -> length post = dim -> length postDot = dim ->
  nbActive p = length (active_dofs dim cmds) /\
  posture_error num g sub p state post =
    Ok (map (fun i => sub (nth i state d) (nth i post d)) (active_dofs dim cmds)) /\
  posture_errordot num g opp p postDot =
    Ok (map (fun i => opp (nth i postDot d)) (active_dofs dim cmds)) /\
  length (pjac p) = length (active_dofs dim cmds) /\
  (forall k i j, nth_error (active_dofs dim cmds) k = Some i -> j < dim ->
     nth j (nth k (pjac p) []) zero = if j =? i then one else zero).
Proof.
  cbv zeta. intros H1 H2 H3. destruct (posture_facts dim cmds) as (A & B & C).
  set (p := posture_run dim cmds) in *.
  assert (Hlt : forall i, i < length (active p) -> flag (mkFlags (active p) false) i = true -> i < dim).
  { intros i Hi Hf.
    assert (Hin : In i (chosen (mkFlags (active p) false) (length (active p)))).
    { unfold chosen. apply filter_In. split; [apply in_seq; lia|exact Hf]. }
    rewrite C in Hin. unfold active_dofs in Hin. apply filter_In in Hin. destruct Hin as [Hin _].
    apply in_seq in Hin. lia. }
  split; [exact A|]. split; [|split; [|split]].
  - unfold posture_error. rewrite <- C. apply collect_full.
    + intros i Hi Hf. specialize (Hlt i Hi Hf).
      rewrite (vget_ok state i d), (vget_ok post i d) by lia. reflexivity.
    + rewrite repeat_length, C. auto.
  - unfold posture_errordot. rewrite <- C. apply collect_full.
    + intros i Hi Hf. specialize (Hlt i Hi Hf). rewrite (vget_ok postDot i d) by lia. reflexivity.
    + rewrite repeat_length, C. auto.
  - rewrite B, map_length. reflexivity.
  - intros k i j Hk Hj. rewrite B.
    assert (Hi : i < dim).
    { apply nth_error_In in Hk. unfold active_dofs in Hk. apply filter_In in Hk.
      destruct Hk as [Hk _]. apply in_seq in Hk. lia. }
    rewrite (nth_error_nth (map _ _) k (x := upd (repeat zero dim) i one)).
    2:{ rewrite nth_error_map, Hk. reflexivity. }
    rewrite nth_upd, repeat_length. rewrite (Nat.eqb_sym i j).
    destruct (Nat.eqb_spec j i) as [->|Hn]; cbn [andb].
    + destruct (Nat.ltb_spec i dim); [reflexivity|lia].
    + apply nth_repeat_lt. exact Hj.
Qed.

(** The product of the jacobian with any vector extracts the same dofs: the jacobian is the
    derivative of the error.  The hypotheses on the operations hold for reals and finite
    doubles. *)
Theorem posture_jacobian_product (dim : nat) (cmds : list (nat * bool)) (x : list num) (d : num) :
  (forall a, mul zero a = zero) -> (forall a, mul one a = a) ->
  (forall a, add zero a = a) -> (forall a, add a zero = a) ->
  length x = dim ->
  map (fun row => dotp num zero add mul row x) (pjac (posture_run dim cmds)) =
  map (fun i => nth i x d) (active_dofs dim cmds).
Proof.
  intros M0 M1 A0 A1 Hx. destruct (posture_facts dim cmds) as (_ & B & _). rewrite B, map_map.
  apply map_ext_in. intros i Hi. unfold active_dofs in Hi. apply filter_In in Hi. destruct Hi as [Hi _].
  apply in_seq in Hi.
  assert (Z0 : forall n (y : list num), dotp num zero add mul (repeat zero n) y = zero).
  { induction n; intros [|b y]; simpl; auto. rewrite M0, IHn, A0. reflexivity. }
  assert (G : forall n i (y : list num), i < n -> length y = n ->
     dotp num zero add mul (upd (repeat zero n) i one) y = nth i y d).
  { induction n; intros k y Hk Hl; [lia|]. destruct y as [|b y]; [simpl in Hl; lia|].
    destruct k; simpl.
    - rewrite M1, Z0, A1. reflexivity.
    - rewrite M0, A0. apply IHn; simpl in *; lia. }
  apply G; auto. lia.
Qed.

End F.

(** The command is refused when the posture does not have the size of the state, and then changes nothing; or when the degree of
    freedom does not exist. *)
Theorem posture_select_refused (num : Type) (zero one : num) p dim dimPosture dof b :
  (dim <> dimPosture -> selectDof num zero one p dim dimPosture dof b = (Throw "runtime_error", p)) /\
  (dim = dimPosture -> (fst (selectDof num zero one p dim dimPosture dof b) = Throw "TOOLS" <-> dim <= dof) /\
     (fst (selectDof num zero one p dim dimPosture dof b) = Ok tt <-> dof < dim)).
Proof.
  unfold selectDof. split.
  - intros H. apply Nat.eqb_neq in H. rewrite H. reflexivity.
  - intros ->. rewrite Nat.eqb_refl. cbn [negb]. destruct (Nat.leb_spec dimPosture dof); cbn [fst]; split; split; intro; try lia; try discriminate; reflexivity.
Qed.

(** A refused command after a change of the size of the robot loses the selection but keeps
    the old jacobian (finding): the jacobian has one row, the error none. *)
Theorem posture_resize_inconsistent_refuted :
  let p1 := snd (selectDof Z 0%Z 1%Z posture_init 3 3 1 true) in
  let '(o, p2) := selectDof Z 0%Z 1%Z p1 4 4 9 true in
  o = Throw "TOOLS" /\ nbActive p2 = 0 /\ length (pjac p2) = 1.
Proof. repeat split. Qed.

(** Generic feature: an error input that grows after the first access, with the default
    selection (all), writes outside the result (finding). *)
Theorem generic_resize_undefined_refuted :
  let fl := of_bool true in
  let '(dd, _) := (match generic_dimension Z 0 fl [1]%Z with Ok p => p | _ => (0, 0) end) in
  exists dim, generic_dimension Z dd fl [1; 2]%Z = Ok (dd, dim) /\
    generic_error Z 0%Z Z.sub fl dim [1; 2]%Z None = UB.
Proof. exists 1. split; reflexivity. Qed.

(** ** C29 *)
Section JointLimits.
Local Open Scope R_scope.
Variable g : R.
Notation jl_err := (jl_error R 1 g Rminus Rmult Rdiv 2).

Theorem joint_limits_error (fl : Flags) (q lower upper : list R) (n : nat) :
  length q = n -> length lower = n -> length upper = n ->
  exists w, jl_width R Rminus upper lower = Ok w /\
    jl_err fl (length (chosen fl n)) q lower w =
    Ok (map (fun i => (nth i q 0 - nth i lower 0) / (nth i upper 0 - nth i lower 0) * 2 - 1) (chosen fl n)).
Proof.
  intros Hq Hl Hu.
  assert (E : jl_width R Rminus upper lower =
     Ok (map (fun i => nth i upper 0 - nth i lower 0) (seq 0 n))).
  { unfold jl_width. rewrite Hu.
    assert (G : forall k acc, (k <= n)%nat ->
      ofold (fun acc i => let* u := vget upper i in let* l := vget lower i in Ok (acc ++ [u - l]))
         (seq (n - k) k) acc = Ok (acc ++ map (fun i => nth i upper 0 - nth i lower 0) (seq (n - k) k))).
    { induction k as [|k IH]; intros acc Hk; cbn [seq ofold map]; [rewrite app_nil_r; reflexivity|].
      rewrite (vget_ok upper (n - S k) 0), (vget_ok lower (n - S k) 0) by lia. cbn [bind].
      replace (S (n - S k)) with (n - k)%nat by lia. rewrite IH by lia.
      rewrite <- app_assoc. reflexivity. }
    specialize (G n [] (le_n n)). rewrite Nat.sub_diag in G. exact G. }
  eexists. split; [exact E|]. unfold jl_error. rewrite Hq. apply collect_full.
  - intros i Hi _. rewrite (vget_ok q i 0), (vget_ok lower i 0) by lia.
    rewrite (vget_ok (map (fun i => nth i upper 0 - nth i lower 0) (seq 0 n)) i 0)
      by (rewrite map_length, seq_length; lia). cbn [bind].
    rewrite (nth_indep (map (fun i => nth i upper 0 - nth i lower 0) (seq 0 n)) 0
       (nth 0 upper 0 - nth 0 lower 0)) by (rewrite map_length, seq_length; lia).
    rewrite (map_nth (fun i => nth i upper 0 - nth i lower 0)). rewrite seq_nth by lia. reflexivity.
  - rewrite repeat_length. reflexivity.
Qed.

(** The error of one joint. *)
Definition limit_error (q lo up : R) : R := (q - lo) / (up - lo) * 2 - 1.

Theorem joint_limits_range (q lo up : R) : lo < up ->
  limit_error lo lo up = -1 /\ limit_error up lo up = 1 /\
  limit_error ((lo + up) / 2) lo up = 0 /\
  (lo <= q <= up <-> -1 <= limit_error q lo up <= 1).
Proof.
  intros H. unfold limit_error. split; [field; lra|]. split; [field; lra|]. split; [field; lra|].
  assert (E : (q - lo) / (up - lo) * (up - lo) = q - lo) by (field; lra).
  set (x := (q - lo) / (up - lo)) in *. split; intros; nra.
Qed.

(** Finding: the jacobian entry is half the derivative of the error.
    Missing: the jacobian is the derivative of the error; false of the
    code, which gives half of it. *)
Theorem joint_limits_jacobian_half_partial (q lo up : R) (small : R -> bool) :
  lo < up -> small (up - lo) = false ->
  derivable_pt_lim (fun x => limit_error x lo up) q (2 * jl_jac_entry R 1 Rdiv small (up - lo)).
Proof.
  intros H Hs. unfold jl_jac_entry. rewrite Hs. unfold limit_error.
  replace (2 * (1 / (up - lo))) with ((1 - 0) * / (up - lo) * 2 + ((q - lo) / (up - lo)) * 0 - 0)
    by (field; lra).
  apply (derivable_pt_lim_minus (fun x => (x - lo) / (up - lo) * 2) (fun _ => 1)).
  - apply (derivable_pt_lim_mult (fun x => (x - lo) / (up - lo)) (fun _ => 2)).
    + unfold Rdiv. replace ((1 - 0) * / (up - lo)) with ((1 - 0) * / (up - lo) + (q - lo) * 0) by ring.
      apply (derivable_pt_lim_mult (fun x => x - lo) (fun _ => / (up - lo))).
      * apply (derivable_pt_lim_minus id (fun _ => lo)); [apply derivable_pt_lim_id|apply derivable_pt_lim_const].
      * apply derivable_pt_lim_const.
    + apply derivable_pt_lim_const.
  - apply derivable_pt_lim_const.
Qed.

Theorem joint_limits_jacobian_not_derivative_refuted :
  exists q lo up, lo < up /\ forall small, small (up - lo) = false ->
    ~ derivable_pt_lim (fun x => limit_error x lo up) q (jl_jac_entry R 1 Rdiv small (up - lo)).
Proof.
  exists 0, (-1), 1. split; [lra|]. intros small Hs D.
  pose proof (joint_limits_jacobian_half_partial 0 (-1) 1 small ltac:(lra) Hs) as D2.
  pose proof (uniqueness_limite _ _ _ _ D D2) as E. unfold jl_jac_entry in E. rewrite Hs in E. lra.
Qed.

(** The jacobian has one row per selected joint, with its only non-zero entry on that joint. *)
Theorem joint_limits_jacobian (fl : Flags) (small : R -> bool) (q width : list R) (n : nat) :
  length q = n -> length width = n ->
  exists J, jl_jacobian 0 1 Rdiv small fl (length (chosen fl n)) q width = Ok J /\
    length J = length (chosen fl n) /\
    forall k i j, nth_error (chosen fl n) k = Some i -> (j < n)%nat ->
      nth j (nth k J []) 0 =
      if (j =? i)%nat then jl_jac_entry R 1 Rdiv small (nth i width 0) else 0.
Proof.
  intros Hq Hw. unfold jl_jacobian. rewrite Hq.
  eexists. split; [|split].
  - apply (collect_full fl _ (fun i => upd (repeat 0 n) i (jl_jac_entry R 1 Rdiv small (nth i width 0)))).
    + intros i Hi _. rewrite (vget_ok width i 0) by lia. reflexivity.
    + rewrite repeat_length. reflexivity.
  - apply map_length.
  - intros k i j Hk Hj.
    assert (Hi : (i < n)%nat) by (apply nth_error_In in Hk; apply chosen_lt in Hk; exact Hk).
    rewrite (nth_error_nth (map _ _) k (x := upd (repeat 0 n) i (jl_jac_entry R 1 Rdiv small (nth i width 0)))).
    2:{ rewrite nth_error_map, Hk. reflexivity. }
    rewrite nth_upd, repeat_length. rewrite (Nat.eqb_sym i j).
    destruct (Nat.eqb_spec j i) as [->|Hn]; cbn [andb].
    + destruct (Nat.ltb_spec i n); [reflexivity|lia].
    + apply nth_repeat_lt. exact Hj.
Qed.

(** ** C30 *)

(** A point (X,Y,Z)(t) of the scene seen from a camera moving with the twist (v, w) expressed
    in the camera frame: its coordinates in the camera vary by - v - w x P. *)
Definition seen_from (X Y Z : R -> R) (t : R) (v w : R * R * R) : Prop :=
  let '(vx, vy, vz) := v in let '(wx, wy, wz) := w in
  derivable_pt_lim X t (- vx - (wy * Z t - wz * Y t)) /\
  derivable_pt_lim Y t (- vy - (wz * X t - wx * Z t)) /\
  derivable_pt_lim Z t (- vz - (wx * Y t - wy * X t)).

Definition twist_of (v w : R * R * R) : list R :=
  let '(vx, vy, vz) := v in let '(wx, wy, wz) := w in [vx; vy; vz; wx; wy; wz].

Theorem visual_point_interaction (X Y Z : R -> R) (t : R) (v w : R * R * R) (neg tiny : R -> bool) (fl : Flags) :
  seen_from X Y Z t v w -> 0 < Z t -> neg (Z t) = false -> tiny (Z t) = false ->
  exists L, vp_interaction R 0 1 Ropp Rplus Rmult Rdiv neg tiny fl (X t / Z t) (Y t / Z t) (Z t) = Ok L /\
    length L = length (chosen fl 2) /\
    forall k i, nth_error (chosen fl 2) k = Some i ->
      derivable_pt_lim (fun s => (if (i =? 0)%nat then X s else Y s) / Z s) t
        (dotp R 0 Rplus Rmult (nth k L []) (twist_of v w)).
Proof.
  intros Hm HZ Hn Ht. unfold vp_interaction. rewrite Hn, Ht.
  change 0%Z with (Z.of_nat 0). change 1%Z with (Z.of_nat 1). rewrite !at_flag. cbn [bind].
  eexists. split; [reflexivity|].
  destruct v as [[vx vy] vz], w as [[wx wy] wz]. destruct Hm as (DX & DY & DZ).
  assert (PX : derivable_pt_lim (fun s => X s / Z s) t
     (dotp R 0 Rplus Rmult (vp_row_x R 0 1 Ropp Rplus Rmult Rdiv (X t / Z t) (Y t / Z t) (Z t))
        [vx; vy; vz; wx; wy; wz])).
  { replace (dotp _ _ _ _ _ _) with
      (((- vx - (wy * Z t - wz * Y t)) * Z t - (- vz - (wx * Y t - wy * X t)) * X t) / Rsqr (Z t)).
    - apply derivable_pt_lim_div; auto. lra.
    - unfold vp_row_x, dotp, Rsqr. field. lra. }
  assert (PY : derivable_pt_lim (fun s => Y s / Z s) t
     (dotp R 0 Rplus Rmult (vp_row_y R 0 1 Ropp Rplus Rmult Rdiv (X t / Z t) (Y t / Z t) (Z t))
        [vx; vy; vz; wx; wy; wz])).
  { replace (dotp _ _ _ _ _ _) with
      (((- vy - (wz * X t - wx * Z t)) * Z t - (- vz - (wx * Y t - wy * X t)) * Y t) / Rsqr (Z t)).
    - apply derivable_pt_lim_div; auto. lra.
    - unfold vp_row_y, dotp, Rsqr. field. lra. }
  unfold chosen, twist_of. cbn [seq filter].
  destruct (flag fl 0), (flag fl 1); cbn [app length]; split; try reflexivity; intros k i Hk;
    destruct k as [|[|k]]; cbn in Hk; try (destruct k; discriminate); try discriminate;
    inversion Hk; subst i; cbn [Nat.eqb nth]; auto.
Qed.

(** A point behind the camera, or too close, is refused whatever the selection. *)
Theorem visual_point_refused (neg tiny : R -> bool) (fl : Flags) (x y Z : R) :
  neg Z = true \/ tiny Z = true ->
  vp_interaction R 0 1 Ropp Rplus Rmult Rdiv neg tiny fl x y Z = Throw "BAD_INIT".
Proof. intros [H|H]; unfold vp_interaction; rewrite H; [reflexivity|destruct (neg Z); reflexivity]. Qed.

Theorem visual_point_error (fl : Flags) (x y xr yr : R) :
  vp_error R Rminus fl (x, y) (Some (xr, yr)) =
  Ok (map (fun i => if (i =? 0)%nat then x - xr else y - yr) (chosen fl 2)) /\
  vp_error R Rminus fl (x, y) None = Throw "BAD_INIT".
Proof.
  split; [|reflexivity]. unfold vp_error.
  change 0%Z with (Z.of_nat 0). change 1%Z with (Z.of_nat 1). rewrite !at_flag. cbn [bind fst snd].
  unfold chosen. cbn [seq filter]. destruct (flag fl 0), (flag fl 1); reflexivity.
Qed.

(** ** C73: Feature1D *)

(** Sum of squares over two, and its derivative: if the error vector varies with joint
    velocities v as J v, the feature error varies as (jacobian . v). *)
Theorem feature1d_gradient (e : list (R -> R)) (J : list (list R)) (v : list R) (t : R) :
  length J = length e -> (forall row, In row J -> length row = length v) ->
  (forall i f row, nth_error e i = Some f -> nth_error J i = Some row ->
     derivable_pt_lim f t (dotp R 0 Rplus Rmult row v)) ->
  derivable_pt_lim (fun s => nth 0 (f1d_error R 0 Rplus Rmult (1 / 2) (map (fun f => f s) e)) 0) t
    (dotp R 0 Rplus Rmult (f1d_jacobian R 0 Rplus Rmult (map (fun f => f t) e) J (length v)) v).
Proof.
  intros HL Hrow HD. unfold f1d_error. cbn [nth].
  (* exchange the two sums *)
  assert (X : dotp R 0 Rplus Rmult (f1d_jacobian R 0 Rplus Rmult (map (fun f => f t) e) J (length v)) v =
              dotp R 0 Rplus Rmult (map (fun f => f t) e) (map (fun row => dotp R 0 Rplus Rmult row v) J)).
  { clear HD HL. unfold f1d_jacobian. revert e.
    induction J as [|row J IH]; intros e.
    - replace (dotp R 0 Rplus Rmult (map (fun f => f t) e) (map _ [])) with 0
        by (destruct e; reflexivity).
      assert (G : forall n y, dotp R 0 Rplus Rmult
         (map (fun j => dotp R 0 Rplus Rmult (map (fun f => f t) e) (map (fun row => nth j row 0) [])) n) y = 0).
      { induction n as [|a n IHn]; intros [|b y]; simpl; auto. rewrite IHn. destruct e; simpl; ring. }
      apply G.
    - destruct e as [|f e].
      + simpl. clear. generalize (seq 0 (length v)). intros n. revert v.
        induction n as [|a n IHn]; intros [|b v]; simpl; auto. rewrite IHn. ring.
      + cbn [map dotp]. rewrite <- (IH (fun r Hr => Hrow r (or_intror Hr)) e).
        assert (Hr : length row = length v) by (apply Hrow; left; auto).
        clear IH Hrow.
        set (c := f t). set (F := fun j => dotp R 0 Rplus Rmult (map (fun f => f t) e) (map (fun row => nth j row 0) J)).
        assert (G : forall (v row : list R) k (h : nat -> R), length row = length v ->
           (forall i, (i < length row)%nat -> h (k + i)%nat = nth i row 0) ->
           dotp R 0 Rplus Rmult (map (fun j => c * h j + F j) (seq k (length v))) v =
           c * dotp R 0 Rplus Rmult row v + dotp R 0 Rplus Rmult (map F (seq k (length v))) v).
        { clear. induction v as [|b v IH]; intros [|r row] k h Hl Hh; simpl in *; try lia; try ring.
          rewrite (IH row (S k) h) by (try lia; intros i Hi; rewrite <- (Hh (S i)) by lia; f_equal; lia).
          rewrite <- (Hh 0%nat) by lia. rewrite Nat.add_0_r. ring. }
        apply (G v row 0%nat (fun j => nth j row 0)); auto. }
  rewrite X. clear X Hrow.
  assert (S : derivable_pt_lim (fun s => dotp R 0 Rplus Rmult (map (fun f => f s) e) (map (fun f => f s) e)) t
     (2 * dotp R 0 Rplus Rmult (map (fun f => f t) e) (map (fun row => dotp R 0 Rplus Rmult row v) J))).
  { revert J HL HD. induction e as [|f e IH]; intros [|row J] HL HD; simpl in *; try lia.
    - rewrite Rmult_0_r. apply derivable_pt_lim_const.
    - replace (2 * (f t * dotp R 0 Rplus Rmult row v +
         dotp R 0 Rplus Rmult (map (fun f => f t) e) (map (fun row => dotp R 0 Rplus Rmult row v) J)))
       with ((dotp R 0 Rplus Rmult row v * f t + f t * dotp R 0 Rplus Rmult row v) +
         2 * dotp R 0 Rplus Rmult (map (fun f => f t) e) (map (fun row => dotp R 0 Rplus Rmult row v) J)) by ring.
      apply (derivable_pt_lim_plus (fun s => f s * f s)
         (fun s => dotp R 0 Rplus Rmult (map (fun f => f s) e) (map (fun f => f s) e))).
      + assert (Df : derivable_pt_lim f t (dotp R 0 Rplus Rmult row v)) by (apply (HD 0%nat f row); auto).
        apply (derivable_pt_lim_mult f f); auto.
      + apply IH; [lia|]. intros i f' row' H1 H2. apply (HD (S i) f' row'); auto. }
  replace (dotp R 0 Rplus Rmult (map (fun f => f t) e) (map (fun row => dotp R 0 Rplus Rmult row v) J))
    with (2 * dotp R 0 Rplus Rmult (map (fun f => f t) e) (map (fun row => dotp R 0 Rplus Rmult row v) J) * (1 / 2)
          + dotp R 0 Rplus Rmult (map (fun f => f t) e) (map (fun f => f t) e) * 0) by field.
  apply (derivable_pt_lim_mult (fun s => dotp R 0 Rplus Rmult (map (fun f => f s) e) (map (fun f => f s) e)) (fun _ => 1 / 2)); auto.
  apply derivable_pt_lim_const.
Qed.
End JointLimits.

(** ** Examples *)
Example generic_example :
  let fl := mkFlags [true; false; true] false in
  chosen fl 4 = [0; 2] /\
  generic_dimension Z 0 fl [10; 20; 30; 40]%Z = Ok (4, 2) /\
  generic_error Z 99%Z Z.sub fl 2 [10; 20; 30; 40]%Z (Some [1; 2; 3; 4]%Z) = Ok [9; 27]%Z /\
  generic_jacobian Z fl 2 [[1; 2]; [3; 4]; [5; 6]; [7; 8]]%Z 4 = Ok [[1; 2]; [5; 6]]%Z /\
  abstract_errordot Z 0%Z 99%Z Z.opp fl 2 (Some [1; 2; 3; 4]%Z) = Ok [-1; -3]%Z /\
  abstract_errordot Z 0%Z 99%Z Z.opp (of_bool true) 2 (Some [1; 2; 3]%Z) = UB.
Proof. repeat split. Qed.

Example posture_example :
  let p := posture_run 0%Z 1%Z 4 [(3, true); (1, true); (7, true); (1, true); (0, true); (0, false)] in
  nbActive p = 2 /\ pjac p = [[0; 1; 0; 0]; [0; 0; 0; 1]]%Z /\
  posture_error Z 99%Z Z.sub p [10; 20; 30; 40]%Z [1; 2; 3; 4]%Z = Ok [18; 36]%Z /\
  active_dofs 4 [(3, true); (1, true); (7, true); (1, true); (0, true); (0, false)] = [1; 3].
Proof. repeat split. Qed.

Example visual_point_example :
  seen_from (fun t => (1 + t)%R) (fun _ => 2%R) (fun _ => 4%R) 0 (-1, 0, 0)%R (0, 0, 0)%R.
Proof.
  repeat split.
  - replace (- -1 - (0 * 4 - 0 * 2))%R with (0 + 1)%R by ring.
    apply (derivable_pt_lim_plus (fun _ => 1%R) id); [apply derivable_pt_lim_const|apply derivable_pt_lim_id].
  - replace (- 0 - (0 * (1 + 0) - 0 * 4))%R with 0%R by ring. apply derivable_pt_lim_const.
  - replace (- 0 - (0 * 2 - 0 * (1 + 0)))%R with 0%R by ring. apply derivable_pt_lim_const.
Qed.

Print Assumptions generic_dimension_history.
Print Assumptions generic_error_selected_partial.
Print Assumptions generic_jacobian_selected.
Print Assumptions errordot_selected.
Print Assumptions errordot_sizes.
Print Assumptions posture_consistent_partial.
Print Assumptions posture_jacobian_product.
Print Assumptions joint_limits_error.
Print Assumptions joint_limits_range.
Print Assumptions joint_limits_jacobian_half_partial.
Print Assumptions joint_limits_jacobian.
Print Assumptions visual_point_interaction.
Print Assumptions feature1d_gradient.
Print Assumptions posture_select_refused.
