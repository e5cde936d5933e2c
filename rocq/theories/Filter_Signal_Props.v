(** C45, C46, C47: derivator, Euler integrator, exponential moving average. *)
From Coq Require Import String Ascii List Arith Lia ZArith Bool Reals Lra.
From Verif Require Import Base Filter_Model Filter_Fir_Props.
Import ListNotations.
Local Open Scope nat_scope.
Local Open Scope list_scope.

(* ------------------------------------------------------------------ *)
(** * Derivator *)

(** Samples of a history, each with the period in force when it is received. *)
Fixpoint stamped (ts : R) (h : list deriv_event) : list (R * R) :=
  match h with
  | [] => []
  | DPeriod t :: h => stamped t h
  | DSample x :: h => (ts, x) :: stamped ts h
  end.

(** Finite differences of a stamped sequence following the sample [prev]. *)
Fixpoint differences (prev : R) (l : list (R * R)) : list R :=
  match l with
  | [] => []
  | (ts, x) :: l => ((x - prev) / ts)%R :: differences x l
  end.

Lemma deriv_run_from h : forall d outs, d_init d = true ->
  Forall (fun p => fst p <> 0%R) (stamped (d_ts d) h) ->
  snd (fold_left deriv_ev h (d, outs)) = outs ++ differences (d_mem d) (stamped (d_ts d) h).
Proof.
  induction h as [|[t|x] h IH]; intros d outs Hi HF; cbn [fold_left deriv_ev stamped].
  - simpl. rewrite app_nil_r. reflexivity.
  - rewrite IH; auto.
  - unfold deriv_step. rewrite Hi. cbn [stamped] in HF.
    pose proof (Forall_inv HF) as Hts. apply Forall_inv_tail in HF. cbn [fst] in Hts.
    rewrite IH; cbn [d_ts d_mem d_init]; auto. rewrite <- app_assoc. cbn [differences app]. do 2 f_equal.
    destruct (Req_EM_T (d_ts d) 1) as [->|]; field; lra.
Qed.

(** C45, first half: for every history of samples and period changes (non-zero
    periods), the first output is zero and each following one is the difference of the
    last two samples over the current period. *)
Theorem derivator_outputs (h : list deriv_event) :
  Forall (fun p => fst p <> 0%R) (stamped 1 h) ->
  snd (deriv_run h) =
    match stamped 1 h with
    | [] => []
    | (_, x) :: l => 0%R :: differences x l
    end.
Proof.
  unfold deriv_run.
  assert (G : forall h ts, Forall (fun p => fst p <> 0%R) (stamped ts h) ->
    snd (fold_left deriv_ev h (mkDeriv 0 false ts, [])) =
    match stamped ts h with [] => [] | (_, x) :: l => 0%R :: differences x l end).
  { clear. induction h as [|[t|x] h IH]; intros ts HF; cbn [fold_left deriv_ev stamped].
    - reflexivity.
    - apply IH. exact HF.
    - unfold deriv_step. cbn [d_init d_ts]. cbn [stamped] in HF. apply Forall_inv_tail in HF.
      rewrite deriv_run_from; auto. cbn [d_mem d_ts]. simpl. f_equal. lra. }
  intros HF. apply (G h 1%R HF).
Qed.

(** C45, second half: weighting every output by its period and summing gives the last
    sample minus the first one. *)
Theorem derivator_telescopes (h : list deriv_event) x0 :
  Forall (fun p => fst p <> 0%R) (stamped 1 h) -> stamped 1 h <> [] ->
  rsum (map (fun p => fst p * snd p)%R (combine (map fst (stamped 1 h)) (snd (deriv_run h))))
  = (snd (last (stamped 1 h) x0) - snd (hd x0 (stamped 1 h)))%R.
Proof.
  intros HF Hne. rewrite derivator_outputs by exact HF.
  destruct (stamped 1 h) as [|[t x] l] eqn:E; [congruence|]. clear Hne E.
  apply Forall_inv_tail in HF. cbn [map fst combine]. unfold rsum. cbn [map fold_right fst snd hd].
  fold (rsum (map (fun p => (fst p * snd p)%R) (combine (map fst l) (differences x l)))).
  enough (G : rsum (map (fun p => (fst p * snd p)%R) (combine (map fst l) (differences x l)))
              = (snd (last ((t, x) :: l) x0) - x)%R) by (rewrite G; lra).
  revert t x HF. induction l as [|[t' x'] l IH]; intros t x HF.
  - simpl. lra.
  - pose proof (Forall_inv HF) as Ht. apply Forall_inv_tail in HF. simpl in Ht.
    change (last ((t, x) :: (t', x') :: l) x0) with (last ((t', x') :: l) x0).
    cbn [map fst combine differences]. unfold rsum. cbn [map fold_right fst snd].
    fold (rsum (map (fun p => (fst p * snd p)%R) (combine (map fst l) (differences x' l)))).
    rewrite (IH t' x' HF). field. exact Ht.
Qed.

(** Non-vacuity: a period change in the middle. *)
Example derivator_example :
  snd (deriv_run [DPeriod (1 / 2); DSample 3; DSample 4; DPeriod 1; DSample 9]) = [0; 2; 5]%R.
Proof.
  rewrite derivator_outputs.
  - simpl. f_equal. f_equal; [lra|]. f_equal. lra.
  - simpl. repeat constructor; simpl; lra.
Qed.

(* ------------------------------------------------------------------ *)
(** * Euler integrator *)

(** The memories have the sizes [initialize] gave them. *)
Definition e_ready (e : euler) : Prop :=
  1 <= length (e_num e) /\ 1 <= length (e_den e) /\
  length (e_in e) = length (e_num e) /\ length (e_out e) = length (e_den e).

Definition in_ (e : euler) i := nth i (e_in e) 0%R.
Definition out_ (e : euler) i := nth i (e_out e) 0%R.
Definition num_ (e : euler) i := nth i (e_num e) 0%R.
Definition den_ (e : euler) i := nth i (e_den e) 0%R.

(** One integration step, as equations: [x^(i)] are the successive backward differences
    of the input, the highest derivative of the output is given by the transfer function
    with the previous values of the lower ones, and each lower derivative is integrated
    with the new value of the next one. *)
Definition euler_equations (e e' : euler) (x y : R) : Prop :=
  let d := length (e_den e) - 1 in
  in_ e' 0 = x /\
  (forall i, S i < length (e_num e) -> in_ e' (S i) = ((in_ e' i - in_ e i) * e_invdt e)%R) /\
  out_ e' d = (sum_lt (length (e_num e)) (fun i => num_ e i * in_ e' i)
               - sum_lt d (fun i => den_ e i * out_ e i))%R /\
  (forall i, i < d -> out_ e' i = (out_ e i + out_ e' (S i) * e_dt e)%R) /\
  y = out_ e' 0.

Lemma upd_nth_same (l : list R) i a : i < length l -> nth i (upd l i a) 0%R = a.
Proof. intros H. rewrite nth_upd, Nat.eqb_refl, (proj2 (Nat.ltb_lt _ _) H). reflexivity. Qed.

Lemma upd_nth_other (l : list R) i j a : i <> j -> nth j (upd l i a) 0%R = nth j l 0%R.
Proof. intros H. rewrite nth_upd. destruct (Nat.eqb_spec i j); [congruence|reflexivity]. Qed.

Lemma sum_lt_sub n f z : ofold (fun s i => Ok (s - f i)%R) (seq 0 n) z = Ok (z - sum_lt n f)%R.
Proof.
  revert z; induction n as [|n IH]; intros z.
  - simpl. f_equal. lra.
  - rewrite seq_S, ofold_app, IH. simpl. f_equal. lra.
Qed.

Theorem euler_step (e : euler) (x : R) :
  e_ready e ->
  exists e' y, e_integrate e x = Ok (e', y) /\ e_ready e' /\
    e_num e' = e_num e /\ e_den e' = e_den e /\ e_dt e' = e_dt e /\ e_invdt e' = e_invdt e /\
    euler_equations e e' x y.
Proof.
  intros (Hn & Hd & Hi & Ho). unfold e_integrate.
  rewrite (vget_ok (e_in e) 0 0%R) by lia. cbn [bind].
  unfold vset at 1. rewrite (proj2 (Nat.ltb_lt 0 (length (e_in e)))) by lia. cbn [bind].
  rewrite (vget_ok (e_num e) 0 0%R) by lia. cbn [bind].
  (* step 2 *)
  pose (P := fun (k : nat) (st : list R * R * R) =>
    let '(inm, t1, sum) := st in
    length inm = length (e_in e) /\ nth 0 inm 0%R = x /\
    (forall i, S i < k -> nth (S i) inm 0%R = ((nth i inm 0 - nth i (e_in e) 0) * e_invdt e)%R) /\
    (forall i, k <= i -> nth i inm 0%R = nth i (e_in e) 0%R) /\
    t1 = nth (k - 1) (e_in e) 0%R /\
    sum = sum_lt k (fun i => nth i (e_num e) 0 * nth i inm 0)%R).
  match goal with |- context [ofor_range 1 (length (e_num e)) ?b ?s] =>
    destruct (ofor_range_ind P 1 (length (e_num e)) b s) as ([[inm t1] sum] & E & HP) end.
  - lia.
  - unfold P. rewrite upd_length, upd_nth_same by lia. repeat split; auto; try lia.
    + intros i H. apply upd_nth_other. lia.
    + simpl. rewrite upd_nth_same by lia. lra.
  - intros k [[inm t1] s] Hk (HL & H0 & HS & HG & Ht & Hsum).
    cbn beta iota zeta. rewrite (vget_ok inm (k - 1) 0%R) by lia. cbn [bind].
    rewrite (vget_ok inm k 0%R) by lia. cbn [bind].
    unfold vset. rewrite (proj2 (Nat.ltb_lt k (length inm))) by lia. cbn [bind].
    rewrite (vget_ok (e_num e) k 0%R) by lia. cbn [bind].
    eexists. split; [reflexivity|]. unfold P. rewrite upd_length.
    split; [exact HL|]. split; [rewrite upd_nth_other by lia; exact H0|]. split; [|split; [|split]].
    + intros i Hi'. destruct (Nat.eq_dec (S i) k) as [Ek|Ek].
      * rewrite Ek. rewrite upd_nth_same by lia. rewrite upd_nth_other by lia.
        rewrite Ht. replace (k - 1) with i by lia. reflexivity.
      * rewrite !upd_nth_other by lia. apply HS. lia.
    + intros i Hi'. rewrite upd_nth_other by lia. apply HG. lia.
    + simpl. rewrite Nat.sub_0_r. apply HG. lia.
    + simpl. rewrite upd_nth_same by lia. f_equal. rewrite Hsum. apply sum_lt_ext.
      intros i Hi'. rewrite upd_nth_other by lia. reflexivity.
  - rewrite E. cbn [bind]. destruct HP as (HL & H0 & HS & HG & _ & Hsum).
    destruct (Nat.eqb_spec (length (e_den e)) 0); [lia|].
    cbn zeta. set (d := length (e_den e) - 1).
    (* step 3 *)
    assert (E3 : ofor_range 0 d (fun i s => let* ai := vget (e_den e) i in
                                            let* yi := vget (e_out e) i in Ok (s - ai * yi)%R) sum
                 = Ok (sum - sum_lt d (fun i => den_ e i * out_ e i))%R).
    { unfold ofor_range. rewrite Nat.sub_0_r, <- sum_lt_sub.
      assert (Hle : d <= length (e_den e) /\ d <= length (e_out e)) by (subst d; lia).
      clear - Hle. revert Hle. generalize d as n, sum as z. induction n as [|n IH]; intros z [A B]; [reflexivity|].
      rewrite seq_S, !ofold_app, IH by lia. rewrite sum_lt_sub. simpl.
      rewrite (vget_ok (e_den e) n 0%R) by lia. simpl. rewrite (vget_ok (e_out e) n 0%R) by lia. reflexivity. }
    rewrite E3. cbn [bind]. set (top := (sum - sum_lt d (fun i => den_ e i * out_ e i))%R).
    (* step 4 *)
    unfold vset at 1. rewrite (proj2 (Nat.ltb_lt d (length (e_out e)))) by (subst d; lia). cbn [bind].
    pose (Q := fun (k : nat) (o : list R) =>
      length o = length (e_out e) /\ nth d o 0%R = top /\
      (forall i, d - k <= i -> i < d -> nth i o 0%R = (nth i (e_out e) 0 + nth (S i) o 0 * e_dt e)%R) /\
      (forall i, i < d - k -> nth i o 0%R = nth i (e_out e) 0%R)).
    match goal with |- context [ofor_range 0 d ?b ?s] =>
      destruct (ofor_range_ind Q 0 d b s) as (outm & E4 & HQ) end.
    + lia.
    + unfold Q. rewrite upd_length, upd_nth_same by (subst d; lia). repeat split; auto.
      * intros; lia.
      * intros i H. apply upd_nth_other. lia.
    + intros k o Hk (A & B & C & D). cbn zeta.
      rewrite (vget_ok o (d - 1 - k) 0%R) by (subst d; lia). cbn [bind].
      rewrite (vget_ok o (d - 1 - k + 1) 0%R) by (subst d; lia). cbn [bind].
      unfold vset. rewrite (proj2 (Nat.ltb_lt (d - 1 - k) (length o))) by (subst d; lia).
      eexists. split; [reflexivity|]. unfold Q. rewrite upd_length.
      split; [exact A|]. split; [rewrite upd_nth_other by lia; exact B|]. split.
      * intros i H1 H2. destruct (Nat.eq_dec i (d - 1 - k)) as [->|Ne].
        -- rewrite upd_nth_same by (subst d; lia). rewrite upd_nth_other by lia.
           rewrite D by lia. rewrite Nat.add_1_r. reflexivity.
        -- rewrite !upd_nth_other by lia. apply C; lia.
      * intros i Hi'. rewrite upd_nth_other by lia. apply D. lia.
    + rewrite E4. cbn [bind]. destruct HQ as (A & B & C & _).
      unfold vset. rewrite (proj2 (Nat.ltb_lt 0 (length inm))) by lia. cbn [bind].
      rewrite (vget_ok outm 0 0%R) by lia. cbn [bind].
      assert (EU : upd inm 0 x = inm).
      { destruct inm as [|a inm]; [simpl in HL; lia|]. simpl in *. rewrite H0. reflexivity. }
      rewrite EU. do 2 eexists. split; [reflexivity|].
      split; [unfold e_ready; simpl; lia|]. repeat (split; [reflexivity|]).
      unfold euler_equations, in_, out_, num_. simpl. fold d.
      split; [exact H0|]. split; [exact HS|]. split; [|split].
      * rewrite B. unfold top, out_, den_. rewrite Hsum. reflexivity.
      * intros i Hi'. apply C; lia.
      * reflexivity.
Qed.

(** What [initialize] establishes. *)
Theorem euler_initialize (e : euler) (x0 : R) :
  1 <= length (e_num e) -> 1 <= length (e_den e) -> last (e_den e) 0%R = 1%R ->
  exists e0, e_initialize e x0 = Ok e0 /\ e_ready e0 /\
    e_num e0 = e_num e /\ e_den e0 = e_den e /\ e_dt e0 = e_dt e /\ e_invdt e0 = e_invdt e /\
    (forall i, i < length (e_num e) -> in_ e0 i = x0) /\
    (forall i, i < length (e_den e) -> out_ e0 i = x0).
Proof.
  intros Hn Hd Hl. unfold e_initialize.
  destruct (Nat.eqb_spec (length (e_den e)) 0); [lia|].
  destruct (Nat.eqb_spec (length (e_num e)) 0); [lia|]. cbn [orb].
  destruct (Req_EM_T (last (e_den e) 0%R) 1); [|congruence].
  eexists. split; [reflexivity|]. unfold e_ready. simpl. rewrite !repeat_length.
  repeat split; auto; unfold in_, out_; simpl; intros; apply nth_repeat_lt; lia.
Qed.

(** The program refuses to start without coefficients or with a leading denominator
    coefficient different from one. *)
Theorem euler_initialize_checks (e : euler) (x0 : R) :
  (exists e0, e_initialize e x0 = Ok e0) <->
  (e_num e <> [] /\ e_den e <> [] /\ last (e_den e) 0%R = 1%R).
Proof.
  unfold e_initialize. destruct (e_den e) as [|a den] eqn:Ed, (e_num e) as [|b num] eqn:En; simpl orb; cbn iota.
  - split; [intros [? H]; discriminate | intros (_ & H & _); congruence].
  - split; [intros [? H]; discriminate | intros (_ & H & _); congruence].
  - split; [intros [? H]; discriminate | intros (H & _); congruence].
  - destruct (Req_EM_T (last (a :: den) 0%R) 1) as [H|H].
    + split; [|eauto]. intros _. repeat split; try discriminate. exact H.
    + split; [intros [? H']; discriminate | intros (_ & _ & H'); congruence].
Qed.

(** C46, for every transfer function: there are sequences [X i k] (input derivatives) and
    [Y i k] (output derivatives), starting at the initial input, that obey the recurrence,
    and the k-th output is [Y 0 (k+1)]. *)
Theorem euler_recurrence (e : euler) (x0 : R) (xs : list R) :
  1 <= length (e_num e) -> 1 <= length (e_den e) -> last (e_den e) 0%R = 1%R ->
  let d := length (e_den e) - 1 in
  exists e0 ef outs (X Y : nat -> nat -> R),
    e_initialize e x0 = Ok e0 /\ ofold e_step xs (e0, []) = Ok (ef, outs) /\
    length outs = length xs /\
    (forall i, i < length (e_num e) -> X i 0 = x0) /\
    (forall i, i <= d -> Y i 0 = x0) /\
    (forall k, k < length xs ->
      X 0 (S k) = nth k xs 0%R /\
      (forall i, S i < length (e_num e) -> X (S i) (S k) = ((X i (S k) - X i k) * e_invdt e)%R) /\
      (Y d (S k) + sum_lt d (fun i => den_ e i * Y i k))%R
         = sum_lt (length (e_num e)) (fun i => num_ e i * X i (S k))%R /\
      (forall i, i < d -> Y i (S k) = (Y i k + e_dt e * Y (S i) (S k))%R) /\
      nth k outs 0%R = Y 0 (S k)).
Proof.
  intros Hn Hd Hl d.
  destruct (euler_initialize e x0 Hn Hd Hl) as (e0 & E0 & HR & Nn & Nd & Nt & Ni & HI & HO).
  assert (G : forall xs e1 outs0, e_ready e1 ->
    exists ef outs (X Y : nat -> nat -> R),
      ofold e_step xs (e1, outs0) = Ok (ef, outs0 ++ outs) /\ length outs = length xs /\
      (forall i, X i 0 = in_ e1 i) /\ (forall i, Y i 0 = out_ e1 i) /\
      (forall k, k < length xs ->
        X 0 (S k) = nth k xs 0%R /\
        (forall i, S i < length (e_num e1) -> X (S i) (S k) = ((X i (S k) - X i k) * e_invdt e1)%R) /\
        (Y (length (e_den e1) - 1)%nat (S k) + sum_lt (length (e_den e1) - 1)%nat (fun i => den_ e1 i * Y i k))%R
           = sum_lt (length (e_num e1)) (fun i => num_ e1 i * X i (S k))%R /\
        (forall i, i < length (e_den e1) - 1 -> Y i (S k) = (Y i k + e_dt e1 * Y (S i) (S k))%R) /\
        nth k outs 0%R = Y 0 (S k))).
  { clear. induction xs as [|x xs IH]; intros e1 outs0 HR.
    - exists e1, [], (fun i _ => in_ e1 i), (fun i _ => out_ e1 i).
      rewrite app_nil_r. repeat split; auto; simpl in *; lia.
    - destruct (euler_step e1 x HR) as (e2 & y & E & HR2 & A & B & C & D & EQ).
      destruct (IH e2 (outs0 ++ [y]) HR2) as (ef & outs & X & Y & E2 & HL & HX & HY & HK).
      exists ef, (y :: outs),
        (fun i k => match k with 0 => in_ e1 i | S k => X i k end),
        (fun i k => match k with 0 => out_ e1 i | S k => Y i k end).
      split; [|split; [simpl; lia|]].
      + cbn [ofold]. unfold e_step at 1. rewrite E. cbn [bind]. rewrite E2, <- app_assoc. reflexivity.
      + split; [reflexivity|]. split; [reflexivity|].
        intros k Hk. destruct EQ as (Q1 & Q2 & Q3 & Q4 & Q5). destruct k as [|k].
        * split; [rewrite HX; exact Q1|]. split; [|split; [|split]].
          -- intros i Hi. rewrite !HX. apply Q2. exact Hi.
          -- rewrite HY, Q3. rewrite (sum_lt_ext (length (e_num e1)) (fun i => num_ e1 i * X i O)%R
               (fun i => num_ e1 i * in_ e2 i)%R) by (intros; rewrite HX; reflexivity). lra.
          -- intros i Hi. rewrite !HY, Q4 by exact Hi. lra.
          -- simpl. rewrite HY. exact Q5.
        * simpl in Hk. destruct (HK k ltac:(lia)) as (K1 & K2 & K3 & K4 & K5).
          unfold den_, num_ in *. rewrite A, B, C, D in *.
          split; [exact K1|]. split; [exact K2|]. split; [exact K3|]. split; [exact K4|]. exact K5. }
  destruct (G xs e0 [] HR) as (ef & outs & X & Y & E & HL & HX & HY & HK).
  exists e0, ef, outs, X, Y. unfold den_, num_ in *. rewrite Nn, Nd, Nt, Ni in *.
  repeat split; auto.
  - intros i Hi. rewrite HX. apply HI. exact Hi.
  - intros i Hi. rewrite HY. apply HO. subst d. lia.
  - apply HK; auto.
  - apply HK; auto.
  - apply HK; auto.
  - apply HK; auto.
  - apply HK; auto.
Qed.

(** C46, pure integrator (numerator 1, denominator s): the k-th output is the initial
    value plus the period times the sum of the inputs received. *)
Theorem euler_pure_integrator (dt x0 : R) (xs : list R) :
  let e := e_set_period (e_push_den (e_push_den (e_push_num euler_new 1) 0) 1) dt in
  exists e0 ef outs,
    e_initialize e x0 = Ok e0 /\ ofold e_step xs (e0, []) = Ok (ef, outs) /\
    length outs = length xs /\
    forall k, k < length xs -> nth k outs 0%R = (x0 + dt * rsum (firstn (S k) xs))%R.
Proof.
  intros e.
  destruct (euler_recurrence e x0 xs) as (e0 & ef & outs & X & Y & E0 & E & HL & HX & HY & HK);
    try (simpl; lia); try reflexivity.
  exists e0, ef, outs. repeat (split; [assumption|]).
  assert (HS : forall l k, k < length l -> rsum (firstn (S k) l) = (rsum (firstn k l) + nth k l 0)%R).
  { clear. induction l as [|a l IH]; intros [|k] Hk; try (simpl in Hk; lia).
    - simpl. unfold rsum; simpl; lra.
    - rewrite !firstn_cons. unfold rsum in *. cbn [fold_right nth]. rewrite IH by (simpl in Hk; lia). lra. }
  assert (HYk : forall k, k <= length xs -> Y 0 k = (x0 + dt * rsum (firstn k xs))%R).
  { induction k as [|k IH]; intros Hk.
    - rewrite HY by lia. unfold rsum; simpl; lra.
    - destruct (HK k ltac:(lia)) as (K1 & _ & K3 & K4 & _). rewrite HS by lia.
      rewrite K4 by (simpl; lia). rewrite IH by lia. simpl in K3. unfold den_, num_ in K3. simpl in K3.
      change (e_dt e) with dt. rewrite K1 in K3. rewrite (HY 0) in K3 || idtac. nra. }
  intros k Hk. destruct (HK k Hk) as (_ & _ & _ & _ & K5). rewrite K5. apply HYk. lia.
Qed.

(** Commands of the entity: coefficients, period, initialisation, evaluations. *)
Inductive ecmd := ENum (c : R) | EDen (c : R) | EPopNum | EPopDen | EPeriod (dt : R) | EInit (x : R) | EEval (x : R).
Definition eexec (e : euler) (c : ecmd) : outcome euler :=
  match c with
  | ENum c => Ok (e_push_num e c)
  | EDen c => Ok (e_push_den e c)
  | EPopNum => e_pop_num e
  | EPopDen => e_pop_den e
  | EPeriod dt => Ok (e_set_period e dt)
  | EInit x => match e_initialize e x with Throw _ => Ok e | r => r end
  | EEval x => let* (e', _) := e_integrate e x in Ok e'
  end.
(** The last period set, five milliseconds at first. *)
Definition last_period (l : list ecmd) : R :=
  fold_left (fun d c => match c with EPeriod dt => dt | _ => d end) l (5 / 1000)%R.

Lemma e_integrate_period e x e' y : e_integrate e x = Ok (e', y) -> e_dt e' = e_dt e /\ e_invdt e' = e_invdt e.
Proof.
  unfold e_integrate, bind. intros E.
  repeat match type of E with
  | match ?o with Ok _ => _ | Throw _ => _ | UB => _ end = _ => destruct o as [?|?|]; try discriminate
  | (if ?b then UB else _) = _ => destruct b; [discriminate|]
  | (let '(_, _) := ?z in _) = _ => destruct z
  | (let (_, _) := ?z in _) = _ => destruct z
  end.
  all: now injection E as <- <-.
Qed.

(** After any history of commands the entity uses the last period set, and its inverse. *)
Theorem euler_period l e : ofold eexec l euler_new = Ok e -> e_dt e = last_period l /\ e_invdt e = (1 / last_period l)%R.
Proof.
  unfold last_period.
  assert (G : forall l e0 e d, e_dt e0 = d -> e_invdt e0 = (1 / d)%R -> ofold eexec l e0 = Ok e ->
     e_dt e = fold_left (fun d c => match c with EPeriod dt => dt | _ => d end) l d /\
     e_invdt e = (1 / fold_left (fun d c => match c with EPeriod dt => dt | _ => d end) l d)%R).
  { clear. induction l as [|c l IH]; intros e0 e d H1 H2 E.
    - cbn in E. injection E as <-. auto.
    - cbn [ofold] in E. destruct (eexec e0 c) as [e1| |] eqn:X; try discriminate. cbn [bind fold_left] in *.
      refine (IH e1 e _ _ _ E); clear IH E; destruct c; cbn [eexec] in X.
      all: try (injection X as <-; assumption || reflexivity).
      all: try (unfold e_pop_num, e_pop_den in X; destruct (_ =? 0); [discriminate|injection X as <-; assumption]).
      1,3: destruct (e_initialize e0 x) as [e2| |] eqn:Y; try discriminate; injection X as <-; try assumption;
           unfold e_initialize in Y; destruct (_ || _); try discriminate; destruct (Req_EM_T _ _); try discriminate;
           injection Y as <-; assumption.
      all: destruct (e_integrate e0 x) as [[e2 y]| |] eqn:Y; try discriminate; cbn [bind] in X; injection X as <-;
           apply e_integrate_period in Y; destruct Y as [Y1 Y2]; congruence. }
  intros E. apply (G l euler_new e (5 / 1000)%R); auto.
Qed.

(** The derivative signal is the finite difference of the output signal (denominator of
    degree at least one). *)
Theorem euler_derivative (e : euler) (x : R) e' y :
  e_ready e -> 2 <= length (e_den e) -> e_dt e <> 0%R ->
  e_integrate e x = Ok (e', y) ->
  e_derivative e' = Ok ((y - out_ e 0) / e_dt e)%R.
Proof.
  intros HR H2 Hdt E.
  destruct (euler_step e x HR) as (e2 & y2 & E2 & HR2 & A & B & C & D & (Q1 & Q2 & Q3 & Q4 & Q5)).
  rewrite E in E2. injection E2 as <- <-.
  destruct HR2 as (_ & _ & _ & Ho). unfold e_derivative.
  rewrite Ho, B. destruct (Nat.ltb_spec (length (e_den e)) 2); [lia|].
  rewrite (vget_ok (e_out e') 1 0%R) by (rewrite Ho, B; lia). f_equal.
  fold (out_ e' 1). rewrite Q5, (Q4 0) by lia. field. exact Hdt.
Qed.

(** With a denominator of degree 0 there is no derivative: an exception is raised. *)
Theorem euler_derivative_none (e : euler) (x : R) e' y :
  e_ready e -> length (e_den e) = 1 -> e_integrate e x = Ok (e', y) ->
  exists w, e_derivative e' = Throw w.
Proof.
  intros HR H1 E.
  destruct (euler_step e x HR) as (e2 & y2 & E2 & HR2 & A & B & C & D & Q).
  rewrite E in E2. injection E2 as <- <-.
  destruct HR2 as (_ & _ & _ & Ho). unfold e_derivative. rewrite Ho, B, H1. simpl. eauto.
Qed.

(** Integrating before [initialize] is undefined. *)
Theorem euler_uninitialized_refuted (x : R) :
  e_integrate (e_push_den (e_push_den (e_push_num euler_new 1) 0) 1) x = UB.
Proof. reflexivity. Qed.

(** Finding: [initialize] stores the input in the derivatives of the output too, so a
    double integrator starts with a velocity equal to the initial input. *)
Theorem euler_initial_velocity_refuted :
  exists dt x0,
    let e := e_set_period (e_push_den (e_push_den (e_push_den (e_push_num euler_new 1) 0) 0) 1) dt in
    exists e0 ef y, e_initialize e x0 = Ok e0 /\ ofold e_step [0%R] (e0, []) = Ok (ef, [y]) /\ y <> x0.
Proof.
  exists 1%R, 1%R. intros e.
  destruct (euler_recurrence e 1 [0%R]) as (e0 & ef & outs & X & Y & E0 & E & HL & HX & HY & HK);
    try (simpl; lia); try reflexivity.
  destruct outs as [|y [|]]; try discriminate.
  exists e0, ef, y. split; [exact E0|]. split; [exact E|].
  destruct (HK 0 ltac:(simpl; lia)) as (K1 & _ & K3 & K4 & K5).
  simpl in K5. rewrite K5. simpl in K3. unfold den_, num_ in K3. simpl in K3.
  rewrite K1 in K3. simpl in K3.
  pose proof (K4 0 ltac:(simpl; lia)) as A. pose proof (K4 1 ltac:(simpl; lia)) as B.
  rewrite (HY 0) in A by lia. rewrite (HY 1) in B by (simpl; lia).
  simpl in A, B. change (e_dt e) with 1%R in *. lra.
Qed.

(** Finding: the input derivatives of order two and more start from the input value
    instead of zero, so a constant input gives a spike at the first step. *)
Theorem euler_constant_input_spike_refuted :
  exists dt x0,
    let e := e_set_period (e_push_den (e_push_num (e_push_num (e_push_num euler_new 0) 0) 1) 1) dt in
    exists e0 ef y, e_initialize e x0 = Ok e0 /\ ofold e_step [x0] (e0, []) = Ok (ef, [y]) /\ y <> 0%R.
Proof.
  exists 1%R, 1%R. intros e.
  destruct (euler_recurrence e 1 [1%R]) as (e0 & ef & outs & X & Y & E0 & E & HL & HX & HY & HK);
    try (simpl; lia); try reflexivity.
  destruct outs as [|y [|]]; try discriminate.
  exists e0, ef, y. split; [exact E0|]. split; [exact E|].
  destruct (HK 0 ltac:(simpl; lia)) as (K1 & K2 & K3 & _ & K5).
  simpl in K5. rewrite K5. simpl in K3. unfold den_, num_ in K3. simpl in K3.
  pose proof (K2 0 ltac:(simpl; lia)) as A. pose proof (K2 1 ltac:(simpl; lia)) as B.
  rewrite (HX 0) in A by (simpl; lia). rewrite (HX 1) in B by (simpl; lia).
  rewrite K1 in A. simpl in A. change (e_invdt e) with (1 / 1)%R in *.
  replace (1 / 1)%R with 1%R in * by lra. lra.
Qed.

(* ------------------------------------------------------------------ *)
(** * Exponential moving average *)

(** Updates have [n] coordinates, smoothing factors are in [0,1]. *)
Definition ema_ok (n : nat) (e : ema_event) : Prop :=
  match e with MAlpha a => (0 <= a <= 1)%R | MUpdate u => length u = n end.

Lemma nth_ema (f : R * R -> R) (a u : list R) i : length a = length u -> i < length u ->
  nth i (map f (combine a u)) 0%R = f (nth i a 0%R, nth i u 0%R).
Proof.
  revert u i; induction a as [|x a IH]; intros [|y u] i H Hi; simpl in *; try lia.
  destruct i; auto. apply IH; lia.
Qed.

(** The update, coordinate by coordinate, from any state of the right size. *)
Lemma ema_update_nth m u n :
  (m_init m = true -> length (m_avg m) = n) -> length u = n ->
  exists m' y, ema_update m u = Ok (m', y) /\ m_avg m' = y /\ m_init m' = true /\ m_alpha m' = m_alpha m /\
    length y = n /\
    forall i, i < n -> nth i y 0%R
      = (m_alpha m * (if m_init m then nth i (m_avg m) 0 else 0) + (1 - m_alpha m) * nth i u 0)%R.
Proof.
  intros Hm Hu. unfold ema_update.
  set (avg := if m_init m then _ else _).
  assert (HL : length avg = n) by (subst avg; destruct (m_init m); [auto|rewrite map_length; auto]).
  rewrite HL, Hu, Nat.eqb_refl. do 2 eexists. split; [reflexivity|]. simpl.
  repeat split; auto.
  - rewrite map_length, combine_length. lia.
  - intros i Hi. rewrite nth_ema by lia. do 2 f_equal.
    subst avg. destruct (m_init m); auto.
    clear. revert i; induction u as [|a u IH]; intros [|i]; simpl; auto.
Qed.

(** C47, first half: for every history whose smoothing factors are in [0,1], every
    coordinate of every output lies in any interval that contains 0 and that coordinate
    of all the inputs. *)
Theorem ema_hull (n : nat) (h : list ema_event) (i : nat) (lo hi : R) :
  Forall (ema_ok n) h -> i < n -> (lo <= 0 <= hi)%R ->
  (forall u, In (MUpdate u) h -> (lo <= nth i u 0 <= hi)%R) ->
  exists m outs, ema_run h = Ok (m, outs) /\
    forall y, In y outs -> length y = n /\ (lo <= nth i y 0 <= hi)%R.
Proof.
  intros HF Hi H0 HU. unfold ema_run.
  assert (G : forall h m outs, Forall (ema_ok n) h ->
     (forall u, In (MUpdate u) h -> (lo <= nth i u 0 <= hi)%R) ->
     (m_init m = true -> length (m_avg m) = n) -> (0 <= m_alpha m <= 1)%R ->
     (m_init m = true -> lo <= nth i (m_avg m) 0 <= hi)%R ->
     (forall y, In y outs -> length y = n /\ (lo <= nth i y 0 <= hi)%R) ->
     exists m' outs', ofold ema_ev h (m, outs) = Ok (m', outs') /\
        forall y, In y outs' -> length y = n /\ (lo <= nth i y 0 <= hi)%R).
  { clear HF HU h. induction h as [|e h IH]; intros m outs HF HU HL Ha Hb Ho.
    - exists m, outs. split; [reflexivity|exact Ho].
    - pose proof (Forall_inv HF) as He. apply Forall_inv_tail in HF.
      cbn [ofold]. destruct e as [a|u].
      + cbn [ema_ev bind]. apply IH; auto. intros u Hu. apply HU. right. exact Hu.
      + simpl in He. destruct (ema_update_nth m u n HL He) as (m' & y & E & E1 & E2 & E3 & E4 & E5).
        unfold ema_ev at 1. rewrite E. cbn [bind].
        assert (Hy : (lo <= nth i y 0 <= hi)%R).
        { rewrite E5 by exact Hi. pose proof (HU u (or_introl eq_refl)) as Hui.
          assert (Hprev : (lo <= (if m_init m then nth i (m_avg m) 0 else 0) <= hi)%R)
            by (destruct (m_init m); auto).
          set (p := if m_init m then _ else _) in *. nra. }
        apply IH; auto.
        * intros v Hv. apply HU. right. exact Hv.
        * intros _. rewrite E1. exact E4.
        * rewrite E3. exact Ha.
        * intros _. rewrite E1. exact Hy.
        * intros z Hz. apply in_app_or in Hz. destruct Hz as [Hz|[<-|[]]]; auto. }
  apply G; auto; simpl; try discriminate; try lra. intros y [].
Qed.

(** Until the factor is set the output is the input. *)
Theorem ema_default (n : nat) (us : list (list R)) : Forall (fun u => length u = n) us ->
  exists m, ema_run (map MUpdate us) = Ok (m, us).
Proof.
  intros HF. unfold ema_run.
  enough (G : forall m outs, m_alpha m = 0%R -> (m_init m = true -> length (m_avg m) = n) ->
    exists m', ofold ema_ev (map MUpdate us) (m, outs) = Ok (m', outs ++ us)).
  { destruct (G ema_new []) as (m & E); [reflexivity|discriminate|]. exists m. exact E. }
  induction HF as [|u us Hu HF IH]; intros m outs Ha Hl; cbn [map ofold]; [rewrite app_nil_r; eauto|].
  unfold ema_ev at 1, ema_update.
  set (avg := if m_init m then m_avg m else map (fun _ => 0%R) u).
  assert (La : length avg = length u) by (unfold avg; destruct (m_init m); [rewrite Hl; congruence|apply map_length]).
  rewrite La, Nat.eqb_refl. cbn [bind]. rewrite Ha.
  assert (E : map (fun '(a, v) => (0 * a + (1 - 0) * v)%R) (combine avg u) = u).
  { clearbody avg. clear - La. revert u La. induction avg as [|a avg IH]; intros [|v u] L; try discriminate; [reflexivity|].
    cbn in L |- *. rewrite IH by lia. f_equal. ring. }
  rewrite E. destruct (IH (mkEma u 0 true) (outs ++ [u])) as (m' & E'); [reflexivity|intros _; exact Hu|].
  exists m'. rewrite E', <- app_assoc. reflexivity.
Qed.

(** C47, second half: with a fixed factor, the k-th output (from 0) is
    [(1 - alpha) * sum_(j<=k) alpha^j u_(k-j)]. *)
Theorem ema_closed_form (n : nat) (alpha : R) (us : list (list R)) :
  Forall (fun u => length u = n) us ->
  exists m outs, ema_run (MAlpha alpha :: map MUpdate us) = Ok (m, outs) /\
    length outs = length us /\
    forall k i, k < length us -> i < n ->
      nth i (nth k outs []) 0%R
      = ((1 - alpha) * sum_lt (S k) (fun j => alpha ^ j * nth i (nth (k - j)%nat us []) 0))%R.
Proof.
  intros HF. unfold ema_run. cbn [ofold ema_ev bind ema_set_alpha ema_new m_avg m_init].
  assert (G : forall todo done m outs, Forall (fun u => length u = n) todo ->
    m_alpha m = alpha -> length outs = length done ->
    (m_init m = true -> length (m_avg m) = n) ->
    (m_init m = match done with [] => false | _ => true end) ->
    (done <> [] -> m_avg m = nth (length done - 1) outs []) ->
    (forall k i, k < length done -> i < n -> nth i (nth k outs []) 0%R
      = ((1 - alpha) * sum_lt (S k) (fun j => alpha ^ j * nth i (nth (k - j)%nat done []) 0))%R) ->
    exists m' outs', ofold ema_ev (map MUpdate todo) (m, outs) = Ok (m', outs') /\
      length outs' = length (done ++ todo) /\
      (forall k i, k < length (done ++ todo) -> i < n -> nth i (nth k outs' []) 0%R
        = ((1 - alpha) * sum_lt (S k) (fun j => alpha ^ j * nth i (nth (k - j)%nat (done ++ todo) []) 0))%R)).
  { clear. induction todo as [|u todo IH]; intros done m outs HF Ha HL Hl Hi Hd HK.
    - rewrite app_nil_r. exists m, outs. auto.
    - pose proof (Forall_inv HF) as Hu. apply Forall_inv_tail in HF. cbn [map ofold].
      destruct (ema_update_nth m u n Hl Hu) as (m' & y & E & E1 & E2 & E3 & E4 & E5).
      unfold ema_ev at 1. rewrite E. cbn [bind].
      replace (done ++ u :: todo) with ((done ++ [u]) ++ todo) by (rewrite <- app_assoc; reflexivity).
      apply IH; auto.
      + congruence.
      + rewrite !app_length; simpl; lia.
      + intros _. rewrite E1. exact E4.
      + rewrite E2. destruct done; reflexivity.
      + intros _. rewrite E1, app_length. simpl.
        rewrite app_nth2 by lia. replace (length done + 1 - 1 - length outs) with 0 by lia. reflexivity.
      + intros k i Hk Hin. rewrite app_length in Hk. simpl in Hk.
        destruct (Nat.lt_ge_cases k (length done)) as [Hlt|Hge].
        * rewrite app_nth1 by lia. rewrite HK by lia. f_equal. apply sum_lt_ext.
          intros j Hj. rewrite app_nth1 by lia. reflexivity.
        * assert (k = length done) by lia. subst k.
          rewrite app_nth2 by lia. rewrite HL, Nat.sub_diag. cbn [nth]. rewrite E5 by exact Hin.
          rewrite sum_lt_S_l. rewrite Nat.sub_0_r, app_nth2, Nat.sub_diag by lia. cbn [nth pow].
          rewrite Ha. rewrite Hi.
          destruct done as [|d0 done0] eqn:Ed.
          -- simpl. lra.
          -- rewrite <- Ed in *. rewrite (Hd ltac:(congruence)).
             assert (Hpos : 0 < length done) by (subst done; simpl; lia).
             rewrite HK by lia.
             replace (S (length done - 1)) with (length done) by lia.
             rewrite (sum_lt_ext (length done)
               (fun j => alpha * alpha ^ j * nth i (nth (length done - S j) (done ++ [u]) []) 0)%R
               (fun j => alpha * (alpha ^ j * nth i (nth (length done - 1 - j) done []) 0))%R).
             2:{ intros j Hj. rewrite app_nth1 by lia. replace (length done - S j) with (length done - 1 - j) by lia. lra. }
             assert (SC : forall m f c, sum_lt m (fun j => c * f j)%R = (c * sum_lt m f)%R).
             { clear. induction m; intros f c; simpl; [lra|]. rewrite IHm. lra. }
             rewrite SC. lra. }
  destruct (G us [] (mkEma [] alpha false) [] HF) as (m & outs & E & HL & HK); auto; simpl; try discriminate; try lia; try congruence.
  exists m, outs. auto.
Qed.

Lemma geometric (a c : R) k : ((1 - a) * sum_lt k (fun j => a ^ j * c))%R = (c * (1 - a ^ k))%R.
Proof. induction k; simpl; [lra|]. rewrite Rmult_plus_distr_l, IHk. lra. Qed.

(** Constant inputs: geometric approach to the input. *)
Theorem ema_constant (n : nat) (alpha : R) (u : list R) (N : nat) :
  length u = n ->
  exists m outs, ema_run (MAlpha alpha :: map MUpdate (repeat u N)) = Ok (m, outs) /\
    length outs = N /\
    forall k i, k < N -> i < n -> nth i (nth k outs []) 0%R = (nth i u 0 * (1 - alpha ^ S k))%R.
Proof.
  intros Hu.
  destruct (ema_closed_form n alpha (repeat u N)) as (m & outs & E & HL & HK).
  - apply Forall_forall. intros v Hv. apply repeat_spec in Hv. congruence.
  - rewrite repeat_length in *. exists m, outs. repeat (split; [assumption|]).
    intros k i Hk Hi. rewrite HK by assumption. rewrite <- (geometric alpha (nth i u 0%R) (S k)).
    f_equal. apply sum_lt_ext. intros j Hj. rewrite nth_repeat_lt by lia. reflexivity.
Qed.

(** Finding: setAlpha checks the previous factor, so a factor outside [0,1] is accepted
    and the average leaves the range of its inputs. *)
Theorem ema_bad_alpha_refuted :
  exists a m outs, ~ (0 <= a <= 1)%R /\
    ema_run [MAlpha a; MUpdate [1%R]; MUpdate [1%R]] = Ok (m, outs) /\
    exists y, In y outs /\ ~ (0 <= nth 0 y 0 <= 1)%R.
Proof.
  exists 2%R. do 2 eexists. split; [lra|]. split; [cbn; reflexivity|].
  eexists. split; [left; reflexivity|]. simpl. lra.
Qed.

(** Finding: the average starts from zero, not from the first input. *)
Theorem ema_first_output_refuted :
  exists a u m y, (0 <= a <= 1)%R /\ ema_run [MAlpha a; MUpdate [u]] = Ok (m, [[y]]) /\ y <> u.
Proof.
  exists (1 / 2)%R, 1%R. do 2 eexists. split; [lra|]. split; [cbn; reflexivity|]. lra.
Qed.

(** Non-vacuity of [ema_hull]. *)
Example ema_hull_example :
  Forall (ema_ok 2) [MUpdate [1; 2]%R; MAlpha (1 / 3); MUpdate [-1; 4]%R].
Proof. repeat constructor; simpl; lra. Qed.

(** The coefficients of the integrator are those pushed and not popped; changing them or the period
    keeps what the integrator remembers. *)
Theorem euler_configuration l (e e' : euler) : (forall c, In c l -> match c with EInit _ | EEval _ => False | _ => True end) ->
  ofold eexec l e = Ok e' ->
  e_num e' = fold_left (fun a c => match c with ENum x => a ++ [x] | EPopNum => removelast a | _ => a end) l (e_num e) /\
  e_den e' = fold_left (fun a c => match c with EDen x => a ++ [x] | EPopDen => removelast a | _ => a end) l (e_den e) /\
  e_dt e' = fold_left (fun p c => match c with EPeriod q => q | _ => p end) l (e_dt e) /\
  (e_invdt e = (1 / e_dt e)%R -> e_invdt e' = (1 / e_dt e')%R) /\
  e_in e' = e_in e /\ e_out e' = e_out e.
Proof.
  revert e. induction l as [|c l IH]; intros e Hl E; cbn [ofold] in E.
  - injection E as <-. cbn. tauto.
  - destruct (eexec e c) as [e1| |] eqn:E1; [|discriminate..]. cbn [bind] in E.
    destruct (IH e1 (fun c K => Hl c (or_intror K)) E) as (A & B & C & D & F & G). specialize (Hl c (or_introl eq_refl)).
    cbn [fold_left]. rewrite A, B, F, G, C. rewrite C in D. clear - E1 D Hl.
    destruct c; cbn in E1.
    + injection E1 as <-. cbn in *. tauto.
    + injection E1 as <-. cbn in *. tauto.
    + unfold e_pop_num in E1. destruct (_ =? _); [discriminate|]. injection E1 as <-. cbn in *. tauto.
    + unfold e_pop_den in E1. destruct (_ =? _); [discriminate|]. injection E1 as <-. cbn in *. tauto.
    + injection E1 as <-. cbn in *. tauto.
    + contradiction.
    + contradiction.
Qed.
(** Popping is undefined exactly when nothing is left. *)
Theorem euler_pop_defined e : (e_pop_num e = UB <-> e_num e = []) /\ (e_pop_den e = UB <-> e_den e = []).
Proof.
  unfold e_pop_num, e_pop_den. split; [destruct (e_num e)|destruct (e_den e)]; cbn; split; congruence.
Qed.
Example euler_configuration_example :
  exists e', ofold eexec [ENum 1; ENum 2; EPopNum; EDen 3; EDen 1; EPeriod 2] euler_new = Ok e' /\
    e_num e' = [1%R] /\ e_den e' = [3%R; 1%R] /\ e_dt e' = 2%R.
Proof. eexists. repeat split. Qed.

Print Assumptions derivator_outputs.
Print Assumptions derivator_telescopes.
Print Assumptions euler_step.
Print Assumptions euler_recurrence.
Print Assumptions euler_initialize_checks.
Print Assumptions euler_pure_integrator.
Print Assumptions euler_derivative.
Print Assumptions euler_initial_velocity_refuted.
Print Assumptions euler_constant_input_spike_refuted.
Print Assumptions ema_hull.
Print Assumptions ema_closed_form.
Print Assumptions ema_constant.
Print Assumptions ema_bad_alpha_refuted.

Print Assumptions euler_initialize.
Print Assumptions euler_period.
Print Assumptions euler_uninitialized_refuted.
Print Assumptions ema_first_output_refuted.
Print Assumptions euler_derivative_none.
Print Assumptions euler_configuration.
Print Assumptions euler_pop_defined.
Print Assumptions ema_default.
