(** Meta tasks of the Python package: what a call does to the task. *)
From Coq Require Import String Ascii List Arith Lia ZArith Bool Reals Lra.
From Verif Require Import Base SMap Flags_Model Flags_Props Geom_Model Geom_Facts Geom_Rot Geom_Props OpPoint_Model OpPoint_Props Gain_Model Gain_Props
  MatUtil_Model MatUtil_Props RobotBase_Props Feature_Model Feature_Proofs Feature_Props Meta_Model.
Import ListNotations.
Local Open Scope R_scope.

(** ** Specification of gotoq *)

(** The joints of a limb. *)
Definition joints (limb : string) (rng : list nat) : Prop := pfind postureRange limb = Some rng.

(** The values given to a limb: none (the empty list), one for all its joints, or one for each. *)
Definition values (j : jarg) : option (list R) :=
  match j with JNum x => Some [x] | JList [] => None | JList l => Some l | JTuple l => Some l end.

(** The [k]-th joint of a limb is given the value [x]. *)
Definition gives (j : jarg) (k : nat) (x : R) : Prop :=
  exists l, values j = Some l /\ (l = [x] \/ nth_error l k = Some x).

(** Joint [i] belongs to a limb named in the call. *)
Definition named (kws : list (string * jarg)) (i : nat) : Prop :=
  exists limb j rng, In (limb, j) kws /\ joints limb rng /\ In i rng.

(** No limb of the call gives a value to joint [i]. *)
Definition untouched (kws : list (string * jarg)) (i : nat) : Prop :=
  forall limb j rng, In (limb, j) kws -> joints limb rng -> In i rng -> values j = None.

(** The last limb of the call that gives a value to joint [i] gives [x]. *)
Definition asked (kws : list (string * jarg)) (i : nat) (x : R) : Prop :=
  exists before limb j after rng k,
    kws = before ++ (limb, j) :: after /\ joints limb rng /\ nth_error rng k = Some i /\ gives j k x /\ untouched after i.

(** The call can be executed: every limb exists, lies inside the [n] flags and the [m] coordinates of the
    reference, and has as many values as joints, one value, or none. *)
Definition fits (n m : nat) (kws : list (string * jarg)) : Prop :=
  forall limb j, In (limb, j) kws -> exists rng, joints limb rng /\ (forall i, In i rng -> (i < n)%nat) /\
    (forall l, values j = Some l -> (forall i, In i rng -> (i < m)%nat) /\ (length l = length rng \/ length l = 1%nat)).

(** ** Lemmas *)
Lemma pfind_in {A} (m : list (string * A)) k a : pfind m k = Some a -> In (k, a) m.
Proof.
  induction m as [|[k' b] m IH]; cbn; [discriminate|]. destruct (String.eqb_spec k' k) as [->|]; intros E.
  - injection E as ->. now left.
  - right. now apply IH.
Qed.
Lemma joints_nodup limb rng : joints limb rng -> NoDup rng /\ rng <> [].
Proof.
  intros J. apply pfind_in in J.
  assert (G : Forall (fun p : string * list nat => NoDup (snd p) /\ snd p <> []) postureRange).
  { unfold postureRange. repeat (apply Forall_cons; [split; [apply seq_NoDup || (repeat constructor; cbn; tauto)|discriminate]|]). apply Forall_nil. }
  rewrite Forall_forall in G. exact (G _ J).
Qed.
Lemma joints_fun limb r1 r2 : joints limb r1 -> joints limb r2 -> r1 = r2.
Proof. unfold joints. congruence. Qed.

Lemma fold_upd_pairs (ps : list (nat * R)) (f : R -> R) : forall q, NoDup (map fst ps) ->
  let q' := fold_left (fun q (p : nat * R) => upd q (fst p) (f (snd p))) ps q in
  length q' = length q /\
  (forall i, ~ In i (map fst ps) -> nth_error q' i = nth_error q i) /\
  (forall i x, In (i, x) ps -> (i < length q)%nat -> nth_error q' i = Some (f x)).
Proof.
  induction ps as [|[i0 x0] ps IH]; intros q ND; cbn [fold_left fst snd map] in *.
  - split; [reflexivity|]. split; [reflexivity|]. intros i x [].
  - inversion ND as [|? ? Hn ND']; subst. destruct (IH (upd q i0 (f x0)) ND') as [L [O I]]. clear IH.
    rewrite upd_length in *. split; [exact L|]. split.
    + intros i Hi. cbn [In] in Hi. rewrite O by tauto. rewrite nth_error_upd. destruct (Nat.eqb_spec i0 i) as [->|]; [tauto|reflexivity].
    + intros i x [E|E] Hi.
      * injection E as -> ->. rewrite O by exact Hn. rewrite nth_error_upd. rewrite Nat.eqb_refl.
        destruct (Nat.ltb_spec i (length q)); try lia; cbn; reflexivity.
      * apply I; assumption.
Qed.

Lemma assign_spec ints q rng vals q' : NoDup rng -> assign ints q rng vals = Ok q' ->
  (forall i, In i rng -> (i < length q)%nat) /\ (length vals = length rng \/ length vals = 1%nat) /\
  length q' = length q /\
  (forall i, ~ In i rng -> nth_error q' i = nth_error q i) /\
  (forall i k, nth_error rng k = Some i -> exists x, (vals = [x] \/ nth_error vals k = Some x) /\ nth_error q' i = Some (cast ints x)).
Proof.
  intros ND E. unfold assign in E.
  destruct (forallb (fun i => (i <? length q)%nat) rng) eqn:B; [|discriminate].
  assert (IN : forall i, In i rng -> (i < length q)%nat).
  { intros i Hi. rewrite forallb_forall in B. apply Nat.ltb_lt, B, Hi. }
  split; [exact IN|].
  destruct (Nat.eqb_spec (length vals) (length rng)) as [L|L].
  - injection E as <-. split; [now left|].
    assert (F : map fst (combine rng vals) = rng).
    { clear - L. revert vals L. induction rng as [|r rng IH]; intros [|v vals] L; cbn in *; try lia; [reflexivity|]. f_equal. apply IH. lia. }
    destruct (fold_upd_pairs (combine rng vals) (cast ints) q) as [A [B' C]]; [now rewrite F|].
    rewrite F in B'. split; [exact A|]. split; [exact B'|].
    intros i k Hk. assert (Hlt : (k < length vals)%nat) by (rewrite L; apply nth_error_Some; congruence).
    destruct (nth_error vals k) as [x|] eqn:Hv; [|apply nth_error_None in Hv; lia].
    exists x. split; [now right|]. apply C; [|apply IN; eapply nth_error_In; eauto].
    clear - Hk Hv. revert vals k Hk Hv. induction rng as [|r rng IH]; intros [|v vals] [|k] Hk Hv; cbn in *; try discriminate.
    + injection Hk as ->. injection Hv as ->. now left.
    + right. eapply IH; eauto.
  - destruct vals as [|x [|y vals]]; try discriminate. injection E as <-. split; [now right|].
    assert (G : forall l q0, fold_left (fun q i => upd q i (cast ints x)) l q0 =
                fold_left (fun q (p : nat * R) => upd q (fst p) (cast ints (snd p))) (map (fun i => (i, x)) l) q0).
    { induction l as [|a l IH]; intros q0; cbn; [reflexivity|]. apply IH. }
    rewrite G. assert (F : map fst (map (fun i => (i, x)) rng) = rng) by (rewrite map_map; apply map_id).
    destruct (fold_upd_pairs (map (fun i => (i, x)) rng) (cast ints) q) as [A [B' C]]; [now rewrite F|].
    rewrite F in B'. split; [exact A|]. split; [exact B'|].
    intros i k Hk. exists x. split; [now left|]. apply nth_error_In in Hk. apply C; [|now apply IN].
    apply in_map_iff. exists i. split; [reflexivity|exact Hk].
Qed.

Lemma assign_values_none ints q rng j : values j = None -> assign_values ints q rng j = Ok q.
Proof. destruct j as [x|[|? ?]|l]; cbn; try discriminate; reflexivity. Qed.
Lemma assign_values_some ints q rng j l : values j = Some l -> assign_values ints q rng j = assign ints q rng l.
Proof. destruct j as [x|[|? ?]|l']; cbn; try discriminate; intros E; injection E as <-; reflexivity. Qed.

Lemma assign_ok ints q rng vals : rng <> [] -> (forall i, In i rng -> (i < length q)%nat) ->
  (length vals = length rng \/ length vals = 1%nat) -> exists q', assign ints q rng vals = Ok q'.
Proof.
  intros _ HI HL. unfold assign.
  assert (B : forallb (fun i => (i <? length q)%nat) rng = true).
  { apply forallb_forall. intros i Hi. apply Nat.ltb_lt. auto. }
  rewrite B. destruct (Nat.eqb_spec (length vals) (length rng)); [eexists; reflexivity|].
  destruct HL as [?|HL]; [contradiction|]. destruct vals as [|x [|y vals]]; cbn in HL; try lia. eexists; reflexivity.
Qed.

Definition act_step (a : list bool) (i : nat) : outcome (list bool) :=
  if (i <? length a)%nat then Ok (upd a i true) else Throw "IndexError: list assignment index out of range".
Lemma act_spec rng : forall act act', ofold act_step rng act = Ok act' ->
  (forall i, In i rng -> (i < length act)%nat) /\ length act' = length act /\
  (forall i, nth_error act' i = Some true <-> nth_error act i = Some true \/ In i rng).
Proof.
  induction rng as [|r rng IH]; intros act act' E; cbn [ofold] in E.
  - injection E as <-. split; [intros i []|]. split; [reflexivity|]. cbn [In]. tauto.
  - unfold act_step at 1 in E. destruct (Nat.ltb_spec r (length act)) as [L|L]; [|discriminate]. cbn [bind] in E.
    destruct (IH _ _ E) as [A [B C]]. rewrite upd_length in *.
    split; [intros i [<-|Hi]; auto|]. split; [exact B|]. intros i. rewrite C. rewrite nth_error_upd. cbn [In].
    destruct (Nat.eq_dec i r) as [->|Hne].
    + split; [intros _; right; now left|]. intros _. left. rewrite ?Nat.eqb_refl.
      destruct (Nat.ltb_spec r (length act)); try lia. reflexivity.
    + replace (r =? i)%nat with false by (symmetry; apply Nat.eqb_neq; congruence).
      cbn [andb].
      split; [intros [?|?]; auto|intros [?|[?|?]]; auto; congruence].
Qed.
Lemma act_ok rng : forall act, (forall i, In i rng -> (i < length act)%nat) -> exists act', ofold act_step rng act = Ok act'.
Proof.
  induction rng as [|r rng IH]; intros act HI; cbn [ofold]; [eexists; reflexivity|]. unfold act_step at 1.
  destruct (Nat.ltb_spec r (length act)) as [L|L]; [|specialize (HI r (or_introl eq_refl)); lia]. cbn [bind].
  apply IH. intros i Hi. rewrite upd_length. apply HI. now right.
Qed.

Lemma named_cons limb j kws i : named ((limb, j) :: kws) i <-> (exists rng, joints limb rng /\ In i rng) \/ named kws i.
Proof.
  split.
  - intros (l & j' & rng & [E|E] & J & I).
    + injection E as -> ->. left. eauto.
    + right. exists l, j', rng. auto.
  - intros [(rng & J & I)|(l & j' & rng & E & J & I)].
    + exists limb, j, rng. cbn; auto.
    + exists l, j', rng. cbn; auto.
Qed.
Lemma untouched_cons limb j kws i : untouched ((limb, j) :: kws) i <->
  (forall rng, joints limb rng -> In i rng -> values j = None) /\ untouched kws i.
Proof.
  split.
  - intros U. split; [intros rng J I; apply (U limb j rng); cbn; auto|]. intros l j' rng E. apply U. now right.
  - intros [A U] l j' rng [E|E] J I; [injection E as -> ->; eauto|eapply U; eauto].
Qed.
Lemma asked_cons limb j kws i x : asked ((limb, j) :: kws) i x <->
  (exists rng k, joints limb rng /\ nth_error rng k = Some i /\ gives j k x /\ untouched kws i) \/ asked kws i x.
Proof.
  split.
  - intros (b & l & j' & a & rng & k & E & J & N & V & U). destruct b as [|p b]; cbn in E.
    + injection E as -> -> ->. left. exists rng, k. auto.
    + injection E as _ ->. right. exists b, l, j', a, rng, k. auto.
  - intros [(rng & k & J & N & V & U)|(b & l & j' & a & rng & k & -> & J & N & V & U)].
    + exists [], limb, j, kws, rng, k. auto.
    + exists ((limb, j) :: b), l, j', a, rng, k. auto.
Qed.

Lemma limb_step_unfold ints act q limb j :
  limb_step ints act q (limb, j) =
  match pfind postureRange limb with
  | None => Throw "KeyError"
  | Some rng => let* act' := ofold act_step rng act in let* q' := assign_values ints q rng j in Ok (act', q')
  end.
Proof. reflexivity. Qed.

(** One limb. *)
Lemma limb_step_spec ints act q limb j act' q' : limb_step ints act q (limb, j) = Ok (act', q') ->
  exists rng, joints limb rng /\ (forall i, In i rng -> (i < length act)%nat) /\
    (forall l, values j = Some l -> (forall i, In i rng -> (i < length q)%nat) /\ (length l = length rng \/ length l = 1%nat)) /\
    length act' = length act /\ length q' = length q /\
    (forall i, nth_error act' i = Some true <-> nth_error act i = Some true \/ In i rng) /\
    (forall i, (In i rng -> values j = None) -> nth_error q' i = nth_error q i) /\
    (forall i k, nth_error rng k = Some i -> values j <> None -> exists x, gives j k x /\ nth_error q' i = Some (cast ints x)).
Proof.
  rewrite limb_step_unfold. destruct (pfind postureRange limb) as [rng|] eqn:J; [|discriminate]. intros E.
  destruct (joints_nodup limb rng J) as [ND NE].
  destruct (ofold act_step rng act) as [a1| |] eqn:EA; cbn [bind] in E; try discriminate.
  destruct (assign_values ints q rng j) as [q1| |] eqn:EQ; cbn [bind] in E; try discriminate.
  injection E as -> ->. destruct (act_spec _ _ _ EA) as [A1 [A2 A3]].
  exists rng. split; [exact J|]. split; [exact A1|].
  destruct (values j) as [l|] eqn:V.
  - rewrite (assign_values_some _ _ _ _ _ V) in EQ. destruct (assign_spec _ _ _ _ _ ND EQ) as [B1 [B2 [B3 [B4 B5]]]].
    split; [intros l' E'; injection E' as <-; auto|]. split; [exact A2|]. split; [exact B3|]. split; [exact A3|].
    split.
    + intros i Hi. apply B4. intros I. discriminate (Hi I).
    + intros i k N _. destruct (B5 _ _ N) as (x & Hx & Hq). exists x. split; [exists l; auto|exact Hq].
  - rewrite (assign_values_none _ _ _ _ V) in EQ. injection EQ as ->.
    split; [discriminate|]. split; [exact A2|]. split; [reflexivity|]. split; [exact A3|].
    split; [reflexivity|]. intros i k _ C. congruence.
Qed.

Lemma gives_fun j k x y : gives j k x -> gives j k y -> x = y.
Proof.
  intros (l & V & A) (l' & V' & A'). rewrite V in V'. injection V' as <-.
  destruct A as [-> |A], A' as [E|A']; try congruence.
  - destruct k as [|k]; cbn in A'; [congruence|]. destruct k; discriminate.
  - subst l. destruct k as [|k]; cbn in A; [congruence|]. destruct k; discriminate.
Qed.

Lemma limb_loop_spec ints : forall kws act q q' act', limb_loop ints kws act q = (q', Ok act') ->
  fits (length act) (length q) kws /\ length act' = length act /\ length q' = length q /\
  (forall i, nth_error act' i = Some true <-> nth_error act i = Some true \/ named kws i) /\
  (forall i, untouched kws i -> nth_error q' i = nth_error q i) /\
  (forall i x, asked kws i x -> nth_error q' i = Some (cast ints x)) /\
  (forall i, untouched kws i \/ exists x, asked kws i x).
Proof.
  induction kws as [|[limb j] kws IH]; intros act q q' act' E; cbn [limb_loop] in E.
  - injection E as -> ->. split; [intros l j []|]. split; [reflexivity|]. split; [reflexivity|].
    split; [intros i; split; [auto|intros [?|(l & j & r & [] & _)]; auto]|].
    split; [reflexivity|]. split.
    + intros i x (b & l & j & a & r & k & E & _). destruct b; discriminate.
    + intros i. left. intros l j r [].
  - destruct (limb_step ints act q (limb, j)) as [[a1 q1]| |] eqn:ES; try discriminate.
    destruct (limb_step_spec _ _ _ _ _ _ _ ES) as (rng & J & S1 & S2 & S3 & S4 & S5 & S6 & S7). clear ES.
    destruct (IH _ _ _ _ E) as (F & L1 & L2 & A & U & K & D). clear IH E.
    rewrite S3 in *. rewrite S4 in *.
    split. { intros l j' [E|E]; [injection E as -> ->; exists rng; auto|apply F, E]. }
    split; [exact L1|]. split; [exact L2|].
    split. { intros i. rewrite A, S5, named_cons. split.
      - intros [[?|?]|?]; eauto.
      - intros [?|[(r & Jr & I)|?]]; auto. rewrite (joints_fun _ _ _ J Jr). auto. }
    split. { intros i Hu. apply untouched_cons in Hu. destruct Hu as [Hh Hu]. rewrite (U _ Hu). apply S6. eauto. }
    split. { intros i x Ha. apply asked_cons in Ha. destruct Ha as [(r & k & Jr & N & G & Hu)|Ha]; [|now apply K].
      rewrite (U _ Hu). rewrite (joints_fun _ _ _ Jr J) in N. destruct (S7 _ _ N) as (y & Gy & Hy).
      { destruct G as (l & V & _). congruence. }
      rewrite (gives_fun _ _ _ _ G Gy). exact Hy. }
    intros i. destruct (D i) as [Hu|(x & Ha)].
    + destruct (in_dec Nat.eq_dec i rng) as [I|I].
      * destruct (values j) as [l|] eqn:V.
        -- right. apply In_nth_error in I. destruct I as [k N]. destruct (S7 _ _ N) as (x & G & _); [discriminate|].
           exists x. apply asked_cons. left. exists rng, k. auto.
        -- left. apply untouched_cons. auto.
      * left. apply untouched_cons. split; [|exact Hu]. intros r Jr Ir. rewrite (joints_fun _ _ _ Jr J) in Ir. contradiction.
    + right. exists x. apply asked_cons. now right.
Qed.

Lemma limb_loop_ok ints : forall kws act q, fits (length act) (length q) kws ->
  exists q' act', limb_loop ints kws act q = (q', Ok act').
Proof.
  induction kws as [|[limb j] kws IH]; intros act q F; cbn [limb_loop]; [eauto|].
  destruct (F limb j (or_introl eq_refl)) as (rng & J & I1 & I2). destruct (joints_nodup _ _ J) as [ND NE].
  assert (E : exists act' q', limb_step ints act q (limb, j) = Ok (act', q')).
  { rewrite limb_step_unfold. unfold joints in J. rewrite J. destruct (act_ok rng act I1) as [a1 ->]. cbn [bind].
    destruct (values j) as [l|] eqn:V.
    - rewrite (assign_values_some _ _ _ _ _ V). destruct (I2 l eq_refl) as [Ia Ib].
      destruct (assign_ok ints q rng l NE Ia Ib) as [q1 ->]. cbn. eauto.
    - rewrite (assign_values_none _ _ _ _ V). cbn. eauto. }
  destruct E as (a1 & q1 & E). rewrite E. destruct (limb_step_spec _ _ _ _ _ _ _ E) as (_ & _ & _ & _ & S3 & S4 & _).
  apply IH. rewrite S3, S4. intros l j' Hin. apply F. now right.
Qed.
Lemma limb_loop_never_ub ints : forall kws act q, snd (limb_loop ints kws act q) <> UB.
Proof.
  induction kws as [|[limb j] kws IH]; intros act q; cbn [limb_loop snd]; [discriminate|].
  destruct (limb_step ints act q (limb, j)) as [[a1 q1]| |] eqn:E; cbn [snd]; [apply IH|discriminate|].
  exfalso. rewrite limb_step_unfold in E. destruct (pfind postureRange limb) as [rng|]; [|discriminate].
  assert (G : forall r a, ofold act_step r a <> UB).
  { induction r as [|x r IHr]; intros a; cbn [ofold]; [discriminate|]. unfold act_step at 1.
    destruct (x <? length a)%nat; cbn [bind]; [apply IHr|discriminate]. }
  destruct (ofold act_step rng act) eqn:EA; cbn [bind] in E; try discriminate; [|now apply G in EA].
  assert (G2 : forall l, assign ints q rng l <> UB).
  { intros l. unfold assign. destruct (forallb _ _); [|discriminate]. destruct (_ =? _)%nat; [discriminate|].
    destruct l as [|? [|? ?]]; discriminate. }
  destruct (values j) as [l|] eqn:V.
  - rewrite (assign_values_some _ _ _ _ _ V) in E. destruct (assign ints q rng l) eqn:EQ; cbn in E; try discriminate. now apply G2 in EQ.
  - rewrite (assign_values_none _ _ _ _ V) in E. discriminate.
Qed.

(** ** The posture task *)

(** The number of degrees of freedom the call works with: the one remembered by the class, else that of the
    robot if no posture is given. *)
Definition dof (npos : nat) (nbDof : option nat) (qdes : qarg) (n : nat) : Prop :=
  nbDof = Some n \/ nbDof = None /\ qdes = QNone /\ n = npos.

(** The posture before the values of the limbs are written in it. *)
Definition start (n : nat) (qdes : qarg) : list R :=
  match qdes with QNone => repeat 0 n | QTuple l => map pval l | QArray l => l end.

(** The posture is not a tuple of integers only. *)
Definition has_floats (qdes : qarg) : Prop :=
  match qdes with QTuple l => l = [] \/ exists x, In (PFloat x) l | _ => True end.

Definition ints_of (qdes : qarg) : bool :=
  match qdes with QTuple l => forallb is_int l && negb (length l =? 0)%nat | _ => false end.
Lemma has_floats_ints qdes : has_floats qdes -> ints_of qdes = false.
Proof.
  destruct qdes as [|l|l]; try reflexivity. cbn. intros [->|(x & I)]; [reflexivity|].
  destruct (forallb is_int l) eqn:F; [|reflexivity]. rewrite forallb_forall in F. discriminate (F _ I).
Qed.

Lemma gotoq_unfold npos nb t gain qdes kws n : dof npos nb qdes n ->
  let '(q', res) := limb_loop (ints_of qdes) kws (repeat false n) (start n qdes) in
  r_end (gotoq npos nb t gain qdes kws) = (match res with Ok _ => Ok tt | Throw e => Throw e | UB => UB end) /\
  r_nbDof (gotoq npos nb t gain qdes kws) = Some n /\
  r_array (gotoq npos nb t gain qdes kws) = (match qdes with QArray _ => Some q' | _ => None end) /\
  r_task (gotoq npos nb t gain qdes kws) =
    match res with Ok act => mkPtask q' (if (0 <? length act)%nat then of_vector act else p_selec t) (setGain (p_gain t) gain) | _ => t end.
Proof.
  intros D. unfold gotoq.
  assert (E1 : match qdes, nb with QNone, None => Some npos | _, _ => nb end = Some n).
  { destruct D as [->|(-> & -> & ->)]; [destruct qdes; reflexivity|reflexivity]. }
  rewrite E1.
  assert (E2 : match qdes with
               | QNone => (false, repeat 0 n)
               | QTuple l => (forallb is_int l && negb (length l =? 0)%nat, map pval l)
               | QArray l => (false, l) end = (ints_of qdes, start n qdes)) by (destruct qdes; reflexivity).
  rewrite E2. destruct (limb_loop (ints_of qdes) kws (repeat false n) (start n qdes)) as [q' [act|e|]]; cbn [r_end r_nbDof r_array r_task]; auto.
  destruct (vector_to_tuple q') as [_ [_ ->]]. cbn. auto.
Qed.
Lemma dof_fun npos nb qdes n m : dof npos nb qdes n -> dof npos nb qdes m -> n = m.
Proof. unfold dof. intros [?|(?&?&?)] [?|(?&?&?)]; congruence. Qed.
Lemma dof_dec npos nb qdes : (exists n, dof npos nb qdes n) \/ (nb = None /\ qdes <> QNone).
Proof.
  destruct nb as [n|]; [left; exists n; now left|]. destruct qdes; [left; exists npos; now right|right; split; congruence..].
Qed.
Lemma gotoq_no_dof npos t gain qdes kws : qdes <> QNone ->
  let r := gotoq npos None t gain qdes kws in
  r_end r = Throw "TypeError: can't multiply sequence by non-int of type 'NoneType'" /\ r_task r = t /\ r_nbDof r = None.
Proof. destruct qdes; [congruence|..]; intros _; cbn; auto. Qed.

Lemma repeat_false_true n i : nth_error (repeat false n) i = Some true -> False.
Proof. intros E. apply nth_error_In, repeat_spec in E. discriminate. Qed.

(** A call returns exactly when it can be executed. *)
Theorem gotoq_returns npos nb t gain qdes kws :
  r_end (gotoq npos nb t gain qdes kws) = Ok tt <->
  exists n, dof npos nb qdes n /\ fits n (length (start n qdes)) kws.
Proof.
  split.
  - intros E. destruct (dof_dec npos nb qdes) as [[n D]|[-> Q]].
    + exists n. split; [exact D|]. pose proof (gotoq_unfold npos nb t gain qdes kws n D) as G.
      destruct (limb_loop (ints_of qdes) kws (repeat false n) (start n qdes)) as [q' [act|e|]] eqn:L;
        destruct G as [G _]; rewrite G in E; try discriminate.
      apply limb_loop_spec in L. destruct L as [F _]. rewrite repeat_length in F. exact F.
    + destruct (gotoq_no_dof npos t gain qdes kws Q) as [G _]. rewrite G in E. discriminate.
  - intros (n & D & F). pose proof (gotoq_unfold npos nb t gain qdes kws n D) as G.
    destruct (limb_loop_ok (ints_of qdes) kws (repeat false n) (start n qdes)) as (q' & act & L).
    { rewrite repeat_length. exact F. }
    rewrite L in G. apply G.
Qed.

(** A call that raises leaves the task as it was; no call is undefined. *)
Theorem gotoq_all_or_nothing npos nb t gain qdes kws :
  let r := gotoq npos nb t gain qdes kws in
  r_end r <> UB /\ (r_end r <> Ok tt -> r_task r = t).
Proof.
  cbn zeta. destruct (dof_dec npos nb qdes) as [[n D]|[-> Q]].
  - pose proof (gotoq_unfold npos nb t gain qdes kws n D) as G.
    pose proof (limb_loop_never_ub (ints_of qdes) kws (repeat false n) (start n qdes)) as NU.
    destruct (limb_loop (ints_of qdes) kws (repeat false n) (start n qdes)) as [q' [act|e|]]; destruct G as (G & _ & _ & T); rewrite G, T; cbn in NU; split; congruence.
  - destruct (gotoq_no_dof npos t gain qdes kws Q) as (G & T & _). rewrite G, T. split; [discriminate|reflexivity].
Qed.

(** What a call that returns leaves: the joints of the named limbs are selected and no other; a joint has the value
    given by the last limb that gives one, and keeps that of the posture otherwise; the gain is set. *)
Theorem gotoq_effect npos nb t gain qdes kws :
  let r := gotoq npos nb t gain qdes kws in
  r_end r = Ok tt ->
  exists n, dof npos nb qdes n /\ r_nbDof r = Some n /\
    length (p_ref (r_task r)) = length (start n qdes) /\
    (forall i, untouched kws i -> nth_error (p_ref (r_task r)) i = nth_error (start n qdes) i) /\
    (has_floats qdes -> forall i x, asked kws i x -> nth_error (p_ref (r_task r)) i = Some x) /\
    (forall i, untouched kws i \/ exists x, asked kws i x) /\
    ((0 < n)%nat -> forall i, at_ (p_selec (r_task r)) (Z.of_nat i) = Ok true <-> named kws i) /\
    p_gain (r_task r) = setGain (p_gain t) gain.
Proof.
  cbn zeta. intros E. destruct (dof_dec npos nb qdes) as [[n D]|[-> Q]].
  2:{ destruct (gotoq_no_dof npos t gain qdes kws Q) as [G _]. rewrite G in E. discriminate. }
  exists n. split; [exact D|]. pose proof (gotoq_unfold npos nb t gain qdes kws n D) as G.
  destruct (limb_loop (ints_of qdes) kws (repeat false n) (start n qdes)) as [q' [act|e|]] eqn:L;
    destruct G as (G & N & _ & T); rewrite G in E; try discriminate.
  rewrite N, T. apply limb_loop_spec in L. destruct L as (F & L1 & L2 & A & U & K & Dj). rewrite repeat_length in *.
  cbn [p_ref p_selec p_gain]. split; [reflexivity|]. split; [exact L2|]. split; [exact U|].
  split. { intros Hf i x Ha. rewrite (K _ _ Ha). now rewrite (has_floats_ints _ Hf). }
  split; [exact Dj|]. split; [|reflexivity].
  intros Hn i. replace (0 <? length act)%nat with true by (symmetry; apply Nat.ltb_lt; lia).
  assert (AT : at_ (of_vector act) (Z.of_nat i) = Ok true <-> nth_error act i = Some true).
  { unfold at_, of_vector. cbn [flags outOfRangeFlag].
    destruct (Z.ltb_spec (Z.of_nat i) (Z.of_nat (length act))) as [Lt|Ge].
    - destruct (Z.ltb_spec (Z.of_nat i) 0); [lia|]. rewrite Nat2Z.id. unfold vget. destruct (nth_error act i); split; congruence.
    - assert (nth_error act i = None) as -> by (apply nth_error_None; lia). split; discriminate. }
  rewrite AT, A. split; [intros [Hc|?]; [exfalso; eapply repeat_false_true; eauto|assumption]|auto].
Qed.

(** The error of the feature after the call: position minus reference on the joints of the named limbs, in
    increasing order, when the robot, the class and the posture agree on the size. *)
Theorem gotoq_error npos nb t gain qdes kws (pos : list R) (g : R) :
  let r := gotoq npos nb t gain qdes kws in
  r_end r = Ok tt -> (0 < npos)%nat -> length pos = npos ->
  (forall n, dof npos nb qdes n -> n = npos /\ length (start n qdes) = npos) ->
  exists sel : list nat,
    (forall i, In i sel <-> named kws i) /\
    (forall a b, (a < b < length sel)%nat -> (nth a sel 0 < nth b sel 0)%nat) /\
    generic_error R g Rminus (p_selec (r_task r)) (length sel) pos (Some (p_ref (r_task r)))
    = Ok (map (fun i => nth i pos 0 - nth i (p_ref (r_task r)) 0) sel).
Proof.
  cbn zeta. intros E P L S. pose proof (gotoq_effect npos nb t gain qdes kws E) as (n & D & N & LR & _ & _ & _ & A & _).
  destruct (S n D) as [-> S2].
  exists (chosen (p_selec (r_task (gotoq npos nb t gain qdes kws))) npos).
  destruct (chosen_spec (p_selec (r_task (gotoq npos nb t gain qdes kws))) npos) as [C1 C2].
  assert (HN : forall i, named kws i -> (i < npos)%nat).
  { intros i (l & j & rng & I & J & Ir). apply gotoq_returns in E. destruct E as (n' & D' & F). destruct (S n' D') as [-> _].
    destruct (F l j I) as (rng' & J' & B & _). rewrite (joints_fun _ _ _ J J') in Ir. auto. }
  split. { intros i. rewrite C1, A by exact P. split; [tauto|]. intros Hn. split; [auto|exact Hn]. }
  split. { intros a b [Hab Hb]. apply (C2 a b); [apply nth_error_nth'; lia|apply nth_error_nth'; lia|exact Hab]. }
  apply generic_error_selected_partial; [exact L|]. rewrite LR. exact S2.
Qed.

(** The class remembers the first size; on robots of one size every call without a posture works. *)
Definition call := (ptask * gainval * qarg * list (string * jarg))%type.
Definition calls (npos : nat) (h : list call) (nb : option nat) : option nat :=
  fold_left (fun nb (c : call) => let '(t, g, q, kws) := c in r_nbDof (gotoq npos nb t g q kws)) h nb.
Lemma calls_dof npos h : forall nb, nb = None \/ nb = Some npos -> calls npos h nb = None \/ calls npos h nb = Some npos.
Proof.
  induction h as [|[[[t g] q] kws] h IH]; intros nb Hnb; [exact Hnb|]. cbn [calls fold_left]. apply IH.
  destruct (dof_dec npos nb q) as [[n D]|[-> Q]].
  - pose proof (gotoq_unfold npos nb t g q kws n D) as G.
    destruct (limb_loop (ints_of q) kws (repeat false n) (start n q)) as [q' res]. destruct G as (_ & -> & _).
    right. destruct D as [->|(_ & _ & ->)]; [|reflexivity]. destruct Hnb; congruence.
  - left. now destruct (gotoq_no_dof npos t g q kws Q) as (_ & _ & ->).
Qed.
Theorem gotoq_one_size npos (h : list call) t gain kws :
  fits npos npos kws ->
  let r := gotoq npos (calls npos h None) t gain QNone kws in
  r_end r = Ok tt /\ length (p_ref (r_task r)) = npos /\
  (forall i x, asked kws i x -> nth_error (p_ref (r_task r)) i = Some x) /\
  (forall i, (i < npos)%nat -> untouched kws i -> nth_error (p_ref (r_task r)) i = Some 0).
Proof.
  intros F. cbn zeta. destruct (calls_dof npos h None (or_introl eq_refl)) as [E|E]; rewrite E.
  all: match goal with |- r_end ?r = _ /\ _ => assert (R : r_end r = Ok tt) end.
  1,3: apply gotoq_returns; exists npos; split; [unfold dof; auto|cbn [start]; rewrite repeat_length; exact F].
  all: pose proof (gotoq_effect _ _ _ _ _ _ R) as (n & D & _ & L & U & K & _); split; [exact R|];
    assert (n = npos) as -> by (destruct D as [D|(_ & _ & D)]; congruence); cbn [start] in *; rewrite repeat_length in L;
    split; [exact L|]; split; [exact (K I)|]; intros i Hi Hu; rewrite (U _ Hu); apply nth_error_repeat; exact Hi.
Qed.

(** The limbs: the eight main ones follow each other and cover the actuated joints 6 to 35 of the robot; each leg and
    each arm is made of its three parts; the left side is the right side shifted. *)
Theorem posture_limbs :
  let js l := match pfind postureRange l with Some r => r | None => [] end in
  (List.concat (map js ["rleg"; "lleg"; "chest"; "head"; "rarm"; "rhand"; "larm"; "lhand"]) = seq 6 30 /\
   map (fun l => length (js l)) ["rleg"; "lleg"; "chest"; "head"; "rarm"; "rhand"; "larm"; "lhand"] = [6; 6; 2; 2; 6; 1; 6; 1] /\
   js "rleg" = List.concat [js "rhip"; js "rknee"; js "rankle"] /\ js "lleg" = List.concat [js "lhip"; js "lknee"; js "lankle"] /\
   js "rarm" = List.concat [js "rshoulder"; js "relbow"; js "rwrist"] /\ js "larm" = List.concat [js "lshoulder"; js "lelbow"; js "lwrist"] /\
   map (fun l => length (js l)) ["rhip"; "rknee"; "rankle"; "rshoulder"; "relbow"; "rwrist"] = [3; 1; 2; 3; 1; 2] /\
   (forall p, In p [("lleg", "rleg"); ("lhip", "rhip"); ("lknee", "rknee"); ("lankle", "rankle")] -> js (fst p) = map (fun i => i + 6) (js (snd p))) /\
   (forall p, In p [("larm", "rarm"); ("lshoulder", "rshoulder"); ("lelbow", "relbow"); ("lwrist", "rwrist"); ("lhand", "rhand")] ->
      js (fst p) = map (fun i => i + 7) (js (snd p))))%nat%string.
Proof.
  cbn zeta. repeat apply conj; try reflexivity.
  - intros p Hp. repeat (destruct Hp as [<-|Hp]; [reflexivity|]). destruct Hp.
  - intros p Hp. repeat (destruct Hp as [<-|Hp]; [reflexivity|]). destruct Hp.
Qed.

(** On a robot of at least 36 coordinates every limb can be named, without values or with one per joint. *)
Theorem gotoq_humanoid npos (h : list call) t gain kws :
  (36 <= npos)%nat ->
  (forall limb j, In (limb, j) kws -> exists rng, joints limb rng /\ (values j = None \/ exists l, values j = Some l /\ (length l = length rng \/ length l = 1%nat))) ->
  r_end (gotoq npos (calls npos h None) t gain QNone kws) = Ok tt.
Proof.
  intros Hn HK. apply gotoq_one_size. intros limb j I. destruct (HK limb j I) as (rng & J & V). exists rng. split; [exact J|].
  assert (B : forall i, In i rng -> (i < npos)%nat).
  { assert (G : Forall (fun p : string * list nat => Forall (fun i => (i < 36)%nat) (snd p)) postureRange).
    { unfold postureRange. repeat (apply Forall_cons; [cbn; repeat (apply Forall_cons; [lia|]); apply Forall_nil|]). apply Forall_nil. }
    rewrite Forall_forall in G. specialize (G _ (pfind_in _ _ _ J)). rewrite Forall_forall in G. intros i Hi. specialize (G i Hi). lia. }
  split; [exact B|]. intros l E. split; [exact B|]. destruct V as [V|(l' & V & C)]; [congruence|]. rewrite V in E. injection E as <-. exact C.
Qed.

(** Finding: a call with a posture raises as long as no call without one was made by any posture task. *)
Theorem gotoq_first_posture_refuted : forall npos t gain q kws, q <> QNone ->
  r_end (gotoq npos None t gain q kws) <> Ok tt /\ r_nbDof (gotoq npos None t gain q kws) = None.
Proof. intros npos t gain q kws Q. destruct (gotoq_no_dof npos t gain q kws Q) as (E & _ & N). rewrite E, N. split; [discriminate|reflexivity]. Qed.

(** Finding: the size is shared by all robots.  After a call for a robot of 7 coordinates, a call for a robot of 8 sets a
    reference of 7. *)
Theorem gotoq_two_robots_refuted : exists t gain kws1 kws2,
  let r1 := gotoq 7 None t gain QNone kws1 in
  let r2 := gotoq 8 (r_nbDof r1) t gain QNone kws2 in
  r_end r1 = Ok tt /\ r_end r2 = Ok tt /\ length (p_ref (r_task r2)) = 7%nat.
Proof.
  exists (mkPtask [] (of_vector []) (a_init1 1)), GNone, [], []. cbn zeta.
  split; [reflexivity|]. split; [reflexivity|]. cbn. reflexivity.
Qed.

(** Finding: a posture given as a tuple of integers makes every value of a limb be truncated. *)
Theorem gotoq_integers_refuted : exists t q kws x,
  let r := gotoq 10 (Some 10%nat) t GNone q kws in
  r_end r = Ok tt /\ asked kws 9 x /\ x = 1 / 2 /\ nth_error (p_ref (r_task r)) 9 = Some 0.
Proof.
  exists (mkPtask [] (of_vector []) (a_init1 1)), (QTuple (repeat (PInt 0) 10)), [("rknee"%string, JList [1 / 2])], (1 / 2).
  cbn zeta. split; [reflexivity|]. split.
  { exists [], "rknee"%string, (JList [1 / 2]), [], [9%nat], 0%nat. split; [reflexivity|]. split; [reflexivity|]. split; [reflexivity|].
    split; [exists [1 / 2]; cbn; auto|]. intros l j r []. }
  split; [reflexivity|].
  cbn. unfold truncate. destruct (Rle_dec 0 (1 / 2)); [|lra]. f_equal.
  destruct (base_Int_part (1 / 2)) as [B1 B2].
  assert (Int_part (1 / 2) = 0%Z) as ->; [|reflexivity].
  assert (IZR (Int_part (1 / 2)) < 1) as B3 by lra. assert (IZR (Int_part (1 / 2)) > -1) as B4 by lra.
  apply lt_IZR in B3. apply lt_IZR in B4. lia.
Qed.

(** Finding: a call without limbs selects no joint at all, whatever posture is asked. *)
Theorem gotoq_no_limb_refuted : forall npos n t gain q, (0 < n)%nat ->
  let r := gotoq npos (Some n) t gain q [] in
  r_end r = Ok tt /\ forall i, at_ (p_selec (r_task r)) (Z.of_nat i) = Ok false.
Proof.
  intros npos n t gain q Hn. cbn zeta. assert (D : dof npos (Some n) q n) by now left.
  pose proof (gotoq_unfold npos (Some n) t gain q [] n D) as G. cbn [limb_loop] in G. destruct G as (-> & _ & _ & ->).
  split; [reflexivity|]. intros i. cbn [p_selec]. rewrite repeat_length. replace (0 <? n)%nat with true by (symmetry; apply Nat.ltb_lt; lia).
  unfold at_, of_vector. cbn [flags outOfRangeFlag]. rewrite repeat_length. destruct (Z.ltb_spec (Z.of_nat i) (Z.of_nat n)); [|reflexivity].
  destruct (Z.ltb_spec (Z.of_nat i) 0); [lia|]. rewrite Nat2Z.id. unfold vget. rewrite nth_error_repeat by lia. reflexivity.
Qed.

(** Finding: an array given as posture is modified, even by a call that raises. *)
Theorem gotoq_caller_array_refuted : exists t q kws q',
  let r := gotoq 10 (Some 10%nat) t GNone (QArray q) kws in
  r_end r = Throw "KeyError" /\ r_task r = t /\ r_array r = Some q' /\ q' <> q.
Proof.
  exists (mkPtask [] (of_vector []) (a_init1 1)), (repeat 0 10), [("rknee"%string, JNum 1); ("tail"%string, JNum 1)], (repeat 0 9 ++ [1]).
  cbn zeta. split; [reflexivity|]. split; [reflexivity|]. split; [reflexivity|]. cbn. intros E. injection E as E. lra.
Qed.

(** ** The gain *)

(** The gain after setGain, for every error: the number; the number; the curve from [v0] to [vinf] with slope [tan] at the
    origin; the curve that passes by the given point; unchanged otherwise. *)
Theorem set_gain g e :
  let gain v := a_computeGain (setGain g v) e in
  (forall x, gain (GNum x) = x) /\ (forall x, gain (GSeq [x]) = x) /\
  (forall v0 vinf tan, v0 <> vinf ->
     gain (GSeq [v0; vinf; tan]) = vinf + (v0 - vinf) * exp (- (tan / (v0 - vinf)) * norm e)) /\
  (forall v0 vinf x p, x <> 0 -> 0 < p -> norm e = x -> gain (GSeq [v0; vinf; x; p]) = vinf + p * (v0 - vinf)) /\
  (forall v0 vinf x p, norm e = 0 -> gain (GSeq [v0; vinf; x; p]) = v0) /\
  gain GNone = a_computeGain g e.
Proof.
  cbn zeta. split; [intros x; exact (adaptive_constant g [] x e)|]. split; [intros x; exact (adaptive_constant g [] x e)|].
  split. { intros v0 vinf tan Hv. cbn [setGain a_exec]. unfold a_computeGain, a_init. cbn.
    destruct (Req_EM_T 0 (v0 - vinf)); [lra|]. apply Rplus_comm. }
  split. { intros v0 vinf x p Hx Hp He. exact (adaptive_passing_point g [] v0 vinf x p e Hx Hp He). }
  split; [|reflexivity]. intros v0 vinf x p He. apply (adaptive_passing_point_zero g [] v0 vinf x p e). now apply norm_zero_iff.
Qed.

(** Finding: a sequence of two values, or of more than four, is ignored without a word. *)
Theorem set_gain_ignored_refuted : forall g l, length l = 2%nat \/ length l = 0%nat \/ (4 < length l)%nat -> setGain g (GSeq l) = g.
Proof. intros g l L. do 5 (destruct l as [|? l]; [cbn in L; try reflexivity; exfalso; lia|]). reflexivity. Qed.

(** ** The desired pose *)

(** Three numbers (tuple, array, or row) give the pose at this point without rotation; six numbers, the pose at the
    first three with the rotation of roll, pitch and yaw the last three; four rows of four, this matrix. *)
Theorem reference_pose x y z r p w a b c d :
  let point := Ok [[1; 0; 0; x]; [0; 1; 0; y]; [0; 0; 1; z]; [0; 0; 0; 1]] in
  let R := rpy_rotation r p w in
  let pose := Ok [[m00 R; m01 R; m02 R; x]; [m10 R; m11 R; m12 R; y]; [m20 R; m21 R; m22 R; z]; [0; 0; 0; 1]] in
  generic6dReference (PNums [x; y; z]) = point /\ generic6dReference (PArr (Arr1 [x; y; z])) = point /\
  generic6dReference (PArr (Arr2 3 [[x; y; z]])) = point /\
  generic6dReference (PNums [x; y; z; r; p; w]) = pose /\ generic6dReference (PArr (Arr1 [x; y; z; r; p; w])) = pose /\
  (Forall (fun l => length l = 4%nat) [a; b; c; d] ->
     generic6dReference (PArr (Arr2 4 [a; b; c; d])) = Ok [a; b; c; d] /\ generic6dReference (PRows [a; b; c; d]) = Ok [a; b; c; d]).
Proof.
  cbn zeta. split; [reflexivity|]. split; [reflexivity|]. split; [reflexivity|].
  split. { cbn [generic6dReference from_six]. rewrite rpy2tr_rotation. reflexivity. }
  split. { cbn [generic6dReference from_six]. rewrite rpy2tr_rotation. reflexivity. }
  intros F. inversion F as [|? ? Fa F1]; subst. inversion F1 as [|? ? Fb F2]; subst. inversion F2 as [|? ? Fc F3]; subst. inversion F3 as [|? ? Fd F4]; subst.
  split.
  - destruct a as [|a0 [|a1 [|a2 [|a3 a]]]]; cbn in Fa; try lia. reflexivity.
  - cbn [generic6dReference]. rewrite Fa, Fb, Fc, Fd. reflexivity.
Qed.

(** Finding: a position given as a list (or as any six numbers in a row, or with a wrong number of values, or as four rows
    that are not all of four) sends the task to
    the origin without an error. *)
Theorem reference_list_refuted t gain : exists t',
  goto6d t POther gain = Ok t' /\ g_ref t' = [[1; 0; 0; 0]; [0; 1; 0; 0]; [0; 0; 1; 0]; [0; 0; 0; 1]] /\
  (forall l, length l <> 3%nat -> length l <> 4%nat -> length l <> 6%nat -> generic6dReference (PNums l) = Ok (g_ref t')) /\
  (forall l, length l = 6%nat -> generic6dReference (PArr (Arr2 6 [l])) = Ok (g_ref t')) /\
  (forall a b c d, (exists r, In r [a; b; c; d] /\ length r <> 4%nat) -> generic6dReference (PRows [a; b; c; d]) = Ok (g_ref t')).
Proof.
  eexists. split; [reflexivity|]. split; [reflexivity|]. split; [|split].
  3: { intros a b c d (r & I & L). apply Nat.eqb_neq in L. cbn [generic6dReference].
       destruct I as [<-|[<-|[<-|[<-|[]]]]]; rewrite L, ?andb_false_r; reflexivity. }
  - intros l A B C. do 7 (destruct l as [|? l]; [cbn in *; try reflexivity; exfalso; lia|]). reflexivity.
  - intros l L. do 6 (destruct l as [|? l]; [discriminate|]). reflexivity.
Qed.

(** Finding: a column of three is refused. *)
Theorem reference_column_refuted x y z : exists e, generic6dReference (PArr (Arr2 1 [[x]; [y]; [z]])) = Throw e.
Proof. eexists. reflexivity. Qed.

(** goto6d: the pose is the reference, the six directions are selected, the gain is set; what the task was before only
    matters for the gain. *)
Theorem goto6d_effect t p gain m :
  generic6dReference p = Ok m ->
  exists t', goto6d t p gain = Ok t' /\ g_ref t' = m /\ g_gain t' = setGain (g_gain t) gain /\
    forall i, (0 <= i)%Z -> at_ (g_selec t') i = Ok (i <? 6)%Z.
Proof.
  intros E. unfold goto6d. rewrite E. eexists. split; [reflexivity|]. split; [reflexivity|]. split; [reflexivity|].
  intros i Hi. cbn [g_selec]. unfold at_. cbn [flags length outOfRangeFlag]. change (Z.of_nat 6) with 6%Z.
  destruct (Z.ltb_spec i 6) as [L|L]; [|reflexivity]. destruct (Z.ltb_spec i 0); [lia|].
  assert (C : i = 0%Z \/ i = 1%Z \/ i = 2%Z \/ i = 3%Z \/ i = 4%Z \/ i = 5%Z) by lia.
  repeat (destruct C as [->|C]; [reflexivity|]). subst i. reflexivity.
Qed.

(** gotoNd: the same with the selection asked for, or the one the task had. *)
Theorem gotoNd_effect t p gain m :
  generic6dReference p = Ok m ->
  (exists t', gotoNd t p None gain = Ok t' /\ g_ref t' = m /\ g_gain t' = setGain (g_gain t) gain /\ g_selec t' = g_selec t) /\
  (forall txt f, of_string txt = Ok f ->
     exists t', gotoNd t p (Some txt) gain = Ok t' /\ g_ref t' = m /\ g_gain t' = setGain (g_gain t) gain /\ g_selec t' = f).
Proof.
  intros E. unfold gotoNd. rewrite E. cbn [bind]. split.
  - eexists. split; [reflexivity|]. cbn. auto.
  - intros txt f F. rewrite F. eexists. split; [reflexivity|]. cbn. auto.
Qed.

(** ** Operational points *)
Fixpoint no_colon (s : string) : Prop := match s with EmptyString => True | String c r => c <> ":"%char /\ no_colon r end.
Definition has_colon := fix has_colon (t : string) : bool :=
  match t with EmptyString => false | String d u => Ascii.eqb d ":" || has_colon u end.
Lemma has_colon_no s : has_colon s = false <-> no_colon s.
Proof.
  induction s as [|c s IH]; cbn; [tauto|]. destruct (Ascii.eqb_spec c ":"); cbn [orb]; [split; [discriminate|tauto]|]. rewrite IH. tauto.
Qed.
Lemma has_colon_app a s : has_colon (a ++ String ":" s) = true.
Proof. induction a as [|c a IH]; cbn; [reflexivity|]. rewrite IH. apply orb_true_r. Qed.

(** The short name of a signal is what follows its last colon. *)
Theorem short_name_last s : no_colon s -> short_name s = s /\ forall a, short_name (a ++ ":" ++ s) = s.
Proof.
  intros N. assert (E : short_name s = s).
  { destruct s as [|c s]; [reflexivity|]. change (short_name (String c s)) with (if has_colon (String c s) then short_name s else String c s).
    apply has_colon_no in N. rewrite N. reflexivity. }
  split; [exact E|]. induction a as [|c a IH].
  - change (short_name ("" ++ ":" ++ s)) with (if has_colon (String ":" s) then short_name s else String ":" s). cbn [has_colon Ascii.eqb Bool.eqb orb]. exact E.
  - change (short_name (String c a ++ ":" ++ s)) with (if has_colon (String c (a ++ String ":" s)) then short_name (a ++ ":" ++ s) else String c (a ++ String ":" s)).
    change (String c (a ++ String ":" s)) with (String c a ++ String ":" s)%string. rewrite has_colon_app. exact IH.
Qed.

Lemma filter_count (names : list string) (f : string -> string) op : NoDup (map f names) ->
  length (filter (fun x => String.eqb (f x) op) names) = if in_dec string_dec op (map f names) then 1%nat else 0%nat.
Proof.
  induction names as [|x l IH]; intros ND; [reflexivity|]. cbn [map filter] in *. inversion ND as [|? ? Hn ND']; subst.
  specialize (IH ND'). destruct (String.eqb_spec (f x) op) as [<-|Hne].
  - cbn [length]. rewrite IH. destruct (in_dec string_dec (f x) (map f l)); [contradiction|].
    destruct (in_dec string_dec (f x) (f x :: map f l)) as [|C]; [reflexivity|]. exfalso. apply C. now left.
  - rewrite IH. destruct (in_dec string_dec op (map f l)) as [I|I], (in_dec string_dec op (f x :: map f l)) as [I'|I']; try reflexivity.
    + exfalso. apply I'. now right.
    + exfalso. destruct I' as [?|?]; congruence.
Qed.

(** The operational point is found exactly when the robot has both a signal of this name and one of its jacobian. *)
Theorem op_point_exist signals op : NoDup (map short_name signals) ->
  (opPointExist signals op = true <-> In op (map short_name signals) /\ In ("J" ++ op)%string (map short_name signals)).
Proof.
  intros ND. unfold opPointExist. rewrite !filter_count by exact ND.
  destruct (in_dec string_dec op (map short_name signals)), (in_dec string_dec ("J" ++ op)%string (map short_name signals)); cbn; intuition congruence.
Qed.

(** ** The modifier of the operational point *)
Definition run (h : list modifArg) (p : point) : point := fold_left (fun p a => fst (set_opmodif p a)) h p.

Definition linked (p : point) : Prop :=
  isEndEffector (modif p) = true /\ s_pos p = s_jac p /\ (activ p = true -> s_pos p = FromModif).
Lemma run_linked h : forall p, linked p -> linked (run h p).
Proof.
  induction h as [|a h IH]; intros p L; [exact L|]. cbn [run fold_left]. apply IH. destruct L as (E & S & A).
  destruct a as [|m|]; cbn [set_opmodif fst]; unfold linked; cbn [s_pos s_jac activ modif].
  - repeat split; auto. discriminate.
  - destruct (activ p) eqn:Ac; cbn [s_pos s_jac activ modif isEndEffector]; repeat split; auto.
  - destruct (activ p) eqn:Ac; cbn [s_pos s_jac activ modif]; [auto|]. repeat split; auto.
Qed.

(** The assignment raises exactly when setTransformation refuses its argument. *)
Theorem opmodif_raises h tr a : snd (set_opmodif (run h (point_init tr)) a) = true <-> a = MBad.
Proof. destruct a; cbn; split; congruence. Qed.

(** Whatever was assigned before, even without success: once a matrix is assigned the feature works on the point moved by this
    matrix in the frame of the operational point, its jacobian is the one of this point, and the attribute reads back
    the matrix; once False is assigned the feature works on the operational point of the robot. *)
Theorem opmodif_last tr h m :
  let p := run (h ++ [MMatrix m]) (point_init tr) in
  get_opmodif p = Some m /\ (forall pos, feature_position p pos = hmul pos m) /\
  (forall M j qd t, is_rigid m -> is_rot (lin (M t)) -> body_velocity M t (jvel j qd) ->
     body_velocity (fun s => feature_position p (M s)) t (jvel (feature_jacobian p (M t) j) qd)).
Proof.
  cbn zeta. unfold run. rewrite fold_left_app. cbn [fold_left]. change (fold_left _ h ?q) with (run h q).
  assert (L : linked (run h (point_init tr))) by (apply run_linked; repeat split; discriminate).
  set (p := run h (point_init tr)) in *. destruct L as (E & S & A).
  assert (F : exists p', fst (set_opmodif p (MMatrix m)) = p' /\ s_pos p' = FromModif /\ s_jac p' = FromModif /\ activ p' = true /\ modif p' = mkOpm m true).
  { eexists. split; [reflexivity|]. cbn [set_opmodif fst s_pos s_jac activ modif].
    destruct (activ p) eqn:Ac; cbn [s_pos s_jac modif]; rewrite ?E; repeat split; [auto|rewrite <- S; auto]. }
  destruct F as (p' & -> & F1 & F2 & F3 & F4). clearbody p.
  split. { unfold get_opmodif. rewrite F3, F4. reflexivity. }
  split. { intros pos. unfold feature_position. rewrite F1, F4. reflexivity. }
  intros M j qd t Hm Hr B. unfold feature_position, feature_jacobian. rewrite F1, F2, F4.
  apply op_point_jacobian_body; assumption.
Qed.
Theorem opmodif_false tr h :
  (let p := run (h ++ [MFalse]) (point_init tr) in
   get_opmodif p = None /\ (forall pos, feature_position p pos = pos) /\ (forall pos j, feature_jacobian p pos j = j)) /\
  (get_opmodif (point_init tr) = None /\ (forall pos, feature_position (point_init tr) pos = pos) /\ forall pos j, feature_jacobian (point_init tr) pos j = j).
Proof.
  split; [cbn zeta; unfold run; rewrite fold_left_app; cbn [fold_left set_opmodif fst]|]; repeat split; reflexivity.
Qed.
(** A refused assignment has no effect when a matrix is in use. *)
Theorem opmodif_refused tr h m :
  let p := run (h ++ [MMatrix m]) (point_init tr) in set_opmodif p MBad = (p, true).
Proof.
  cbn zeta. pose proof (opmodif_last tr h m) as (G & _). cbn zeta in G. unfold get_opmodif in G.
  cbn [set_opmodif]. destruct (activ (run (h ++ [MMatrix m]) (point_init tr))) eqn:A; [reflexivity|discriminate].
Qed.
(** Finding: without a matrix in use, a refused assignment plugs the modifier with the matrix of an earlier assignment, and the
    attribute still reads False. *)
Theorem opmodif_refused_refuted tr h m :
  let p := run (h ++ [MMatrix m; MFalse]) (point_init tr) in
  let (p', raised) := set_opmodif p MBad in
  raised = true /\ get_opmodif p' = None /\ forall pos, feature_position p' pos = hmul pos m.
Proof.
  cbn zeta. unfold run. rewrite fold_left_app. cbn. repeat split.
Qed.

(** The two points of a relative task do not interfere. *)
Theorem relative_points_independent (h : list relcmd) (o b : point) :
  fold_left rel_exec h (mkRel o b) =
  mkRel (run (flat_map (fun c => match c with SetOp a => [a] | SetBase _ => [] end) h) o)
        (run (flat_map (fun c => match c with SetOp _ => [] | SetBase a => [a] end) h) b).
Proof.
  revert o b. induction h as [|c h IH]; intros o b; [reflexivity|]. cbn [fold_left flat_map]. destruct c; cbn [rel_exec other base app]; rewrite IH; reflexivity.
Qed.

(** ** Examples *)
Example gotoq_example :
  let t := mkPtask [] (of_vector []) (a_init1 1) in
  let kws := [("rarm", JList [1; 2; 3; 4; 5; 6]); ("rwrist", JNum 7); ("head", JList [])]%string in
  let r := gotoq 36 None t (GNum 3) QNone kws in
  r_end r = Ok tt /\ r_nbDof r = Some 36%nat /\
  p_ref (r_task r) = repeat 0 22 ++ [1; 2; 3; 4; 7; 7] ++ repeat 0 8 /\
  (forall i, at_ (p_selec (r_task r)) (Z.of_nat i) = Ok true <-> named kws i) /\
  named kws 20 /\ ~ named kws 30 /\ asked kws 26 7 /\ untouched kws 20.
Proof.
  cbn zeta. split; [reflexivity|]. split; [reflexivity|]. split; [reflexivity|].
  match goal with |- context [r_task ?r] => assert (E : r_end r = Ok tt) by reflexivity; pose proof (gotoq_effect _ _ _ _ _ _ E) as G; cbn zeta in G end.
  destruct G as (n & _ & N & _ & _ & _ & _ & A & _). change (Some 36%nat = Some n) in N. injection N as <-. split; [apply A; lia|]. clear A E.
  split; [exists "head"%string, (JList []), [20; 21]%nat; split; [right; right; now left|]; split; [reflexivity|now left]|].
  split. { intros (l & j & rng & I & J & Ir). repeat (destruct I as [I|I]; [injection I as <- <-; vm_compute in J; injection J as <-; cbn in Ir; lia|]). destruct I. }
  split.
  - exists [("rarm"%string, JList [1; 2; 3; 4; 5; 6])], "rwrist"%string, (JNum 7), [("head"%string, JList [])], [26; 27]%nat, 0%nat.
    split; [reflexivity|]. split; [reflexivity|]. split; [reflexivity|]. split; [exists [7]; cbn; auto|].
    intros l j rng [I|[]] _ _. injection I as _ <-. reflexivity.
  - intros l j rng I J Ir. repeat (destruct I as [I|I]; [injection I as <- <-; vm_compute in J; injection J as <-; cbn in Ir; try reflexivity; exfalso; lia|]). destruct I.
Qed.
Example opmodif_example :
  let m := H (axisMat AXIS_Z 1) (V3 1 2 3) in
  is_rigid m /\
  let p := run [MBad; MMatrix hid; MFalse; MMatrix m] (point_init hid) in
  get_opmodif p = Some m /\ feature_position p hid = m.
Proof.
  cbn zeta. split; [|split].
  - apply axisMat_rot.
  - reflexivity.
  - destruct (opmodif_last hid [MBad; MMatrix hid; MFalse] (H (axisMat AXIS_Z 1) (V3 1 2 3))) as (_ & P & _). cbn [app] in P. rewrite P.
    apply hmul_id_l.
Qed.

Print Assumptions gotoq_returns.
Print Assumptions gotoq_all_or_nothing.
Print Assumptions gotoq_effect.
Print Assumptions gotoq_error.
Print Assumptions gotoq_one_size.
Print Assumptions posture_limbs.
Print Assumptions gotoq_humanoid.
Print Assumptions gotoq_first_posture_refuted.
Print Assumptions gotoq_two_robots_refuted.
Print Assumptions gotoq_integers_refuted.
Print Assumptions gotoq_no_limb_refuted.
Print Assumptions gotoq_caller_array_refuted.
Print Assumptions set_gain.
Print Assumptions set_gain_ignored_refuted.
Print Assumptions reference_pose.
Print Assumptions reference_list_refuted.
Print Assumptions reference_column_refuted.
Print Assumptions goto6d_effect.
Print Assumptions gotoNd_effect.
Print Assumptions short_name_last.
Print Assumptions op_point_exist.
Print Assumptions opmodif_last.
Print Assumptions opmodif_false.
Print Assumptions opmodif_refused.
Print Assumptions opmodif_refused_refuted.
Print Assumptions relative_points_independent.
Print Assumptions opmodif_raises.
