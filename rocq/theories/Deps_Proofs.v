(** Proofs about cached signals and declared dependencies. *)
From Coq Require Import String List Arith Lia Bool.
From Verif Require Import Deps_Model.
Import ListNotations.

(** The signals of a network have distinct names, and each is written after
    the output signals it declares or reads. *)
Definition wf (n : net) : Prop :=
  NoDup (names n) /\
  forall pre x post, n = pre ++ x :: post ->
    forall y, In y (s_decl x ++ s_reads x) -> In y (names n) -> In y (names pre).

(** An event assigns inputs only, and a signal that is read has the output
    signals it declares or reads brought up to date as well. *)
Definition event_ok {V} (n : net) (e : event V) : Prop :=
  (forall p, In p (sets e) -> ~ In (fst p) (names n)) /\
  (forall x y, In x n -> touch e (s_name x) = true ->
     In y (s_decl x ++ s_reads x) -> In y (names n) -> touch e y = true).

(** The output signals a signal reads, directly or not, itself included. *)
Inductive uses (n : net) : string -> string -> Prop :=
| uses_self o : In o (names n) -> uses n o o
| uses_read x y z : In x n -> In y (s_reads x) -> uses n y z -> uses n (s_name x) z.

(** Every signal a signal uses declares, directly or not, every input it
    reads, directly or not. *)
Definition complete (n : net) (o : string) : Prop :=
  forall x, uses n o x -> forall i, reaches s_reads n x i -> reaches s_decl n x i.

Lemma in_names : forall n x, In x n -> In (s_name x) (names n).
Proof. intros. unfold names. now apply in_map. Qed.

Lemma names_in : forall n o, In o (names n) -> exists x, In x n /\ s_name x = o.
Proof. intros n o H. apply in_map_iff in H. destruct H as (x & E & I). eauto. Qed.

Lemma same_name : forall n x y, NoDup (names n) -> In x n -> In y n -> s_name x = s_name y -> x = y.
Proof.
  induction n as [|z n IH]; cbn; intros x y ND Hx Hy E; [easy|].
  inversion ND; subst. destruct Hx as [<-|Hx], Hy as [<-|Hy]; auto.
  - exfalso. apply H1. rewrite E. now apply in_names.
  - exfalso. apply H1. rewrite <- E. now apply in_names.
Qed.

Lemma reaches_out : forall sel n o i, reaches sel n o i -> In o (names n).
Proof. intros. inversion H; subst; now apply in_names. Qed.

Lemma reaches_in : forall sel n o i, reaches sel n o i -> ~ In i (names n).
Proof. induction 1; auto. Qed.

Lemma reaches_inv : forall sel n x i, NoDup (names n) -> In x n -> reaches sel n (s_name x) i ->
  (In i (sel x) /\ ~ In i (names n)) \/
  (exists y, In y n /\ In (s_name y) (sel x) /\ reaches sel n (s_name y) i).
Proof.
  intros sel n x i ND Hx R. remember (s_name x) as o. destruct R as [x' i Hx' Hi Hn|x' y i Hx' Hy R].
  - assert (x' = x) by (eapply same_name; eauto). subst. auto.
  - assert (x' = x) by (eapply same_name; eauto). subst. right.
    destruct (names_in _ _ (reaches_out _ _ _ _ R)) as (z & Hz & E). exists z. rewrite E. auto.
Qed.

Lemma wf_ind : forall n (Q : sig -> Prop), wf n ->
  (forall x, In x n ->
     (forall y, In y n -> In (s_name y) (s_decl x ++ s_reads x) -> Q y) -> Q x) ->
  forall x, In x n -> Q x.
Proof.
  intros n Q [ND W] H.
  assert (P : forall k pre post, n = pre ++ post -> length pre = k -> forall x, In x pre -> Q x).
  { induction k as [|k IH]; intros pre post E L x Hx.
    - destruct pre; [easy|discriminate].
    - destruct (exists_last (l := pre)) as (pre' & z & ->); [destruct pre; discriminate|].
      rewrite app_length in L. cbn in L. rewrite <- app_assoc in E. cbn in E.
      assert (IHp : forall x, In x pre' -> Q x) by (eapply IH; [exact E|lia]).
      apply in_app_or in Hx. destruct Hx as [Hx|[<-|[]]]; [now apply IHp|].
      apply H; [rewrite E; apply in_or_app; right; now left|].
      intros y Hy Hd. apply IHp.
      pose proof (W _ _ _ E _ Hd (in_names _ _ Hy)) as Hp.
      destruct (names_in _ _ Hp) as (y' & Hy' & Ey).
      assert (y' = y); [|now subst].
      eapply same_name; [exact ND| |exact Hy|exact Ey]. rewrite E. apply in_or_app. now left. }
  intros x Hx. apply (P (length n) n []); [now rewrite app_nil_r|reflexivity|exact Hx].
Qed.

Section Facts.
  Context {V : Type} (f : string -> (string -> V) -> V).
  Variable n : net.
  Hypothesis W : wf n.
  Hypothesis R : respects f n.

  Lemma refresh_other : forall e s x y, y <> s_name x ->
    val (refresh f e s x) y = val s y /\ stamp (refresh f e s x) y = stamp s y.
  Proof.
    intros. unfold refresh.
    destruct (touch e (s_name x)); [|auto]. destruct (_ || _); [|auto].
    cbn. destruct (String.eqb_spec y (s_name x)); [contradiction|auto].
  Qed.

  Lemma refresh_now : forall e s x, now (refresh f e s x) = now s.
  Proof.
    intros. unfold refresh. destruct (touch _ _); [|auto]. now destruct (_ || _).
  Qed.

  Lemma pass_now : forall e l s, now (fold_left (refresh f e) l s) = now s.
  Proof. induction l; cbn; intros; [reflexivity|]. rewrite IHl. apply refresh_now. Qed.

  Lemma pass_other : forall e l s y, ~ In y (names l) ->
    val (fold_left (refresh f e) l s) y = val s y /\
    stamp (fold_left (refresh f e) l s) y = stamp s y.
  Proof.
    induction l as [|x l IH]; cbn; intros s y H; [auto|].
    destruct (IH (refresh f e s x) y) as [E1 E2]; [tauto|]. rewrite E1, E2.
    apply refresh_other. intros ->. tauto.
  Qed.

  Lemma names_app : forall a b, names (a ++ b) = (names a ++ names b)%list.
  Proof. intros. unfold names. apply map_app. Qed.

  (** What a pass does to an output signal, in terms of the final state. *)
  Lemma pass_char : forall e s0 x, event_ok n e -> In x n ->
    let sF := fold_left (refresh f e) n s0 in
    let again := touch e (s_name x) = true /\
                 (stamp s0 (s_name x) = 0 \/
                  (exists d, In d (s_decl x) /\ stamp s0 (s_name x) < stamp sF d) \/
                  extra e (s_name x) = true) in
    (again /\ val sF (s_name x) = f (s_name x) (val sF) /\ stamp sF (s_name x) = now s0) \/
    (~ again /\ val sF (s_name x) = val s0 (s_name x) /\
     stamp sF (s_name x) = stamp s0 (s_name x)).
  Proof.
    intros e s0 x OK Hx sF again. destruct W as [ND Wf].
    apply in_split in Hx as E. destruct E as (pre & post & E).
    assert (ND' := ND). rewrite E, names_app in ND'. cbn in ND'.
    apply NoDup_remove in ND' as [ND1 ND2].
    set (s1 := fold_left (refresh f e) pre s0).
    set (s2 := refresh f e s1 x).
    assert (EF : sF = fold_left (refresh f e) post s2).
    { unfold sF. rewrite E, fold_left_app. reflexivity. }
    assert (Hpre : ~ In (s_name x) (names pre)) by (intro; apply ND2, in_or_app; auto).
    assert (Hpost : ~ In (s_name x) (names post)) by (intro; apply ND2, in_or_app; auto).
    assert (S1x : val s1 (s_name x) = val s0 (s_name x) /\ stamp s1 (s_name x) = stamp s0 (s_name x))
      by (apply pass_other; auto).
    assert (S1y : forall y, In y (s_decl x ++ s_reads x) ->
              val sF y = val s1 y /\ stamp sF y = stamp s1 y).
    { intros y Hy.
      assert (Hy1 : y <> s_name x /\ ~ In y (names post)).
      { destruct (in_dec string_dec y (names n)) as [Hn|Hn].
        - pose proof (Wf _ _ _ E _ Hy Hn) as Hp. split; [intros ->; contradiction|].
          intros Hq. clear -ND1 Hp Hq. induction (names pre) as [|a l IH]; [easy|].
          cbn in ND1. inversion ND1; subst. destruct Hp as [<-|Hp]; [|auto].
          apply H1, in_or_app; auto.
        - rewrite E, names_app in Hn. cbn in Hn. split.
          + intros ->. apply Hn, in_or_app. right. now left.
          + intros Hq. apply Hn, in_or_app. right. now right. }
      destruct Hy1 as [Hy1 Hy2].
      destruct (pass_other e post s2 y Hy2) as [A B]. rewrite EF, A, B.
      apply refresh_other, Hy1. }
    destruct (pass_other e post s2 (s_name x) Hpost) as [A B]. rewrite <- EF in A, B.
    assert (M : (touch e (s_name x) = true /\ must s1 x || extra e (s_name x) = true) <-> again).
    { unfold again. rewrite orb_true_iff. unfold must. rewrite orb_true_iff, Nat.eqb_eq.
      destruct S1x as [_ S1s]. rewrite S1s. rewrite existsb_exists.
      split; intros [T D]; (split; [exact T|]).
      - destruct D as [[D|(d & Hd & L)]|D]; auto. right; left. exists d. split; [exact Hd|].
        apply Nat.ltb_lt in L. destruct (S1y d) as [_ ->]; [apply in_or_app; auto|]. exact L.
      - destruct D as [D|[(d & Hd & L)|D]]; auto. left; right. exists d. split; [exact Hd|].
        apply Nat.ltb_lt. destruct (S1y d) as [_ Q]; [apply in_or_app; auto|]. now rewrite <- Q. }
    unfold s2, refresh in A, B.
    destruct (touch e (s_name x)) eqn:T.
    2:{ right. split; [intros [Q _]; discriminate|]. rewrite A, B. exact S1x. }
    destruct (must s1 x || extra e (s_name x)) eqn:Mu.
    - left. split; [apply M; auto|]. cbn in A, B. rewrite String.eqb_refl in A, B.
      rewrite A, B. split; [|apply pass_now]. apply R; [rewrite E; apply in_or_app; right; now left|].
      intros y Hy. symmetry. apply S1y, in_or_app. auto.
    - right. split; [intros Q; apply M in Q; destruct Q; discriminate|]. rewrite A, B. exact S1x.
  Qed.

  Lemma ideal_other : forall l v y, ~ In y (names l) -> ideal f l v y = v y.
  Proof.
    unfold ideal. induction l as [|x l IH]; cbn; intros v y H; [auto|]. rewrite IH by tauto.
    destruct (String.eqb_spec y (s_name x)); [subst; tauto|auto].
  Qed.

  Lemma ideal_char : forall v x, In x n -> ideal f n v (s_name x) = f (s_name x) (ideal f n v).
  Proof.
    intros v x Hx. destruct W as [ND Wf].
    apply in_split in Hx as E. destruct E as (pre & post & E).
    assert (ND' := ND). rewrite E, names_app in ND'. cbn in ND'.
    apply NoDup_remove in ND' as [ND1 ND2].
    assert (Hpost : ~ In (s_name x) (names post)) by (intro; apply ND2, in_or_app; auto).
    set (v1 := ideal f pre v).
    set (v2 := fun y => if String.eqb y (s_name x) then f (s_name x) v1 else v1 y).
    assert (EF : ideal f n v = ideal f post v2).
    { rewrite E. unfold ideal. rewrite fold_left_app. reflexivity. }
    transitivity (ideal f post v2 (s_name x)); [now rewrite EF|].
    rewrite (ideal_other post) by exact Hpost. unfold v2 at 1. rewrite String.eqb_refl.
    apply R; [rewrite E; apply in_or_app; right; now left|]. intros y Hy.
    assert (Hy1 : y <> s_name x /\ ~ In y (names post)).
    { destruct (in_dec string_dec y (names n)) as [Hn|Hn].
      - assert (Hp : In y (names pre)) by (eapply Wf; [exact E|apply in_or_app; auto|exact Hn]).
        split; [intros ->; apply ND2, in_or_app; auto|].
        intros Hq. clear -ND1 Hp Hq. induction (names pre) as [|a l IH]; [easy|].
        cbn in ND1. inversion ND1; subst. destruct Hp as [<-|Hp]; [|auto].
        apply H1, in_or_app; auto.
      - rewrite E, names_app in Hn. cbn in Hn. split.
        + intros ->. apply Hn, in_or_app. right. now left.
        + intros Hq. apply Hn, in_or_app. right. now right. }
    destruct Hy1 as [Hy1 Hy2]. rewrite EF, ideal_other by exact Hy2. unfold v2.
    destruct (String.eqb_spec y (s_name x)); [contradiction|reflexivity].
  Qed.

  Lemma ideal_input : forall v i, ~ In i (names n) -> ideal f n v i = v i.
  Proof. intros. now apply ideal_other. Qed.

  (** The value of a signal rests on the inputs it reads, directly or not. *)
  Lemma ideal_ext : forall v w x, In x n ->
    (forall i, reaches s_reads n (s_name x) i -> v i = w i) ->
    ideal f n v (s_name x) = ideal f n w (s_name x).
  Proof.
    intros v w. apply (wf_ind n (fun x => (forall i, reaches s_reads n (s_name x) i -> v i = w i) ->
      ideal f n v (s_name x) = ideal f n w (s_name x)) W).
    intros x Hx IH H. rewrite !ideal_char by exact Hx. apply R; [exact Hx|]. intros y Hy.
    destruct (in_dec string_dec y (names n)) as [Hn|Hn].
    - destruct (names_in _ _ Hn) as (z & Hz & Ez). rewrite <- Ez. apply IH; [exact Hz| |].
      + rewrite Ez. apply in_or_app. auto.
      + intros i Hi. apply H. eapply reach_out; [exact Hx| |exact Hi]. now rewrite Ez.
    - rewrite !ideal_input by exact Hn. apply H. now apply reach_input.
  Qed.

  Lemma assign_now : forall l (s : state V), now (assign s l) = now s.
  Proof. unfold assign. induction l; cbn; intros; [reflexivity|]. now rewrite IHl. Qed.

  Lemma assign_other : forall l (s : state V) y, ~ In y (map fst l) ->
    val (assign s l) y = val s y /\ stamp (assign s l) y = stamp s y.
  Proof.
    unfold assign. induction l as [|p l IH]; cbn; intros s y H; [auto|].
    destruct (IH (set_at s (fst p) (snd p)) y) as [A B]; [tauto|]. rewrite A, B. cbn.
    destruct (String.eqb_spec y (fst p)); [subst; tauto|auto].
  Qed.

  Lemma assign_set : forall l (s : state V) y, In y (map fst l) -> stamp (assign s l) y = now s.
  Proof.
    unfold assign. induction l as [|p l IH]; cbn; intros s y H; [easy|].
    destruct (in_dec string_dec y (map fst l)) as [Hl|Hl].
    - now rewrite IH.
    - destruct (assign_other l (set_at s (fst p) (snd p)) y Hl) as [_ B].
      unfold assign in B. rewrite B. cbn. destruct H as [->|H]; [|contradiction].
      now rewrite String.eqb_refl.
  Qed.

  Definition inv (s : state V) : Prop :=
    (forall y, stamp s y <= now s) /\
    forall x, In x n -> complete n (s_name x) -> stamp s (s_name x) <> 0 ->
      exists w, val s (s_name x) = ideal f n w (s_name x) /\
        forall i, ~ In i (names n) -> stamp s i <= stamp s (s_name x) -> w i = val s i.

  Lemma complete_read : forall x y, In x n -> complete n (s_name x) -> In (s_name y) (s_reads x) ->
    complete n (s_name y).
  Proof. intros x y Hx C Hy z U. apply C. eapply uses_read; eauto. Qed.

  Lemma inv_occur : forall s e, event_ok n e -> inv s ->
    inv (occur f n s e) /\
    forall x, In x n -> complete n (s_name x) -> touch e (s_name x) = true ->
      val (occur f n s e) (s_name x) = ideal f n (val (occur f n s e)) (s_name x).
  Proof.
    intros s e OK [Ib Iw]. unfold occur. set (s0 := assign (tick s) (sets e)).
    set (sF := fold_left (refresh f e) n s0).
    assert (N0 : now s0 = S (now s)) by (unfold s0; now rewrite assign_now).
    assert (NF : now sF = S (now s)) by (unfold sF; now rewrite pass_now).
    assert (B0 : forall y, stamp s0 y <= S (now s)).
    { intros y. unfold s0. destruct (in_dec string_dec y (map fst (sets e))) as [H|H].
      - rewrite assign_set by exact H. cbn. lia.
      - destruct (assign_other (sets e) (tick s) y H) as [_ ->]. cbn. specialize (Ib y). lia. }
    assert (O0 : forall y, In y (names n) -> val s0 y = val s y /\ stamp s0 y = stamp s y).
    { intros y Hy. unfold s0. destruct (assign_other (sets e) (tick s) y) as [-> ->]; [|auto].
      intros H. apply in_map_iff in H. destruct H as (p & <- & Hp). destruct OK as [OK _].
      exact (OK p Hp Hy). }
    assert (IF : forall i, ~ In i (names n) -> val sF i = val s0 i /\ stamp sF i = stamp s0 i).
    { intros i Hi. unfold sF. now apply pass_other. }
    assert (BF : forall y, stamp sF y <= S (now s)).
    { intros y. destruct (in_dec string_dec y (names n)) as [Hn|Hn].
      - destruct (names_in _ _ Hn) as (x & Hx & <-).
        destruct (pass_char e s0 x OK Hx) as [(_ & _ & Q)|(_ & _ & Q)]; fold sF in Q; rewrite Q.
        + lia.
        + apply B0.
      - destruct (IF y Hn) as [_ ->]. apply B0. }
    assert (I0 : forall x, In x n -> complete n (s_name x) -> stamp s0 (s_name x) <> 0 ->
      exists w, val s0 (s_name x) = ideal f n w (s_name x) /\
        forall i, ~ In i (names n) -> stamp s0 i <= stamp s0 (s_name x) -> w i = val s0 i).
    { intros x Hx Cx Sx. destruct (O0 _ (in_names _ _ Hx)) as [Ev Es]. rewrite Es in Sx.
      destruct (Iw x Hx Cx Sx) as (w & E & H). exists w. rewrite Ev, Es. split; [exact E|].
      intros i Hi L. unfold s0 in *. destruct (in_dec string_dec i (map fst (sets e))) as [Hs|Hs].
      - rewrite assign_set in L by exact Hs. cbn in L. specialize (Ib (s_name x)). lia.
      - destruct (assign_other (sets e) (tick s) i Hs) as [Q1 Q2]. rewrite Q2 in L. rewrite Q1.
        cbn in *. now apply H. }
    (* a signal that was read is at least as recent as the inputs it declares *)
    assert (C1 : forall x, In x n -> touch e (s_name x) = true ->
      stamp sF (s_name x) <> 0 /\
      forall i, reaches s_decl n (s_name x) i -> stamp sF i <= stamp sF (s_name x)).
    { apply (wf_ind n (fun x => touch e (s_name x) = true -> stamp sF (s_name x) <> 0 /\
        forall i, reaches s_decl n (s_name x) i -> stamp sF i <= stamp sF (s_name x)) W).
      intros x Hx IH T.
      destruct (pass_char e s0 x OK Hx) as [(_ & _ & Q)|(NA & _ & Q)]; fold sF in Q; rewrite Q.
      - rewrite N0. split; [lia|]. intros. apply BF.
      - split; [intros Z0; apply NA; auto|].
        assert (L : forall d, In d (s_decl x) -> stamp sF d <= stamp s0 (s_name x)).
        { intros d Hd. destruct (le_lt_dec (stamp sF d) (stamp s0 (s_name x))) as [|Lt]; [auto|].
          exfalso. apply NA. split; [exact T|]. right; left. exists d. fold sF. auto. }
        intros i Ri. destruct (reaches_inv _ _ _ _ (proj1 W) Hx Ri) as [[Hi _]|(y & Hy & Hd & Ry)].
        + now apply L.
        + assert (Ty : touch e (s_name y) = true).
          { eapply (proj2 OK); [exact Hx|exact T| |now apply in_names]. apply in_or_app. auto. }
          destruct (IH y Hy) as [_ IHy]; [apply in_or_app; auto|exact Ty|].
          transitivity (stamp sF (s_name y)); [now apply IHy|now apply L]. }
    assert (C2 : forall x, In x n -> complete n (s_name x) -> touch e (s_name x) = true ->
      val sF (s_name x) = ideal f n (val sF) (s_name x)).
    { apply (wf_ind n (fun x => complete n (s_name x) -> touch e (s_name x) = true ->
        val sF (s_name x) = ideal f n (val sF) (s_name x)) W).
      intros x Hx IH Cx T.
      destruct (pass_char e s0 x OK Hx) as [(_ & Q & _)|(_ & Q & Q')]; fold sF in Q; try fold sF in Q'.
      - rewrite Q, ideal_char by exact Hx. apply R; [exact Hx|]. intros y Hy.
        destruct (in_dec string_dec y (names n)) as [Hn|Hn].
        + destruct (names_in _ _ Hn) as (z & Hz & Ez). rewrite <- Ez.
          apply IH; [exact Hz|rewrite Ez; apply in_or_app; auto| |].
          * eapply complete_read; [exact Hx|exact Cx|now rewrite Ez].
          * rewrite Ez. eapply (proj2 OK); [exact Hx|exact T| |exact Hn]. apply in_or_app. auto.
        + now rewrite ideal_input.
      - destruct (C1 x Hx T) as [NZ L]. rewrite Q' in NZ, L.
        destruct (I0 x Hx Cx NZ) as (w & E & H). rewrite Q, E. apply ideal_ext; [exact Hx|].
        intros i Ri. assert (Hi := reaches_in _ _ _ _ Ri).
        destruct (IF i Hi) as [-> Si]. apply H; [exact Hi|]. rewrite <- Si. apply L.
        apply (Cx (s_name x)); [apply uses_self; now apply in_names|exact Ri]. }
    split; [|exact C2]. split; [intros; rewrite NF; apply BF|].
    intros x Hx Cx Sx. destruct (touch e (s_name x)) eqn:T.
    - exists (val sF). split; [now apply C2|auto].
    - destruct (pass_char e s0 x OK Hx) as [([Q _] & _)|(_ & Q & Q')]; [congruence|].
      fold sF in Q, Q'. rewrite Q' in Sx |- *. rewrite Q.
      destruct (I0 x Hx Cx Sx) as (w & E & H). exists w. split; [exact E|].
      intros i Hi Li. destruct (IF i Hi) as [Vi Si]. rewrite Si in Li. rewrite Vi. now apply H.
  Qed.

  Lemma inv_history : forall es v, Forall (event_ok n) es -> inv (history f n v es).
  Proof.
    intros es v. unfold history.
    assert (H0 : inv (start v)) by (split; [cbn; auto|intros x _ _ S0; now destruct S0]).
    revert H0. generalize (start v). induction es as [|e es IH]; cbn; intros s H F; [exact H|].
    inversion F; subst. apply IH; [|assumption]. now apply inv_occur.
  Qed.
End Facts.

(** * The converse: with functions that add up what they read. *)

Definition reads_of (n : net) (x : string) : list string :=
  match find (fun s => String.eqb (s_name s) x) n with Some s => s_reads s | None => [] end.

Definition sum (l : list nat) : nat := fold_right Nat.add 0 l.
Definition addup (n : net) (x : string) (v : string -> nat) : nat := sum (map v (reads_of n x)).

Lemma reads_of_in : forall n x, NoDup (names n) -> In x n -> reads_of n (s_name x) = s_reads x.
Proof.
  intros n x ND Hx. unfold reads_of.
  destruct (find (fun s => String.eqb (s_name s) (s_name x)) n) as [y|] eqn:E.
  - apply find_some in E. destruct E as [Hy E]. apply String.eqb_eq in E.
    now rewrite (same_name n y x ND Hy Hx E).
  - exfalso. pose proof (find_none _ _ E x Hx) as Q. cbn in Q. now rewrite String.eqb_refl in Q.
Qed.

Lemma addup_respects : forall n, NoDup (names n) -> respects (addup n) n.
Proof.
  intros n ND x v w Hx H. unfold addup. rewrite reads_of_in by auto. f_equal.
  apply map_ext_in. exact H.
Qed.

Lemma sum_cons : forall a l, sum (a :: l) = a + sum l.
Proof. reflexivity. Qed.

Lemma sum_le : forall (v w : string -> nat) l, (forall y, In y l -> v y <= w y) ->
  sum (map v l) <= sum (map w l).
Proof.
  induction l as [|a l IH]; cbn [map]; intros H; [lia|]. rewrite !sum_cons.
  assert (v a <= w a) by (apply H; now left). assert (sum (map v l) <= sum (map w l)) by (apply IH; intros; apply H; now right). lia.
Qed.

Lemma sum_lt : forall (v w : string -> nat) l z, (forall y, In y l -> v y <= w y) -> In z l ->
  v z < w z -> sum (map v l) < sum (map w l).
Proof.
  induction l as [|a l IH]; cbn [map]; intros z H Hz L; [easy|]. rewrite !sum_cons.
  assert (v a <= w a) by (apply H; now left).
  assert (sum (map v l) <= sum (map w l)) by (apply sum_le; intros; apply H; now right).
  destruct Hz as [->|Hz]; [lia|].
  assert (sum (map v l) < sum (map w l)) by (apply (IH z); auto; intros; apply H; now right). lia.
Qed.

Section Lazy.
  Variable n : net.
  Hypothesis W : wf n.

  (** Every output is read; nothing is computed unless it has to be. *)
  Definition lazy {V} (l : list (string * V)) : event V :=
    Ev l (fun _ => true) (fun _ => false).

  Lemma lazy_ok : forall V (l : list (string * V)),
    (forall p, In p l -> ~ In (fst p) (names n)) -> event_ok n (lazy l).
  Proof. intros V l H. split; [exact H|reflexivity]. Qed.

  Section Any.
  Context {V : Type} (f : string -> (string -> V) -> V).
  Hypothesis R : respects f n.

  (** After a first reading of everything, a second one in which only [i] was
      assigned leaves alone the signals that do not declare [i], directly or
      not. *)
  Lemma first_reading : forall v x, In x n ->
    let s := history f n v [lazy []] in
    val s (s_name x) = ideal f n v (s_name x) /\ stamp s (s_name x) = 1.
  Proof.
    intros v x Hx s. unfold s, history. cbn [fold_left]. unfold occur.
    change (assign (tick (start v)) (sets (lazy []))) with (tick (start v)).
    set (s0 := tick (start v)). set (sF := fold_left _ n s0).
    assert (OK : event_ok n (lazy (V := V) [])) by (apply lazy_ok; easy).
    assert (A : forall x, In x n -> val sF (s_name x) = f (s_name x) (val sF) /\ stamp sF (s_name x) = 1).
    { intros y Hy. destruct (pass_char f n W R _ s0 y OK Hy) as [(_ & Q1 & Q2)|(NA & _)].
      - auto.
      - exfalso. apply NA. split; [reflexivity|]. now left. }
    split; [|now apply A].
    assert (IF : forall i, ~ In i (names n) -> val sF i = v i).
    { intros i Hi. destruct (pass_other f (lazy []) n s0 i Hi) as [E _]. exact E. }
    revert x Hx. apply (wf_ind n (fun x => val sF (s_name x) = ideal f n v (s_name x)) W).
    intros x Hx IH. destruct (A x Hx) as [-> _]. rewrite ideal_char by auto. apply R; [exact Hx|].
    intros y Hy. destruct (in_dec string_dec y (names n)) as [Hn|Hn].
    - destruct (names_in _ _ Hn) as (z & Hz & Ez). rewrite <- Ez. apply IH; [exact Hz|].
      rewrite Ez. apply in_or_app. auto.
    - now rewrite IF, ideal_input.
  Qed.

  Lemma second_reading : forall v i c x, ~ In i (names n) -> In x n ->
    let s1 := history f n v [lazy []] in
    let s2 := history f n v [lazy []; lazy [(i, c)]] in
    (val s2 (s_name x) = f (s_name x) (val s2) \/ val s2 (s_name x) = val s1 (s_name x)) /\
    (~ reaches s_decl n (s_name x) i ->
       val s2 (s_name x) = val s1 (s_name x) /\ stamp s2 (s_name x) = 1).
  Proof.
    intros v i c x Hi Hx s1 s2.
    assert (E2 : s2 = fold_left (refresh f (lazy [(i, c)])) n (assign (tick s1) [(i, c)])) by reflexivity.
    set (s0 := assign (tick s1) [(i, c)]) in *.
    assert (OK : event_ok n (lazy [(i, c)])).
    { apply lazy_ok. intros p [<-|[]]. exact Hi. }
    assert (O0 : forall y, y <> i -> val s0 y = val s1 y /\ stamp s0 y = stamp s1 y).
    { intros y Hy. unfold s0. destruct (assign_other [(i, c)] (tick s1) y) as [-> ->]; [|auto].
      cbn. intros [E|[]]. now apply Hy. }
    assert (On : forall y, In y n -> s_name y <> i).
    { intros y Hy E. apply Hi. rewrite <- E. now apply in_names. }
    split.
    - destruct (pass_char f n W R _ s0 x OK Hx) as [(_ & Q & _)|(_ & Q & _)]; rewrite <- E2 in Q.
      + now left.
      + right. rewrite Q. apply O0. now apply On.
    - revert x Hx. apply (wf_ind n (fun x => ~ reaches s_decl n (s_name x) i ->
        val s2 (s_name x) = val s1 (s_name x) /\ stamp s2 (s_name x) = 1) W).
      intros x Hx IH NR.
      destruct (pass_char f n W R _ s0 x OK Hx) as [((_ & Q) & _)|(_ & Q & Q')]; rewrite <- ?E2 in *.
      + exfalso. destruct (O0 (s_name x) (On x Hx)) as [_ Sx].
        destruct (first_reading v x Hx) as [_ S1]. fold s1 in S1. rewrite S1 in Sx.
        destruct Q as [Q|[(d & Hd & L)|Q]]; [lia| |discriminate].
        rewrite Sx in L.
        destruct (in_dec string_dec d (names n)) as [Hn|Hn].
        * destruct (names_in _ _ Hn) as (z & Hz & Ez).
          destruct (IH z Hz) as [_ Q].
          -- rewrite Ez. apply in_or_app. auto.
          -- intros Rz. apply NR. eapply reach_out; [exact Hx| |exact Rz]. now rewrite Ez.
          -- rewrite Ez in Q. lia.
        * destruct (string_dec d i) as [->|Ne].
          -- apply NR. now apply reach_input.
          -- rewrite E2 in L. destruct (pass_other f (lazy [(i, c)]) n s0 d Hn) as [_ Q].
             rewrite Q in L. destruct (O0 d Ne) as [_ Q2]. rewrite Q2 in L.
             unfold s1 in L. destruct (pass_other f (lazy []) n (tick (start v)) d Hn) as [_ Q3].
             unfold history, occur in L. cbn [fold_left sets lazy] in L.
             change (assign (tick (start v)) []) with (tick (start v)) in L.
             rewrite Q3 in L. cbn in L. lia.
      + destruct (O0 (s_name x) (On x Hx)) as [V1 S1]. rewrite Q, Q', V1, S1.
        split; [reflexivity|]. now apply first_reading.
  Qed.

  Lemma second_inputs : forall v i c y, ~ In i (names n) -> ~ In y (names n) ->
    val (history f n v [lazy []; lazy [(i, c)]]) y = if String.eqb y i then c else v y.
  Proof.
    intros v i c y Hi Hy. unfold history. cbn [fold_left]. unfold occur at 1.
    destruct (pass_other f (lazy [(i, c)]) n
      (assign (tick (occur f n (start v) (lazy []))) (sets (lazy [(i, c)]))) y Hy) as [-> _].
    cbn. destruct (String.eqb y i); [reflexivity|].
    destruct (pass_other f (lazy []) n (tick (start v)) y Hy) as [E _]. exact E.
  Qed.
  End Any.

  Let v0 : string -> nat := fun _ => 0.

  Lemma ideal_zero : forall x, In x n -> ideal (addup n) n v0 (s_name x) = 0.
  Proof.
    assert (R := addup_respects n (proj1 W)).
    apply (wf_ind n (fun x => ideal (addup n) n v0 (s_name x) = 0) W).
    intros x Hx IH. rewrite ideal_char by auto. unfold addup at 1. rewrite reads_of_in by (auto; apply W).
    assert (Z0 : forall y, In y (s_reads x) -> ideal (addup n) n v0 y = 0).
    { intros y Hy. destruct (in_dec string_dec y (names n)) as [Hn|Hn].
      - destruct (names_in _ _ Hn) as (z & Hz & <-). apply IH; [exact Hz|]. apply in_or_app. auto.
      - now rewrite ideal_input. }
    clear IH. revert Z0. induction (s_reads x) as [|a l IHl]; cbn [map]; intros Z0; [reflexivity|].
    rewrite sum_cons, Z0 by now left. apply IHl. intros; apply Z0; now right.
  Qed.

  Lemma stale_uses : forall i x, ~ In i (names n) ->
    reaches s_reads n x i -> ~ reaches s_decl n x i ->
    forall o, uses n o x ->
    let s := history (addup n) n v0 [lazy []; lazy [(i, 1)]] in
    val s o < ideal (addup n) n (val s) o.
  Proof.
    intros i x Hi Rx Dx o U s. assert (R := addup_respects n (proj1 W)). destruct W as [ND _].
    assert (Vi : forall y, ~ In y (names n) -> val s y = if String.eqb y i then 1 else 0)
      by (intros; now apply second_inputs).
    assert (V1 : forall y, In y n -> val (history (addup n) n v0 [lazy []]) (s_name y) = 0).
    { intros y Hy. destruct (first_reading (addup n) R v0 y Hy) as [-> _]. now apply ideal_zero. }
    (* the values held never exceed those of the functions *)
    assert (LE : forall y, In y n -> val s (s_name y) <= ideal (addup n) n (val s) (s_name y)).
    { apply (wf_ind n (fun y => val s (s_name y) <= ideal (addup n) n (val s) (s_name y)) W).
      intros y Hy IH.
      destruct (second_reading (addup n) R v0 i 1 y Hi Hy) as [[Q|Q] _]; fold s in Q; rewrite Q.
      - rewrite ideal_char by auto. unfold addup at 1 2. rewrite reads_of_in by auto.
        apply sum_le. intros z Hz. destruct (in_dec string_dec z (names n)) as [Hn|Hn].
        + destruct (names_in _ _ Hn) as (t & Ht & <-). apply IH; [exact Ht|]. apply in_or_app. auto.
        + now rewrite ideal_input.
      - rewrite V1 by exact Hy. lia. }
    (* a function that reads [i], directly or not, has a positive value *)
    assert (POS : forall y j, reaches s_reads n y j -> j = i -> 0 < ideal (addup n) n (val s) y).
    { induction 1 as [y j Hy Hj Hn|y z j Hy Hz Rz IH]; intros ->.
      - rewrite ideal_char by auto. unfold addup at 1. rewrite reads_of_in by auto.
        apply Nat.le_lt_trans with (sum (map v0 (s_reads y))); [lia|].
        apply sum_lt with i; [intros; unfold v0; lia|exact Hj|].
        rewrite ideal_input by exact Hn. rewrite Vi by exact Hn. rewrite String.eqb_refl. unfold v0; lia.
      - rewrite ideal_char by auto. unfold addup at 1. rewrite reads_of_in by auto.
        apply Nat.le_lt_trans with (sum (map v0 (s_reads y))); [lia|].
        apply sum_lt with z; [intros; unfold v0; lia|exact Hz|]. unfold v0. now apply IH. }
    induction U as [o Ho|y z o Hy Hz U IH].
    - destruct (names_in _ _ Ho) as (y & Hy & <-).
      destruct (second_reading (addup n) R v0 i 1 y Hi Hy) as [_ Q]. fold s in Q.
      destruct (Q Dx) as [-> _]. rewrite V1 by exact Hy. now apply (POS _ i).
    - specialize (IH Rx Dx).
      destruct (second_reading (addup n) R v0 i 1 y Hi Hy) as [[Q|Q] _]; fold s in Q; rewrite Q.
      + rewrite ideal_char by auto. unfold addup at 1 2. rewrite reads_of_in by auto.
        apply sum_lt with z; [|exact Hz|exact IH]. intros t Ht.
        destruct (in_dec string_dec t (names n)) as [Hn|Hn].
        * destruct (names_in _ _ Hn) as (q & Hq & <-). now apply LE.
        * now rewrite ideal_input.
      + rewrite V1 by exact Hy. rewrite ideal_char by auto. unfold addup at 1. rewrite reads_of_in by auto.
        apply Nat.le_lt_trans with (sum (map v0 (s_reads y))); [lia|].
        apply sum_lt with z; [intros; unfold v0; lia|exact Hz|]. unfold v0. lia.
  Qed.
End Lazy.

(** * Deciding completeness. *)

Fixpoint lookup (tab : list (string * list string)) (x : string) : option (list string) :=
  match tab with
  | [] => None
  | (y, l) :: r => if String.eqb x y then Some l else lookup r x
  end.

(** The inputs reached from a list of names, given those of the signals before. *)
Definition expand (tab : list (string * list string)) (l : list string) : list string :=
  flat_map (fun y => match lookup tab y with Some m => m | None => [y] end) l.

Definition table (sel : sig -> list string) (n : net) : list (string * list string) :=
  fold_left (fun tab x => (s_name x, expand tab (sel x)) :: tab) n [].

Definition inputs_of (sel : sig -> list string) (n : net) (x : string) : list string :=
  match lookup (table sel n) x with Some l => l | None => [] end.

Definition subset (a b : list string) : bool :=
  forallb (fun x => existsb (String.eqb x) b) a.

Definition own_complete (n : net) (x : string) : bool :=
  subset (inputs_of s_reads n x) (inputs_of s_decl n x).

(** Completeness of every signal, given that of the signals before it. *)
Definition verdicts (n : net) : list (string * bool) :=
  fold_left (fun acc x =>
    (s_name x,
     own_complete n (s_name x)
     && forallb (fun y => match find (fun p => String.eqb y (fst p)) acc with
                          | Some p => snd p | None => true end) (s_reads x)) :: acc) n [].

Definition completeb (n : net) (x : string) : bool :=
  match find (fun p => String.eqb x (fst p)) (verdicts n) with Some p => snd p | None => false end.

Fixpoint wfb_aux (all : list string) (seen : list string) (n : net) : bool :=
  match n with
  | [] => true
  | x :: r =>
      negb (existsb (String.eqb (s_name x)) seen)
      && forallb (fun y => negb (existsb (String.eqb y) all) || existsb (String.eqb y) seen)
           (s_decl x ++ s_reads x)
      && wfb_aux all (s_name x :: seen) r
  end.
Definition wfb (n : net) : bool := wfb_aux (names n) [] n.

Lemma existsb_in : forall x l, existsb (String.eqb x) l = true <-> In x l.
Proof.
  intros. rewrite existsb_exists. split.
  - intros (y & Hy & E). apply String.eqb_eq in E. now subst.
  - intros H. exists x. split; [exact H|]. apply String.eqb_refl.
Qed.

Lemma wfb_ok : forall n, wfb n = true -> wf n.
Proof.
  intros n H. unfold wfb in H.
  assert (G : forall r seen, wfb_aux (names n) seen r = true ->
    (forall x, In x (names r) -> ~ In x seen) /\ NoDup (names r) /\
    forall pre x post, r = pre ++ x :: post ->
      forall y, In y (s_decl x ++ s_reads x) -> In y (names n) -> In y seen \/ In y (names pre)).
  { induction r as [|x r IH]; cbn [wfb_aux]; intros seen E.
    - split; [easy|split; [constructor|]]. intros pre x post Q. destruct pre; discriminate.
    - apply andb_true_iff in E as [E E3]. apply andb_true_iff in E as [E1 E2].
      apply negb_true_iff in E1. destruct (IH _ E3) as (A & B & C).
      assert (N1 : ~ In (s_name x) seen).
      { intros Q. apply existsb_in in Q. congruence. }
      split; [|split].
      + cbn. intros y [<-|Hy]; [exact N1|]. intros Q. apply (A y Hy). now right.
      + cbn. constructor; [|exact B]. intros Q. apply (A _ Q). now left.
      + intros pre z post Q y Hy Hn. destruct pre as [|p pre]; cbn in Q; inversion Q; subst.
        * left. rewrite forallb_forall in E2. specialize (E2 y Hy).
          apply orb_true_iff in E2. destruct E2 as [E2|E2].
          -- apply negb_true_iff in E2. apply existsb_in in Hn. congruence.
          -- now apply existsb_in.
        * destruct (C pre z post eq_refl y Hy Hn) as [[<-|D]|D]; cbn; auto. }
  destruct (G n [] H) as (_ & ND & C). split; [exact ND|].
  intros pre x post E y Hy Hn. destruct (C pre x post E y Hy Hn) as [[]|D]. exact D.
Qed.

Section Decide.
  Variable n : net.
  Hypothesis W : wf n.
  Variable sel : sig -> list string.
  Hypothesis SEL : forall x y, In y (sel x) -> In y (s_decl x ++ s_reads x).

  Definition step_tab tab x := (s_name x, expand tab (sel x)) :: tab.

  Lemma lookup_step : forall l tab y, ~ In y (names l) ->
    lookup (fold_left step_tab l tab) y = lookup tab y.
  Proof.
    induction l as [|x l IH]; cbn; intros tab y H; [reflexivity|]. rewrite IH by tauto.
    cbn. destruct (String.eqb_spec y (s_name x)); [subst; tauto|reflexivity].
  Qed.

  Lemma inputs_char : forall x, In x n ->
    inputs_of sel n (s_name x) =
    flat_map (fun y => if is_out n y then inputs_of sel n y else [y]) (sel x).
  Proof.
    intros x Hx. destruct W as [ND Wf]. apply in_split in Hx as E. destruct E as (pre & post & E).
    assert (ND' := ND). rewrite E, names_app in ND'. cbn in ND'.
    apply NoDup_remove in ND' as [ND1 ND2].
    assert (Hpost : ~ In (s_name x) (names post)) by (intro; apply ND2, in_or_app; auto).
    set (tab := fold_left step_tab pre []).
    assert (EL : forall y, ~ In y (names post) ->
              lookup (table sel n) y = lookup (step_tab tab x) y).
    { intros y Hy. change (table sel n) with (fold_left step_tab n []).
      rewrite E, fold_left_app. cbn [fold_left]. now rewrite lookup_step. }
    unfold inputs_of at 1. rewrite EL by exact Hpost. unfold step_tab at 1. cbn [lookup].
    rewrite String.eqb_refl. unfold expand.
    assert (K : forall y, In y (sel x) ->
      match lookup tab y with Some m => m | None => [y] end =
      if is_out n y then inputs_of sel n y else [y]).
    { intros y Hy. unfold is_out. destruct (existsb (String.eqb y) (names n)) eqn:B.
      - apply existsb_in in B.
        assert (Hp : In y (names pre)) by (eapply Wf; [exact E|now apply SEL|exact B]).
        assert (Hq : y <> s_name x /\ ~ In y (names post)).
        { split; [intros ->; apply ND2, in_or_app; auto|].
          intros Hq. clear -ND1 Hp Hq. induction (names pre) as [|a l IH]; [easy|].
          cbn in ND1. inversion ND1; subst. destruct Hp as [<-|Hp]; [|auto].
          apply H1, in_or_app; auto. }
        unfold inputs_of. rewrite EL by tauto. cbn [step_tab lookup].
        destruct (String.eqb_spec y (s_name x)); [tauto|].
        assert (S : exists m, lookup tab y = Some m).
        { unfold tab. clear -Hp. generalize (@nil (string * list string)).
          induction pre as [|p pre IH]; [easy|]. intros t. cbn.
          destruct (in_dec string_dec y (names pre)) as [H|H]; [now apply IH|].
          rewrite lookup_step by exact H. cbn.
          destruct Hp as [->|Hp]; [|contradiction]. rewrite String.eqb_refl. eauto. }
        destruct S as [m ->]. reflexivity.
      - assert (Hn : ~ In y (names pre)).
        { intros Hp. assert (In y (names n)) by (rewrite E, names_app; apply in_or_app; auto).
          apply existsb_in in H. congruence. }
        unfold tab. rewrite lookup_step by exact Hn. reflexivity. }
    rewrite !flat_map_concat_map. f_equal. now apply map_ext_in.
  Qed.

  Lemma inputs_ok : forall x, In x n ->
    forall i, In i (inputs_of sel n (s_name x)) <-> reaches sel n (s_name x) i.
  Proof.
    assert (ND := proj1 W).
    apply (wf_ind n (fun x => forall i, In i (inputs_of sel n (s_name x)) <-> reaches sel n (s_name x) i) W).
    intros x Hx IH i. rewrite inputs_char by exact Hx. rewrite in_flat_map. split.
    - intros (y & Hy & Hi). unfold is_out in Hi.
      destruct (existsb (String.eqb y) (names n)) eqn:B.
      + apply existsb_in in B. destruct (names_in _ _ B) as (z & Hz & Ez). subst y.
        eapply reach_out; [exact Hx|exact Hy|]. apply IH; auto.
      + destruct Hi as [<-|[]]. apply reach_input; auto. intros Q. apply existsb_in in Q. congruence.
    - intros Ri. destruct (reaches_inv _ _ _ _ ND Hx Ri) as [[Hi Hn]|(y & Hy & Hs & Ry)].
      + exists i. split; [exact Hi|]. unfold is_out.
        destruct (existsb (String.eqb i) (names n)) eqn:B; [apply existsb_in in B; contradiction|].
        now left.
      + exists (s_name y). split; [exact Hs|]. unfold is_out.
        assert (B : existsb (String.eqb (s_name y)) (names n) = true)
          by (apply existsb_in; now apply in_names).
        rewrite B. apply IH; auto.
  Qed.
End Decide.

Lemma own_ok : forall n, wf n -> forall x, In x n ->
  own_complete n (s_name x) = true <->
  (forall i, reaches s_reads n (s_name x) i -> reaches s_decl n (s_name x) i).
Proof.
  intros n W x Hx. unfold own_complete, subset. rewrite forallb_forall.
  assert (Rr := inputs_ok n W s_reads (fun a b H => in_or_app _ _ b (or_intror H)) x Hx).
  assert (Rd := inputs_ok n W s_decl (fun a b H => in_or_app _ _ b (or_introl H)) x Hx).
  split; intros H i Hi.
  - apply Rd. apply existsb_in. apply H. now apply Rr.
  - apply existsb_in. apply Rd. apply H. now apply Rr.
Qed.

Definition step_verdict n acc x :=
  (s_name x,
   own_complete n (s_name x)
   && forallb (fun y => match find (fun p => String.eqb y (fst p)) acc with
                        | Some p => snd p | None => true end) (s_reads x)) :: acc.

Lemma find_step : forall n l acc y, ~ In y (names l) ->
  find (fun p => String.eqb y (fst p)) (fold_left (step_verdict n) l acc)
  = find (fun p => String.eqb y (fst p)) acc.
Proof.
  induction l as [|x l IH]; cbn; intros acc y H; [reflexivity|]. rewrite IH by tauto.
  cbn. destruct (String.eqb_spec y (s_name x)); [subst; tauto|reflexivity].
Qed.

Lemma completeb_char : forall n, wf n -> forall x, In x n ->
  completeb n (s_name x) =
  own_complete n (s_name x)
  && forallb (fun y => if is_out n y then completeb n y else true) (s_reads x).
Proof.
  intros n [ND Wf] x Hx. apply in_split in Hx as E. destruct E as (pre & post & E).
  assert (ND' := ND). rewrite E, names_app in ND'. cbn in ND'.
  apply NoDup_remove in ND' as [ND1 ND2].
  assert (Hpost : ~ In (s_name x) (names post)) by (intro; apply ND2, in_or_app; auto).
  assert (V : verdicts n = fold_left (step_verdict n) post
                (step_verdict n (fold_left (step_verdict n) pre []) x)).
  { change (verdicts n) with (fold_left (step_verdict n) n []).
    rewrite E at 2. rewrite fold_left_app. reflexivity. }
  unfold completeb at 1. rewrite V, find_step by exact Hpost.
  unfold step_verdict at 1. cbn [find fst]. rewrite String.eqb_refl. cbn [snd]. f_equal.
  set (acc := fold_left (step_verdict n) pre []).
  assert (K : forall y, In y (s_reads x) ->
    match find (fun p => String.eqb y (fst p)) acc with Some p => snd p | None => true end =
    if is_out n y then completeb n y else true).
  { intros y Hy. unfold is_out. destruct (existsb (String.eqb y) (names n)) eqn:B.
    - apply existsb_in in B.
      assert (Hp : In y (names pre)) by (eapply Wf; [exact E|apply in_or_app; auto|exact B]).
      assert (Hq : y <> s_name x /\ ~ In y (names post)).
      { split; [intros ->; apply ND2, in_or_app; auto|].
        intros Hq. clear -ND1 Hp Hq. induction (names pre) as [|a l IH]; [easy|].
        cbn in ND1. inversion ND1; subst. destruct Hp as [<-|Hp]; [|auto].
        apply H1, in_or_app; auto. }
      unfold completeb. rewrite V, find_step by tauto.
      unfold step_verdict at 1. cbn [find fst].
      destruct (String.eqb_spec y (s_name x)); [tauto|].
      assert (S : exists p, find (fun p => String.eqb y (fst p)) acc = Some p).
      { unfold acc. clear -Hp. generalize (@nil (string * bool)).
        induction pre as [|p pre IH]; [easy|]. intros t. cbn [fold_left].
        destruct (in_dec string_dec y (names pre)) as [H|H]; [now apply IH|].
        rewrite find_step by exact H. cbn.
        destruct Hp as [->|Hp]; [|contradiction]. rewrite String.eqb_refl. eauto. }
      fold acc. destruct S as [p ->]. reflexivity.
    - assert (Hn : ~ In y (names pre)).
      { intros Hp. assert (In y (names n)) by (rewrite E, names_app; apply in_or_app; auto).
        apply existsb_in in H. congruence. }
      unfold acc. rewrite find_step by exact Hn. reflexivity. }
  revert K. induction (s_reads x) as [|a l IH]; intros K; [reflexivity|].
  cbn [forallb]. rewrite K by now left. f_equal. apply IH. intros. apply K. now right.
Qed.

Lemma uses_inv : forall n x z, NoDup (names n) -> In x n -> uses n (s_name x) z ->
  z = s_name x \/ exists y, In y n /\ In (s_name y) (s_reads x) /\ uses n (s_name y) z.
Proof.
  intros n x z ND Hx U. remember (s_name x) as o. destruct U as [o Ho|x' y z Hx' Hy U].
  - now left.
  - assert (x' = x) by (eapply same_name; eauto). subst x'. right.
    assert (Hn : In y (names n)) by (inversion U; subst; [assumption|now apply in_names]).
    destruct (names_in _ _ Hn) as (t & Ht & <-). eauto.
Qed.

Lemma completeb_ok : forall n, wf n -> forall x, In x n ->
  completeb n (s_name x) = true <-> complete n (s_name x).
Proof.
  intros n W. assert (ND := proj1 W).
  apply (wf_ind n (fun x => completeb n (s_name x) = true <-> complete n (s_name x)) W).
  intros x Hx IH. rewrite completeb_char by auto. rewrite andb_true_iff, own_ok, forallb_forall by auto.
  split.
  - intros [O F] z U. destruct (uses_inv _ _ _ ND Hx U) as [->|(y & Hy & Hr & Uy)]; [exact O|].
    apply (IH y Hy); [apply in_or_app; auto| |exact Uy].
    specialize (F (s_name y) Hr). unfold is_out in F.
    assert (B : existsb (String.eqb (s_name y)) (names n) = true)
      by (apply existsb_in; now apply in_names).
    now rewrite B in F.
  - intros C. split.
    + apply C. apply uses_self. now apply in_names.
    + intros y Hy. unfold is_out. destruct (existsb (String.eqb y) (names n)) eqn:B; [|reflexivity].
      apply existsb_in in B. destruct (names_in _ _ B) as (z & Hz & Ez). subst y.
      apply IH; [exact Hz|apply in_or_app; auto|].
      intros t U. apply C. eapply uses_read; eauto.
Qed.

Lemma own_dec : forall n, wf n -> forall x i, In x n ->
  reaches s_decl n (s_name x) i \/ ~ reaches s_decl n (s_name x) i.
Proof.
  intros n W x i Hx.
  rewrite <- (inputs_ok n W s_decl (fun a b H => in_or_app _ _ b (or_introl H)) x Hx i).
  destruct (in_dec string_dec i (inputs_of s_decl n (s_name x))); auto.
Qed.
