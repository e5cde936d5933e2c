(** [std::map]: an association list kept in increasing key order.  Only the
    operations used by the code: find, insertion with overwriting
    ([m[k] = v]), erase, iteration (the list itself). *)
From Coq Require Import String Ascii List Arith Lia ZArith Bool Sorting.Sorted.
From Coq Require Import Structures.OrderedTypeEx.
Import ListNotations.

Section SMap.
Variable K V : Type.
Variable cmp : K -> K -> comparison.

Fixpoint mfind (m : list (K * V)) (k : K) : option V :=
  match m with
  | [] => None
  | (k', v) :: r => match cmp k k' with Eq => Some v | Lt => None | Gt => mfind r k end
  end.

Fixpoint mset (m : list (K * V)) (k : K) (v : V) : list (K * V) :=
  match m with
  | [] => [(k, v)]
  | (k', v') :: r =>
      match cmp k k' with
      | Eq => (k, v) :: r
      | Lt => (k, v) :: (k', v') :: r
      | Gt => (k', v') :: mset r k v
      end
  end.

Fixpoint merase (m : list (K * V)) (k : K) : list (K * V) :=
  match m with
  | [] => []
  | (k', v') :: r =>
      match cmp k k' with
      | Eq => r
      | Lt => (k', v') :: r
      | Gt => (k', v') :: merase r k
      end
  end.

(** Strictly increasing keys. *)
Definition msorted (m : list (K * V)) : Prop :=
  StronglySorted (fun a b => cmp (fst a) (fst b) = Lt) m.

Hypothesis cmp_eq : forall a b, cmp a b = Eq <-> a = b.
Hypothesis cmp_antisym : forall a b, cmp b a = CompOpp (cmp a b).
Hypothesis cmp_trans : forall a b c, cmp a b = Lt -> cmp b c = Lt -> cmp a c = Lt.

Lemma cmp_refl a : cmp a a = Eq.
Proof. apply cmp_eq. reflexivity. Qed.
Lemma cmp_gt_lt a b : cmp a b = Gt -> cmp b a = Lt.
Proof. intros H. rewrite cmp_antisym, H. reflexivity. Qed.

Lemma mset_in m k v x : In x (mset m k v) -> x = (k, v) \/ In x m.
Proof.
  induction m as [|[k' v'] r IH]; simpl; [intuition|].
  destruct (cmp k k'); simpl; intuition.
Qed.

Lemma merase_in m k x : In x (merase m k) -> In x m.
Proof.
  induction m as [|[k' v'] r IH]; simpl; [auto|].
  destruct (cmp k k'); simpl; intuition.
Qed.

Lemma mset_sorted m k v : msorted m -> msorted (mset m k v).
Proof.
  unfold msorted. induction m as [|[k' v'] r IH]; intros H; simpl.
  - repeat constructor.
  - inversion H as [|? ? Hs Hf]; subst. destruct (cmp k k') eqn:E.
    + apply cmp_eq in E; subst. constructor; auto.
    + constructor; [exact H|]. constructor; [exact E|].
      eapply Forall_impl; [|exact Hf]. simpl. intros a Ha. eapply cmp_trans; eauto.
    + constructor; [auto|]. apply Forall_forall. intros x Hx.
      apply mset_in in Hx. destruct Hx as [-> |Hx]; simpl.
      * apply cmp_gt_lt; exact E.
      * rewrite Forall_forall in Hf. exact (Hf x Hx).
Qed.

Lemma merase_sorted m k : msorted m -> msorted (merase m k).
Proof.
  unfold msorted. induction m as [|[k' v'] r IH]; intros H; simpl; [constructor|].
  inversion H as [|? ? Hs Hf]; subst. destruct (cmp k k') eqn:E; auto.
  constructor; [auto|]. apply Forall_forall. intros x Hx. apply merase_in in Hx.
  rewrite Forall_forall in Hf. exact (Hf x Hx).
Qed.

Lemma mfind_below m k : Forall (fun b => cmp k (fst b) = Lt) m -> mfind m k = None.
Proof. intros H. destruct m as [|[k' v'] r]; simpl; auto. inversion H; subst. simpl in *. rewrite H2. reflexivity. Qed.

Lemma mfind_mset m k v k' :
  msorted m -> mfind (mset m k v) k' = match cmp k' k with Eq => Some v | _ => mfind m k' end.
Proof.
  unfold msorted. induction m as [|[k0 v0] r IH]; intros H; simpl.
  - destruct (cmp k' k); reflexivity.
  - inversion H as [|? ? Hs Hf]; subst. destruct (cmp k k0) eqn:E; simpl.
    + apply cmp_eq in E; subst. destruct (cmp k' k0); reflexivity.
    + destruct (cmp k' k) eqn:E1; auto.
      assert (E2 : cmp k' k0 = Lt) by (eapply cmp_trans; eauto). rewrite E2. reflexivity.
    + rewrite IH by assumption. destruct (cmp k' k0) eqn:E2.
      * apply cmp_eq in E2; subst. rewrite (cmp_gt_lt _ _ E). reflexivity.
      * destruct (cmp k' k) eqn:E3; auto. apply cmp_eq in E3; subst. congruence.
      * reflexivity.
Qed.

Lemma mfind_merase m k k' :
  msorted m -> mfind (merase m k) k' = match cmp k' k with Eq => None | _ => mfind m k' end.
Proof.
  unfold msorted. induction m as [|[k0 v0] r IH]; intros H; simpl.
  - destruct (cmp k' k); reflexivity.
  - inversion H as [|? ? Hs Hf]; subst. destruct (cmp k k0) eqn:E; simpl.
    + apply cmp_eq in E; subst. destruct (cmp k' k0) eqn:E1; auto.
      * apply cmp_eq in E1; subst. apply mfind_below. exact Hf.
      * apply mfind_below. eapply Forall_impl; [|exact Hf]. simpl. intros a Ha. eapply cmp_trans; eauto.
    + destruct (cmp k' k) eqn:E1; auto. apply cmp_eq in E1; subst. rewrite E. reflexivity.
    + rewrite IH by assumption. destruct (cmp k' k0) eqn:E2.
      * apply cmp_eq in E2; subst. rewrite (cmp_gt_lt _ _ E). reflexivity.
      * destruct (cmp k' k) eqn:E3; auto.
      * reflexivity.
Qed.

Lemma mfind_in m k v : msorted m -> (mfind m k = Some v <-> In (k, v) m).
Proof.
  unfold msorted. induction m as [|[k0 v0] r IH]; intros H; simpl.
  - split; [discriminate|contradiction].
  - inversion H as [|? ? Hs Hf]; subst. rewrite Forall_forall in Hf. destruct (cmp k k0) eqn:E.
    + apply cmp_eq in E; subst. split.
      * intros [= ->]. auto.
      * intros [[= ->]|Hi]; auto. apply Hf in Hi. simpl in Hi. rewrite cmp_refl in Hi. discriminate.
    + split; [discriminate|]. intros [[= -> ->]|Hi].
      * rewrite cmp_refl in E. discriminate.
      * apply Hf in Hi. simpl in Hi. assert (X := cmp_antisym k0 k). rewrite Hi, E in X. discriminate.
    + rewrite IH by assumption. split; auto. intros [[= -> ->]|Hi]; auto.
      rewrite cmp_refl in E. discriminate.
Qed.

(** A map with increasing keys is determined by what it holds. *)
Lemma msorted_ext m1 m2 :
  msorted m1 -> msorted m2 -> (forall k, mfind m1 k = mfind m2 k) -> m1 = m2.
Proof.
  intros H1. revert m2. induction H1 as [|[k v] r Hs IH Hf]; intros m2 H2 E.
  - destruct m2 as [|[k v] r]; auto. specialize (E k). simpl in E. rewrite cmp_refl in E. discriminate.
  - destruct H2 as [|[k' v'] r' Hs' Hf'].
    + specialize (E k). simpl in E. rewrite cmp_refl in E. discriminate.
    + assert (Ek := E k). assert (Ek' := E k'). simpl in Ek, Ek'. rewrite cmp_refl in *.
      destruct (cmp k k') eqn:C.
      * apply cmp_eq in C; subst k'. injection Ek as ->. f_equal. apply IH; auto.
        intros x. specialize (E x). simpl in E. destruct (cmp x k) eqn:C; auto.
        -- apply cmp_eq in C; subst. rewrite !mfind_below; auto.
        -- rewrite !mfind_below; auto; eapply Forall_impl; try eassumption;
             simpl; intros a Ha; eapply cmp_trans; eauto.
      * discriminate.
      * rewrite (cmp_gt_lt _ _ C) in Ek'. discriminate.
Qed.

Lemma msorted_nil : msorted [].
Proof. constructor. Qed.

Lemma mfind_none_in m k : msorted m -> mfind m k = None -> forall v, ~ In (k, v) m.
Proof. intros H E v Hi. apply (mfind_in _ _ _ H) in Hi. congruence. Qed.

Lemma msorted_nodup m : msorted m -> NoDup (map fst m).
Proof.
  induction 1 as [|[k v] r Hs IH Hf]; simpl; constructor; auto.
  rewrite in_map_iff. intros ([k' v'] & E & Hi). simpl in E; subst k'.
  rewrite Forall_forall in Hf. apply Hf in Hi. simpl in Hi. rewrite cmp_refl in Hi. discriminate.
Qed.
End SMap.
Arguments mfind {K V}. Arguments mset {K V}. Arguments merase {K V}. Arguments msorted {K V}.

(** Comparison of [std::string]: lexicographic on unsigned characters. *)
Definition scmp : string -> string -> comparison := String.compare.

Lemma acmp_trans a b c : Ascii.compare a b = Lt -> Ascii.compare b c = Lt -> Ascii.compare a c = Lt.
Proof. unfold Ascii.compare. rewrite !N.compare_lt_iff. lia. Qed.

Lemma scmp_eq a b : scmp a b = Eq <-> a = b.
Proof.
  split; [apply String.compare_eq_iff|]. intros ->.
  induction b as [|x b IH]; simpl; auto. unfold scmp in *. simpl.
  unfold Ascii.compare. rewrite N.compare_refl. exact IH.
Qed.
Lemma scmp_antisym a b : scmp b a = CompOpp (scmp a b).
Proof. apply String.compare_antisym. Qed.
Lemma scmp_trans a b c : scmp a b = Lt -> scmp b c = Lt -> scmp a c = Lt.
Proof.
  unfold scmp. revert b c; induction a as [|x a IH]; intros [|y b] [|z c]; simpl; try discriminate; auto.
  destruct (Ascii.compare x y) eqn:E1; try discriminate; destruct (Ascii.compare y z) eqn:E2; try discriminate; intros H1 H2.
  - apply Ascii.compare_eq_iff in E1, E2. subst. unfold Ascii.compare. rewrite N.compare_refl. eauto.
  - apply Ascii.compare_eq_iff in E1. subst. rewrite E2. reflexivity.
  - apply Ascii.compare_eq_iff in E2. subst. rewrite E1. reflexivity.
  - rewrite (acmp_trans _ _ _ E1 E2). reflexivity.
Qed.

(** Comparison of integers. *)
Lemma zcmp_eq a b : Z.compare a b = Eq <-> a = b.
Proof. apply Z.compare_eq_iff. Qed.
Lemma zcmp_antisym a b : Z.compare b a = CompOpp (Z.compare a b).
Proof. apply Z.compare_antisym. Qed.
Lemma zcmp_trans a b c : Z.compare a b = Lt -> Z.compare b c = Lt -> Z.compare a c = Lt.
Proof. rewrite !Z.compare_lt_iff. lia. Qed.
