From Coq Require Import String Ascii List Arith Lia ZArith Bool.
From Verif Require Import Base Flags_Model Flags_Proofs Feature_Model.
Import ListNotations.

(** Is index [i] selected. *)
Definition flag (fl : Flags) (i : nat) : bool :=
  match at_ fl (Z.of_nat i) with Ok b => b | _ => false end.
(** The selected indices below [n], in order. *)
Definition chosen (fl : Flags) (n : nat) : list nat := filter (flag fl) (seq 0 n).

Lemma at_flag fl i : at_ fl (Z.of_nat i) = Ok (flag fl i).
Proof. unfold flag. rewrite at_nth by lia. reflexivity. Qed.

Lemma upd_split {A} (e : list A) i x : i < length e -> upd e i x = firstn i e ++ x :: skipn (S i) e.
Proof.
  revert i; induction e as [|a e IH]; intros [|i] H; simpl in *; try lia; auto.
  f_equal. apply IH. lia.
Qed.

Section C.
Context {num : Type}.
Lemma collect_fold fl (f : nat -> outcome num) v l : forall curr res,
  (forall i, In i l -> flag fl i = true -> f i = Ok (v i)) ->
  curr + length (filter (flag fl) l) <= length res ->
  exists r, ofold (collect_step num fl f) l (curr, res) = Ok (curr + length (filter (flag fl) l), r) /\
    r = firstn curr res ++ map v (filter (flag fl) l) ++ skipn (curr + length (filter (flag fl) l)) res.
Proof.
  induction l as [|i l IH]; intros curr res Hf Hle; cbn [ofold filter].
  - simpl. rewrite Nat.add_0_r. exists res. split; auto. rewrite firstn_skipn. reflexivity.
  - unfold collect_step at 1. rewrite at_flag. cbn [bind].
    cbn [filter] in Hle. destruct (flag fl i) eqn:Efl.
    + rewrite (Hf i (or_introl eq_refl) Efl). cbn [bind].
      cbn [length] in *. unfold vset. destruct (Nat.ltb_spec curr (length res)); [|lia].
      cbn [bind].
      destruct (IH (S curr) (upd res curr (v i))) as (r & E & Hr).
      * intros; apply Hf; auto. right; auto.
      * rewrite upd_length. lia.
      * exists r. rewrite E. rewrite Nat.add_succ_r. split; [reflexivity|].
        rewrite Hr, (upd_split res curr (v i)) by lia.
        assert (HL : length (firstn curr res) = curr) by (rewrite firstn_length; lia).
        cbn [map].
        replace (firstn (S curr) (firstn curr res ++ v i :: skipn (S curr) res)) with (firstn curr res ++ [v i]).
        2:{ rewrite firstn_app, HL. rewrite (firstn_all2 (firstn curr res)) by (rewrite HL; apply Nat.le_succ_diag_r).
            replace (S curr - curr) with 1 by lia. reflexivity. }
        rewrite <- app_assoc. cbn [app]. do 3 f_equal.
        rewrite skipn_app, HL. rewrite (skipn_all2 (firstn curr res)) by lia.
        replace (S curr + length (filter (flag fl) l) - curr) with (S (length (filter (flag fl) l))) by lia.
        cbn [app skipn]. 
        set (m := length (filter (flag fl) l)). clear.
        revert res; induction curr as [|c IHc]; intros res.
        -- destruct res; simpl; auto. destruct m; auto.
        -- destruct res as [|x res]; [rewrite !skipn_nil; reflexivity|]. simpl. apply IHc.
    + apply IH; auto. intros; apply Hf; auto. right; auto.
Qed.

Lemma collect_fold_ub fl (f : nat -> outcome num) v l : forall curr res,
  (forall i, In i l -> flag fl i = true -> f i = Ok (v i)) ->
  curr <= length res -> length res < curr + length (filter (flag fl) l) ->
  ofold (collect_step num fl f) l (curr, res) = UB.
Proof.
  induction l as [|i l IH]; intros curr res Hf Hc Hle; cbn [ofold filter].
  - simpl in Hle. lia.
  - unfold collect_step at 1. rewrite at_flag. cbn [bind].
    cbn [filter] in Hle. destruct (flag fl i) eqn:Efl.
    + rewrite (Hf i (or_introl eq_refl) Efl). cbn [bind length] in *.
      unfold vset. destruct (Nat.ltb_spec curr (length res)); [|reflexivity].
      cbn [bind]. apply IH.
      * intros; apply Hf; auto. right; auto.
      * rewrite upd_length. lia.
      * rewrite upd_length. lia.
    + apply IH; auto. intros; apply Hf; auto. right; auto.
Qed.

Lemma collect_ok fl (f : nat -> outcome num) v n res :
  (forall i, i < n -> flag fl i = true -> f i = Ok (v i)) ->
  length (chosen fl n) <= length res ->
  collect fl f n res = Ok (map v (chosen fl n) ++ skipn (length (chosen fl n)) res).
Proof.
  intros Hf Hle. unfold collect.
  destruct (collect_fold fl f v (seq 0 n) 0 res) as (r & E & Hr).
  - intros i Hi. apply in_seq in Hi. apply Hf. lia.
  - exact Hle.
  - rewrite E. cbn [bind]. rewrite Hr. reflexivity.
Qed.

Lemma collect_ub fl (f : nat -> outcome num) v n res :
  (forall i, i < n -> flag fl i = true -> f i = Ok (v i)) ->
  length res < length (chosen fl n) -> collect fl f n res = UB.
Proof.
  intros Hf Hle. unfold collect. rewrite (collect_fold_ub fl f v); auto.
  - intros i Hi. apply in_seq in Hi. apply Hf. lia.
  - lia.
Qed.

Lemma collect_full fl (f : nat -> outcome num) v n res :
  (forall i, i < n -> flag fl i = true -> f i = Ok (v i)) ->
  length (chosen fl n) = length res ->
  collect fl f n res = Ok (map v (chosen fl n)).
Proof.
  intros Hf Hle. rewrite (collect_ok fl f v) by (auto; lia).
  rewrite Hle, skipn_all, app_nil_r. reflexivity.
Qed.
End C.

Lemma count_fold fl l : forall d, ofold (count_step fl) l d = Ok (d + length (filter (flag fl) l)).
Proof.
  induction l as [|i l IH]; intros d; cbn [ofold filter].
  - simpl. f_equal. lia.
  - unfold count_step at 1. rewrite at_flag. cbn [bind]. rewrite IH.
    destruct (flag fl i); cbn [length]; f_equal; lia.
Qed.
Lemma count_flags_ok fl n : count_flags fl n = Ok (length (chosen fl n)).
Proof. unfold count_flags. rewrite count_fold. reflexivity. Qed.

Lemma chosen_lt fl n i : In i (chosen fl n) -> i < n.
Proof. unfold chosen. rewrite filter_In, in_seq. lia. Qed.

Lemma jac_loop_ok {num} fl (Jac : list (list num)) d n : forall k,
  n <= length Jac ->  k <= n ->
  generic_jac_loop fl Jac (n - k) k (length (filter (flag fl) (seq k (n - k)))) =
  Ok (map (fun i => nth i Jac d) (filter (flag fl) (seq k (n - k)))).
Proof.
  intros k Hn. remember (n - k) as m eqn:Em. revert k Em.
  induction m as [|m IH]; intros k Em Hk; cbn [seq filter]; [reflexivity|].
  destruct (flag fl k) eqn:Efl; cbn [length generic_jac_loop map].
  - rewrite at_flag, Efl. cbn [bind]. rewrite (vget_ok Jac k d) by lia. cbn [bind].
    rewrite IH by lia. reflexivity.
  - destruct (length (filter (flag fl) (seq (S k) m))) as [|c] eqn:Ec.
    + destruct (filter (flag fl) (seq (S k) m)); [|discriminate]. reflexivity.
    + rewrite at_flag, Efl. cbn [bind]. rewrite <- Ec. apply IH; lia.
Qed.
