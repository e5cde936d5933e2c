(** Theorems about the pool (C41, C76). *)
From Coq Require Import String Ascii List Arith Lia ZArith Bool Sorting.Sorted.
From Verif Require Import Base SMap Pool_Model.
Import ListNotations.
Local Open Scope nat_scope.
Local Open Scope list_scope.

(** Specification: the first object registered under a name since the last
    destruction of the pool. *)
Fixpoint first_of (sel : act -> option (string * nat)) (n : string) (h : list act) : option nat :=
  match h with
  | [] => None
  | a :: r =>
      match sel a with
      | Some (n', e) => if (n' =? n)%string then Some e else first_of sel n r
      | None => first_of sel n r
      end
  end.
Definition new_task (a : act) := match a with NewTask n e => Some (n, e) | _ => None end.
Definition new_feature (a : act) := match a with NewFeature n e => Some (n, e) | _ => None end.
Fixpoint since_destroy (h : list act) : list act :=
  match h with
  | [] => []
  | a :: r => if existsb (fun x => match x with Destroy => true | _ => false end) r
              then since_destroy r
              else match a with Destroy => r | _ => a :: r end
  end.

(** ** Proofs *)
Ltac smap := solve [assumption | exact scmp_eq | exact scmp_antisym | exact scmp_trans].

Lemma seqb_scmp a b : (a =? b)%string = match scmp b a with Eq => true | _ => false end.
Proof.
  destruct (String.eqb_spec a b).
  - subst. rewrite (proj2 (scmp_eq b b) eq_refl). reflexivity.
  - destruct (scmp b a) eqn:E; auto. apply scmp_eq in E. congruence.
Qed.

Lemma first_of_app sel n a b :
  first_of sel n (a ++ b) = match first_of sel n a with Some e => Some e | None => first_of sel n b end.
Proof.
  induction a as [|x a IH]; simpl; auto.
  destruct (sel x) as [[n' e]|]; auto. destruct (n' =? n)%string; auto.
Qed.

Lemma since_destroy_snoc h a :
  since_destroy (h ++ [a]) = match a with Destroy => [] | _ => since_destroy h ++ [a] end.
Proof.
  assert (Hex : forall l, existsb (fun x => match x with Destroy => true | _ => false end) (l ++ [a]) =
    existsb (fun x => match x with Destroy => true | _ => false end) l || match a with Destroy => true | _ => false end).
  { intros l. rewrite existsb_app. simpl. rewrite orb_false_r. reflexivity. }
  induction h as [|x h IH]; simpl.
  - destruct a; reflexivity.
  - rewrite Hex, IH. destruct a; rewrite ?orb_false_r, ?orb_true_r; auto;
      destruct (existsb _ h); auto; destruct x; reflexivity.
Qed.

Definition pinv (w : world) (h : list act) : Prop :=
  let p := getInstance w in
  msorted scmp (ptasks p) /\ msorted scmp (pfeatures p) /\
  (forall n, mfind scmp (ptasks p) n = first_of new_task n (since_destroy h)) /\
  (forall n, mfind scmp (pfeatures p) n = first_of new_feature n (since_destroy h)).

Lemma pool_run_snoc h a : pool_run (h ++ [a]) = snd (pool_step (pool_run h) a).
Proof. unfold pool_run. rewrite fold_left_app. reflexivity. Qed.

Lemma pool_inv h : pinv (pool_run h) h.
Proof.
  induction h as [|a h IH] using rev_ind.
  - unfold pinv. simpl. repeat split; auto; constructor.
  - rewrite pool_run_snoc. destruct IH as (H1 & H2 & H3 & H4).
    unfold pinv. rewrite since_destroy_snoc.
    destruct a as [n e|n e|e|]; simpl.
    + unfold registerTask. rewrite H3. destruct (first_of new_task n (since_destroy h)) eqn:E; simpl.
      * repeat split; auto; intros n'; rewrite first_of_app; simpl.
        -- rewrite H3. destruct (first_of new_task n' (since_destroy h)) eqn:E'; auto.
           destruct (String.eqb_spec n n'); auto. congruence.
        -- rewrite H4. destruct (first_of new_feature n' (since_destroy h)); auto.
      * split; [apply mset_sorted; smap|]. repeat split; auto; intros n'; rewrite first_of_app; simpl.
        -- rewrite mfind_mset by smap. rewrite seqb_scmp, H3. destruct (scmp n' n) eqn:C.
           ++ apply scmp_eq in C; subst. rewrite E. reflexivity.
           ++ destruct (first_of new_task n' (since_destroy h)); auto.
           ++ destruct (first_of new_task n' (since_destroy h)); auto.
        -- rewrite H4. destruct (first_of new_feature n' (since_destroy h)); auto.
    + unfold registerFeature. rewrite H4. destruct (first_of new_feature n (since_destroy h)) eqn:E; simpl.
      * repeat split; auto; intros n'; rewrite first_of_app; simpl.
        -- rewrite H3. destruct (first_of new_task n' (since_destroy h)); auto.
        -- rewrite H4. destruct (first_of new_feature n' (since_destroy h)) eqn:E'; auto.
           destruct (String.eqb_spec n n'); auto. congruence.
      * split; [assumption|]. split; [apply mset_sorted; smap|]. split; intros n'; rewrite first_of_app; simpl.
        -- rewrite H3. destruct (first_of new_task n' (since_destroy h)); auto.
        -- rewrite mfind_mset by smap. rewrite seqb_scmp, H4. destruct (scmp n' n) eqn:C.
           ++ apply scmp_eq in C; subst. rewrite E. reflexivity.
           ++ destruct (first_of new_feature n' (since_destroy h)); auto.
           ++ destruct (first_of new_feature n' (since_destroy h)); auto.
    + unfold getInstance in *; simpl. repeat split; auto; intros n'; rewrite first_of_app; simpl.
      * rewrite H3. destruct (first_of new_task n' (since_destroy h)); auto.
      * rewrite H4. destruct (first_of new_feature n' (since_destroy h)); auto.
    + repeat split; auto; constructor.
Qed.

(** After any history: a name gives the first task (feature) registered under it,
    and an error when there is none; creating a second one under the same name
    fails and changes no answer.  Tasks and features do not interfere. *)
Theorem pool_lookup : forall h n,
  getTask (getInstance (pool_run h)) n =
    match first_of new_task n (since_destroy h) with
    | Some e => Ok e | None => Throw "UNREFERED_OBJECT" end /\
  getFeature (getInstance (pool_run h)) n =
    match first_of new_feature n (since_destroy h) with
    | Some e => Ok e | None => Throw "UNREFERED_OBJECT" end.
Proof.
  intros h n. destruct (pool_inv h) as (_ & _ & H3 & H4). unfold getTask, getFeature.
  rewrite H3, H4. destruct (first_of new_task n _), (first_of new_feature n _); auto.
Qed.

Theorem pool_no_overwrite : forall h n e e0,
  getTask (getInstance (pool_run h)) n = Ok e0 ->
  fst (pool_step (pool_run h) (NewTask n e)) = Throw "OBJECT_CONFLICT" /\
  forall m, getTask (getInstance (pool_run (h ++ [NewTask n e]))) m = getTask (getInstance (pool_run h)) m /\
            getFeature (getInstance (pool_run (h ++ [NewTask n e]))) m = getFeature (getInstance (pool_run h)) m.
Proof.
  intros h n e e0 H. unfold getTask in H.
  destruct (mfind scmp (ptasks (getInstance (pool_run h))) n) eqn:E; [|discriminate].
  split.
  - simpl. unfold registerTask. rewrite E. reflexivity.
  - intros m. rewrite pool_run_snoc. simpl. unfold registerTask. rewrite E. simpl. auto.
Qed.

Theorem pool_no_overwrite_feature : forall h n e e0,
  getFeature (getInstance (pool_run h)) n = Ok e0 ->
  fst (pool_step (pool_run h) (NewFeature n e)) = Throw "OBJECT_CONFLICT" /\
  forall m, getTask (getInstance (pool_run (h ++ [NewFeature n e]))) m = getTask (getInstance (pool_run h)) m /\
            getFeature (getInstance (pool_run (h ++ [NewFeature n e]))) m = getFeature (getInstance (pool_run h)) m.
Proof.
  intros h n e e0 H. unfold getFeature in H.
  destruct (mfind scmp (pfeatures (getInstance (pool_run h))) n) eqn:E; [|discriminate].
  split.
  - simpl. unfold registerFeature. rewrite E. reflexivity.
  - intros m. rewrite pool_run_snoc. simpl. unfold registerFeature. rewrite E. simpl. auto.
Qed.

(** The graph lists the registered tasks, once each, in increasing name order. *)
Theorem pool_graph_tasks : forall h,
  let p := getInstance (pool_run h) in
  StronglySorted (fun a b => String.compare (fst a) (fst b) = Lt) (ptasks p) /\
  (forall n e, In (n, e) (ptasks p) <-> getTask p n = Ok e) /\
  forall name, (forall n e, getTask p n = Ok e -> name e = n) ->
    graph_tasks name p = map fst (ptasks p).
Proof.
  intros h p. destruct (pool_inv h) as (H1 & _). fold p in H1. split; [exact H1|].
  assert (Hin : forall n e, In (n, e) (ptasks p) <-> getTask p n = Ok e).
  2:{ split; auto. intros name Hn. unfold graph_tasks. apply map_ext_in. intros [n e] Hi.
      apply Hin in Hi. simpl. apply Hn. exact Hi. }
  intros n e. unfold getTask. rewrite <- (mfind_in _ _ scmp scmp_eq scmp_antisym _ n e H1).
  destruct (mfind scmp (ptasks p) n); split; congruence.
Qed.

(** Finding: a deleted task stays registered: the pool hands out a dangling
    reference and the name cannot be used again. *)
Theorem pool_dangling_refuted :
  exists h n e, getTask (getInstance (pool_run h)) n = Ok e /\ ~ In e (alive (pool_run h)) /\
    forall e', fst (pool_step (pool_run h) (NewTask n e')) = Throw "OBJECT_CONFLICT".
Proof.
  exists [NewTask "t" 4; Delete 4], "t"%string, 4. repeat split; auto.
Qed.

Example pool_example :
  let h := [NewTask "b" 1; NewTask "a" 2; NewFeature "a" 3; NewTask "a" 5; Delete 2; NewTask "c" 6] in
  let p := getInstance (pool_run h) in
  getTask p "a" = Ok 2 /\ getFeature p "a" = Ok 3 /\ getTask p "d" = Throw "UNREFERED_OBJECT" /\
  map fst (ptasks p) = ["a"; "b"; "c"]%string /\
  getTask (getInstance (pool_run (h ++ [Destroy; NewTask "a" 9]))) "a" = Ok 9.
Proof. vm_compute. repeat split; reflexivity. Qed.

(* ------------------------------------------------------------------ *)
(** * Name of the graph file (C76) *)

(** [path = dir ++ base ++ "." ++ ext]. *)
Definition free (c : ascii) (s : list ascii) : Prop := ~ In c s.

Lemma rfind_none c s : free c s -> rfind c s = None.
Proof.
  unfold free. induction s as [|x s IH]; simpl; intros H; auto.
  rewrite IH by tauto. destruct (Ascii.eqb_spec x c); auto. tauto.
Qed.
Lemma rfind_last c a b : free c b -> rfind c (a ++ c :: b) = Some (length a).
Proof.
  intros H. induction a as [|x a IH]; simpl.
  - rewrite rfind_none by exact H. rewrite Ascii.eqb_refl. reflexivity.
  - rewrite IH. reflexivity.
Qed.

(** Without a directory, the name is the file name without its extension.
    Missing: file names with a directory; false of the code there. *)
Theorem graph_name_plain_partial : forall base ext,
  free "."%char ext -> free "/"%char base -> free "/"%char ext ->
  graph_name (base ++ "."%char :: ext) = Ok base.
Proof.
  intros base ext He Hb Hs. unfold graph_name.
  rewrite rfind_last by exact He. rewrite rfind_none.
  - rewrite firstn_app, Nat.sub_diag, firstn_O, app_nil_r, firstn_all. reflexivity.
  - unfold free in *. rewrite in_app_iff. simpl. intros [H|[H|H]]; auto. discriminate.
Qed.

(** Finding: with a directory, the name starts with the separator, which is not a
    graph identifier ... *)
Theorem graph_name_directory_refuted : forall dir base ext,
  free "."%char ext -> free "/"%char base -> free "/"%char ext ->
  graph_name (dir ++ "/"%char :: base ++ "."%char :: ext) = Ok ("/"%char :: base).
Proof.
  intros dir base ext He Hb Hs. unfold graph_name.
  replace (dir ++ "/"%char :: base ++ "."%char :: ext) with ((dir ++ "/"%char :: base) ++ "."%char :: ext)
    by (rewrite <- app_assoc; reflexivity).
  rewrite rfind_last by exact He.
  rewrite firstn_app, Nat.sub_diag, firstn_O, app_nil_r, firstn_all.
  replace ((dir ++ "/"%char :: base) ++ "."%char :: ext) with (dir ++ "/"%char :: (base ++ "."%char :: ext))
    by (rewrite <- app_assoc; reflexivity).
  rewrite rfind_last.
  - unfold substr. replace (length (dir ++ "/"%char :: base) <? length dir) with false
      by (symmetry; apply Nat.ltb_ge; rewrite app_length; lia).
    rewrite skipn_app, skipn_all, Nat.sub_diag. simpl.
    rewrite firstn_all2; [reflexivity|]. simpl. rewrite app_length. simpl. lia.
  - unfold free in *. rewrite in_app_iff. simpl. intros [H|[H|H]]; auto. discriminate.
Qed.
(** ... and a path whose last dot is in a directory throws. *)
Theorem graph_name_dotted_directory_refuted : forall a b base,
  free "."%char b -> free "."%char base -> free "/"%char base ->
  graph_name (a ++ "."%char :: b ++ "/"%char :: base) = Throw "out_of_range".
Proof.
  intros a b base Hb Hd Hs. unfold graph_name.
  rewrite rfind_last.
  - rewrite firstn_app, Nat.sub_diag, firstn_O, app_nil_r, firstn_all.
    replace (a ++ "."%char :: b ++ "/"%char :: base) with ((a ++ "."%char :: b) ++ "/"%char :: base)
      by (rewrite <- app_assoc; reflexivity).
    rewrite rfind_last by exact Hs. unfold substr.
    replace (length a <? length (a ++ "."%char :: b)) with true; auto.
    symmetry. apply Nat.ltb_lt. rewrite app_length. simpl. lia.
  - unfold free in *. rewrite in_app_iff. simpl. intros [H|[H|H]]; auto. discriminate.
Qed.

Definition cs (s : string) : list ascii := list_ascii_of_string s.
Example graph_name_example :
  graph_name (cs "graph.dot") = Ok (cs "graph") /\
  graph_name (cs "/tmp/graph.dot") = Ok (cs "/graph") /\
  graph_name (cs "/tmp/v1.2/graph") = Throw "out_of_range".
Proof. vm_compute. repeat split; reflexivity. Qed.

Print Assumptions pool_lookup.
Print Assumptions pool_no_overwrite.
Print Assumptions pool_no_overwrite_feature.
Print Assumptions pool_graph_tasks.
Print Assumptions pool_dangling_refuted.
Print Assumptions graph_name_plain_partial.
Print Assumptions graph_name_directory_refuted.
Print Assumptions graph_name_dotted_directory_refuted.
