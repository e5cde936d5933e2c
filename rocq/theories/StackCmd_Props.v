(** Properties of the commands of the solver that name a task (C137). *)
From Coq Require Import String Ascii List Arith NArith Bool Lia.
From Verif Require Import Base SMap Pool_Model Pool_Props Stack_Model Stack_Proofs Stack_Props StackCmd_Model.
Import ListNotations.
Local Open Scope list_scope.

(** ** Specification: the commands as edits of a list of names. *)
Inductive nedit : list string -> sact -> list string -> Prop :=
| N_push l n : nedit l (SPush n) (l ++ [n])
| N_remove l1 n l2 : ~ In n l1 -> nedit (l1 ++ n :: l2) (SRemove n) (l1 ++ l2)
| N_remove_absent l n : ~ In n l -> nedit l (SRemove n) l
| N_up l1 x n l2 : ~ In n (l1 ++ [x]) -> nedit (l1 ++ x :: n :: l2) (SUp n) (l1 ++ n :: x :: l2)
| N_up_first n l : nedit (n :: l) (SUp n) (n :: l)
| N_up_absent l n : ~ In n l -> nedit l (SUp n) l
| N_down l1 x n l2 : ~ In n l1 -> nedit (l1 ++ n :: x :: l2) (SDown n) (l1 ++ x :: n :: l2)
| N_down_last l n : ~ In n l -> nedit (l ++ [n]) (SDown n) (l ++ [n])
| N_down_absent l n : ~ In n l -> nedit l (SDown n) l
| N_clear l : nedit l SClear []
| N_size l k : nedit l (SSize k) l
| N_pool l a : nedit l (SPool a) l.
(** A task was created under this name; the last size given. *)
Definition created (h : list sact) (n : string) : Prop := exists e, In (SPool (NewTask n e)) h.
Definition size_after (h : list sact) : N := fold_left (fun k a => match a with SSize k' => k' | _ => k end) h 0%N.
(** When a command of the solver is accepted. *)
Definition accepts (h : list sact) (a : sact) : Prop :=
  match a with
  | SPush n => created h n /\ size_after h <> 0%N
  | SRemove n | SUp n | SDown n => created h n
  | _ => True
  end.
(** No object is deleted and the pool is not destroyed; objects keep the name they are created with. *)
Definition lived (h : list sact) : Prop := forall a, In (SPool a) h -> match a with Delete _ | Destroy => False | _ => True end.
Definition named (name : task -> string) (h : list sact) : Prop := forall n e, In (SPool (NewTask n e)) h -> name e = n.
Definition names (name : task -> string) (h : list sact) : list string := map name (stack (sot (srun h))).

(** ** Proofs *)
Definition tget (w : sworld) := getTask (getInstance (pw w)).
Lemma srun_snoc h a : srun (h ++ [a]) = snd (sexec (srun h) a).
Proof. unfold srun. rewrite fold_left_app. reflexivity. Qed.
Lemma by_name_pool w n c : getInstance (pw (snd (by_name w n c))) = getInstance (pw w).
Proof. unfold by_name. destruct (getTask (getInstance (pw w)) n); [|reflexivity..]. destruct (step (sot w) (c a)). reflexivity. Qed.
Lemma msorted_run h : msorted scmp (ptasks (getInstance (pw (srun h)))).
Proof.
  induction h as [|a h IH] using rev_ind; [constructor|]. rewrite srun_snoc. destruct a as [a|n|n|n|n| |k]; cbn [sexec]; rewrite ?by_name_pool; try exact IH.
  destruct a as [n e|n e|e|]; cbn.
  - unfold registerTask. destruct (mfind scmp (ptasks (getInstance (pw (srun h)))) n); cbn; [exact IH|apply mset_sorted; smap].
  - unfold registerFeature. destruct (mfind scmp (pfeatures (getInstance (pw (srun h)))) n); cbn; exact IH.
  - exact IH.
  - constructor.
Qed.
(** What a name denotes changes only by creations. *)
Lemma tget_snoc h a n : lived (h ++ [a]) ->
  tget (srun (h ++ [a])) n = match tget (srun h) n with
                             | Ok e => Ok e
                             | o => match a with SPool (NewTask m e) => if (m =? n)%string then Ok e else o | _ => o end
                             end.
Proof.
  intros L. rewrite srun_snoc. unfold tget.
  destruct a as [a|m|m|m|m| |k]; cbn [sexec]; rewrite ?by_name_pool; [|cbn; destruct (getTask (getInstance (pw (srun h))) n); reflexivity..].
  destruct a as [m e|m e|e|].
  - cbn. unfold registerTask, getTask. destruct (mfind scmp (ptasks (getInstance (pw (srun h)))) m) eqn:E; cbn.
    + destruct (mfind scmp (ptasks (getInstance (pw (srun h)))) n) eqn:F; [reflexivity|]. destruct (String.eqb_spec m n); [congruence|reflexivity].
    + pose proof (msorted_run h) as S. rewrite mfind_mset by smap. destruct (scmp n m) eqn:C.
      * apply scmp_eq in C. subst m. rewrite E, String.eqb_refl. reflexivity.
      * destruct (String.eqb_spec m n) as [->|]; [rewrite (proj2 (scmp_eq n n) eq_refl) in C; discriminate|]. destruct (mfind scmp _ n); reflexivity.
      * destruct (String.eqb_spec m n) as [->|]; [rewrite (proj2 (scmp_eq n n) eq_refl) in C; discriminate|]. destruct (mfind scmp _ n); reflexivity.
  - cbn. unfold registerFeature. destruct (mfind scmp (pfeatures (getInstance (pw (srun h)))) m); cbn; unfold getTask; cbn; destruct (mfind scmp (ptasks (getInstance (pw (srun h)))) n); reflexivity.
  - destruct (L (Delete e)). apply in_or_app. right. left. reflexivity.
  - destruct (L Destroy). apply in_or_app. right. left. reflexivity.
Qed.
Lemma lived_app a b : lived (a ++ b) -> lived a.
Proof. intros L x I. apply L, in_or_app. left. exact I. Qed.
Lemma named_app name a b : named name (a ++ b) -> named name a.
Proof. intros L n e I. apply L, in_or_app. left. exact I. Qed.
Lemma tget_known h n : lived h -> (created h n -> exists e, tget (srun h) n = Ok e) /\ (forall e, tget (srun h) n = Ok e -> In (SPool (NewTask n e)) h) /\
  (~ created h n -> exists x, tget (srun h) n = Throw x).
Proof.
  induction h as [|a h IH] using rev_ind; intros L.
  - split; [intros (e & []) | split; [cbn; discriminate|cbn; eauto]].
  - destruct (IH (lived_app _ _ L)) as (I1 & I2 & I3). rewrite tget_snoc by exact L. split; [|split].
    + intros (e & I). apply in_app_or in I as [I|[->|[]]].
      * destruct I1 as (e' & ->); [exists e; exact I|eauto].
      * rewrite String.eqb_refl. destruct (tget (srun h) n); eauto.
    + intros e E. apply in_or_app. destruct (tget (srun h) n) as [e'|x|] eqn:T; [left; apply I2; congruence|..];
        (destruct a as [[m e'|m e'|e'|]|m|m|m|m| |k]; try discriminate E; destruct (String.eqb_spec m n); [subst; injection E as ->; right; left; reflexivity|discriminate E]).
    + intros N. destruct I3 as (x & X); [intros (e & I); apply N; exists e; apply in_or_app; left; exact I|]. exists x. rewrite X.
      destruct a as [[m e'|m e'|e'|]|m|m|m|m| |k]; try reflexivity. destruct (String.eqb_spec m n) as [->|]; [|reflexivity].
      destruct N. exists e'. apply in_or_app. right. left. reflexivity.
Qed.
Lemma size_run h : nbJoints (sot (srun h)) = size_after h.
Proof.
  induction h as [|a h IH] using rev_ind; [reflexivity|]. rewrite srun_snoc. unfold size_after. rewrite fold_left_app. fold (size_after h). cbn [fold_left].
  assert (B : forall n c, (forall t, nbJoints (snd (step (sot (srun h)) (c t))) = nbJoints (sot (srun h))) -> nbJoints (sot (snd (by_name (srun h) n c))) = size_after h).
  { intros n c K. unfold by_name. destruct (getTask _ n) as [t|x|]; try exact IH. specialize (K t). destruct (step (sot (srun h)) (c t)). cbn in *. congruence. }
  destruct a as [a|n|n|n|n| |k]; cbn [sexec].
  - destruct (pool_step (pw (srun h)) a). exact IH.
  - apply B. intros t. cbn. unfold push. destruct (nbJoints (sot (srun h)) =? 0)%N; reflexivity.
  - apply B. intros t. cbn. unfold Stack_Model.remove. destruct (find_it _ t); reflexivity.
  - apply B. intros t. cbn. unfold up. destruct (find_it _ t) as [[|i]|]; reflexivity.
  - apply B. intros t. cbn. unfold down. destruct (find_it _ t); reflexivity.
  - cbn. exact IH.
  - reflexivity.
Qed.
(** Edits of the stack bring no task but the one pushed. *)
Lemma edit_in l c l' t : edit_spec l c l' -> In t l' -> In t l \/ c = CPush t.
Proof.
  intros H I. destruct H; rewrite ?in_app_iff in *; cbn in *; rewrite ?in_app_iff in *; cbn in *; intuition (subst; auto).
Qed.
Lemma by_name_ok w n c t : getTask (getInstance (pw w)) n = Ok t -> sot (snd (by_name w n c)) = snd (step (sot w) (c t)) /\ fst (by_name w n c) = fst (step (sot w) (c t)).
Proof. intros E. unfold by_name. rewrite E. destruct (step (sot w) (c t)). split; reflexivity. Qed.
Lemma by_name_throw w n c x : getTask (getInstance (pw w)) n = Throw x -> sot (snd (by_name w n c)) = sot w /\ fst (by_name w n c) = Throw x.
Proof. intros E. unfold by_name. rewrite E. split; reflexivity. Qed.
Lemma by_name_stack w n c t : In t (stack (sot (snd (by_name w n c)))) -> (forall u, c u <> CPop) ->
  In t (stack (sot w)) \/ exists u, getTask (getInstance (pw w)) n = Ok u /\ c u = CPush t.
Proof.
  intros I P. unfold by_name in I. destruct (getTask (getInstance (pw w)) n) as [u|x|] eqn:E; [|left; exact I..].
  destruct (step (sot w) (c u)) as [o s] eqn:S. cbn in I. destruct o as [[]|x|].
  - apply stack_command_spec in S. destruct (edit_in _ _ _ t S I) as [J|J]; [left; exact J|right; eauto].
  - left. destruct (c u) eqn:C; try (destruct (P u C)); cbn in S; unfold push in S; try destruct (nbJoints (sot w) =? 0)%N; try discriminate S; injection S; intros; subst; exact I.
  - left. destruct (c u) eqn:C; try (destruct (P u C)); cbn in S; unfold push in S; try destruct (nbJoints (sot w) =? 0)%N; discriminate S.
Qed.
(** The tasks of the stack are the ones their names denote. *)
Lemma stack_known name h : lived h -> named name h -> forall t, In t (stack (sot (srun h))) -> tget (srun h) (name t) = Ok t.
Proof.
  induction h as [|a h IH] using rev_ind; intros L N t I; [destruct I|]. specialize (IH (lived_app _ _ L) (named_app _ _ _ N)).
  assert (G : In t (stack (sot (srun h))) -> tget (srun (h ++ [a])) (name t) = Ok t) by (intros J; rewrite tget_snoc, IH by assumption; reflexivity).
  rewrite srun_snoc in I. destruct a as [a|n|n|n|n| |k]; cbn [sexec] in I.
  - apply G. destruct (pool_step (pw (srun h)) a). exact I.
  - apply by_name_stack in I as [I|(u & T & C)]; [apply G, I| |discriminate]. injection C as ->. rewrite tget_snoc by exact L.
    assert (E : name t = n) by (apply (named_app _ _ _ N), (tget_known h n (lived_app _ _ L)), T). rewrite E. unfold tget. rewrite T. reflexivity.
  - apply by_name_stack in I as [I|(u & T & C)]; [apply G, I|discriminate C|discriminate].
  - apply by_name_stack in I as [I|(u & T & C)]; [apply G, I|discriminate C|discriminate].
  - apply by_name_stack in I as [I|(u & T & C)]; [apply G, I|discriminate C|discriminate].
  - destruct I.
  - apply G. exact I.
Qed.
Lemma edit_names name h n t (c : task -> cmd) (a : sact) l' : lived h -> named name h -> tget (srun h) n = Ok t ->
  (c, a) = (CPush, SPush n) \/ (c, a) = (CRemove, SRemove n) \/ (c, a) = (CUp, SUp n) \/ (c, a) = (CDown, SDown n) ->
  edit_spec (stack (sot (srun h))) (c t) l' -> nedit (names name h) a (map name l').
Proof.
  intros L N T K E. assert (M : name t = n) by (apply N, (tget_known h n L), T). pose proof (stack_known name h L N) as S.
  assert (J : forall l, incl l (stack (sot (srun h))) -> ~ In t l -> ~ In n (map name l)).
  { intros l I O X. apply in_map_iff in X as (u & U & V). apply I in V as W. apply S in W. rewrite U, T in W. injection W as ->. auto. }
  unfold names. revert J. generalize (stack (sot (srun h))) E. clear S E. intros l E J.
  destruct K as [K|[K|[K|K]]]; injection K as -> ->; cbv beta in E; inversion E; subst; rewrite ?map_app; cbn [map]; constructor;
    try (apply J; [|assumption]); try apply incl_refl; try (intros x X; apply in_or_app; left; exact X).
  - change (map name l1 ++ [name x]) with (map name l1 ++ map name [x]). rewrite <- map_app. apply J; [|assumption].
    intros y Y. apply in_app_or in Y as [Y|[Y|[]]]; apply in_or_app; [left; exact Y|right; left; exact Y].
  - intros y Y. apply in_or_app. left. exact Y.
Qed.

(** Every command of the solver is accepted exactly when a task was created under that name (and, for push, the size was set); it then
    edits the list of names as its documentation says; refused, it leaves the list.
    Missing: histories in which tasks are deleted or the pool is destroyed, where it is false (the two findings below). *)
Theorem stackcmd_names_partial name h a : lived (h ++ [a]) -> named name (h ++ [a]) ->
  (accepts h a -> nedit (names name h) a (names name (h ++ [a])) /\ ((forall p, a <> SPool p) -> fst (sexec (srun h) a) = Ok tt)) /\
  (~ accepts h a -> names name (h ++ [a]) = names name h /\ exists x, fst (sexec (srun h) a) = Throw x).
Proof.
  intros L N. apply lived_app in L as L1. apply named_app in N as N1.
  assert (B : forall n (c : task -> cmd), sexec (srun h) a = by_name (srun h) n c -> (c, a) = (CPush, SPush n) \/ (c, a) = (CRemove, SRemove n) \/ (c, a) = (CUp, SUp n) \/ (c, a) = (CDown, SDown n) ->
    (created h n -> (forall t, fst (step (sot (srun h)) (c t)) = Ok tt) -> nedit (names name h) a (names name (h ++ [a])) /\ fst (sexec (srun h) a) = Ok tt) /\
    (~ created h n -> names name (h ++ [a]) = names name h /\ exists x, fst (sexec (srun h) a) = Throw x)).
  { intros n c E K. destruct (tget_known h n L1) as (I1 & I2 & I3). unfold names. rewrite srun_snoc, E. split.
    - intros C O. destruct (I1 C) as (t & T). destruct (by_name_ok (srun h) n c t T) as (-> & ->). split; [|apply O].
      apply (edit_names name h n t c a); auto. apply stack_command_spec. rewrite <- (O t). apply surjective_pairing.
    - intros C. destruct (I3 C) as (x & X). destruct (by_name_throw (srun h) n c x X) as (-> & ->). split; [reflexivity|eauto]. }
  destruct a as [p|n|n|n|n| |k].
  - split; [intros _; split; [|intros H; destruct (H p eq_refl)]|intros H; destruct H; exact I].
    unfold names. rewrite srun_snoc. cbn [sexec]. destruct (pool_step (pw (srun h)) p). constructor.
  - destruct (B n CPush eq_refl) as (B1 & B2); [auto|]. assert (D : created h n \/ ~ created h n).
    { destruct (tget (srun h) n) as [t|x|] eqn:T; [left; exists t; apply tget_known; assumption|right..]; intros C; destruct (proj1 (tget_known h n L1) C) as (e & E); congruence. }
    split.
    + intros (C & S). destruct (B1 C) as (E & F); [|split; [exact E|intros _; exact F]]. intros t. cbn. unfold push. rewrite size_run.
      apply N.eqb_neq in S. rewrite S. reflexivity.
    + intros A. destruct D as [C|C]; [|apply B2, C]. assert (S : size_after h = 0%N) by (destruct (N.eq_dec (size_after h) 0); [assumption|destruct A; split; assumption]).
      destruct (proj1 (tget_known h n L1) C) as (t & T). unfold names. rewrite srun_snoc. cbn [sexec].
      destruct (by_name_ok (srun h) n CPush t T) as (-> & ->). cbn. unfold push. rewrite size_run, S. cbn. split; [reflexivity|eauto].
  - destruct (B n CRemove eq_refl) as (B1 & B2); [auto|]. split; [|exact B2]. intros C. destruct (B1 C) as (E & F); [reflexivity|auto].
  - destruct (B n CUp eq_refl) as (B1 & B2); [auto|]. split; [|exact B2]. intros C. destruct (B1 C) as (E & F); [reflexivity|auto].
  - destruct (B n CDown eq_refl) as (B1 & B2); [auto|]. split; [|exact B2]. intros C. destruct (B1 C) as (E & F); [reflexivity|auto].
  - split; [intros _; split; [|reflexivity]|intros H; destruct H; exact I]. unfold names. rewrite srun_snoc. cbn. constructor.
  - split; [intros _; split; [|reflexivity]|intros H; destruct H; exact I]. unfold names. rewrite srun_snoc. cbn. constructor.
Qed.
(** The command list prints the names, in order. *)
Theorem stackcmd_list name h :
  slist name (srun h) = ("( " ++ String.concat "" (map (fun n => String "034" n ++ String "034" ", ") (names name h)) ++ ")")%string.
Proof.
  unfold slist, list_cmd, names. f_equal. f_equal. induction (stack (sot (srun h))) as [|t l IH]; [reflexivity|].
  cbn [list_items map]. rewrite IH. cbn [map String.concat]. destruct (map _ (map name l)) as [|y r] eqn:M; cbn [String.concat]; cbn; rewrite ?string_app_assoc; reflexivity.
Qed.

(** Finding: the name of a deleted task is still accepted, and the stack then holds an object that does not exist. *)
Theorem stackcmd_deleted_refuted : exists h n t, fst (sexec (srun h) (SPush n)) = Ok tt /\
  In t (stack (sot (srun (h ++ [SPush n])))) /\ ~ In t (alive (pw (srun (h ++ [SPush n])))).
Proof.
  exists [SSize 3; SPool (NewTask "a" 1); SPool (Delete 1)], "a"%string, 1. split; [reflexivity|]. split; [left; reflexivity|]. intros [].
Qed.
(** Finding: once the pool was destroyed, a new task may take the name of one in the stack; removing that name is accepted and leaves it in
    the list. *)
Theorem stackcmd_recycled_refuted : exists name h n, named name h /\ In n (names name h) /\ fst (sexec (srun h) (SRemove n)) = Ok tt /\
  names name (h ++ [SRemove n]) = names name h.
Proof.
  exists (fun _ => "a"%string), [SSize 3; SPool (NewTask "a" 1); SPush "a"; SPool Destroy; SPool (NewTask "a" 2)], "a"%string.
  split; [|repeat split; left; reflexivity]. intros n e H. cbn in H. repeat (destruct H as [H|H]; [try discriminate H; injection H as <- _; reflexivity|]). destruct H.
Qed.

Example stackcmd_example :
  let name := fun t => match t with 1 => "a" | 2 => "b" | _ => "c" end%string in
  let h := [SPool (NewTask "a" 1); SPush "a"; SSize 3; SPool (NewTask "b" 2); SPush "a"; SPush "b"; SPush "z"; SUp "b"; SPool (NewTask "c" 3); SPush "c"; SRemove "a"]%string in
  lived h /\ named name h /\ names name h = ["b"; "c"]%string /\ slist name (srun h) = "( ""b"", ""c"", )"%string /\ accepts h (SPush "a").
Proof.
  cbv zeta. split; [|split; [|split; [reflexivity|split; [reflexivity|]]]].
  - intros a H. cbn in H. repeat (destruct H as [H|H]; [try discriminate H; injection H as <-; exact I|]). destruct H.
  - intros n e H. cbn in H. repeat (destruct H as [H|H]; [try discriminate H; injection H as <- <-; reflexivity|]). destruct H.
  - split; [exists 1; left; reflexivity|discriminate].
Qed.

Print Assumptions stackcmd_names_partial.
Print Assumptions stackcmd_list.
Print Assumptions stackcmd_deleted_refuted.
Print Assumptions stackcmd_recycled_refuted.
