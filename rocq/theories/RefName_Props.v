(** C124: references given by name; C76: the text of the graph. *)
From Coq Require Import String Ascii List Arith Lia ZArith Bool.
From Verif Require Import Base SMap Pool_Model Pool_Props Deps_Model RefName_Model.
Import ListNotations.
Local Open Scope nat_scope.
Local Open Scope list_scope.

(** ** Specification *)
Section Refs.
Variables (cls : nat -> nat) (sub : nat -> nat -> bool).

(** What a user remembers: the tasks and features created, with their names, and the name of the reference of
    one feature. *)
Record memory := Mem { m_tasks : list (string * nat); m_feats : list (string * nat); m_ref : option string }.
Fixpoint find_name (n : string) (l : list (string * nat)) : option nat :=
  match l with [] => None | (n', e) :: r => if (n' =? n)%string then Some e else find_name n r end.
Definition created (m : memory) : list nat := map snd (m_tasks m ++ m_feats m).
Definition remember (f : nat) (m : memory) (c : ract) : memory :=
  match c with
  | RPool (NewTask n e) =>
      match find_name n (m_tasks m) with Some _ => m | None => Mem (m_tasks m ++ [(n, e)]) (m_feats m) (m_ref m) end
  | RPool (NewFeature n e) =>
      match find_name n (m_feats m) with
      | Some _ => m
      | None => Mem (m_tasks m) (m_feats m ++ [(n, e)]) (m_ref m)
      end
  | RPool _ => m
  | RSet g n =>
      if Nat.eqb g f then
        if in_dec Nat.eq_dec f (created m) then
          match find_name n (m_feats m) with
          | None => m
          | Some e => Mem (m_tasks m) (m_feats m) (if sub (cls e) (cls f) then Some n else None)
          end
        else m
      else m
  | RUnset g => if Nat.eqb g f then if in_dec Nat.eq_dec f (created m) then Mem (m_tasks m) (m_feats m) None else m else m
  end.
Definition memory_of (f : nat) (h : list ract) : memory := fold_left (remember f) h (Mem [] [] None).
(** Nothing is deleted, and two objects have two addresses. *)
Definition addr (c : ract) : list nat := match c with RPool (NewTask _ e) | RPool (NewFeature _ e) => [e] | _ => [] end.
Definition lasting (h : list ract) : Prop :=
  (forall c, In c h -> match c with RPool (Delete _) | RPool Destroy => False | _ => True end) /\ NoDup (flat_map addr h).

(** ** Proofs *)
Lemma find_name_app n a b : find_name n (a ++ b) = match find_name n a with Some e => Some e | None => find_name n b end.
Proof. induction a as [|[n' e] a IH]; [reflexivity|]. cbn. destruct (n' =? n)%string; auto. Qed.
Lemma find_name_in n l e : find_name n l = Some e -> In (n, e) l.
Proof.
  induction l as [|[n' e'] l IH]; [discriminate|]. cbn. destruct (String.eqb_spec n' n) as [->|]; intros E; [injection E as ->; now left|right; auto].
Qed.
Lemma is_alive_spec w e : is_alive w e = true <-> In e (alive w).
Proof.
  unfold is_alive. rewrite existsb_exists. split.
  - intros (x & Hx & E). apply Nat.eqb_eq in E. now subst.
  - intros H. exists e. split; [exact H|apply Nat.eqb_refl].
Qed.

Definition rinv (f : nat) (w : rworld) (m : memory) : Prop :=
  msorted scmp (ptasks (getInstance (rw_pool w))) /\ msorted scmp (pfeatures (getInstance (rw_pool w))) /\
  (forall n, mfind scmp (ptasks (getInstance (rw_pool w))) n = find_name n (m_tasks m)) /\
  (forall n, mfind scmp (pfeatures (getInstance (rw_pool w))) n = find_name n (m_feats m)) /\
  (forall e, In e (alive (rw_pool w)) <-> In e (created m)) /\
  (forall n e, In (n, e) (m_tasks m ++ m_feats m) -> rw_name w e = n) /\
  match m_ref m with
  | Some n => exists r, r_ref (rw_ref w f) = Some r /\ find_name n (m_feats m) = Some r
  | None => r_ref (rw_ref w f) = None
  end.

Lemma in_created n e m : In (n, e) (m_tasks m ++ m_feats m) -> In e (created m).
Proof. intros H. apply in_map_iff. now exists (n, e). Qed.

Lemma ref_inv f h : lasting h -> rinv f (ref_run cls sub h) (memory_of f h) /\
  (forall e, In e (created (memory_of f h)) -> In e (flat_map addr h)) /\
  (m_ref (memory_of f h) <> None -> In f (created (memory_of f h))).
Proof.
  induction h as [|c h IH] using rev_ind.
  { intros _. split; [|split; [intros e []|cbn; congruence]]. unfold rinv. cbn.
    split; [constructor|]. split; [constructor|]. repeat split; auto; intros; contradiction. }
  intros (Hd & Hn). rewrite flat_map_app in Hn. cbn in Hn. rewrite app_nil_r in Hn.
  destruct IH as ((I1 & I2 & I3 & I4 & I5 & I6 & I7) & J1 & J2).
  { split; [intros c0 H0; apply Hd; apply in_or_app; now left|].
    clear -Hn. induction (flat_map addr h) as [|x l IHl]; [constructor|]. inversion Hn; subst.
    constructor; [rewrite in_app_iff in *; tauto|auto]. }
  assert (Hc := Hd c ltac:(apply in_or_app; right; now left)). clear Hd.
  unfold ref_run, memory_of. rewrite !fold_left_app. cbn [fold_left].
  fold (ref_run cls sub h) (memory_of f h). set (w := ref_run cls sub h) in *. set (m := memory_of f h) in *.
  assert (Fresh : forall e, In e (addr c) -> ~ In e (created m)).
  { intros e He Hi. apply J1 in Hi. clear -Hn He Hi. induction (flat_map addr h) as [|x l IHl]; [contradiction|].
    cbn in Hn. inversion Hn as [|? ? Hx Hl]; subst. destruct Hi as [->|Hi]; [|auto]. apply Hx, in_or_app. now right. }
  assert (Up : forall e, In e (created m) -> In e (flat_map addr (h ++ [c]))).
  { intros e He. rewrite flat_map_app. apply in_or_app. left. auto. }
  destruct c as [[n e|n e|e|]|g n|g]; cbn [ref_step]; try contradiction.
  - (* new task *)
    unfold construct, pool_step, registerTask. rewrite I3. cbn [remember]. destruct (find_name n (m_tasks m)) as [e0|] eqn:E.
    + cbn. split; [|auto]. unfold rinv. cbn. unfold getInstance at 1 2 3 4. cbn. repeat (split; [assumption|]). exact I7.
    + cbn [snd]. assert (Fe := Fresh e (or_introl eq_refl)). split; [|split].
      * unfold rinv. cbn [rw_pool rw_name rw_ref m_tasks m_feats m_ref alive]. unfold getInstance. cbn [instance ptasks pfeatures].
        split; [apply mset_sorted; smap|]. split; [exact I2|]. split; [|split; [exact I4|split; [|split]]].
        -- intros n'. rewrite mfind_mset by smap. rewrite find_name_app, <- I3. cbn. rewrite seqb_scmp.
           destruct (scmp n' n) eqn:C; [apply scmp_eq in C; subst; now rewrite I3, E| |]; destruct (mfind scmp _ n'); auto.
        -- intros x. unfold created. cbn [m_tasks m_feats alive]. rewrite !map_app, !in_app_iff. cbn. rewrite I5. unfold created.
           rewrite map_app, in_app_iff. tauto.
        -- intros n' e' Hi. unfold put. rewrite <- app_assoc in Hi. rewrite !in_app_iff in Hi. cbn in Hi.
           destruct (Nat.eqb_spec e' e) as [->|Hne].
           ++ destruct Hi as [Hi|[[Hi|[]]|Hi]]; [| now injection Hi|];
                exfalso; apply Fe; apply (in_created n'); apply in_or_app; auto.
           ++ apply I6. apply in_or_app. destruct Hi as [Hi|[[Hi|[]]|Hi]]; auto. injection Hi; congruence.
        -- unfold put. destruct (Nat.eqb_spec f e) as [->|]; [|exact I7].
           destruct (m_ref m); [exfalso; apply Fe, J2; discriminate|reflexivity].
      * intros x. unfold created. cbn [m_tasks m_feats]. rewrite !map_app, !in_app_iff. cbn.
        intros [[Hx|[->|[]]]|Hx]; rewrite flat_map_app, in_app_iff; cbn; [left; apply J1|right; auto|left; apply J1];
          unfold created; rewrite map_app, in_app_iff; auto.
      * cbn [m_ref]. intros H. apply J2 in H. revert H. unfold created. cbn [m_tasks m_feats]. rewrite !map_app, !in_app_iff. tauto.
  - (* new feature *)
    unfold construct, pool_step, registerFeature. rewrite I4. cbn [remember]. destruct (find_name n (m_feats m)) as [e0|] eqn:E.
    + cbn. split; [|auto]. unfold rinv. cbn. unfold getInstance at 1 2 3 4. cbn. repeat (split; [assumption|]). exact I7.
    + cbn [snd]. assert (Fe := Fresh e (or_introl eq_refl)). split; [|split].
      * unfold rinv. cbn [rw_pool rw_name rw_ref m_tasks m_feats m_ref alive]. unfold getInstance. cbn [instance ptasks pfeatures].
        split; [exact I1|]. split; [apply mset_sorted; smap|]. split; [exact I3|split; [|split; [|split]]].
        -- intros n'. rewrite mfind_mset by smap. rewrite find_name_app, <- I4. cbn. rewrite seqb_scmp.
           destruct (scmp n' n) eqn:C; [apply scmp_eq in C; subst; now rewrite I4, E| |]; destruct (mfind scmp _ n'); auto.
        -- intros x. unfold created. cbn [m_tasks m_feats alive]. rewrite !map_app, !in_app_iff. cbn. rewrite I5. unfold created.
           rewrite map_app, in_app_iff. tauto.
        -- intros n' e' Hi. unfold put. rewrite !in_app_iff in Hi. cbn in Hi.
           destruct (Nat.eqb_spec e' e) as [->|Hne].
           ++ destruct Hi as [Hi|[Hi|[Hi|[]]]]; [| | now injection Hi];
                exfalso; apply Fe; apply (in_created n'); apply in_or_app; auto.
           ++ apply I6. apply in_or_app. destruct Hi as [Hi|[Hi|[Hi|[]]]]; auto. injection Hi; congruence.
        -- unfold put. destruct (Nat.eqb_spec f e) as [->|].
           ++ destruct (m_ref m); [exfalso; apply Fe, J2; discriminate|reflexivity].
           ++ destruct (m_ref m) as [nr|]; [|exact I7]. destruct I7 as (r & R1 & R2). exists r. split; [exact R1|].
              now rewrite find_name_app, R2.
      * intros x. unfold created. cbn [m_tasks m_feats]. rewrite !map_app, !in_app_iff. cbn.
        intros [Hx|[Hx|[->|[]]]]; rewrite flat_map_app, in_app_iff; cbn; [left; apply J1|left; apply J1|right; auto];
          unfold created; rewrite map_app, in_app_iff; auto.
      * cbn [m_ref]. intros H. apply J2 in H. revert H. unfold created. cbn [m_tasks m_feats]. rewrite !map_app, !in_app_iff. tauto.
  - (* reference by name *)
    cbn [remember]. unfold setReferenceByName. destruct (is_alive (rw_pool w) g) eqn:Ea.
    + unfold getFeature. rewrite I4. destruct (find_name n (m_feats m)) as [r|] eqn:E.
      * assert (Hr : In r (created m)).
        { apply (in_created n). apply in_or_app. right. now apply find_name_in. }
        rewrite (proj2 (is_alive_spec _ r)) by now apply I5. cbn [snd].
        destruct (Nat.eqb_spec g f) as [->|Hg].
        -- destruct (in_dec Nat.eq_dec f (created m)) as [Hi|Hi]; [|exfalso; apply Hi, I5, is_alive_spec, Ea].
           split; [|split; [exact Up|auto]]. unfold rinv. cbn [rw_pool rw_name rw_ref m_tasks m_feats m_ref]. repeat (split; [assumption|]).
           unfold put. rewrite Nat.eqb_refl. destruct (sub (cls r) (cls f)); cbn; eauto.
        -- split; [|split; [exact Up|exact J2]]. unfold rinv. cbn [rw_pool rw_name rw_ref]. repeat (split; [assumption|]).
           unfold put. destruct (Nat.eqb_spec f g); [congruence|]. exact I7.
      * cbn [snd]. assert (Q : (if Nat.eqb g f then if in_dec Nat.eq_dec f (created m) then m else m else m) = m).
        { destruct (Nat.eqb g f); [destruct (in_dec Nat.eq_dec f (created m))|]; reflexivity. }
        rewrite Q. split; [|split; [exact Up|exact J2]]. unfold rinv. repeat (split; [assumption|]). exact I7.
    + cbn [snd]. assert (Q : remember f m (RSet g n) = m).
      { cbn. destruct (Nat.eqb_spec g f) as [->|]; [|reflexivity]. destruct (in_dec Nat.eq_dec f (created m)) as [Hi|]; [|reflexivity].
        exfalso. apply I5 in Hi. apply is_alive_spec in Hi. congruence. }
      cbn [remember] in Q. rewrite Q. split; [|split; [exact Up|exact J2]]. unfold rinv. repeat (split; [assumption|]). exact I7.
  - (* unset *)
    cbn [remember]. unfold unsetReference. destruct (is_alive (rw_pool w) g) eqn:Ea; cbn [snd].
    + destruct (Nat.eqb_spec g f) as [->|Hg].
      * destruct (in_dec Nat.eq_dec f (created m)) as [Hi|Hi]; [|exfalso; apply Hi, I5, is_alive_spec, Ea].
        split; [|split; [exact Up|cbn; congruence]]. unfold rinv. cbn [rw_pool rw_name rw_ref m_tasks m_feats m_ref]. repeat (split; [assumption|]).
        unfold put. rewrite Nat.eqb_refl. reflexivity.
      * split; [|split; [exact Up|exact J2]]. unfold rinv. cbn [rw_pool rw_name rw_ref]. repeat (split; [assumption|]).
        unfold put. destruct (Nat.eqb_spec f g); [congruence|]. exact I7.
    + assert (Q : remember f m (RUnset g) = m).
      { cbn. destruct (Nat.eqb_spec g f) as [->|]; [|reflexivity]. destruct (in_dec Nat.eq_dec f (created m)) as [Hi|]; [|reflexivity].
        exfalso. apply I5 in Hi. apply is_alive_spec in Hi. congruence. }
      cbn [remember] in Q. rewrite Q. split; [|split; [exact Up|exact J2]]. unfold rinv. repeat (split; [assumption|]). exact I7.
Qed.

(** After any history in which nothing is deleted, asking a feature for its reference gives the name of the last
    reference it was given, unless that one was of another class or taken away: then it answers none. *)
Theorem reference_by_name h f : lasting h -> In f (created (memory_of f h)) ->
  getReferenceByName (ref_run cls sub h) f =
    Ok (match m_ref (memory_of f h) with Some n => n | None => "none"%string end).
Proof.
  intros Hl Hf. destruct (ref_inv f h Hl) as ((I1 & I2 & I3 & I4 & I5 & I6 & I7) & _ & _).
  unfold getReferenceByName. rewrite (proj2 (is_alive_spec _ f)) by now apply I5.
  destruct (m_ref (memory_of f h)) as [n|]; [|now rewrite I7].
  destruct I7 as (r & -> & E). assert (Hi : In (n, r) (m_tasks (memory_of f h) ++ m_feats (memory_of f h))).
  { apply in_or_app. right. now apply find_name_in. }
  rewrite (proj2 (is_alive_spec _ r)) by (apply I5; now apply (in_created n)). now rewrite (I6 _ _ Hi).
Qed.

(** The command raises exactly for unknown names, and then changes nothing. *)
Theorem reference_unknown h f n : lasting h -> In f (created (memory_of f h)) ->
  ref_step cls sub (ref_run cls sub h) (RSet f n) = (Throw "UNREFERED_OBJECT", ref_run cls sub h) /\ find_name n (m_feats (memory_of f h)) = None \/
  fst (ref_step cls sub (ref_run cls sub h) (RSet f n)) = Ok tt /\ find_name n (m_feats (memory_of f h)) <> None.
Proof.
  intros Hl Hf. destruct (ref_inv f h Hl) as ((I1 & I2 & I3 & I4 & I5 & I6 & I7) & _ & _).
  cbn [ref_step]. unfold setReferenceByName. rewrite (proj2 (is_alive_spec _ f)) by now apply I5.
  unfold getFeature. rewrite I4. destruct (find_name n (m_feats (memory_of f h))) as [r|] eqn:E; [right|left; auto].
  assert (Hi : In (n, r) (m_tasks (memory_of f h) ++ m_feats (memory_of f h))).
  { apply in_or_app. right. now apply find_name_in. }
  rewrite (proj2 (is_alive_spec _ r)) by (apply I5; now apply (in_created n)). split; [reflexivity|discriminate].
Qed.

(** The arguments of the calls that reach the feature. *)
Definition given (f : nat) (m : memory) (c : ract) : list refarg :=
  match c with
  | RSet g n =>
      if Nat.eqb g f then
        if in_dec Nat.eq_dec f (created m) then
          match find_name n (m_feats m) with
          | None => []
          | Some e => [if sub (cls e) (cls f) then RSame e else ROther e]
          end
        else []
      else []
  | RUnset g => if Nat.eqb g f then if in_dec Nat.eq_dec f (created m) then [RNull] else [] else []
  | _ => []
  end.
Fixpoint given_all (f : nat) (m : memory) (h : list ract) : list refarg :=
  match h with [] => [] | c :: r => given f m c ++ given_all f (remember f m c) r end.
Lemma given_snoc f c : forall h m, given_all f m (h ++ [c]) = given_all f m h ++ given f (fold_left (remember f) h m) c.
Proof. induction h as [|x h IH]; intros m; cbn; [now rewrite app_nil_r|]. now rewrite IH, app_assoc. Qed.

Lemma lasting_snoc h c : lasting (h ++ [c]) -> lasting h.
Proof.
  intros (Hd & Hn). split; [intros c0 H0; apply Hd; apply in_or_app; now left|].
  rewrite flat_map_app in Hn. clear -Hn. induction (flat_map addr h) as [|x l IHl]; [constructor|]. inversion Hn; subst.
  constructor; [rewrite in_app_iff in *; tauto|auto].
Qed.

(** The references of a feature and the inputs its error depends on are those of the calls it received, a name
    standing for the feature registered under it (the calls of C109). *)
Theorem reference_dependencies h f : lasting h ->
  rw_ref (ref_run cls sub h) f = fold_left set_reference (given_all f (Mem [] [] None) h) new_feature /\
  (~ In f (created (memory_of f h)) -> given_all f (Mem [] [] None) h = []).
Proof.
  induction h as [|c h IH] using rev_ind; [split; reflexivity|]. intros Hl. pose proof (lasting_snoc _ _ Hl) as Hl0.
  destruct (IH Hl0) as (E & N). destruct (ref_inv f h Hl0) as ((_ & _ & I3 & I4 & I5 & _ & _) & J1 & _). clear IH.
  rewrite given_snoc. fold (memory_of f h). unfold memory_of at 2, ref_run. rewrite !fold_left_app. cbn [fold_left].
  fold (ref_run cls sub h) (memory_of f h). set (w := ref_run cls sub h) in *. set (m := memory_of f h) in *. rewrite <- E.
  assert (Fresh : forall e, In e (addr c) -> ~ In e (created m)).
  { destruct Hl as (_ & Hn). rewrite flat_map_app in Hn. cbn in Hn. rewrite app_nil_r in Hn.
    intros e He Hi. apply J1 in Hi. clear -Hn He Hi. induction (flat_map addr h) as [|x l IHl]; [contradiction|].
    cbn in Hn. inversion Hn as [|? ? Hx Hl]; subst. destruct Hi as [->|Hi]; [|auto]. apply Hx, in_or_app. now right. }
  assert (Hc : match c with RPool (Delete _) | RPool Destroy => False | _ => True end).
  { apply (proj1 Hl). apply in_or_app. right. now left. }
  destruct c as [[n e|n e|e|]|g n|g]; cbn [ref_step given]; try contradiction; rewrite ?app_nil_r.
  - unfold construct, pool_step, registerTask. rewrite I3. cbn [remember fold_left]. destruct (find_name n (m_tasks m)) eqn:En; cbn [snd rw_ref]; [auto|].
    split.
    + unfold put. destruct (Nat.eqb_spec f e) as [->|]; [|reflexivity]. rewrite E, (N (Fresh e (or_introl eq_refl))). reflexivity.
    + intros Hi. apply N. intros Hj. apply Hi. revert Hj. unfold created. cbn [m_tasks m_feats]. rewrite !map_app, !in_app_iff. tauto.
  - unfold construct, pool_step, registerFeature. rewrite I4. cbn [remember fold_left]. destruct (find_name n (m_feats m)) eqn:En; cbn [snd rw_ref]; [auto|].
    split.
    + unfold put. destruct (Nat.eqb_spec f e) as [->|]; [|reflexivity]. rewrite E, (N (Fresh e (or_introl eq_refl))). reflexivity.
    + intros Hi. apply N. intros Hj. apply Hi. revert Hj. unfold created. cbn [m_tasks m_feats]. rewrite !map_app, !in_app_iff. tauto.
  - unfold setReferenceByName, getFeature. rewrite I4. cbn [remember]. destruct (is_alive (rw_pool w) g) eqn:Ea.
    + destruct (find_name n (m_feats m)) as [r|] eqn:En.
      * assert (Hr : In r (created m)) by (apply (in_created n); apply in_or_app; right; now apply find_name_in).
        rewrite (proj2 (is_alive_spec _ r)) by now apply I5. cbn [snd rw_ref]. unfold put.
        destruct (Nat.eqb_spec g f) as [->|Hg].
        -- rewrite Nat.eqb_refl. destruct (in_dec Nat.eq_dec f (created m)) as [Hi|Hi]; [|exfalso; apply Hi, I5, is_alive_spec, Ea].
           split; [reflexivity|]. intros Hi'. now destruct Hi'.
        -- destruct (Nat.eqb_spec f g); [congruence|]. rewrite app_nil_r. auto.
      * destruct (Nat.eqb g f); [destruct (in_dec Nat.eq_dec f (created m))|]; rewrite ?app_nil_r; auto.
    + assert (Hi : g = f -> ~ In f (created m)).
      { intros -> Hi. apply I5, is_alive_spec in Hi. congruence. }
      destruct (Nat.eqb_spec g f) as [->|]; [destruct (in_dec Nat.eq_dec f (created m)); [now destruct (Hi eq_refl)|]|];
        rewrite ?app_nil_r; auto.
  - unfold unsetReference. cbn [remember]. destruct (is_alive (rw_pool w) g) eqn:Ea.
    + cbn [snd rw_ref]. unfold put. destruct (Nat.eqb_spec g f) as [->|Hg].
      * rewrite Nat.eqb_refl. destruct (in_dec Nat.eq_dec f (created m)) as [Hi|Hi]; [|exfalso; apply Hi, I5, is_alive_spec, Ea].
        split; [reflexivity|]. intros Hi'. now destruct Hi'.
      * destruct (Nat.eqb_spec f g); [congruence|]. rewrite app_nil_r. auto.
    + assert (Hi : g = f -> ~ In f (created m)).
      { intros -> Hi. apply I5, is_alive_spec in Hi. congruence. }
      destruct (Nat.eqb_spec g f) as [->|]; [destruct (in_dec Nat.eq_dec f (created m)); [now destruct (Hi eq_refl)|]|];
        rewrite ?app_nil_r; auto.
Qed.
End Refs.

(** A feature of another class is accepted without an error, and the earlier reference is lost. *)
Theorem reference_other_class_refuted : exists cls sub h, lasting h /\
  fst (ref_step cls sub (ref_run cls sub h) (RSet 1 "other")) = Ok tt /\
  getReferenceByName (ref_run cls sub h) 1 = Ok "same"%string /\
  getReferenceByName (ref_run cls sub (h ++ [RSet 1 "other"])) 1 = Ok "none"%string.
Proof.
  exists (fun e => if Nat.eqb e 3 then 1 else 0), Nat.eqb,
    [RPool (NewFeature "f" 1); RPool (NewFeature "same" 2); RPool (NewFeature "other" 3); RSet 1 "same"].
  split; [|repeat split; reflexivity]. split; [|repeat constructor; cbn; intuition lia].
  cbn. intros c [<-|[<-|[<-|[<-|[]]]]]; exact I.
Qed.
(** The answer none is also the one of a reference with that name. *)
Theorem reference_none_refuted cls sub : sub (cls 2) (cls 1) = true ->
  let h := [RPool (NewFeature "f" 1); RPool (NewFeature "none" 2)] in
  getReferenceByName (ref_run cls sub h) 1 = getReferenceByName (ref_run cls sub (h ++ [RSet 1 "none"])) 1 /\
  r_ref (rw_ref (ref_run cls sub h) 1) <> r_ref (rw_ref (ref_run cls sub (h ++ [RSet 1 "none"])) 1).
Proof. intros Hs. cbn. rewrite Hs. cbn. split; [reflexivity|discriminate]. Qed.
(** Once the reference is deleted, asking for it, or giving it again by its name, is undefined. *)
Theorem reference_deleted_refuted cls sub : sub (cls 2) (cls 1) = true ->
  let h := [RPool (NewFeature "f" 1); RPool (NewFeature "r" 2); RSet 1 "r"; RPool (Delete 2)] in
  getReferenceByName (ref_run cls sub h) 1 = UB /\ fst (ref_step cls sub (ref_run cls sub h) (RSet 1 "r")) = UB.
Proof. intros Hs. cbn. rewrite Hs. cbn. split; reflexivity. Qed.

Example reference_case : let cls e := if Nat.eqb e 3 then 1 else 0 in
  let h := [RPool (NewFeature "f" 1); RPool (NewFeature "a" 2); RPool (NewFeature "b" 4); RSet 1 "a"; RSet 1 "x"] in
  lasting h /\ In 1 (created (memory_of cls Nat.eqb 1 h)) /\ m_ref (memory_of cls Nat.eqb 1 h) = Some "a"%string /\
  m_ref (memory_of cls Nat.eqb 1 (h ++ [RSet 1 "b"])) = Some "b"%string.
Proof.
  cbn. split; [|auto]. split; [|repeat constructor; cbn; intuition lia].
  cbn. intros c [<-|[<-|[<-|[<-|[<-|[]]]]]]; exact I.
Qed.

(* ------------------------------------------------------------------ *)
(** * The text of the graph (C76) *)
Local Open Scope string_scope.
Fixpoint count (c : ascii) (s : string) : nat :=
  match s with "" => 0 | String x r => (if Ascii.eqb x c then 1 else 0) + count c r end.
Lemma count_app c a b : count c (a ++ b) = count c a + count c b.
Proof. induction a as [|x a IH]; [reflexivity|]. cbn. rewrite IH. lia. Qed.
Lemma count_nodes c names : forall s, (forall n, In n names -> count c n = 0) -> count c (graph_node "") = 0 ->
  count c (fold_left (fun s n => s ++ graph_node n) names s) = count c s.
Proof.
  induction names as [|n r IH]; intros s H H0; [reflexivity|]. cbn [fold_left]. rewrite IH; [|intros; apply H; now right|exact H0].
  rewrite count_app. enough (count c (graph_node n) = 0) by lia.
  unfold graph_node in *. rewrite !count_app in *. rewrite (H n) by now left. change (count c "") with 0 in H0. lia.
Qed.

(** The file opens two braces, that of the graph and that of the cluster of tasks, and closes one: it is not a
    graph, whatever the tasks. *)
Theorem graph_braces_refuted date label names :
  count "{" date = 0 -> count "}" date = 0 -> count "{" label = 0 -> count "}" label = 0 ->
  (forall n, In n names -> count "{" n = 0 /\ count "}" n = 0) ->
  count "{" (graph_text date label names) = 2 /\ count "}" (graph_text date label names) = 1.
Proof.
  intros D1 D2 L1 L2 Hn. unfold graph_text. rewrite !count_app, !count_nodes; try reflexivity; try (intros n H; now apply Hn).
  rewrite D1, D2, L1, L2. split; reflexivity.
Qed.

(** Lines. *)
Fixpoint cut_lines (s : string) : list string :=
  match s with
  | "" => [""]
  | String x r => match cut_lines r with
                  | l :: ls => if Ascii.eqb x (ascii_of_nat 10) then "" :: l :: ls else String x l :: ls
                  | [] => []
                  end
  end.
Lemma cut_lines_ne b : cut_lines b <> [].
Proof.
  induction b as [|x b IH]; cbn [cut_lines]; [discriminate|]. destruct (cut_lines b) as [|l ls]; [contradiction|].
  destruct (Ascii.eqb x (ascii_of_nat 10)); discriminate.
Qed.
Lemma cut_line a b : count (ascii_of_nat 10) a = 0 -> cut_lines (a ++ endl ++ b) = a :: cut_lines b.
Proof.
  induction a as [|x a IH]; intros H.
  - cbn. pose proof (cut_lines_ne b). destruct (cut_lines b); [contradiction|reflexivity].
  - cbn [append cut_lines count] in *. rewrite IH by lia. destruct (Ascii.eqb x (ascii_of_nat 10)); [lia|reflexivity].
Qed.
Lemma app_s (a b c : string) : (a ++ b) ++ c = a ++ b ++ c.
Proof. induction a as [|x a IH]; [reflexivity|]. cbn. now rewrite IH. Qed.
Lemma fold_nodes names : forall s, fold_left (fun s n => s ++ graph_node n) names s = s ++ fold_left (fun s n => s ++ graph_node n) names "".
Proof.
  induction names as [|n r IH]; intros s; cbn [fold_left]; [induction s; cbn; congruence|].
  rewrite IH, (IH ("" ++ graph_node n)). now rewrite app_s.
Qed.

(** After six lines of header the file has two lines per task, in the order of their names, and a closing brace;
    the first of the two starts with the name. *)
Theorem graph_lines date label names :
  count (ascii_of_nat 10) date = 0 -> count (ascii_of_nat 10) label = 0 -> (forall n, In n names -> count (ascii_of_nat 10) n = 0) ->
  exists hd attrs, length hd = 6 /\
    cut_lines (graph_text date label names) =
      (hd ++ concat (map (fun n => [(tb ++ tb ++ n ++ " [ label = " ++ qt ++ n ++ qt ++ " ,")%string; attrs]) names) ++ ["}"; ""])%list.
Proof.
  intros D L Hn.
  set (l2 := "   " ++ date ++ " */"). set (l3 := "digraph " ++ label ++ " { " ++ tb ++ " graph [ label=" ++ qt ++ label ++ qt ++ " bgcolor = white rankdir=LR ]").
  set (l4 := tb ++ " node [ fontcolor = black, color = black, fillcolor = gold1, style=filled, shape=box ] ; ").
  set (l5 := tb ++ "subgraph cluster_Tasks { "). set (l6 := tb ++ tb ++ " color=blue; label=" ++ qt ++ "Tasks" ++ qt ++ ";").
  set (attrs := tb ++ tb ++ "   fontcolor = black, color = black, fillcolor = magenta, style=filled, shape=box ]").
  set (l1 := "/* This graph has been automatically generated. ").
  exists [l1; l2; l3; l4; l5; l6], attrs. split; [reflexivity|].
  replace (graph_text date label names) with (l1 ++ endl ++ l2 ++ endl ++ l3 ++ endl ++ l4 ++ endl ++ l5 ++ endl ++ l6 ++ endl ++
    fold_left (fun s n => s ++ graph_node n) names "" ++ "}" ++ endl ++ "").
  2:{ unfold graph_text, l1, l2, l3, l4, l5, l6. rewrite !app_s. reflexivity. }
  rewrite !cut_line; try reflexivity.
  2:{ unfold l3. rewrite !count_app, L. reflexivity. }
  2:{ unfold l2. rewrite !count_app, D. reflexivity. }
  cbn [List.app]. do 6 f_equal.
  induction names as [|n r IH]; [reflexivity|]. cbn [fold_left map concat List.app]. rewrite fold_nodes.
  set (ln := tb ++ tb ++ n ++ " [ label = " ++ qt ++ n ++ qt ++ " ,").
  replace ((("" ++ graph_node n) ++ fold_left (fun s n => s ++ graph_node n) r "") ++ "}" ++ endl ++ "")
    with (ln ++ endl ++ attrs ++ endl ++ fold_left (fun s n => s ++ graph_node n) r "" ++ "}" ++ endl ++ "").
  2:{ unfold graph_node, ln, attrs. rewrite !app_s. reflexivity. }
  rewrite !cut_line; [|reflexivity|unfold ln; rewrite !count_app, (Hn n) by (now left); reflexivity].
  rewrite IH by (intros; apply Hn; now right). reflexivity.
Qed.

Example graph_case : exists hd attrs, length hd = 6 /\
  cut_lines (graph_text "2010" "g" ["a"; "b"]) =
    (hd ++ [(tb ++ tb ++ "a [ label = " ++ qt ++ "a" ++ qt ++ " ,")%string; attrs; (tb ++ tb ++ "b [ label = " ++ qt ++ "b" ++ qt ++ " ,")%string; attrs; "}"; ""])%list.
Proof. apply (graph_lines "2010" "g" ["a"; "b"]); [reflexivity|reflexivity|]. cbn. intros n [<-|[<-|[]]]; reflexivity. Qed.

(** The file of a pool none of whose tasks was deleted: one entry per task registered, in the order of the
    names. Missing: paths with a directory (the label keeps the separator) and the closing brace. *)
Theorem graph_written_partial : forall h name date base ext, free "."%char ext -> free "/"%char base -> free "/"%char ext ->
  let p := getInstance (pool_run h) in
  (forall n e, getTask p n = Ok e -> In e (alive (pool_run h)) /\ name e = n /\ count (ascii_of_nat 10) n = 0) ->
  count (ascii_of_nat 10) date = 0 -> count (ascii_of_nat 10) (string_of_list_ascii base) = 0 ->
  exists text hd attrs names, writeGraph (pool_run h) name date (base ++ "."%char :: ext)%list = Ok text /\ length hd = 6 /\
    cut_lines text = (hd ++ concat (map (fun n => [(tb ++ tb ++ n ++ " [ label = " ++ qt ++ n ++ qt ++ " ,")%string; attrs]) names) ++ ["}"; ""])%list /\
    (forall n, In n names <-> exists e, getTask p n = Ok e) /\
    Sorting.Sorted.StronglySorted (fun a b => String.compare a b = Lt) names.
Proof.
  intros h name date base ext H1 H2 H3 p Ht Hd Hb. destruct (pool_graph_tasks h) as (S1 & S2 & S3). fold p in S1, S2, S3.
  unfold writeGraph. rewrite graph_name_plain_partial by assumption. cbn [bind]. fold p.
  rewrite (S3 name) by (intros n e E; now destruct (Ht n e E) as (_ & -> & _)).
  assert (F : forallb (fun x => is_alive (pool_run h) (snd x)) (ptasks p) = true).
  { apply forallb_forall. intros [n e] Hi. apply is_alive_spec. cbn. now apply S2, Ht in Hi. }
  rewrite F.
  destruct (graph_lines date (string_of_list_ascii base) (map fst (ptasks p))) as (hd & attrs & L & E); auto.
  { intros n Hi. apply in_map_iff in Hi. destruct Hi as ([n' e] & <- & Hi). cbn. now apply S2, Ht in Hi. }
  exists (graph_text date (string_of_list_ascii base) (map fst (ptasks p))), hd, attrs, (map fst (ptasks p)).
  split; [reflexivity|]. split; [exact L|]. split; [exact E|]. split.
  - intros n. rewrite in_map_iff. split.
    + intros ([n' e] & <- & Hi). exists e. now apply S2.
    + intros (e & He). exists (n, e). split; [reflexivity|]. now apply S2.
  - clear -S1. induction S1 as [|[n e] l Hl IH Hf]; cbn; [constructor|]. constructor; [exact IH|].
    apply Forall_map. exact Hf.
Qed.

(** Once a task has been deleted, writing the graph is undefined, whatever the file. *)
Theorem graph_deleted_refuted name date path : (forall x, graph_name path <> Throw x) ->
  writeGraph (pool_run [NewTask "t" 1; Delete 1]) name date path = UB.
Proof.
  intros H. unfold writeGraph. destruct (graph_name path) as [l|x|]; [reflexivity|now destruct (H x)|reflexivity].
Qed.

Print Assumptions reference_by_name.
Print Assumptions reference_unknown.
Print Assumptions reference_other_class_refuted.
Print Assumptions reference_none_refuted.
Print Assumptions reference_deleted_refuted.
Print Assumptions graph_braces_refuted.
Print Assumptions graph_lines.
Print Assumptions graph_written_partial.
Print Assumptions graph_deleted_refuted.
Print Assumptions reference_dependencies.
