(** Proofs about entities with a varying number of inputs. *)
From Coq Require Import String Ascii List Arith Lia ZArith Bool Decimal DecimalString DecimalNat.
From Verif Require Import Base Variadic_Model.
Import ListNotations.
Local Open Scope nat_scope.
Local Open Scope list_scope.

Lemma append_inj (p a b : string) : (p ++ a)%string = (p ++ b)%string -> a = b.
Proof. induction p; simpl; intros H; [exact H | inversion H; auto]. Qed.

Lemma sin_name_inj i j : sin_name i = sin_name j -> i = j.
Proof.
  unfold sin_name. intros H. apply append_inj in H.
  apply DecimalNat.Unsigned.to_uint_inj.
  apply (f_equal NilEmpty.uint_of_string) in H.
  rewrite !NilEmpty.usu in H. congruence.
Qed.

Lemma find_app {A} (f : A -> bool) l1 l2 :
  find f (l1 ++ l2) = match find f l1 with Some x => Some x | None => find f l2 end.
Proof. induction l1; simpl; auto. destruct (f a); auto. Qed.

Lemma reg_find_none r n : reg_find r n = None <-> ~ In n (map fst r).
Proof.
  unfold reg_find. induction r as [|[k v] r IH]; simpl; [tauto|].
  destruct (String.eqb_spec k n).
  - split; [discriminate | intros H; exfalso; apply H; auto].
  - rewrite IH. intuition.
Qed.

Lemma reg_erase_notin r n : ~ In n (map fst r) -> reg_erase r n = r.
Proof.
  unfold reg_erase. induction r as [|[k v] r IH]; simpl; auto. intros H.
  destruct (String.eqb_spec k n); simpl; [exfalso; apply H; auto|].
  f_equal. apply IH. auto.
Qed.

Lemma reg_erase_app r1 r2 n : reg_erase (r1 ++ r2) n = reg_erase r1 n ++ reg_erase r2 n.
Proof. apply filter_app. Qed.

Lemma remove_notin (l : list nat) x : ~ In x l -> remove Nat.eq_dec x l = l.
Proof. apply notin_remove. Qed.

Definition entry (s : sigobj) := (sname s, sid s).

Section W.
  Context {O : Type}.
  (** The signals registered at construction, and the dependencies of the output then. *)
  Variables (names : list string) (reg0 : list (string * nat)) (d : list nat).
  Hypothesis names_fst : map fst reg0 = names.

  (** The state built from the list [l] of its inputs. *)
  Definition st_of (l : list sigobj) (f : nat) (o : O) : vstate O :=
    mkv (map Some l) (reg0 ++ map entry l) (d ++ map sid l) f o.

  Record good (l : list sigobj) (f : nat) : Prop := {
    g_names : NoDup (map sname l);
    g_own : forall s, In s l -> ~ In (sname s) names;
    g_ids : NoDup (map sid l);
    g_new : forall s, In s l -> length names <= sid s < f }.

  (** An input called sin<j> is the j-th one. *)
  Definition sins (l : list sigobj) : Prop :=
    forall i j s, nth_error l i = Some s -> sname s = sin_name j -> i = j.

  Hypothesis Hd : forall x, In x d -> x < length names.
  Hypothesis Hown : forall i, ~ In (sin_name i) names.

  Lemma in_reg l n : In n (map fst (reg0 ++ map entry l)) <-> In n names \/ In n (map sname l).
  Proof.
    rewrite map_app, in_app_iff, names_fst, map_map. reflexivity.
  Qed.

  Lemma addNamed_fresh l f o n :
    ~ In n names -> ~ In n (map sname l) ->
    addSignalNamed n (st_of l f o) = Done (st_of (l ++ [mksig f n]) (S f) o).
  Proof.
    intros H1 H2. unfold addSignalNamed, declareSignal, st_of. cbn [reg slots deps fresh ops sname].
    assert (E : reg_find (reg0 ++ map entry l) n = None).
    { apply reg_find_none. rewrite in_reg. tauto. }
    rewrite E. cbn [slots reg deps fresh ops sid sname]. rewrite !map_app, !app_assoc. reflexivity.
  Qed.

  Lemma addNamed_taken l f o n :
    In n names \/ In n (map sname l) ->
    addSignalNamed n (st_of l f o) = Threw (st_of l (S f) o).
  Proof.
    intros H. unfold addSignalNamed, declareSignal, st_of. cbn [reg slots deps fresh ops sname].
    destruct (reg_find (reg0 ++ map entry l) n) eqn:E; [reflexivity|].
    apply reg_find_none in E. rewrite in_reg in E. tauto.
  Qed.

  Lemma NoDup_snoc {A} (l : list A) a : NoDup l -> ~ In a l -> NoDup (l ++ [a]).
  Proof.
    intros H1 H2. apply NoDup_rev in H1. rewrite <- (rev_involutive (l ++ [a])).
    apply NoDup_rev. rewrite rev_app_distr. simpl. constructor; auto.
    rewrite <- in_rev. exact H2.
  Qed.

  Lemma good_add l f n : good l f -> ~ In n names -> ~ In n (map sname l) ->
    length names <= f -> good (l ++ [mksig f n]) (S f).
  Proof.
    intros [G1 G2 G3 G4] H1 H2 Hf. split.
    - rewrite map_app. simpl. apply NoDup_snoc; auto.
    - intros s Hs. apply in_app_iff in Hs. destruct Hs as [Hs | [<- | []]]; auto.
    - rewrite map_app. simpl. apply NoDup_snoc; auto. intros Hi.
      apply in_map_iff in Hi. destruct Hi as (s & E & Hs). apply G4 in Hs. simpl in E. lia.
    - intros s Hs. apply in_app_iff in Hs. destruct Hs as [Hs | [<- | []]].
      + apply G4 in Hs. lia.
      + cbn [sid]. lia.
  Qed.

  Lemma sins_add l s : sins l -> (forall j, sname s = sin_name j -> j = length l) ->
    sins (l ++ [s]).
  Proof.
    intros G5 H3 i j s' Hs E. destruct (Nat.lt_ge_cases i (length l)).
    - rewrite nth_error_app1 in Hs by auto. eapply G5; eauto.
    - rewrite nth_error_app2 in Hs by auto.
      destruct (i - length l) as [|n0] eqn:Ei; simpl in Hs; [|destruct n0; discriminate].
      inversion Hs; subst s'. apply H3 in E. lia.
  Qed.

  Lemma sins_firstn l k : sins l -> sins (firstn k l).
  Proof.
    intros G5 i j s Hs. apply G5. rewrite <- (firstn_skipn k l).
    rewrite nth_error_app1; auto. apply nth_error_Some. congruence.
  Qed.

  Lemma sins_new l : sins l -> ~ In (sin_name (length l)) (map sname l).
  Proof.
    intros H Hi. apply in_map_iff in Hi. destruct Hi as (s & E & Hs).
    apply In_nth_error in Hs. destruct Hs as (i & Hi).
    assert (i < length l) by (apply nth_error_Some; congruence).
    specialize (H i (length l) s Hi E). lia.
  Qed.

  Lemma good_weaken l f : good l f -> good l (S f).
  Proof.
    intros [G1 G2 G3 G4]. split; auto. intros s Hs. apply G4 in Hs. lia.
  Qed.

  Lemma good_firstn l f k : good l f -> good (firstn k l) f.
  Proof.
    intros [G1 G2 G3 G4].
    assert (Hin : forall s, In s (firstn k l) -> In s l).
    { intros s Hs. rewrite <- (firstn_skipn k l). apply in_or_app. auto. }
    assert (Hnd : forall (B : Type) (g : sigobj -> B), NoDup (map g l) -> NoDup (map g (firstn k l))).
    { intros B g H. rewrite <- firstn_map. rewrite <- (firstn_skipn k (map g l)) in H.
      revert H. generalize (firstn k (map g l)) (skipn k (map g l)). clear.
      intros a b; induction a; simpl; intros H; constructor; inversion H; subst; auto.
      intros Hi. apply H2. apply in_or_app. auto. }
    split; auto.
  Qed.

  (** Removing the inputs from index [k] on, one after the other: [m] of them are gone. *)
  Lemma removeAt_step a s r m f (o : O) :
    good (a ++ s :: r) f ->
    removeAt (length a + m)
      (mkv (map Some a ++ repeat None m ++ Some s :: map Some r)
           (reg0 ++ map entry a ++ map entry (s :: r)) (d ++ map sid a ++ map sid (s :: r)) f o)
    = Done (mkv (map Some a ++ repeat None (S m) ++ map Some r)
                (reg0 ++ map entry a ++ map entry r) (d ++ map sid a ++ map sid r) f o).
  Proof.
    intros [G1 G2 G3 G4]. unfold removeAt. cbn [slots reg deps fresh ops].
    assert (E : forall x : option sigobj, nth_error (map Some a ++ repeat None m ++ x :: map Some r) (length a + m)
                = Some x).
    { intros x. rewrite nth_error_app2 by (rewrite map_length; lia). rewrite map_length.
      rewrite nth_error_app2 by (rewrite repeat_length; lia). rewrite repeat_length.
      replace (length a + m - length a - m) with 0 by lia. reflexivity. }
    rewrite E.
    assert (Hs : ~ In (sname s) names) by (apply G2, in_or_app; right; left; reflexivity).
    destruct (reg_find _ (sname s)) eqn:F.
    2:{ apply reg_find_none in F. exfalso. apply F. rewrite !map_app. cbn [map fst entry].
        apply in_or_app; right. apply in_or_app; right. left; reflexivity. }
    rewrite map_app in G1, G3. simpl in G1, G3.
    apply NoDup_remove_2 in G1. apply NoDup_remove_2 in G3.
    rewrite in_app_iff in G1, G3.
    f_equal. f_equal.
    - apply (list_eq_nth None).
      + rewrite upd_length, !app_length, !map_length, !repeat_length. simpl.
        rewrite map_length. lia.
      + rewrite upd_length. intros i Hi. rewrite nth_upd.
        assert (Hlt : length a + m < length (map Some a ++ repeat None m ++ Some s :: map Some r)).
        { rewrite !app_length, map_length, repeat_length. simpl. lia. }
        destruct (Nat.eqb_spec (length a + m) i) as [<-|Hne].
        * apply Nat.ltb_lt in Hlt. rewrite Hlt. cbn [andb].
          rewrite app_nth2 by (rewrite map_length; lia). rewrite map_length.
          rewrite app_nth1 by (rewrite repeat_length; lia).
          rewrite nth_repeat_lt by lia. reflexivity.
        * cbn [andb].
          destruct (Nat.lt_ge_cases i (length a)).
          { rewrite !app_nth1 by (rewrite map_length; lia). reflexivity. }
          rewrite !(app_nth2 (map Some a)) by (rewrite map_length; lia). rewrite map_length.
          destruct (Nat.lt_ge_cases (i - length a) m).
          { rewrite !app_nth1 by (rewrite repeat_length; lia).
            rewrite !nth_repeat_lt by lia. reflexivity. }
          rewrite !(app_nth2 (repeat None _)) by (rewrite repeat_length; lia).
          rewrite !repeat_length.
          replace (i - length a - m) with (S (i - length a - S m)) by lia. reflexivity.
    - rewrite !reg_erase_app. rewrite (reg_erase_notin reg0) by (rewrite names_fst; exact Hs).
      rewrite (reg_erase_notin (map entry a)) by (rewrite map_map; tauto).
      unfold reg_erase. simpl. rewrite String.eqb_refl. simpl.
      change (filter _ (map entry r)) with (reg_erase (map entry r) (sname s)).
      rewrite reg_erase_notin; [reflexivity | rewrite map_map; tauto].
    - rewrite !remove_app.
      rewrite (remove_notin d).
      2:{ intros Hi. apply Hd in Hi.
          assert (Hx : In s (a ++ s :: r)) by (apply in_or_app; right; left; reflexivity).
          apply G4 in Hx. lia. }
      rewrite (remove_notin (map sid a)) by tauto. simpl.
      destruct (Nat.eq_dec (sid s) (sid s)); [|congruence].
      rewrite (remove_notin (map sid r)) by tauto. reflexivity.
  Qed.

  Lemma good_drop a s r f : good (a ++ s :: r) f -> good (a ++ r) f.
  Proof.
    intros [G1 G2 G3 G4]. rewrite map_app in G1, G3. simpl in G1, G3.
    assert (Hin : forall x, In x (a ++ r) -> In x (a ++ s :: r)).
    { intros x. rewrite !in_app_iff. simpl. tauto. }
    split; rewrite ?map_app; auto.
    - eapply NoDup_remove_1; eauto.
    - eapply NoDup_remove_1; eauto.
  Qed.

  Lemma removeRange a f (o : O) : forall r m,
    good (a ++ r) f ->
    afold (@removeAt O) (seq (length a + m) (length r))
      (mkv (map Some a ++ repeat None m ++ map Some r)
           (reg0 ++ map entry a ++ map entry r) (d ++ map sid a ++ map sid r) f o)
    = Done (mkv (map Some a ++ repeat None (m + length r))
                (reg0 ++ map entry a) (d ++ map sid a) f o).
  Proof.
    induction r as [|s r IH]; intros m G; cbn [length seq afold].
    - cbn [map]. rewrite !app_nil_r, Nat.add_0_r. reflexivity.
    - change (map Some (s :: r)) with (Some s :: map Some r).
      rewrite (removeAt_step a s r m f o G).
      specialize (IH (S m) (good_drop _ _ _ _ G)).
      replace (length a + S m) with (S (length a + m)) in IH by lia.
      replace (S m + length r) with (m + S (length r)) in IH by lia. exact IH.
  Qed.

  Lemma createAt_step l m f (o : O) :
    ~ In (sin_name (length l)) (map sname l) ->
    createAt (length l)
      (mkv (map Some l ++ repeat None (S m)) (reg0 ++ map entry l) (d ++ map sid l) f o)
    = Done (mkv (map Some (l ++ [mksig f (sin_name (length l))]) ++ repeat None m)
                (reg0 ++ map entry (l ++ [mksig f (sin_name (length l))]))
                (d ++ map sid (l ++ [mksig f (sin_name (length l))])) (S f) o).
  Proof.
    intros H. unfold createAt, declareSignal. cbn [reg slots deps fresh ops sname sid].
    assert (E : reg_find (reg0 ++ map entry l) (sin_name (length l)) = None).
    { apply reg_find_none. rewrite in_reg. intros [X | X]; [exact (Hown _ X) | exact (H X)]. }
    rewrite E. rewrite !map_app, <- !app_assoc. f_equal. f_equal.
    cbn [map app]. generalize (mksig f (sin_name (length l))) as x. clear. intros x.
    induction l; simpl; auto. f_equal. exact IHl.
  Qed.

  (** The inputs created by setSignalNumber. *)
  Fixpoint news (i f m : nat) : list sigobj :=
    match m with 0 => [] | S m => mksig f (sin_name i) :: news (S i) (S f) m end.

  Lemma news_length i f m : length (news i f m) = m.
  Proof. revert i f; induction m; intros; simpl; auto. Qed.

  Lemma createRange (o : O) : forall m l f,
    sins l ->
    afold (@createAt O) (seq (length l) m)
      (mkv (map Some l ++ repeat None m) (reg0 ++ map entry l) (d ++ map sid l) f o)
    = Done (st_of (l ++ news (length l) f m) (f + m) o)
    /\ sins (l ++ news (length l) f m).
  Proof.
    induction m; intros l f Hs; cbn [seq afold news].
    - cbn [repeat]. rewrite !app_nil_r, Nat.add_0_r. split; [reflexivity | exact Hs].
    - rewrite (createAt_step l m f o (sins_new l Hs)).
      set (s := mksig f (sin_name (length l))).
      assert (Hs' : sins (l ++ [s])).
      { apply sins_add; auto. intros j E. simpl in E. apply sin_name_inj in E. auto. }
      destruct (IHm (l ++ [s]) (S f) Hs') as (E & Hn).
      rewrite app_length in E, Hn. simpl in E, Hn. rewrite Nat.add_1_r in E, Hn.
      rewrite E. rewrite <- app_assoc in *. simpl in *. split; [|exact Hn].
      replace (S (f + m)) with (f + S m) by lia. reflexivity.
  Qed.

  Lemma good_news : forall m l f, length names <= f -> good l f -> sins l ->
    good (l ++ news (length l) f m) (f + m).
  Proof.
    induction m; intros l f Hf G Hs; cbn [news].
    - rewrite app_nil_r, Nat.add_0_r. exact G.
    - set (s := mksig f (sin_name (length l))).
      assert (Hs' : sins (l ++ [s])).
      { apply sins_add; auto. intros j E. simpl in E. apply sin_name_inj in E. auto. }
      assert (G' : good (l ++ [s]) (S f)).
      { apply good_add; auto. apply sins_new; auto. }
      specialize (IHm (l ++ [s]) (S f) ltac:(lia) G' Hs').
      rewrite app_length in IHm. simpl in IHm. rewrite Nat.add_1_r, <- app_assoc in IHm.
      simpl in IHm. replace (f + S m) with (S (f + m)) by lia. exact IHm.
  Qed.

  Lemma remove_spec l s f o : good (l ++ [s]) f ->
    removeSignal (st_of (l ++ [s]) f o) = Done (st_of l f o).
  Proof.
    intros G. unfold removeSignal. unfold st_of at 1. cbn [slots].
    rewrite map_length, app_length. simpl. rewrite Nat.add_1_r.
    pose proof (removeAt_step l s [] 0 f o G) as R. simpl in R.
    rewrite Nat.add_0_r in R. unfold st_of at 1. rewrite !map_app. cbn [map].
    rewrite R. cbn [slots reg deps fresh ops]. rewrite !app_nil_r. unfold st_of.
    f_equal. f_equal. rewrite firstn_app, map_length.
    replace (length l - length l) with 0 by lia. cbn [firstn].
    rewrite firstn_all2 by (rewrite map_length; lia). apply app_nil_r.
  Qed.

  Variable onNumber : nat -> O -> O.

  Lemma setNumber_spec l f o n : (0 <= n)%Z -> good l f -> sins l ->
    let k := Z.to_nat n in
    setSignalNumber onNumber n (st_of l f o)
    = Done (st_of (firstn k l ++ news (length l) f (k - length l)) (f + (k - length l))
                  (onNumber k o)).
  Proof.
    intros Hn G Hs k. unfold setSignalNumber.
    destruct (Z.ltb_spec n 0); [lia|]. fold k.
    cbv zeta. replace (length (slots (st_of l f o))) with (length l)
      by (symmetry; apply map_length).
    destruct (Nat.le_gt_cases k (length l)) as [Hk | Hk].
    - replace (k - length l) with 0 by lia. cbn [news seq].
      rewrite !app_nil_r, Nat.add_0_r.
      assert (Hl : length (firstn k l) = k) by (rewrite firstn_length; lia).
      assert (Hr : length (skipn k l) = length l - k) by apply skipn_length.
      pose proof (removeRange (firstn k l) f o (skipn k l) 0) as R.
      rewrite (firstn_skipn k l), Hl, Hr, Nat.add_0_r in R. simpl repeat in R. rewrite !app_nil_l in R.
      rewrite <- !map_app, (firstn_skipn k l) in R. specialize (R G).
      unfold st_of at 1. rewrite R. cbn [slots reg deps fresh ops afold].
      unfold st_of. f_equal. f_equal.
      unfold vresize. rewrite firstn_app, app_length, !map_length, Hl.
      rewrite firstn_all2 by (rewrite map_length; lia).
      replace (k - k) with 0 by lia.
      replace (k - (k + _)) with 0 by lia. simpl. rewrite !app_nil_r. reflexivity.
    - replace (length l - k) with 0 by lia. cbn [seq afold].
      rewrite firstn_all2 by lia. unfold st_of at 1 2 3 4 5. cbn [slots reg deps fresh ops].
      destruct (createRange o (k - length l) l f Hs) as (E & _).
      unfold vresize. rewrite firstn_all2 by (rewrite map_length; lia).
      rewrite map_length. rewrite E. reflexivity.
  Qed.
End W.
