(** C65: playback of joint trajectories. *)
From Coq Require Import String List Arith Lia ZArith Bool Reals Lra Psatz.
From Verif Require Import Base Geom_Model Geom_Facts Traj_Model.
Import ListNotations.
Local Open Scope R_scope.
Local Open Scope nat_scope.

(** ** Specification: a player *)
(** What is left of the trajectory being played, the trajectories waiting, and the stamp of the last one
    accepted. *)
Record player := mkPlayer { pl_rest : list (list R); pl_wait : list traj; pl_last : stamp }.
(** A trajectory is new when its stamp is not the one of the last trajectory accepted (nor zero). *)
Definition is_new (p : player) (t : traj) : Prop := t_stamp t <> pl_last p /\ t_stamp t <> (0, 0)%Z.
Definition is_newb (p : player) (t : traj) : bool :=
  negb (stamp_eqb (pl_last p) (t_stamp t)) && negb (stamp_eqb (0, 0)%Z (t_stamp t)).
Definition accept (p : player) (t : traj) : player :=
  if is_newb p t then mkPlayer (pl_rest p) (pl_wait p ++ [t]) (t_stamp t) else p.
(** One tick: the next point of the trajectory, or of the next one, or nothing. *)
Definition advance (p : player) : player * option (list R) :=
  match pl_rest p with
  | x :: r => (mkPlayer r (pl_wait p) (pl_last p), Some x)
  | [] => match pl_wait p with
          | [] => (p, None)
          | t :: w => match t_points t with
                      | [] => (mkPlayer [] w (pl_last p), None)
                      | x :: r => (mkPlayer r w (pl_last p), Some x)
                      end
          end
  end.
Definition play (p : player) (t : traj) : player * option (list R) := advance (accept p t).
Fixpoint plays (p : player) (l : list traj) : player * list (option (list R)) :=
  match l with
  | [] => (p, [])
  | t :: r => let (p1, e) := play p t in let (p2, es) := plays p1 r in (p2, e :: es)
  end.
(** The player after the first trajectory. *)
Definition first_play (t : traj) : player * option (list R) := advance (mkPlayer [] [t] (t_stamp t)).

(** Output after the points emitted: the last one is held. *)
Definition emit (o : option point) (e : option (list R)) : outcome (option point) :=
  match e with Some pos => updatePoint o pos | None => Ok o end.

(** All the points of some trajectories, the points left to play, and the points emitted. *)
Definition all_points (l : list traj) : list (list R) := concat (map t_points l).
Definition left_points (p : player) : list (list R) := pl_rest p ++ all_points (pl_wait p).
Fixpoint emitted (l : list (option (list R))) : list (list R) :=
  match l with [] => [] | Some x :: r => x :: emitted r | None :: r => emitted r end.
(** The trajectories accepted among those received. *)
Fixpoint accepted (p : player) (l : list traj) : list traj :=
  match l with
  | [] => []
  | t :: r => (if is_newb p t then [t] else []) ++ accepted (fst (play p t)) r
  end.

Lemma stamp_eqb_spec a b : stamp_eqb a b = true <-> a = b.
Proof.
  destruct a as [a1 a2], b as [b1 b2]. unfold stamp_eqb. cbn. rewrite andb_true_iff, !Z.eqb_eq.
  split; [intros [-> ->]; reflexivity|intros [= -> ->]; auto].
Qed.
Lemma is_newb_spec p t : is_newb p t = true <-> is_new p t.
Proof.
  unfold is_newb, is_new. rewrite andb_true_iff, !negb_true_iff. split.
  - intros [A B]. split; intros E.
    + rewrite <- E in A. assert (stamp_eqb (t_stamp t) (t_stamp t) = true) by now apply stamp_eqb_spec. congruence.
    + rewrite E in B. discriminate.
  - intros [A B]. split.
    + destruct (stamp_eqb (pl_last p) (t_stamp t)) eqn:E; [|reflexivity]. apply stamp_eqb_spec in E. congruence.
    + destruct (stamp_eqb (0, 0)%Z (t_stamp t)) eqn:E; [|reflexivity]. apply stamp_eqb_spec in E. congruence.
Qed.

(** ** The specification loses nothing: every point of every trajectory accepted is emitted once, in
    order, or still to come. *)
Lemma advance_points p p' e : advance p = (p', e) -> emitted [e] ++ left_points p' = left_points p.
Proof.
  unfold advance, left_points, all_points. destruct p as [[|x r] w l]; cbn.
  - destruct w as [|t w].
    + intros [= <- <-]. reflexivity.
    + destruct (t_points t) eqn:E; intros [= <- <-]; cbn; now rewrite E.
  - intros [= <- <-]. reflexivity.
Qed.
Lemma accept_points p t : left_points (accept p t) = left_points p ++ (if is_newb p t then t_points t else []).
Proof.
  unfold accept. destruct (is_newb p t); [|now rewrite app_nil_r]. unfold left_points, all_points. cbn.
  rewrite map_app, concat_app. cbn. now rewrite app_nil_r, app_assoc.
Qed.

Theorem player_complete l : forall p p' es, plays p l = (p', es) ->
  emitted es ++ left_points p' = left_points p ++ all_points (accepted p l) /\ length es = length l.
Proof.
  induction l as [|t l IH]; intros p p' es E; cbn in E.
  - injection E as <- <-. cbn. now rewrite app_nil_r.
  - destruct (play p t) as [p1 e] eqn:P. destruct (plays p1 l) as [p2 es'] eqn:Q. injection E as <- <-.
    destruct (IH _ _ _ Q) as [A B]. split; [|cbn; now rewrite B].
    assert (E1 : emitted [e] ++ left_points p1 = left_points p ++ (if is_newb p t then t_points t else [])).
    { rewrite <- accept_points. apply advance_points. exact P. }
    cbn [accepted]. rewrite P. cbn [fst]. unfold all_points in *. rewrite map_app, concat_app.
    transitivity (emitted [e] ++ emitted es' ++ left_points p2).
    { destruct e; reflexivity. }
    rewrite A, app_assoc, E1, <- app_assoc. f_equal. destruct (is_newb p t); cbn; [now rewrite app_nil_r|reflexivity].
Qed.

(** No point is skipped: a tick emits nothing only when the trajectory is finished (or empty). *)
Theorem player_prompt p p' : advance p = (p', None) -> pl_rest p = [] /\ (pl_wait p = [] \/ exists t w, pl_wait p = t :: w /\ t_points t = []).
Proof.
  unfold advance. destruct (pl_rest p); [|discriminate]. destruct (pl_wait p) as [|t w]; [auto|].
  destruct (t_points t) eqn:E; [|discriminate]. intros _. split; [reflexivity|]. right. eauto.
Qed.

(** ** Refinement *)
Definition rep (s : jte) (p : player) : Prop :=
  exists cur, j_deque s = cur :: pl_wait p /\
    pl_rest p = skipn (S (j_index s)) (t_points cur) /\
    pl_last p = t_stamp (last (j_deque s) cur) /\
    (j_index s < length (t_points cur) \/ (t_points cur = [] /\ j_index s = 0)) /\
    (forall pos, nth_error (t_points cur) (j_index s) = Some pos ->
       updatePoint (j_out s) pos = Ok (j_out s) /\ j_seq s = t_seq cur).

Lemma updatePoint_idem o pos o' : updatePoint o pos = Ok o' -> updatePoint o' pos = Ok o'.
Proof.
  unfold updatePoint. destruct (Nat.eqb_spec (length pos) 0); [auto|]. destruct (Nat.ltb_spec (length pos) 5); [discriminate|].
  intros [= <-]. f_equal. f_equal. cbn [p_pose]. f_equal.
  set (prev := match o with Some p => p_pose p | None => [] end).
  set (base := if length prev =? length pos then prev else repeat None (length pos)). assert (Lb : length base = length pos).
  { unfold base. destruct (Nat.eqb_spec (length prev) (length pos)); [assumption|apply repeat_length]. }
  assert (L : length (map Some (firstn (length pos - 5) pos) ++ skipn (length pos - 5) base) = length pos).
  { rewrite app_length, map_length, firstn_length, skipn_length, Lb. lia. }
  rewrite L, Nat.eqb_refl. f_equal.
  rewrite skipn_app, map_length, firstn_length, Nat.min_l by lia.
  rewrite Nat.sub_diag, skipn_all2 by (rewrite map_length, firstn_length; lia). reflexivity.
Qed.
Lemma updatePoint_cases o pos : (exists o', updatePoint o pos = Ok o') \/ updatePoint o pos = UB.
Proof. unfold updatePoint. destruct (_ =? 0); [eauto|]. destruct (_ <? 5); eauto. Qed.

Lemma last_indep {A} (l : list A) a b : l <> [] -> last l a = last l b.
Proof. induction l as [|x l IH]; [congruence|]. intros _. destruct l; [reflexivity|]. apply IH. discriminate. Qed.

(** The end of an update once the index [i] in the queue [f :: r] is chosen. *)
Definition finish (s : jte) (i : nat) (q : list traj) : outcome jte :=
  match q with
  | [] => UB
  | f :: _ =>
      let* pos := vget (t_points f) i in
      let* o := updatePoint (j_out s) pos in
      Ok (mkJte i q o (t_seq f) (j_init s))
  end.
Definition choose (s : jte) (i : nat) (q : list traj) : outcome jte :=
  match q with
  | [] => UB
  | f :: r =>
      if (length (t_points f) <=? i)%nat then
        let '(i, q) := if (1 <? length q)%nat then (0%nat, r) else (i, q) in
        match q with
        | [] => UB
        | f :: _ =>
            if (length (t_points f) =? 0)%nat then Ok (mkJte 0 q (j_out s) (j_seq s) (j_init s))
            else
              let i := if negb (i =? 0)%nat && (length q =? 1)%nat then (length (t_points f) - 1)%nat else i in
              finish s i q
        end
      else finish s i q
  end.

Lemma finish_rep s i f w pos l0 : nth_error (t_points f) i = Some pos ->
  t_stamp (last (f :: w) f) = l0 ->
  match updatePoint (j_out s) pos with
  | Ok o => exists s', finish s i (f :: w) = Ok s' /\ j_out s' = o /\
              rep s' (mkPlayer (skipn (S i) (t_points f)) w l0)
  | _ => finish s i (f :: w) = UB
  end.
Proof.
  intros Hn Hl. unfold finish, vget. rewrite Hn. cbn [bind].
  destruct (updatePoint_cases (j_out s) pos) as [(o & E)|E]; rewrite E; cbn [bind]; [|reflexivity].
  eexists. split; [reflexivity|]. split; [reflexivity|]. exists f. cbn.
  split; [reflexivity|]. split; [reflexivity|]. split; [now rewrite <- Hl|]. split.
  - left. apply nth_error_Some. congruence.
  - intros pos' Hp. rewrite Hn in Hp. injection Hp as <-. split; [|reflexivity]. eapply updatePoint_idem. exact E.
Qed.

Lemma skipn_nth {A} (l : list A) i x r : skipn i l = x :: r -> nth_error l i = Some x /\ skipn (S i) l = r.
Proof.
  revert i. induction l as [|a l IH]; intros [|i] E; cbn in *; try discriminate.
  - injection E as <- <-. auto.
  - apply IH in E. exact E.
Qed.

(** Advancing in a queue made of the current trajectory and those waiting. *)
Lemma choose_advance s cur wait l0 : j_index s < length (t_points cur) \/ (t_points cur = [] /\ j_index s = 0) ->
  (forall pos, nth_error (t_points cur) (j_index s) = Some pos ->
       updatePoint (j_out s) pos = Ok (j_out s) /\ j_seq s = t_seq cur) ->
  t_stamp (last (cur :: wait) cur) = l0 ->
  let p := mkPlayer (skipn (S (j_index s)) (t_points cur)) wait l0 in
  let '(p', e) := advance p in
  match emit (j_out s) e with
  | Ok o => exists s', choose s (S (j_index s)) (cur :: wait) = Ok s' /\ j_out s' = o /\ rep s' p'
  | _ => choose s (S (j_index s)) (cur :: wait) = UB
  end.
Proof.
  intros Hi Hp Hl p. unfold advance. subst p. cbn [pl_rest pl_wait pl_last].
  destruct (skipn (S (j_index s)) (t_points cur)) as [|x r] eqn:E.
  - assert (Le : length (t_points cur) <= S (j_index s)).
    { apply (f_equal (@length _)) in E. rewrite skipn_length in E. cbn in E. lia. }
    unfold choose. destruct (Nat.leb_spec (length (t_points cur)) (S (j_index s))); [|lia].
    destruct wait as [|t w].
    + cbn [length Nat.ltb Nat.leb emit]. destruct (Nat.eqb_spec (length (t_points cur)) 0) as [Z|Z].
      * eexists. split; [reflexivity|]. split; [reflexivity|]. exists cur. cbn.
        apply length_zero_iff_nil in Z. rewrite Z. repeat split; auto. discriminate. discriminate.
      * cbn [negb Nat.eqb andb]. assert (Hi' : length (t_points cur) - 1 = j_index s) by (destruct Hi as [?|[H0 _]]; [lia|rewrite H0 in Z; cbn in Z; lia]).
        rewrite Hi'. destruct (nth_error (t_points cur) (j_index s)) as [pos|] eqn:N; [|apply nth_error_None in N; lia].
        destruct (Hp _ eq_refl) as [Hu Hs]. pose proof (finish_rep s (j_index s) cur [] pos l0 N Hl) as F.
        rewrite Hu in F. destruct F as (s' & F1 & F2 & F3). exists s'. split; [exact F1|]. split; [exact F2|].
        rewrite E in F3. exact F3.
    + cbn [length]. change (1 <? S (S (length w))) with true. cbv iota beta.
      assert (Hl' : t_stamp (last (t :: w) t) = l0).
      { rewrite <- Hl. change (last (cur :: t :: w) cur) with (last (t :: w) cur). f_equal. apply last_indep. discriminate. }
      destruct (t_points t) as [|x r] eqn:P; cbn [length Nat.eqb].
      * cbn [emit]. eexists. split; [reflexivity|]. split; [reflexivity|]. exists t. cbn. rewrite P.
        repeat split; auto; try discriminate.
      * cbn [negb Nat.eqb andb emit].
        pose proof (finish_rep s 0 t w x l0) as F. rewrite P in F. specialize (F eq_refl Hl').
        destruct (updatePoint (j_out s) x); exact F.
  - apply skipn_nth in E. destruct E as [N <-]. cbn [emit].
    assert (Lt : S (j_index s) < length (t_points cur)) by (apply nth_error_Some; congruence).
    unfold choose. destruct (Nat.leb_spec (length (t_points cur)) (S (j_index s))); [lia|].
    apply finish_rep; assumption.
Qed.

Lemma updateTrajectory_choose s t cur w : j_deque s = cur :: w ->
  updateTrajectory s t =
  choose s (S (j_index s))
    (if stamp_eqb (0, 0)%Z (t_stamp t) then j_deque s
     else if stamp_eqb (t_stamp (last (j_deque s) t)) (t_stamp t) then j_deque s else j_deque s ++ [t]).
Proof.
  intros E. unfold updateTrajectory. rewrite E. cbn [length Nat.eqb negb]. rewrite andb_true_r.
  destruct (stamp_eqb (0, 0)%Z (t_stamp t)); [reflexivity|].
  destruct (stamp_eqb (t_stamp (last (cur :: w) t)) (t_stamp t)); reflexivity.
Qed.

(** One tick of the entity is one tick of the player; the output is the point emitted, or is kept. *)
Theorem step_refines s p t : rep s p ->
  let '(p', e) := play p t in
  match emit (j_out s) e with
  | Ok o => exists s', oneStep s t = Ok s' /\ j_out s' = o /\ rep s' p'
  | _ => oneStep s t = UB
  end.
Proof.
  intros (cur & D & Rr & L & Hi & Hp). unfold oneStep. rewrite D. rewrite (updateTrajectory_choose s t cur (pl_wait p) D).
  unfold play, accept, is_newb. rewrite L.
  assert (EL : t_stamp (last (j_deque s) t) = t_stamp (last (j_deque s) cur)).
  { f_equal. apply last_indep. rewrite D. discriminate. }
  rewrite EL.
  assert (Same : let '(p', e) := advance p in
    match emit (j_out s) e with
    | Ok o => exists s', choose s (S (j_index s)) (j_deque s) = Ok s' /\ j_out s' = o /\ rep s' p'
    | _ => choose s (S (j_index s)) (j_deque s) = UB end).
  { pose proof (choose_advance s cur (pl_wait p) (pl_last p) Hi Hp) as C. rewrite D in L. specialize (C (eq_sym L)).
    cbv zeta in C. rewrite <- Rr, <- D in C. destruct p. exact C. }
  destruct (stamp_eqb (0, 0)%Z (t_stamp t)); [rewrite andb_false_r; exact Same|].
  destruct (stamp_eqb (t_stamp (last (j_deque s) cur)) (t_stamp t)); [exact Same|].
  cbn [negb andb]. rewrite D. cbn [app].
  pose proof (choose_advance s cur (pl_wait p ++ [t]) (t_stamp t) Hi Hp) as C.
  assert (Hl : t_stamp (last (cur :: pl_wait p ++ [t]) cur) = t_stamp t).
  { f_equal. change (cur :: pl_wait p ++ [t]) with ((cur :: pl_wait p) ++ [t]). apply last_last. }
  specialize (C Hl). cbv zeta in C. rewrite <- Rr in C. exact C.
Qed.

(** The first trajectory, with initTraj. *)
Theorem init_refines t :
  let '(p', e) := first_play t in
  match emit None e with
  | Ok o => exists s', setInitTraj jte_new t = Ok s' /\ j_out s' = o /\ rep s' p'
  | _ => setInitTraj jte_new t = UB
  end.
Proof.
  unfold setInitTraj, jte_new, updateTrajectory. destruct t as [st sq pts]. cbn.
  rewrite andb_false_r. unfold first_play, advance. cbn. destruct pts as [|x r]; cbn.
  - eexists. split; [reflexivity|]. split; [reflexivity|]. eexists. cbn. repeat split; auto; discriminate.
  - destruct (updatePoint_cases None x) as [(o & E)|E]; rewrite E; cbn; [|reflexivity].
    eexists. split; [reflexivity|]. split; [reflexivity|]. eexists. cbn. split; [reflexivity|]. split; [reflexivity|].
    split; [reflexivity|]. split; [left; apply Nat.lt_0_succ|]. intros pos [= <-]. split; [|reflexivity]. eapply updatePoint_idem. exact E.
Qed.

(** A point with no position keeps the outputs. *)
Theorem empty_point_holds s p t p' : rep s p -> play p t = (p', Some []) ->
  exists s', oneStep s t = Ok s' /\ j_out s' = j_out s /\ rep s' p'.
Proof. intros Hr E. pose proof (step_refines s p t Hr) as St. rewrite E in St. exact St. Qed.

(** initTraj again, on an entity that has a trajectory: a tick on which the trajectory received has all the
    points of the texts given to initTraj so far (the texts are not forgotten), and the stamp of the last one. *)
Lemma init_kept s t s' : updateTrajectory s t = Ok s' -> j_init s' = j_init s.
Proof.
  unfold updateTrajectory.
  destruct (if stamp_eqb (0, 0)%Z (t_stamp t) && negb (length (j_deque s) =? 0)%nat then _ else _) as [i q].
  destruct q as [|f r]; [discriminate|].
  assert (St : forall i q s', match q with [] => UB | f :: _ => let* pos := vget (t_points f) i in
      let* o := updatePoint (j_out s) pos in Ok (mkJte i q o (t_seq f) (j_init s)) end = Ok s' -> j_init s' = j_init s).
  { clear. intros i [|f q] s'; [discriminate|]. unfold vget. destruct (nth_error (t_points f) i); [|discriminate]. cbn [bind].
    destruct (updatePoint (j_out s) l); try discriminate. cbn [bind]. intros [= <-]. reflexivity. }
  destruct (length (t_points f) <=? i)%nat; [|apply (St i (f :: r))].
  destruct (if (1 <? length (f :: r))%nat then _ else _) as [i' q']. destruct q' as [|f' r']; [discriminate|].
  destruct (length (t_points f') =? 0)%nat; [intros [= <-]; reflexivity|].
  apply (St _ (f' :: r')).
Qed.
Theorem init_again s p t : rep s p ->
  let t' := mkTraj (t_stamp t) (t_seq t) (t_points (j_init s) ++ t_points t) in
  let '(p', e) := play p t' in
  match emit (j_out s) e with
  | Ok o => exists s', setInitTraj s t = Ok s' /\ j_out s' = o /\ rep s' p' /\ t_points (j_init s') = t_points (j_init s) ++ t_points t
  | _ => setInitTraj s t = UB
  end.
Proof.
  intros Hr t'. set (s1 := mkJte (j_index s) (j_deque s) (j_out s) (j_seq s) t').
  assert (Hr1 : rep s1 p) by exact Hr.
  pose proof (step_refines s1 p t' Hr1) as St.
  assert (E : setInitTraj s t = oneStep s1 t').
  { destruct Hr as (cur & D & _). unfold setInitTraj, oneStep. fold t'. fold s1. cbn [j_deque s1]. rewrite D. reflexivity. }
  rewrite E. destruct (play p t') as [p' e]. change (j_out s1) with (j_out s) in St. destruct (emit (j_out s) e); [|exact St..].
  destruct St as (s' & A & B & C). exists s'. split; [exact A|]. split; [exact B|]. split; [exact C|].
  unfold oneStep in A. destruct (j_deque s1); [discriminate|]. apply init_kept in A. rewrite A. reflexivity.
Qed.
(** Hence initTraj with two texts does not play the second one alone. *)
Theorem init_again_refuted : exists t1 t2 s1 s2, t_stamp t1 <> t_stamp t2 /\ setInitTraj jte_new t1 = Ok s1 /\ setInitTraj s1 t2 = Ok s2 /\
  map t_points (j_deque s2) = [t_points t1 ++ t_points t2].
Proof.
  exists (mkTraj (1, 0)%Z 0%Z [[1; 2; 3; 4; 5]%R]), (mkTraj (2, 0)%Z 0%Z [[5; 4; 3; 2; 1]%R]). eexists. eexists.
  split; [discriminate|]. split; [reflexivity|]. split; reflexivity.
Qed.

(** ** Histories *)
(** Points the entity can publish: no position at all, or the three of the centre of mass and the two of
    the centre of pressure at least. *)
Definition wf_traj (t : traj) : Prop := forall pos, In pos (t_points t) -> pos = [] \/ 5 <= length pos.

Lemma emit_ok o e : (forall pos, e = Some pos -> pos = [] \/ 5 <= length pos) -> exists o', emit o e = Ok o'.
Proof.
  destruct e as [pos|]; cbn; [|eauto]. intros Hp. unfold updatePoint. destruct (Nat.eqb_spec (length pos) 0); [eauto|].
  destruct (Nat.ltb_spec (length pos) 5); [|eauto]. exfalso. destruct (Hp pos eq_refl) as [-> |]; cbn in *; lia.
Qed.
Definition wf_player (p : player) : Prop :=
  (forall pos, In pos (pl_rest p) -> pos = [] \/ 5 <= length pos) /\ Forall wf_traj (pl_wait p).
Lemma advance_wf p p' e : wf_player p -> advance p = (p', e) ->
  wf_player p' /\ forall pos, e = Some pos -> pos = [] \/ 5 <= length pos.
Proof.
  intros [A B]. unfold advance. destruct (pl_rest p) as [|x r] eqn:E.
  - destruct (pl_wait p) as [|t w] eqn:W.
    + intros [= <- <-]. split; [split; [rewrite E|rewrite W]; assumption|discriminate].
    + apply Forall_cons_iff in B as [Bt Bw].
      destruct (t_points t) as [|x r] eqn:P; intros [= <- <-].
      * split; [split; [intros pos []|exact Bw]|discriminate].
      * split; [split; [|exact Bw]|].
        { intros pos Hin. apply Bt. rewrite P. now right. }
        { intros pos [= <-]. apply Bt. rewrite P. now left. }
  - intros [= <- <-]. split; [split; cbn; [|assumption]|].
    + intros pos Hin. apply A. now right.
    + intros pos [= <-]. apply A. now left.
Qed.
Lemma accept_wf p t : wf_player p -> wf_traj t -> wf_player (accept p t).
Proof.
  intros [A B] W. unfold accept. destruct (is_newb p t); [|split; assumption]. split; cbn; [assumption|].
  apply Forall_app. split; [assumption|]. constructor; [assumption|constructor].
Qed.

(** After the first trajectory and any sequence of ticks, the entity is defined, and its output is the
    one obtained by publishing the points emitted by the player, the last one being held.  Missing: steps
    before the first trajectory and ill formed points (step_without_init_refuted, short_point_refuted). *)
Theorem playback_partial t0 l : wf_traj t0 -> Forall wf_traj l ->
  let '(p0, e0) := first_play t0 in
  let '(p, es) := plays p0 l in
  exists s0 s o, setInitTraj jte_new t0 = Ok s0 /\ ofold oneStep l s0 = Ok s /\
    ofold emit (e0 :: es) None = Ok o /\ j_out s = o /\ rep s p.
Proof.
  intros W0 Wl. destruct (first_play t0) as [p0 e0] eqn:F.
  assert (WP : wf_player (mkPlayer [] [t0] (t_stamp t0))).
  { split; cbn; [intros pos []|]. constructor; [assumption|constructor]. }
  destruct (advance_wf _ _ _ WP F) as [Wp0 We0].
  pose proof (init_refines t0) as I. rewrite F in I. destruct (emit_ok None e0 We0) as (o0 & E0). rewrite E0 in I.
  destruct I as (s0 & I1 & I2 & I3).
  assert (G : forall l, Forall wf_traj l -> forall p s, rep s p -> wf_player p ->
     let '(p', es) := plays p l in
     exists s' o, ofold oneStep l s = Ok s' /\ ofold emit es (j_out s) = Ok o /\ j_out s' = o /\ rep s' p').
  { clear. induction 1 as [|t l Ht Hl IH]; intros p s Hr Wp; cbn [plays].
    - exists s, (j_out s). cbn. auto.
    - pose proof (step_refines s p t Hr) as St. destruct (play p t) as [p1 e] eqn:P.
      destruct (advance_wf _ _ _ (accept_wf p t Wp Ht) P) as [Wp1 We].
      destruct (emit_ok (j_out s) e We) as (o & Eo). rewrite Eo in St. destruct St as (s1 & S1 & S2 & S3).
      specialize (IH p1 s1 S3 Wp1). destruct (plays p1 l) as [p2 es]. destruct IH as (s' & o' & A & B & C & D).
      exists s', o'. cbn [ofold]. rewrite S1, Eo. cbn [bind]. rewrite S2 in B. auto. }
  specialize (G l Wl p0 s0 I3 Wp0). destruct (plays p0 l) as [p es]. destruct G as (s & o & A & B & C & D).
  exists s0, s, o. split; [exact I1|]. split; [exact A|]. split; [|auto].
  cbn [ofold]. rewrite E0. cbn [bind]. rewrite <- I2. exact B.
Qed.

(** Every point of the first trajectory and of the accepted ones is emitted once and in order. *)
Theorem playback_complete t0 l :
  let '(p0, e0) := first_play t0 in
  let '(p, es) := plays p0 l in
  emitted (e0 :: es) ++ left_points p = t_points t0 ++ all_points (accepted p0 l).
Proof.
  destruct (first_play t0) as [p0 e0] eqn:F. pose proof (player_complete l p0) as C.
  destruct (plays p0 l) as [p es]. destruct (C p es eq_refl) as [A _].
  apply advance_points in F. unfold left_points at 2 in F. cbn in F. unfold all_points in F. cbn in F. rewrite app_nil_r in F.
  rewrite <- F, <- app_assoc, <- A. destruct e0; reflexivity.
Qed.

(** ** Contents of the outputs *)
(** All positions but the last five, centre of mass, centre of pressure at a fixed height. *)
Theorem point_outputs o q cx cy ct px py :
  exists p, updatePoint o (q ++ [cx; cy; ct; px; py]) = Ok (Some p) /\
    firstn (length q) (p_pose p) = map Some q /\ length (p_pose p) = length q + 5 /\
    p_com p = V3 cx cy ct /\ p_cop p = V3 px py (- (55 / 1000))%R /\
    p_waist p = xyzTheta cx cy (65 / 100)%R ct.
Proof.
  unfold updatePoint. rewrite app_length. cbn [length]. destruct (Nat.eqb_spec (length q + 5) 0); [lia|].
  destruct (Nat.ltb_spec (length q + 5) 5); [lia|]. replace (length q + 5 - 5) with (length q) by lia.
  eexists. split; [reflexivity|]. cbn [p_pose p_com p_waist p_cop].
  assert (N : forall i, nth (length q + i) (q ++ [cx; cy; ct; px; py]) 0%R = nth i [cx; cy; ct; px; py] 0%R)
    by (intros; apply app_nth2_plus).
  rewrite !N. cbn [nth].
  assert (Fq : firstn (length q) (q ++ [cx; cy; ct; px; py]) = q).
  { rewrite firstn_app, Nat.sub_diag, firstn_all. cbn [firstn]. apply app_nil_r. }
  rewrite Fq. assert (Lm : length (map (@Some R) q) = length q) by apply map_length. split; [|split; [|auto]].
  - rewrite firstn_app, Lm, Nat.sub_diag. cbn [firstn]. rewrite app_nil_r. rewrite <- Lm at 1. apply firstn_all.
  - rewrite app_length, Lm, skipn_length. destruct (Nat.eqb_spec (length (match o with Some p => p_pose p | None => [] end)) (length q + 5)) as [E|E].
    + rewrite E. lia.
    + rewrite repeat_length. lia.
Qed.

(** The last five coefficients of the posture are uninitialised. *)
Theorem pose_tail_refuted : exists t s p, setInitTraj jte_new t = Ok s /\ j_out s = Some p /\ In None (p_pose p).
Proof.
  exists (mkTraj (0, 0)%Z 0%Z [[1; 2; 3; 4; 5; 6]%R]). eexists. eexists. split; [reflexivity|]. split; [reflexivity|].
  cbn. right. left. reflexivity.
Qed.

(** The waist has heading theta, but its position is the point rotated by theta. *)
Theorem waist_position x y z th :
  lin (xyzTheta x y z th) = M3 (cos th) (- sin th) 0 (sin th) (cos th) 0 0 0 1 /\
  trn (xyzTheta x y z th) = V3 (x * cos th - y * sin th) (x * sin th + y * cos th) z.
Proof.
  unfold xyzTheta, hmul, mmul, mapp, vadd, mid, v0. cbn. split; f_equal; ring.
Qed.
Theorem waist_position_refuted : exists x y z th, trn (xyzTheta x y z th) <> V3 x y z.
Proof.
  exists 1%R, 0%R, 0%R, PI. destruct (waist_position 1 0 0 PI) as [_ ->]. rewrite cos_PI, sin_PI.
  intros E. apply (f_equal vx) in E. cbn in E. lra.
Qed.

(** Without initTraj the first step reads an empty queue. *)
Theorem step_without_init_refuted t : oneStep jte_new t = UB.
Proof. reflexivity. Qed.
(** Points with one to four positions overrun. *)
Theorem short_point_refuted o pos : 1 <= length pos <= 4 -> updatePoint o pos = UB.
Proof.
  intros Hl. unfold updatePoint. destruct (Nat.eqb_spec (length pos) 0); [lia|]. destruct (Nat.ltb_spec (length pos) 5); [reflexivity|lia].
Qed.

(** ** Header of the texts given to initTraj *)
(** Only the sequence number is read: the stream is at its end and is never cleared, so that the stamp
    keeps its previous value (zero). *)
Lemma read_digits_all l acc : (forall d, In d l -> d <> None) -> snd (read_digits acc l) = true /\ snd (fst (read_digits acc l)) = [].
Proof.
  revert acc. induction l as [|[d|] l IH]; intros acc Hl; cbn; [auto| |].
  - apply IH. intros. apply Hl. now right.
  - exfalso. apply (Hl None); [now left|reflexivity].
Qed.
Theorem header_stamp_unread seq secs nsecs h : seq <> [] -> (forall d, In d seq -> d <> None) ->
  parse_header seq secs nsecs h = (fst (fst (read_digits 0 seq)), snd h).
Proof.
  intros Hn Hd. destruct seq as [|[d|] seq]; [congruence| |].
  2: exfalso; apply (Hd None); [now left|reflexivity].
  unfold parse_header, is_get at 1. cbn [is_str is_eof is_fail orb is_buf].
  pose proof (read_digits_all _ 0 Hd) as [A B]. destruct (read_digits 0 (Some d :: seq)) as [[v r] e]. cbn in A, B. subst e r.
  unfold is_get. cbn. destruct h as [a [b c]]. reflexivity.
Qed.
(** A second initTraj, whose stamp is thus zero, is never played: it only makes a step. *)
Theorem second_init_ignored s t s' : j_deque s <> [] -> t_stamp t = (0, 0)%Z -> setInitTraj s t = Ok s' ->
  exists gone, j_deque s = gone ++ j_deque s'.
Proof.
  intros Hd Ht. unfold setInitTraj. destruct s as [i q o sq it]. cbn in Hd. destruct q as [|f r]; [congruence|].
  rewrite (updateTrajectory_choose _ _ f r) by reflexivity. cbn [t_stamp j_deque j_index]. rewrite Ht.
  change (stamp_eqb (0, 0)%Z (0, 0)%Z) with true. cbv iota. unfold choose.
  assert (Fin : forall st k q s', finish st k q = Ok s' -> j_deque s' = q).
  { intros st k q s1. unfold finish. destruct q; [discriminate|]. destruct (vget (t_points t0) k) as [z| |]; cbn; try discriminate.
    destruct (updatePoint (j_out st) z); cbn; try discriminate. now intros [= <-]. }
  destruct (length (t_points f) <=? S i).
  - destruct (1 <? length (f :: r)) eqn:L1.
    + destruct r as [|g r]; [discriminate|]. destruct (length (t_points g) =? 0).
      * intros [= <-]. exists [f]. reflexivity.
      * intros E. apply Fin in E. rewrite E. exists [f]. reflexivity.
    + destruct (length (t_points f) =? 0).
      * intros [= <-]. exists []. reflexivity.
      * intros E. apply Fin in E. rewrite E. exists []. reflexivity.
  - intros E. apply Fin in E. rewrite E. exists []. reflexivity.
Qed.
(** A trajectory with stamp zero arriving on the signal is never accepted either. *)
Theorem zero_stamp_refuted : exists t0 t l, t_points t <> t_points t0 /\
  let '(p0, _) := first_play t0 in accepted p0 (t :: l) = [].
Proof.
  exists (mkTraj (1, 0)%Z 0%Z []), (mkTraj (0, 0)%Z 1%Z [[1; 2; 3; 4; 5; 6]%R]), []. split; [discriminate|reflexivity].
Qed.

Example playback_example :
  let a := mkTraj (0, 0)%Z 0%Z [[1; 2; 3; 4; 5; 6]%R; [2; 2; 3; 4; 5; 6]%R] in
  let b := mkTraj (1, 5)%Z 1%Z [[7; 2; 3; 4; 5; 6]%R] in
  wf_traj a /\ wf_traj b /\
  let '(p0, e0) := first_play a in
  snd (plays p0 [b; b; b; b]) = [Some [2; 2; 3; 4; 5; 6]%R; Some [7; 2; 3; 4; 5; 6]%R; None; None].
Proof.
  cbn. repeat split; intros pos Hin; cbn in Hin; right;
    repeat (destruct Hin as [<- |Hin]; [cbn; lia|]); destruct Hin.
Qed.

(** An initial trajectory without points: nothing is published, and the sequence number is zero. *)
Theorem init_empty t : t_points t = [] -> exists s, setInitTraj jte_new t = Ok s /\ j_out s = None /\ j_seq s = 0%Z.
Proof.
  intros E. unfold setInitTraj, updateTrajectory, jte_new. cbn. rewrite E, andb_false_r. cbn. eexists. repeat split.
Qed.

Print Assumptions player_complete.
Print Assumptions player_prompt.
Print Assumptions step_refines.
Print Assumptions init_refines.
Print Assumptions playback_partial.
Print Assumptions playback_complete.
Print Assumptions point_outputs.
Print Assumptions pose_tail_refuted.
Print Assumptions waist_position.
Print Assumptions waist_position_refuted.
Print Assumptions step_without_init_refuted.
Print Assumptions short_point_refuted.
Print Assumptions header_stamp_unread.
Print Assumptions second_init_ignored.
Print Assumptions zero_stamp_refuted.

Print Assumptions empty_point_holds.
Print Assumptions init_again.
Print Assumptions init_again_refuted.
Print Assumptions init_empty.
