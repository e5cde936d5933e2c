(** C120: the outputs of the trajectory player agree, and the player makes one step per tick. *)
From Coq Require Import String List Arith Lia ZArith Bool Reals Lra.
From Verif Require Import Base Geom_Model Traj_Model Traj_Props TrajSig_Model.
Import ListNotations.

(** ** Specification *)
(** The ticks of a schedule: its times, each once. *)
Fixpoint ticks (last : option Z) (l : list (osig * Z)) : list Z :=
  match l with
  | [] => []
  | (_, t) :: r => match last with
                   | Some u => if (u =? t)%Z then ticks last r else t :: ticks (Some t) r
                   | None => t :: ticks (Some t) r
                   end
  end.
(** Time does not go back. *)
Fixpoint forward (last : option Z) (l : list (osig * Z)) : Prop :=
  match l with
  | [] => True
  | (_, t) :: r => match last with Some u => (u <= t)%Z | None => True end /\ forward (Some t) r
  end.
(** The player after a step at each tick of a list. *)
Definition played (input : Z -> traj) (s : jte) (ts : list Z) : outcome jte := ofold (fun s t => oneStep s (input t)) ts s.

Definition current (p : plug) : Prop :=
  forall o u v, held p o = Some (u, v) ->
    match step_time p with None => False | Some w => (u <= w)%Z /\ (u = w -> v = field o (ent p)) end.

Lemma osig_eqb_eq a b : osig_eqb a b = true <-> a = b.
Proof. destruct a, b; cbn; split; congruence. Qed.

Lemma do_step_now input p t p' : (match step_time p with Some u => (u <= t)%Z | None => True end) ->
  do_step input p t = Ok p' ->
  played input (ent p) (ticks (step_time p) [(OPosition, t)]) = Ok (ent p') /\ step_time p' = Some t /\ held p' = held p /\
  (step_time p = Some t -> p' = p).
Proof.
  unfold do_step, played. cbn [ticks]. intros F E. destruct (step_time p) as [u|] eqn:S; cbn [later] in E.
  - destruct (Z.ltb_spec u t) as [L|L].
    + destruct (oneStep (ent p) (input t)) as [s| |] eqn:X; try discriminate. injection E as <-.
      destruct (Z.eqb_spec u t); [lia|]. cbn [ofold bind]. rewrite X. cbn. repeat split. intros Q. injection Q. lia.
    + assert (u = t) by lia. subst u. injection E as <-. rewrite Z.eqb_refl. cbn. auto.
  - destruct (oneStep (ent p) (input t)) as [s| |] eqn:X; try discriminate. injection E as <-. cbn [ofold]. rewrite X. cbn. repeat split. discriminate.
Qed.

Lemma read_now input p o t p' v : current p -> (match step_time p with Some u => (u <= t)%Z | None => True end) ->
  read input p o t = Ok (p', v) ->
  played input (ent p) (ticks (step_time p) [(o, t)]) = Ok (ent p') /\ step_time p' = Some t /\ v = field o (ent p') /\ current p'.
Proof.
  intros C F E.
  assert (K : forall q, do_step input p t = Ok q ->
    let v' := field o (ent q) in
    let p'' := mkPlug (ent q) (step_time q) (fun x => if osig_eqb x o then Some (t, v') else held q x) in
    played input (ent p) (ticks (step_time p) [(o, t)]) = Ok (ent p'') /\ step_time p'' = Some t /\ v' = field o (ent p'') /\ current p'').
  { intros q D. destruct (do_step_now input p t q F D) as (A & B & H & I). cbn zeta. cbn [ent step_time].
    repeat split; [exact A|exact B|]. intros x u w Q. cbn [held step_time ent] in *. rewrite B.
    destruct (osig_eqb x o) eqn:X.
    - apply osig_eqb_eq in X. subst x. injection Q as <- <-. split; [lia|auto].
    - rewrite H in Q. specialize (C x u w Q). destruct (step_time p) as [y|] eqn:S; [|contradiction]. split; [lia|].
      intros ->. destruct C as [C1 C2]. assert (y = t) by lia. subst y. rewrite (I eq_refl). auto. }
  unfold read in E. destruct (held p o) as [[u w]|] eqn:Hd.
  - destruct (Z.ltb_spec u t) as [L|L].
    + destruct (do_step input p t) as [q| |] eqn:D; try discriminate. cbn [bind] in E. injection E as <- <-. apply (K q eq_refl).
    + injection E as <- <-. pose proof (C o u w Hd) as Q. destruct (step_time p) as [y|] eqn:S; [|contradiction].
      assert (y = t) by lia. assert (u = t) by lia. subst. cbn [ticks]. rewrite Z.eqb_refl. cbn. destruct Q as [_ Q].
      repeat split; auto.
  - destruct (do_step input p t) as [q| |] eqn:D; try discriminate. cbn [bind] in E. injection E as <- <-. apply (K q eq_refl).
Qed.

Lemma ticks_cons last o t r : ticks last ((o, t) :: r) = ticks last [(o, t)] ++ ticks (Some t) r.
Proof. cbn [ticks]. destruct last as [u|]; [|reflexivity]. destruct (Z.eqb_spec u t) as [->|]; reflexivity. Qed.

Lemma played_app input a : forall s b, played input s (a ++ b) = bind (played input s a) (fun s' => played input s' b).
Proof. intros s b. unfold played. apply ofold_app. Qed.

Lemma reads_now input l : forall p p' vs, current p -> forward (step_time p) l -> reads input p l = Ok (p', vs) ->
  current p' /\ played input (ent p) (ticks (step_time p) l) = Ok (ent p') /\ length vs = length l /\
  forall l1 o t l2, l = l1 ++ (o, t) :: l2 ->
    exists s, played input (ent p) (ticks (step_time p) (l1 ++ [(o, t)])) = Ok s /\ nth_error vs (length l1) = Some (field o s).
Proof.
  induction l as [|[o t] l IH]; intros p p' vs C F E; cbn [reads] in E.
  - injection E as <- <-. split; [exact C|]. split; [reflexivity|]. split; [reflexivity|]. intros [|? ?] ? ? ? Q; discriminate.
  - cbn [forward] in F. destruct F as [F1 F2]. destruct (read input p o t) as [[p1 v]| |] eqn:R; try discriminate. cbn [bind] in E.
    destruct (reads input p1 l) as [[p2 ws]| |] eqn:W; try discriminate. cbn [bind] in E. injection E as <- <-.
    destruct (read_now input p o t p1 v C F1 R) as (A & B & V & C1).
    rewrite <- B in F2. destruct (IH p1 p2 ws C1 F2 W) as (C2 & P & L & N). rewrite B in P, N.
    split; [exact C2|]. split. { rewrite ticks_cons, played_app, A. exact P. }
    split; [cbn; now rewrite L|]. intros [|[o1 t1] l1] o' t' l2 Q.
    + cbn in Q. injection Q as <- <- <-. exists (ent p1). split; [exact A|]. cbn. now rewrite V.
    + cbn in Q. injection Q as <- <- Q. destruct (N l1 o' t' l2 Q) as (s & S1 & S2). exists s. split; [|exact S2].
      cbn [app]. rewrite ticks_cons, played_app, A. exact S1.
Qed.

(** Whatever outputs are read, in whatever order and as many times as one likes, as long as time does not go
    back: the player makes exactly one step at each time at which at least one output is read, with the trajectory received
    at that time, and every value handed out is the one of the player after the step of its time. *)
Theorem outputs_agree input t0 s0 p0 l p vs : plug_new t0 = Ok p0 -> setInitTraj jte_new t0 = Ok s0 ->
  forward None l -> reads input p0 l = Ok (p, vs) ->
  played input s0 (ticks None l) = Ok (ent p) /\ length vs = length l /\
  forall l1 o t l2, l = l1 ++ (o, t) :: l2 ->
    exists s, played input s0 (ticks None (l1 ++ [(o, t)])) = Ok s /\ nth_error vs (length l1) = Some (field o s).
Proof.
  intros E E0 F R. unfold plug_new in E. rewrite E0 in E. cbn [bind] in E. injection E as <-.
  assert (C0 : current (mkPlug s0 None (fun _ => None))) by (intros o u v Q; discriminate Q).
  destruct (reads_now input l _ _ _ C0 F R) as (_ & A & B & C). auto.
Qed.

(** Two values read at a same time come from the same state of the player: position, centre of mass, centre of
    pressure, waist and sequence number are those of one point. *)
Theorem outputs_same_point input t0 p0 l p vs l1 o1 l2 o2 l3 t : plug_new t0 = Ok p0 ->
  forward None l -> reads input p0 l = Ok (p, vs) -> l = l1 ++ (o1, t) :: l2 ++ (o2, t) :: l3 ->
  exists s, nth_error vs (length l1) = Some (field o1 s) /\ nth_error vs (length l1 + S (length l2)) = Some (field o2 s).
Proof.
  intros E F R Q. unfold plug_new in E. destruct (setInitTraj jte_new t0) as [s0| |] eqn:E0; try discriminate.
  assert (E' : plug_new t0 = Ok p0) by (unfold plug_new; now rewrite E0).
  destruct (outputs_agree input t0 s0 p0 l p vs E' E0 F R) as (_ & _ & N).
  destruct (N l1 o1 t (l2 ++ (o2, t) :: l3) Q) as (s & S1 & S2).
  destruct (N (l1 ++ (o1, t) :: l2) o2 t l3) as (s' & S1' & S2'). { rewrite Q. now rewrite <- app_assoc. }
  assert (T : forall last a b, forward last (a ++ (o1, t) :: b) -> (forall x, In x b -> snd x = t) ->
     ticks last (a ++ (o1, t) :: b) = ticks last (a ++ [(o1, t)])).
  { intros last a. revert last. induction a as [|[o u] a IH]; intros last b Fb Hb.
    - cbn [app] in *. rewrite ticks_cons. assert (N0 : ticks (Some t) b = []).
      { clear - Hb. induction b as [|[o u] b IH]; [reflexivity|]. cbn [ticks]. pose proof (Hb (o, u) (or_introl eq_refl)) as X. cbn in X. subst u.
        rewrite Z.eqb_refl. apply IH. intros x Hx. apply Hb. now right. }
      rewrite N0, app_nil_r. reflexivity.
    - cbn [app] in *. rewrite (ticks_cons last o u (a ++ _ :: b)), (ticks_cons last o u (a ++ [_])). f_equal. apply IH; [apply Fb|exact Hb]. }
  assert (M : forall last a, forward last (a ++ (o2, t) :: l3) -> (match last with Some u => (u = t)%Z | None => False end) -> forall x, In x a -> snd x = t).
  { intros last a. revert last. induction a as [|[o u] a IH]; intros last Fa La x Hx; [contradiction|]. cbn [app forward] in Fa. destruct Fa as [F1 F2].
    assert (G : forall w b, forward (Some w) (b ++ (o2, t) :: l3) -> (w <= t)%Z).
    { intros w b. revert w. induction b as [|[o' w'] b IHb]; intros w Fw; cbn [app forward] in Fw; destruct Fw as [X Y]; [exact X|]. specialize (IHb w' Y). lia. }
    destruct last as [w|]; [|contradiction]. subst w. specialize (G u a F2). assert (u = t) by lia. subst u.
    destruct Hx as [<-|Hx]; [reflexivity|]. apply (IH (Some t)); auto. }
  assert (F' := F). rewrite Q in F'.
  assert (P : forall last a, forward last (a ++ (o1, t) :: l2 ++ (o2, t) :: l3) -> forward (Some t) (l2 ++ (o2, t) :: l3)).
  { intros last a. revert last. induction a as [|[o u] a IH]; intros last Fa; cbn [app forward] in Fa; destruct Fa as [X Y]; [exact Y|]. apply (IH _ Y). }
  assert (L2 : forall x, In x l2 -> snd x = t) by (apply (M (Some t)); [apply (P _ _ F')|reflexivity]).
  assert (EQ : ticks None ((l1 ++ (o1, t) :: l2) ++ [(o2, t)]) = ticks None (l1 ++ [(o1, t)])).
  { rewrite <- app_assoc. cbn [app]. apply T.
    - clear - F'. revert F'. generalize (@None Z). induction l1 as [|[o u] l1 IH]; intros last Fa; cbn [app forward] in *; destruct Fa as [X Y]; (split; [exact X|]).
      + revert Y. generalize (Some t). induction l2 as [|[o u] l2 IHl]; intros w Y; cbn [app forward] in *; destruct Y as [Y1 Y2]; (split; [exact Y1|]); [exact I|apply IHl, Y2].
      + apply IH, Y.
    - intros x Hx. apply in_app_or in Hx as [Hx|[<-|[]]]; [apply L2, Hx|reflexivity]. }
  rewrite EQ, S1 in S1'. injection S1' as <-. exists s. split; [exact S2|].
  rewrite app_length in S2'. cbn [length] in S2'. exact S2'.
Qed.

(** What the outputs hand out after a step that plays the point with positions [q], then the position and
    heading of the centre of mass and the centre of pressure. *)
Theorem outputs_values s p t p' q cx cy ct px py : rep s p -> play p t = (p', Some (q ++ [cx; cy; ct; px; py])) ->
  exists s', oneStep s t = Ok s' /\
    (exists l, field OPosition s' = VPose l /\ firstn (length q) l = map Some q /\ length l = length q + 5) /\
    field OCom s' = VVec (Some (V3 cx cy ct)) /\
    field OZmp s' = VVec (Some (V3 px py (- (55 / 1000))%R)) /\
    field OWaist s' = VHom (Some (xyzTheta cx cy (65 / 100)%R ct)).
Proof.
  intros Hr E. pose proof (step_refines s p t Hr) as St. rewrite E in St. cbn [emit] in St.
  destruct (point_outputs (j_out s) q cx cy ct px py) as (x & X & A & B & C & D & F). rewrite X in St.
  destruct St as (s' & S1 & S2 & _). exists s'. split; [exact S1|]. cbn [field]. rewrite S2. cbn [option_map].
  rewrite C, D, F. repeat split. exists (p_pose x). auto.
Qed.

(** The sequence number is the one of the trajectory that is played. *)
Theorem outputs_seq s t s' f r : oneStep s t = Ok s' -> j_deque s' = f :: r -> t_points f <> [] ->
  field OSeqId s' = VSeq (t_seq f).
Proof.
  intros E D P. cbn [field]. f_equal. unfold oneStep in E. destruct (j_deque s) as [|c w] eqn:Q; [discriminate|].
  rewrite (updateTrajectory_choose s t c w Q) in E. unfold choose in E.
  assert (St : forall i q, finish s i q = Ok s' -> j_seq s' = t_seq f).
  { intros i [|g q]; unfold finish; [discriminate|]. destruct (vget (t_points g) i); try discriminate. cbn [bind].
    destruct (updatePoint (j_out s) a); try discriminate. cbn [bind]. intros K. injection K as <-. cbn in D |- *. now injection D as <- _. }
  match type of E with context [match ?x with [] => UB | _ :: _ => _ end = Ok s'] => destruct x as [|g q] eqn:G; [discriminate|] end.
  destruct (length (t_points g) <=? S (j_index s))%nat; [|now apply (St _ _ E)].
  destruct (if (1 <? length (g :: q))%nat then _ else _) as [i' q']. destruct q' as [|f' r']; [discriminate|].
  destruct (Nat.eqb_spec (length (t_points f')) 0) as [Z|Z]; [|now apply (St _ _ E)].
  injection E as <-. cbn in D. injection D as <- _. destruct (t_points f'); [contradiction|discriminate].
Qed.

(** Reading an output again, or at an earlier time, hands out the same value and moves nothing. *)
Theorem outputs_again input p o t p' v u : read input p o t = Ok (p', v) -> (u <= t)%Z -> read input p' o u = Ok (p', v).
Proof.
  intros E L.
  assert (K : forall q, let v' := field o (ent q) in
     let p'' := mkPlug (ent q) (step_time q) (fun x => if osig_eqb x o then Some (t, v') else held q x) in
     read input p'' o u = Ok (p'', v')).
  { intros q. cbn zeta. unfold read. cbn [held]. replace (osig_eqb o o) with true by now destruct o.
    destruct (Z.ltb_spec t u); [lia|reflexivity]. }
  unfold read in E. destruct (held p o) as [[w x]|] eqn:Hd.
  - destruct (Z.ltb_spec w t) as [Lt|Lt].
    + destruct (do_step input p t) as [q| |]; try discriminate. cbn [bind] in E. injection E as <- <-. apply K.
    + injection E as <- <-. unfold read. rewrite Hd. destruct (Z.ltb_spec w u); [lia|reflexivity].
  - destruct (do_step input p t) as [q| |]; try discriminate. cbn [bind] in E. injection E as <- <-. apply K.
Qed.

(** With well formed trajectories every schedule of reads, even one that goes back in time, is defined.
    Missing: reads before the first trajectory (outputs_without_init_refuted). *)
Theorem outputs_defined_partial input t0 l : wf_traj t0 -> (forall t, wf_traj (input t)) ->
  exists p0 p vs, plug_new t0 = Ok p0 /\ reads input p0 l = Ok (p, vs).
Proof.
  intros W0 W.
  assert (G : exists s0, setInitTraj jte_new t0 = Ok s0 /\ forall ts, exists s, played input s0 ts = Ok s).
  { assert (M : forall ts s, played input s ts = ofold oneStep (map input ts) s).
    { unfold played. induction ts as [|t ts IH]; intros s; [reflexivity|]. cbn [ofold map]. destruct (oneStep s (input t)); cbn; auto. }
    assert (S0 : exists s0, setInitTraj jte_new t0 = Ok s0).
    { pose proof (playback_partial t0 [] W0 (Forall_nil _)) as P. destruct (first_play t0), (plays p []). destruct P as (s0 & _ & _ & P & _). eauto. }
    destruct S0 as (s0 & S0). exists s0. split; [exact S0|]. intros ts. rewrite M.
    assert (F : Forall wf_traj (map input ts)) by (apply Forall_forall; intros x Hx; apply in_map_iff in Hx as (t & <- & _); apply W).
    pose proof (playback_partial t0 (map input ts) W0 F) as P. destruct (first_play t0), (plays p (map input ts)).
    destruct P as (s1 & s & _ & P1 & P2 & _). rewrite S0 in P1. injection P1 as <-. eauto. }
  destruct G as (s0 & S0 & G). unfold plug_new. rewrite S0. cbn [bind]. eexists. 
  enough (K : forall l p, (forall ts, exists s, played input (ent p) ts = Ok s) -> exists p' vs, reads input p l = Ok (p', vs)).
  { destruct (K l (mkPlug s0 None (fun _ => None)) G) as (p & vs & E). eauto. }
  clear. induction l as [|[o t] l IH]; intros p G; cbn [reads]; [eauto|].
  assert (D : exists q, do_step input p t = Ok q /\ forall ts, exists s, played input (ent q) ts = Ok s).
  { unfold do_step. destruct (later (step_time p) t); [|eauto]. destruct (G [t]) as (s & E). unfold played in E. cbn [ofold] in E.
    destruct (oneStep (ent p) (input t)) as [s'| |] eqn:X; try discriminate. cbn [bind]. eexists. split; [reflexivity|]. intros ts.
    destruct (G (t :: ts)) as (s2 & E2). unfold played in E2 |- *. cbn [ofold ent] in E2 |- *. rewrite X in E2. eauto. }
  assert (R : exists p' v, read input p o t = Ok (p', v) /\ forall ts, exists s, played input (ent p') ts = Ok s).
  { destruct D as (q & E & Gq). unfold read. rewrite E. cbn [bind]. destruct (held p o) as [[u w]|]; [destruct (u <? t)%Z|]; do 2 eexists; (split; [reflexivity|]); auto. }
  destruct R as (p' & v & -> & Gp). cbn [bind]. destruct (IH p' Gp) as (p2 & vs & ->). cbn [bind]. eauto.
Qed.
Theorem outputs_without_init_refuted input o t : read input (mkPlug jte_new None (fun _ => None)) o t = UB.
Proof. reflexivity. Qed.

(** A case: two trajectories, the outputs read at three times. *)
Definition tr0 : traj := mkTraj (1, 0)%Z 7 [[1; 2; 3; 4; 5; 6]; [2; 2; 3; 4; 5; 6]]%R.
Definition tr1 : traj := mkTraj (2, 0)%Z 8 [[9; 2; 3; 4; 5; 6]]%R.
Definition in01 (t : Z) : traj := if (t <? 5)%Z then tr0 else tr1.
Definition schedule : list (osig * Z) :=
  [(OSeqId, 0%Z); (OPosition, 0%Z); (OCom, 5%Z); (OSeqId, 5%Z); (OSeqId, 5%Z); (OZmp, 9%Z); (OSeqId, 9%Z)].
Example outputs_case : exists p0 p vs,
  plug_new tr0 = Ok p0 /\ reads in01 p0 schedule = Ok (p, vs) /\ forward None schedule /\
  nth_error vs 0 = Some (VSeq 7) /\ nth_error vs 3 = Some (VSeq 8) /\ nth_error vs 4 = Some (VSeq 8) /\
  nth_error vs 6 = Some (VSeq 8).
Proof.
  let r := eval cbv -[xyzTheta Rdiv Ropp IZR] in (plug_new tr0) in match r with Ok ?p => exists p end.
  match goal with |- exists p vs, _ /\ reads _ ?p0 _ = _ /\ _ =>
    let r := eval cbv -[xyzTheta Rdiv Ropp IZR] in (reads in01 p0 schedule) in
    match r with Ok (?p, ?vs) => exists p, vs end end.
  split; [reflexivity|]. split; [cbv -[xyzTheta Rdiv Ropp IZR]; reflexivity|]. split; [cbn; lia|]. repeat split.
Qed.

Print Assumptions outputs_agree.
Print Assumptions outputs_same_point.
Print Assumptions outputs_again.
Print Assumptions outputs_defined_partial.
Print Assumptions outputs_without_init_refuted.

Print Assumptions outputs_values.
Print Assumptions outputs_seq.
