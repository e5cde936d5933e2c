(** C118: the relative meta task.  C119: the visual point meta task. *)
From Coq Require Import String List Arith Lia ZArith Bool Reals Lra Psatz.
From Verif Require Import Base Flags_Model Feature_Model Feature_Proofs Geom_Model Geom_Facts
  Geom_Rot Geom_Props OpPoint_Model OpPoint_Props Rodr_Facts Rel_Facts Log6_Facts
  Point6d_Model Point6d_Props Pose_Model Pose_Props Rel6_Model Rel6_Props Gain_Model MatUtil_Model
  Line_Model Line_Props Feature_Props PyFeat_Model PyFeat_Props Meta_Model Meta_Props MetaRel_Model.
Import ListNotations.
Local Open Scope R_scope.
Local Open Scope string_scope.
Local Open Scope list_scope.
Local Notation rel := Rel_Facts.rel.

(** ** Specification *)
(** An argument that means a pose (C107 says which do). *)
Definition means (p : poseArg) (A : hom) : Prop := generic6dReference p = Ok (rows_of A).
(** Statements that do not ask for a pose: the points are moved. *)
Definition moves (c : tcmd) : bool := match c with TOpmodif _ | TOpmodifBase _ => true | _ => false end.
(** Statements that ask for both poses. *)
Definition asks (c : tcmd) : bool := match c with TGoto _ _ _ | TGotoN _ _ _ _ => true | _ => false end.
(** The modifications of each point, in order. *)
Definition of_other (h : list tcmd) : list modifArg := flat_map (fun c => match c with TOpmodif a => [a] | _ => [] end) h.
Definition of_base (h : list tcmd) : list modifArg := flat_map (fun c => match c with TOpmodifBase a => [a] | _ => [] end) h.

Lemma pose_of_rows A : pose_of (matrixToTuple (rows_of A)) = A.
Proof. destruct A as [[] []]. reflexivity. Qed.

Lemma trun_app m h h' t : trun m (h ++ h') t = trun m h' (trun m h t).
Proof. apply fold_left_app. Qed.
Lemma trun_cons m c h t : trun m (c :: h) t = trun m h (fst (tstep m t c)).
Proof. reflexivity. Qed.

(** ** The points *)
Lemma tstep_points m t c : t_points (fst (tstep m t c)) =
  fold_left rel_exec (match c with TOpmodif a => [SetOp a] | TOpmodifBase a => [SetBase a] | _ => [] end) (t_points t).
Proof.
  destruct c; cbn [tstep fst t_points fold_left set_ref]; try reflexivity.
  - unfold goto6dRel. destruct (generic6dReference p), (generic6dReference pRef); reflexivity.
  - unfold gotoNdRel. destruct (generic6dReference p), (generic6dReference pRef); cbn [bind]; try reflexivity.
    destruct selec as [s|]; cbn [bind]; [destruct (of_string s)|]; reflexivity.
Qed.

Lemma trun_points m h : forall t, t_points (trun m h t) = fold_left rel_exec
    (flat_map (fun c => match c with TOpmodif a => [SetOp a] | TOpmodifBase a => [SetBase a] | _ => [] end) h) (t_points t).
Proof.
  induction h as [|c h IH]; intros t; [reflexivity|]. rewrite trun_cons, IH, tstep_points. cbn [flat_map].
  now rewrite fold_left_app.
Qed.

Lemma flat_of_other l : flat_map (fun c => match c with SetOp a => [a] | SetBase _ => [] end)
     (flat_map (fun c => match c with TOpmodif a => [SetOp a] | TOpmodifBase a => [SetBase a] | _ => [] end) l) = of_other l.
Proof. induction l as [|c l IH]; [reflexivity|]. cbn [flat_map of_other]. rewrite flat_map_app, IH. destruct c; reflexivity. Qed.
Lemma flat_of_base l : flat_map (fun c => match c with SetOp _ => [] | SetBase a => [a] end)
     (flat_map (fun c => match c with TOpmodif a => [SetOp a] | TOpmodifBase a => [SetBase a] | _ => [] end) l) = of_base l.
Proof. induction l as [|c l IH]; [reflexivity|]. cbn [flat_map of_base]. rewrite flat_map_app, IH. destruct c; reflexivity. Qed.

(** Whatever the script does, each point follows the assignments to its own modifier and nothing else. *)
Theorem meta_relative_points m h o b t0 : rtask_new o b = Ok t0 ->
  let t := trun m h t0 in
  (forall k, t_other m t k = feature_position (run (of_other h) (point_init o)) (at_other m k)) /\
  (forall k, t_base m t k = feature_position (run (of_base h) (point_init b)) (at_base m k)).
Proof.
  intros E t.
  assert (P : t_points t = fold_left rel_exec
    (flat_map (fun c => match c with TOpmodif a => [SetOp a] | TOpmodifBase a => [SetBase a] | _ => [] end) h)
    (mkRel (point_init o) (point_init b))).
  { unfold t. rewrite trun_points. injection E as <-. reflexivity. }
  rewrite relative_points_independent in P.
  unfold t_other, t_base. rewrite P. cbn [other base].
  rewrite flat_of_other, flat_of_base. auto.
Qed.

Lemma moves_keep m h : forallb moves h = true -> forall t,
  t_position (trun m h t) = t_position t /\ t_positionRef (trun m h t) = t_positionRef t /\
  t_selec (trun m h t) = t_selec t /\ t_gain (trun m h t) = t_gain t.
Proof.
  induction h as [|c h IH]; intros F t; [auto|]. cbn [forallb] in F. apply andb_prop in F as [C F].
  rewrite trun_cons. destruct (IH F (fst (tstep m t c))) as (-> & -> & -> & ->).
  destruct c; try discriminate C; cbn; auto.
Qed.

(** ** The error *)
Lemma rtask_error_eq g m t k : rtask_error g m t k =
  Ok (map (v6at (pose6 (gap (t_other m t k) (t_base m t k) (Some (RelRef (t_position t) (t_positionRef t))))))
        (chosen (t_selec t) 6)).
Proof. unfold rtask_error. rewrite point6d_dimension. cbn [bind]. apply relative6_error. Qed.

(** After goto6dRel, whatever the script did before and however it moves the points afterwards: the error
    is zero at a time exactly when the first point seen from the base is the first pose seen from the second. *)
Theorem meta_relative_goto m h h' o b t0 p q A B gain g k :
  rtask_new o b = Ok t0 -> means p A -> means q B -> forallb moves h' = true ->
  let t := trun m (h ++ TGoto p q gain :: h') t0 in
  is_rigid A -> is_rigid B -> is_rigid (t_other m t k) -> is_rigid (t_base m t k) ->
  rtask_error g m t k = Ok zero6 <-> rel (t_base m t k) (t_other m t k) = rel B A.
Proof.
  intros E MA MB F t HA HB HO HBs.
  assert (S : six = Ok (t_selec t) /\ t_position t = Some A /\ t_positionRef t = Some B).
  { unfold t. rewrite trun_app, trun_cons.
    match goal with |- context [trun m h' ?x] => destruct (moves_keep m h' F x) as (-> & -> & -> & _) end.
    cbn [tstep]. unfold goto6dRel. rewrite MA, MB. cbn [bind]. rewrite !pose_of_rows. auto. }
  destruct S as (S & PA & PB). unfold rtask_error. rewrite point6d_dimension. cbn [bind].
  rewrite (chosen_all _ (six_all _ S)). cbn [length]. rewrite PA, PB. unfold zero6.
  rewrite relative6_error_zero; [|assumption|assumption|unfold rigid_ref; cbn [wanted]; now apply rel_rigid|apply (six_all _ S)].
  cbn [wanted]. now apply rel_swap.
Qed.

(** gotoNdRel: the same on the selected directions.  The error is the selected part of the motion from the
    wanted relative pose to the actual one; when they agree, it is zero. *)
Theorem meta_relative_gotoN m h h' o b t0 p q A B s fl gain g k :
  rtask_new o b = Ok t0 -> means p A -> means q B -> of_string s = Ok fl -> forallb moves h' = true ->
  let t := trun m (h ++ TGotoN p q (Some s) gain :: h') t0 in
  rtask_error g m t k = Ok (map (v6at (pose6 (hmul (rel (t_other m t k) (t_base m t k)) (hinv (rel A B))))) (chosen fl 6)).
Proof.
  intros E MA MB S F t. rewrite rtask_error_eq.
  unfold t. rewrite trun_app, trun_cons. set (t1 := fst (tstep m (trun m h t0) (TGotoN p q (Some s) gain))).
  destruct (moves_keep m h' F t1) as (-> & -> & -> & _).
  assert (Q : t_position t1 = Some A /\ t_positionRef t1 = Some B /\ t_selec t1 = fl).
  { unfold t1. cbn [tstep]. unfold gotoNdRel. rewrite MA, MB. cbn [bind]. rewrite S. cbn [bind keep_state fst t_position t_positionRef t_selec].
    rewrite !pose_of_rows. auto. }
  destruct Q as (-> & -> & ->). reflexivity.
Qed.

(** Without a selection, the one in use is kept. *)
Theorem meta_relative_gotoN_same m t p q A B gain : means p A -> means q B ->
  tstep m t (TGotoN p q None gain) =
  (mkRtask (t_points t) (Some A) (Some B) (t_selec t) (setGain (t_gain t) gain), false).
Proof. intros MA MB. cbn [tstep]. unfold gotoNdRel. rewrite MA, MB. cbn [bind keep_state]. now rewrite !pose_of_rows. Qed.

(** The gain is the one asked for by the helpers, each starting from the previous one; nothing else changes it. *)
Definition gain_after (c : tcmd) (raised : bool) (g : adaptive) : adaptive :=
  match c with TGoto _ _ v | TGotoN _ _ _ v => if raised then g else setGain g v | _ => g end.
Theorem meta_relative_gain m t c :
  t_gain (fst (tstep m t c)) = gain_after c (snd (tstep m t c)) (t_gain t).
Proof.
  destruct c; cbn [tstep gain_after]; try reflexivity.
  - unfold goto6dRel. destruct (generic6dReference p), (generic6dReference pRef); reflexivity.
  - unfold gotoNdRel. destruct (generic6dReference p), (generic6dReference pRef); cbn [bind]; try reflexivity.
    destruct selec as [s|]; cbn [bind]; [destruct (of_string s)|]; reflexivity.
Qed.
Theorem meta_relative_gain_start o b t0 e : rtask_new o b = Ok t0 -> a_computeGain (t_gain t0) e = 1 / 10.
Proof.
  intros E. injection E as <-. unfold a_computeGain, a_init. cbn [t_gain a_a a_b a_c]. lra.
Qed.

(** A helper that raises changes nothing, and it raises exactly when one of its arguments is refused. *)
Theorem meta_relative_raise m t c : asks c = true ->
  (snd (tstep m t c) = true -> fst (tstep m t c) = t) /\
  (snd (tstep m t c) = false <->
   match c with
   | TGoto p q _ => (exists x, generic6dReference p = Ok x) /\ (exists y, generic6dReference q = Ok y)
   | TGotoN p q s _ => (exists x, generic6dReference p = Ok x) /\ (exists y, generic6dReference q = Ok y) /\
       match s with None => True | Some s => exists fl, of_string s = Ok fl end
   | _ => True
   end).
Proof.
  destruct c; try discriminate; intros _; cbn [tstep].
  - unfold goto6dRel. destruct (generic6dReference p), (generic6dReference pRef); cbn; split; try congruence;
      (split; [intros; try discriminate; eauto|intros ((? & ?) & (? & ?)); congruence]).
  - unfold gotoNdRel. destruct (generic6dReference p), (generic6dReference pRef); cbn [bind]; try (cbn; split; [congruence|split; [discriminate|intros ((? & ?) & (? & ?) & _); congruence]]).
    destruct selec as [s|]; cbn [bind]; [|cbn; split; [congruence|split; eauto]].
    destruct (of_string s) eqn:S; cbn; split; try congruence; (split; [intros; try discriminate; eauto 6|intros (_ & _ & (? & ?)); congruence]).
Qed.

(** ** Before the helpers *)
Lemma none_ref m h : forallb (fun c => negb (asks c)) h = true -> forall t,
  t_positionRef (trun m h t) = t_positionRef t /\ t_selec (trun m h t) = t_selec t.
Proof.
  induction h as [|c h IH]; intros F t; [auto|]. cbn [forallb] in F. apply andb_prop in F as [C F].
  rewrite trun_cons. destruct (IH F (fst (tstep m t c))) as (-> & ->).
  destruct c; try discriminate C; cbn; auto.
Qed.

(** As long as neither goto6dRel nor gotoNdRel was called, the task drives the two points to coincide. *)
Theorem meta_relative_start m h o b t0 g k : rtask_new o b = Ok t0 -> forallb (fun c => negb (asks c)) h = true ->
  let t := trun m h t0 in
  is_rigid (t_other m t k) -> is_rigid (t_base m t k) ->
  rtask_error g m t k = Ok zero6 <-> t_base m t k = t_other m t k.
Proof.
  intros E F t HO HB.
  assert (S : six = Ok (t_selec t) /\ t_positionRef t = None).
  { unfold t. destruct (none_ref m h F t0) as (-> & ->). injection E as <-. auto. }
  destruct S as (S & PB). unfold rtask_error. rewrite point6d_dimension. cbn [bind].
  rewrite (chosen_all _ (six_all _ S)). cbn [length]. rewrite PB. unfold zero6.
  rewrite relative6_error_zero; [|assumption|assumption| |apply (six_all _ S)].
  - assert (W : wanted (Some (RelRef (t_position t) None)) = hid) by (destruct (t_position t); reflexivity). rewrite W.
    unfold rel. split.
    + intros Q. rewrite <- (hmul_id_l (t_base m t k)), <- (hmul_inv_r _ HO), <- hmul_assoc, Q, hmul_id_r. reflexivity.
    + intros ->. apply hmul_inv_l, HO.
  - unfold rigid_ref. destruct (t_position t); apply rot_id.
Qed.

(** Findings: the attribute ref has no effect as long as no helper was called, and keep does not keep then:
    wanted is that the error is zero after keep. *)
Theorem meta_relative_ref_refuted m h o b t0 x g k : rtask_new o b = Ok t0 -> forallb (fun c => negb (asks c)) h = true ->
  rtask_error g m (trun m (h ++ [TRef x]) t0) k = rtask_error g m (trun m h t0) k.
Proof.
  intros E F. rewrite trun_app. cbn [trun fold_left tstep fst]. fold (trun m h t0). rewrite !rtask_error_eq.
  destruct (none_ref m h F t0) as (PB & _). assert (N : t_positionRef t0 = None) by (injection E as <-; reflexivity).
  set (t := trun m h t0) in *. unfold t_other, t_base. cbn [set_ref t_points t_position t_positionRef t_selec].
  rewrite PB, N. unfold gap. destruct (t_position t); reflexivity.
Qed.

(** After goto6dRel, keep makes the error zero exactly when the base is at the pose given for it.
    Missing: a base elsewhere, or no goto6dRel before, where keep does not keep. *)
Theorem meta_relative_keep_partial m h h' o b t0 p q A B gain g k :
  rtask_new o b = Ok t0 -> means p A -> means q B -> forallb moves h' = true ->
  let t := trun m (h ++ TGoto p q gain :: h') t0 in
  let t' := fst (tstep m t (TKeep k)) in
  is_rigid B -> is_rigid (t_other m t k) -> is_rigid (t_base m t k) ->
  rtask_error g m t' k = Ok zero6 <-> t_base m t k = B.
Proof.
  intros E MA MB F t t' HB HO HBs.
  assert (S : six = Ok (t_selec t) /\ t_positionRef t = Some B).
  { unfold t. rewrite trun_app, trun_cons.
    match goal with |- context [trun m h' ?x] => destruct (moves_keep m h' F x) as (_ & -> & -> & _) end.
    cbn [tstep]. unfold goto6dRel. rewrite MA, MB. cbn [bind]. rewrite !pose_of_rows. auto. }
  destruct S as (S & PB). unfold t'. cbn [tstep rtask_keep]. unfold rtask_keep. cbn [p6_keep bind keep_state fst].
  unfold rtask_error, set_ref. cbn [t_selec t_position t_positionRef]. rewrite point6d_dimension. cbn [bind].
  rewrite (chosen_all _ (six_all _ S)). cbn [length]. rewrite PB. unfold zero6.
  change (t_other m (mkRtask ?a ?b ?c ?d ?e) k) with (t_other m (mkRtask a (t_position t) c d e) k).
  assert (O : forall x, t_other m (mkRtask (t_points t) x (Some B) (t_selec t) (t_gain t)) k = t_other m t k) by reflexivity.
  assert (Bs : forall x, t_base m (mkRtask (t_points t) x (Some B) (t_selec t) (t_gain t)) k = t_base m t k) by reflexivity.
  rewrite O, Bs.
  rewrite relative6_error_zero; [|assumption|assumption|unfold rigid_ref; cbn [wanted]; now apply rel_rigid|apply (six_all _ S)].
  cbn [wanted]. unfold rel. split.
  - intros Q. rewrite <- (hmul_id_l (t_base m t k)), <- (hmul_inv_r _ HO), <- hmul_assoc, Q, hmul_assoc, (hmul_inv_r _ HO), hmul_id_l. reflexivity.
  - intros ->. reflexivity.
Qed.
Theorem meta_relative_keep_refuted : exists m t0 h, rtask_new hid hid = Ok t0 /\
  (forall k, is_rigid (at_other m k)) /\ (forall k, is_rigid (at_base m k)) /\
  forall g k, rtask_error g m (trun m (h ++ [TKeep k]) t0) k <> Ok zero6.
Proof.
  exists (mkRobot (fun _ => H mid (V3 1 0 0)) (fun _ => hid)). eexists. exists []. split; [reflexivity|].
  split; [intros; apply rot_id|]. split; [intros; apply rot_id|]. intros g k Q.
  apply (meta_relative_start _ [TKeep k] hid hid _ g k eq_refl eq_refl) in Q; try apply rot_id.
  cbn in Q. injection Q. lra.
Qed.

(** ** The jacobian *)
Lemma points_run m h o b t0 : rtask_new o b = Ok t0 ->
  t_points (trun m h t0) = mkRel (run (of_other h) (point_init o)) (run (of_base h) (point_init b)).
Proof.
  intros E. rewrite trun_points. injection E as <-. cbn [t_points]. rewrite relative_points_independent.
  rewrite flat_of_other, flat_of_base. reflexivity.
Qed.
Lemma run_rigid l : (forall x, In (MMatrix x) l -> is_rigid x) -> forall p, is_rigid (transformation (modif p)) ->
  is_rigid (transformation (modif (run l p))).
Proof.
  induction l as [|a l IH]; intros Hl p Hp; [exact Hp|]. cbn [run fold_left]. apply IH; [intros; apply Hl; now right|].
  destruct a; cbn [set_opmodif fst modif transformation]; try exact Hp; [apply Hl; now left|destruct (activ p); exact Hp].
Qed.
Lemma point_velocity l tr (M : R -> hom) j qd s : (forall x, In (MMatrix x) l -> is_rigid x) -> is_rigid tr ->
  is_rot (lin (M s)) -> body_velocity M s (jvel j qd) ->
  let p := run l (point_init tr) in
  body_velocity (fun u => feature_position p (M u)) s (jvel (feature_jacobian p (M s) j) qd).
Proof.
  intros Hl Ht HM V p.
  assert (L : linked p) by (apply run_linked; repeat split; discriminate).
  assert (Rg : is_rigid (transformation (modif p))) by (apply run_rigid; assumption).
  destruct L as (Ee & Sj & _). unfold feature_position, feature_jacobian. rewrite <- Sj. destruct (s_pos p); [exact V|].
  destruct (modif p) as [x e]. cbn in Ee, Rg. subst e. apply op_point_jacobian_body; assumption.
Qed.

(** If the robot gives the jacobians of the two operational points, those the feature reads, as they are
    modified, are the jacobians of the two modified points; the feature then drives them (C96). *)
Theorem meta_relative_jacobian m h o b t0 (O Bs : R -> hom) jo jb qd s :
  rtask_new o b = Ok t0 ->
  (forall x, In (MMatrix x) (of_other h) -> is_rigid x) -> (forall x, In (MMatrix x) (of_base h) -> is_rigid x) ->
  is_rigid o -> is_rigid b ->
  is_rot (lin (O s)) -> is_rot (lin (Bs s)) ->
  body_velocity O s (jvel jo qd) -> body_velocity Bs s (jvel jb qd) ->
  let t := trun m h t0 in
  let po := other (t_points t) in let pb := base (t_points t) in
  body_velocity (fun u => feature_position po (O u)) s (jvel (feature_jacobian po (O s) jo) qd) /\
  body_velocity (fun u => feature_position pb (Bs u)) s (jvel (feature_jacobian pb (Bs s) jb) qd).
Proof.
  intros E Ro Rb Ho Hb HO HB VO VB t po pb.
  assert (P : po = run (of_other h) (point_init o) /\ pb = run (of_base h) (point_init b)).
  { unfold po, pb, t. rewrite (points_run m h o b t0 E). auto. }
  destruct P as (-> & ->). split; apply point_velocity; assumption.
Qed.

(** ** MetaTaskVisualPoint *)
(** Finding: in Python 3 no visual point meta task can be built. *)
Theorem visual_task_refuted signals op tr : exists e, vtask_new true signals op tr = Throw e.
Proof. eexists. reflexivity. Qed.

(** In Python 2: the operational point is created unless the robot has it. *)
Theorem visual_task_creates signals op tr : NoDup (map short_name signals) ->
  exists created t, vtask_new false signals op tr = Ok (created, t) /\
    (created = false <-> In op (map short_name signals) /\ In ("J" ++ op)%string (map short_name signals)).
Proof.
  intros N. do 2 eexists. split; [reflexivity|]. rewrite <- (op_point_exist signals op N).
  unfold opPointExist. rewrite negb_false_iff. reflexivity.
Qed.

Definition points_of (h : list vcmd) : list modifArg := flat_map (fun c => match c with VOpmodif a => [a] | _ => [] end) h.
Definition still (c : vcmd) : bool := match c with VOpmodif _ => true | _ => false end.

(** In Python 2, in a build without assertions, for a target in homogeneous coordinates and a desired image
    point: whatever the script did before and however the point is modified, the error is the image of the target seen
    from the modified operational point minus the desired image point.  Missing: Python 3, builds with assertions
    and targets with three coordinates, for which there is no error at all. *)
Theorem visual_task_partial signals op tr h h' created t0 c gain xd yd pos :
  vtask_new false signals op tr = Ok (created, t0) -> forallb still h' = true ->
  let eye := feature_position (run (points_of (h ++ h')) (point_init tr)) pos in
  is_rigid eye ->
  let t := fold_left vstep (h ++ VGoto (vlist (happ eye c) ++ [1]) gain (Some (xd, yd)) :: h') t0 in
  vtask_error true t pos = Ok [vx c / vz c - xd; vy c / vz c - yd].
Proof.
  intros E F eye HE t.
  assert (P : forall l t, v_point (fold_left vstep l t) = run (points_of l) (v_point t)).
  { induction l as [|x l IH]; intros u; [reflexivity|]. cbn [fold_left points_of flat_map]. rewrite IH. destruct x; reflexivity. }
  assert (K : forall l, forallb still l = true -> forall u, v_target (fold_left vstep l u) = v_target u /\ v_ref (fold_left vstep l u) = v_ref u).
  { induction l as [|x l IH]; intros Fl u; [auto|]. cbn [forallb] in Fl. apply andb_prop in Fl as [C Fl]. cbn [fold_left].
    destruct (IH Fl (vstep u x)) as (-> & ->). destruct x; [discriminate C|auto]. }
  assert (S : forall l u, v_selec (fold_left vstep l u) = v_selec u).
  { induction l as [|x l IH]; intros u; [reflexivity|]. cbn [fold_left]. rewrite IH. destruct x; reflexivity. }
  assert (Pt : feature_position (v_point t) pos = eye).
  { unfold t, eye. rewrite P. unfold points_of. rewrite !flat_map_app. cbn [flat_map app]. injection E as <- <-. reflexivity. }
  unfold vtask_error. rewrite Pt.
  assert (T : v_target t = Some (vlist (happ eye c) ++ [1]) /\ v_ref t = Some (xd, yd)).
  { unfold t. rewrite fold_left_app. cbn [fold_left].
    match goal with |- context [fold_left vstep h' ?u] => destruct (K h' F u) as (-> & ->) end. auto. }
  destruct T as (-> & ->). destruct (projecter_image_partial eye c HE) as (-> & _). cbn [bind].
  rewrite (proj1 (visual_point_error (v_selec t) _ _ xd yd)).
  unfold t. rewrite S. injection E as <- <-. reflexivity.
Qed.

(** Without a desired image point there is no error to control. *)
Theorem visual_task_no_reference signals op tr h created t0 nd pos :
  vtask_new false signals op tr = Ok (created, t0) ->
  (forall p g r, In (VGoto p g r) h -> r = None) ->
  forall l, vtask_error nd (fold_left vstep h t0) pos <> Ok l.
Proof.
  intros E F.
  assert (N : v_ref (fold_left vstep h t0) = None).
  { assert (N0 : v_ref t0 = None) by (injection E as <- <-; reflexivity). clear E. revert t0 N0.
    induction h as [|x h IH]; intros u N0; [exact N0|]. cbn [fold_left]. apply IH; [intros; eapply F; right; eassumption|].
    destruct x as [p g r|a]; [|exact N0]. cbn. rewrite (F p g r); [exact N0|now left]. }
  intros l. unfold vtask_error. destruct (v_target _) as [p3|]; [|discriminate].
  destruct (proj_point2D nd _ p3) as [xy| |]; cbn [bind]; try discriminate.
  destruct xy as [|x [|y [|]]]; try discriminate. rewrite N. discriminate.
Qed.

(** ** Cases *)
(** The robot moves; the two points are asked to be one metre apart along x, then the base is moved by its modifier. *)
Example meta_relative_case : exists m t0, rtask_new hid hid = Ok t0 /\
  let t := trun m ([TRef hid; TKeep 0; TOpmodif (MMatrix (H mid (V3 0 1 0)))] ++
                   TGoto (PNums [1; 0; 0]) (PNums [0; 0; 0]) (GNum 2) ::
                   [TOpmodifBase (MMatrix (H mid (V3 1 0 0))); TOpmodif MFalse]) t0 in
  forall k, rtask_error 0 m t k = Ok zero6.
Proof.
  exists (mkRobot (fun k => H mid (V3 (IZR k + 2) 0 0)) (fun k => H mid (V3 (IZR k) 0 0))). eexists. split; [reflexivity|].
  intros t k. unfold t.
  apply (meta_relative_goto _ _ _ hid hid _ (PNums [1; 0; 0]) (PNums [0; 0; 0]) (H mid (V3 1 0 0)) (H mid (V3 0 0 0)) _ 0 k);
    try reflexivity; try apply rot_id; [cbn -[mid]; apply rigid_mul; apply rot_id|].
  cbn -[rel mid hmul opm_position]. unfold opm_position. cbn [transformation]. unfold rel, hmul, hinv. cbn [lin trn].
  assert (I : mmul mid mid = mid) by (unfold mmul, mid; gcbn; f_equal; ring). rewrite ?I.
  rewrite !(rot_inv _ rot_id). replace (mT mid) with mid by reflexivity. rewrite !mapp_id. f_equal. unfold vadd, vopp. gcbn. f_equal; ring.
Qed.

Example visual_task_case : exists created t0,
  vtask_new false ["robot::output(matrix)::gaze"; "robot::output(matrix)::Jgaze"] "gaze" hid = Ok (created, t0) /\ created = false /\ vtask_error true (fold_left vstep [VGoto [3; 4; 2; 1] GNone (Some (1, 1))] t0) hid = Ok [3 / 2 - 1; 4 / 2 - 1].
Proof.
  do 2 eexists. split; [reflexivity|]. split; [reflexivity|].
  assert (Hid : feature_position (run (points_of ([] ++ [])) (point_init hid)) hid = hid) by reflexivity.
  pose proof (visual_task_partial ["robot::output(matrix)::gaze"; "robot::output(matrix)::Jgaze"]%string "gaze" hid [] [] _ _ (V3 3 4 2) GNone 1 1 hid eq_refl eq_refl) as V.
  cbv zeta in V. rewrite Hid in V. specialize (V rot_id).
  assert (HA : happ hid (V3 3 4 2) = V3 3 4 2) by (unfold happ, hid; cbn [lin trn]; rewrite mapp_id; unfold vadd, v0; gcbn; f_equal; ring).
  rewrite HA in V. exact V.
Qed.

Print Assumptions meta_relative_points.
Print Assumptions meta_relative_goto.
Print Assumptions meta_relative_gotoN.
Print Assumptions meta_relative_gotoN_same.
Print Assumptions meta_relative_gain.
Print Assumptions meta_relative_gain_start.
Print Assumptions meta_relative_raise.
Print Assumptions meta_relative_start.
Print Assumptions meta_relative_ref_refuted.
Print Assumptions meta_relative_keep_partial.
Print Assumptions meta_relative_keep_refuted.
Print Assumptions meta_relative_jacobian.
Print Assumptions visual_task_refuted.
Print Assumptions visual_task_creates.
Print Assumptions visual_task_partial.
Print Assumptions visual_task_no_reference.
