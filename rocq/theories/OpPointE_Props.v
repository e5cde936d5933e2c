(** The entity OpPointModifier: histories of commands, and modifiers in a row (C52). *)
From Coq Require Import String List Arith Lia ZArith Bool Reals Lra.
From Verif Require Import Base Geom_Model Geom_Facts Geom_Props OpPoint_Model OpPointE_Model.
Import ListNotations.
Local Open Scope R_scope.

(** * Specification *)
(** The transformation and the mode set last in a history (newest last). *)
Definition tr_set (l : list ocmd) : option hom := fold_left (fun a c => match c with OSetTr m => Some m | _ => a end) l None.
Definition mode_set (l : list ocmd) : bool := fold_left (fun a c => match c with OSetEnd b => b | _ => a end) l true.
(** No output was read at time [t] or later. *)
Definition not_read (t : Z) (c : ocmd) : Prop := match c with OJacobian u | OPosition u => (u < t)%Z | _ => True end.

Lemma run_state jin pin l : forall o0 o, ofold (fun o c => let* (_, o') := ope_step jin pin o c in Ok o') l o0 = Ok o ->
  oe_tr o = fold_left (fun a c => match c with OSetTr m => Some m | _ => a end) l (oe_tr o0) /\
  oe_end o = fold_left (fun a c => match c with OSetEnd b => b | _ => a end) l (oe_end o0).
Proof.
  induction l as [|c l IH]; intros o0 o; cbn [ofold fold_left]; [injection 1 as <-; auto|].
  destruct (ope_step jin pin o0 c) as [[r o1]| |] eqn:E; cbn [bind]; try discriminate. intros H. destruct (IH _ _ H) as [-> ->].
  enough (oe_tr o1 = match c with OSetTr m => Some m | _ => oe_tr o0 end /\ oe_end o1 = match c with OSetEnd b => b | _ => oe_end o0 end) as [-> ->] by auto.
  clear -E. destruct c; destruct o0 as [[tr|] en [[u j]|] [[v p]|]]; cbn in *; repeat match type of E with context [if ?x then _ else _] => destruct x; cbn [bind] in E end;
    try discriminate; injection E as _ <-; cbn; auto.
Qed.
Lemma run_times jin pin l t : Forall (not_read t) l -> forall o0 o, ofold (fun o c => let* (_, o') := ope_step jin pin o c in Ok o') l o0 = Ok o ->
  (match oe_jac o0 with Some (u, _) => (u < t)%Z | None => True end) -> (match oe_pos o0 with Some (u, _) => (u < t)%Z | None => True end) ->
  (match oe_jac o with Some (u, _) => (u < t)%Z | None => True end) /\ (match oe_pos o with Some (u, _) => (u < t)%Z | None => True end).
Proof.
  induction 1 as [|c l Hc Hl IH]; intros o0 o; cbn [ofold]; [injection 1 as <-; auto|].
  destruct (ope_step jin pin o0 c) as [[r o1]| |] eqn:E; cbn [bind]; try discriminate. intros H A B. apply (IH _ _ H); clear -E Hc A B;
    destruct c; cbn in E, Hc; destruct o0 as [[tr|] en [[u j]|] [[v p]|]]; cbn in *; repeat match type of E with context [if ?x then _ else _] => destruct x; cbn [bind] in E end;
    try discriminate; injection E as _ <-; cbn; auto.
Qed.

(** After any history, at a time after those of the reads, the outputs are those of the transformation and of the mode set
    last; the mode is the one of an end effector until it is set. *)
Theorem op_point_history jin pin l o t : ope_run jin pin l = Ok o -> Forall (not_read t) l ->
  match tr_set l with
  | Some m => (exists o1, ope_step jin pin o (OPosition t) = Ok (RHom (hmul (pin t) m), o1)) /\
              (exists o2, ope_step jin pin o (OJacobian t) = Ok (RJac (opm_jacobian (mkOpm m (mode_set l)) (pin t) (jin t)), o2)) /\
              ope_step jin pin o OGetTr = Ok (RHom m, o)
  | None => ope_step jin pin o (OPosition t) = UB /\ ope_step jin pin o (OJacobian t) = UB /\ ope_step jin pin o OGetTr = UB
  end /\ ope_step jin pin o OGetEnd = Ok (RBool (mode_set l), o).
Proof.
  intros H N. destruct (run_state _ _ _ _ _ H) as [A B]. destruct (run_times _ _ _ _ N _ _ H I I) as [C D].
  change (oe_tr o = tr_set l) in A. change (oe_end o = mode_set l) in B. clear H. destruct o as [tr en j p]. cbn [oe_tr oe_end oe_jac oe_pos] in *. subst tr en.
  split; [|reflexivity]. destruct (tr_set l) as [m|]; cbn.
  - split; [|split; [|reflexivity]].
    + destruct p as [[u p]|]; [destruct (Z.ltb_spec u t); [|lia]|]; eexists; reflexivity.
    + destruct j as [[u j]|]; [destruct (Z.ltb_spec u t); [|lia]|]; eexists; reflexivity.
  - split; [|split; [|reflexivity]].
    + destruct p as [[u p]|]; [destruct (Z.ltb_spec u t); [|lia]|]; reflexivity.
    + destruct j as [[u j]|]; [destruct (Z.ltb_spec u t); [|lia]|]; reflexivity.
Qed.

(** A new transformation or mode is not seen at a time already read: each output is handed out again as it was, until it is
    itself read at a later time. *)
Definition no_position_after (t : Z) (c : ocmd) : Prop := match c with OPosition u => (u <= t)%Z | _ => True end.
Definition no_jacobian_after (t : Z) (c : ocmd) : Prop := match c with OJacobian u => (u <= t)%Z | _ => True end.
Theorem op_point_stale_refuted jin pin o t r o1 l o2 :
  (ope_step jin pin o (OPosition t) = Ok (r, o1) -> Forall (no_position_after t) l ->
   ofold (fun o c => let* (_, o') := ope_step jin pin o c in Ok o') l o1 = Ok o2 -> ope_step jin pin o2 (OPosition t) = Ok (r, o2)) /\
  (ope_step jin pin o (OJacobian t) = Ok (r, o1) -> Forall (no_jacobian_after t) l ->
   ofold (fun o c => let* (_, o') := ope_step jin pin o c in Ok o') l o1 = Ok o2 -> ope_step jin pin o2 (OJacobian t) = Ok (r, o2)).
Proof.
  split; intros H1 Hl H2.
  - assert (K : exists u p, oe_pos o1 = Some (u, p) /\ (t <= u)%Z /\ r = RHom p).
    { clear -H1. cbn in H1. destruct o as [[tr|] en j [[u p]|]]; cbn in *; repeat match type of H1 with context [if (?a <? ?b)%Z then _ else _] => destruct (Z.ltb_spec a b); cbn [bind] in H1 end;
        try discriminate; injection H1 as <- <-; cbn; eexists _, _; repeat split; lia. }
    destruct K as (u & p & K1 & K2 & ->).
    enough (K : oe_pos o2 = Some (u, p)) by (cbn; rewrite K; destruct (Z.ltb_spec u t); [lia|reflexivity]).
    clear H1. revert o1 K1 H2. induction Hl as [|c l Hc Hl IH]; intros o1 K1; cbn [ofold]; [injection 1 as <-; exact K1|].
    destruct (ope_step jin pin o1 c) as [[r' o4]| |] eqn:E; cbn [bind]; try discriminate. apply IH. clear -E K1 K2 Hc.
    destruct c; destruct o1 as [[tr|] en [[w j]|] q]; cbn in *; subst q; repeat match type of E with context [if (?a <? ?b)%Z then _ else _] => destruct (Z.ltb_spec a b); [try lia|]; cbn [bind] in E end;
      try discriminate; injection E as _ <-; reflexivity.
  - assert (K : exists u j, oe_jac o1 = Some (u, j) /\ (t <= u)%Z /\ r = RJac j).
    { clear -H1. cbn in H1. destruct o as [[tr|] en [[u j]|] p]; cbn in *; repeat match type of H1 with context [if (?a <? ?b)%Z then _ else _] => destruct (Z.ltb_spec a b); cbn [bind] in H1 end;
        try discriminate; injection H1 as <- <-; cbn; eexists _, _; repeat split; lia. }
    destruct K as (u & j & K1 & K2 & ->).
    enough (K : oe_jac o2 = Some (u, j)) by (cbn; rewrite K; destruct (Z.ltb_spec u t); [lia|reflexivity]).
    clear H1. revert o1 K1 H2. induction Hl as [|c l Hc Hl IH]; intros o1 K1; cbn [ofold]; [injection 1 as <-; exact K1|].
    destruct (ope_step jin pin o1 c) as [[r' o4]| |] eqn:E; cbn [bind]; try discriminate. apply IH. clear -E K1 K2 Hc.
    destruct c; destruct o1 as [[tr|] en q [[w p]|]]; cbn in *; subst q; repeat match type of E with context [if (?a <? ?b)%Z then _ else _] => destruct (Z.ltb_spec a b); [try lia|]; cbn [bind] in E end;
      try discriminate; injection E as _ <-; reflexivity.
Qed.
(** So a transformation set after a read is not the one of the output at that time. *)
Example op_point_stale_case : exists o o' r, ope_run (fun _ => []) (fun _ => hid) [OSetTr hid; OPosition 3%Z; OSetTr (H mid unitX)] = Ok o /\
  ope_step (fun _ => []) (fun _ => hid) o (OPosition 3%Z) = Ok (r, o') /\ r = RHom (hmul hid hid) /\ tr_set [OSetTr hid; OPosition 3%Z; OSetTr (H mid unitX)] = Some (H mid unitX).
Proof. do 3 eexists. split; [reflexivity|]. repeat split. Qed.

(** Modifiers in a row are one modifier with the product of the transformations, for the position and for both kinds of
    jacobian; the identity changes nothing. *)
Lemma hinv_mul a b : is_rigid a -> is_rigid b -> hinv (hmul a b) = hmul (hinv b) (hinv a).
Proof.
  intros Ha Hb. assert (Hab : is_rigid (hmul a b)) by (unfold is_rigid, hmul; cbn [lin]; apply rot_mul; assumption).
  assert (L : hmul (hmul (hinv b) (hinv a)) (hmul a b) = hid).
  { rewrite <- (hmul_assoc (hinv b)), (hmul_assoc (hinv a) a b), hinv_l by (apply rigid_det, Ha). rewrite hmul_id_l. apply hinv_l, rigid_det, Hb. }
  transitivity (hmul (hmul (hmul (hinv b) (hinv a)) (hmul a b)) (hinv (hmul a b))).
  - rewrite L, hmul_id_l. reflexivity.
  - rewrite <- hmul_assoc, hinv_r by (apply rigid_det, Hab). apply hmul_id_r.
Qed.
Theorem op_point_chain a b b1 pos j : is_rigid a -> is_rigid b ->
  opm_position (mkOpm b b1) (opm_position (mkOpm a b1) pos) = opm_position (mkOpm (hmul a b) b1) pos /\
  opm_jacobian (mkOpm b b1) (opm_position (mkOpm a b1) pos) (opm_jacobian (mkOpm a b1) pos j) = opm_jacobian (mkOpm (hmul a b) b1) pos j.
Proof.
  intros Ha Hb. split; [symmetry; apply hmul_assoc|]. unfold opm_jacobian, opm_position. cbn [isEndEffector transformation]. destruct b1.
  - rewrite hinv_mul by assumption. rewrite twist_product by (apply rigid_inv; assumption). unfold tjac. rewrite map_map. apply map_ext. intros [v w].
    unfold tapp, tmul. cbn [fst snd b00 b01 b10 b11]. generalize (buildFrom (hinv b)) as B, (buildFrom (hinv a)) as A. intros [p0 p1 p2 p3] [q0 q1 q2 q3]. cbn [b00 b01 b10 b11]. f_equal; gring.
  - rewrite map_map. apply map_ext. intros [v w]. cbn [fst snd]. clear. f_equal; gring.
Qed.
Theorem op_point_identity b1 pos j : opm_position (mkOpm hid b1) pos = pos /\ opm_jacobian (mkOpm hid b1) pos j = j.
Proof.
  split; [apply hmul_id_r|]. unfold opm_jacobian. cbn [isEndEffector transformation]. transitivity (map (fun c => c) j); [|apply map_id]. destruct b1.
  - assert (E : hinv hid = hid). { rewrite <- (hmul_id_r (hinv hid)). apply hinv_l, rigid_det. exact rot_id. }
    rewrite E, twist_identity. apply map_ext. intros [v w]. unfold tapp, tid. f_equal; gring.
  - apply map_ext. intros [v w]. f_equal; gring.
Qed.

Print Assumptions op_point_history.
Print Assumptions op_point_stale_refuted.
Print Assumptions op_point_chain.
Print Assumptions op_point_identity.
