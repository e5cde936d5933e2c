(** The relative meta task and its helpers (src/dynamic_graph/sot/core/meta_tasks_kine_relative.py) and
    the visual point meta task (meta_task_visual_point.py), over the meta task model (Meta_Model), the
    relative 6d feature (Rel6_Model) and the projecter (Line_Model). *)
From Coq Require Import String List Arith ZArith Bool Reals.
From Verif Require Import Base Flags_Model Feature_Model Geom_Model OpPoint_Model Gain_Model MatUtil_Model
  Point6d_Model Rel6_Model Line_Model Meta_Model.
Import ListNotations.
Local Open Scope R_scope.
Local Open Scope string_scope.

(** A 4x4 matrix given to a signal that holds a pose.  Simplification: the last row is not kept. *)
Definition entry (rows : list (list R)) (i j : nat) : R := nth j (nth i rows []) 0.
Definition pose_of (rows : list (list R)) : hom :=
  H (M3 (entry rows 0 0) (entry rows 0 1) (entry rows 0 2)
        (entry rows 1 0) (entry rows 1 1) (entry rows 1 2)
        (entry rows 2 0) (entry rows 2 1) (entry rows 2 2))
    (V3 (entry rows 0 3) (entry rows 1 3) (entry rows 2 3)).

(** ** MetaTaskKine6dRel *)
(** The two points with their modifiers, the two poses of the reference feature (no value after the
    constructor), the selection of the feature and the gain. *)
Record rtask := mkRtask { t_points : Meta_Model.rel; t_position : option hom; t_positionRef : option hom;
                          t_selec : Flags; t_gain : adaptive }.

(** meta_tasks_kine_relative.py:33-47, 53-71 __init__, with meta_task_6d.py:58-60 createGain; [o] and [b] are
    the contents of the two new modifiers. *)
Definition rtask_new (o b : hom) : outcome rtask :=
  let* fl := of_string "111111" in
  Ok (mkRtask (mkRel (point_init o) (point_init b)) None None fl (a_init (1 / 10) (1 / 10) 125000)).

(** The robot: the poses of the operational points at each time. *)
Record robot := mkRobot { at_other : Z -> hom; at_base : Z -> hom }.

(** Inputs position and positionRef of the feature. *)
Definition t_other (m : robot) (t : rtask) (k : Z) : hom := feature_position (other (t_points t)) (at_other m k).
Definition t_base (m : robot) (t : rtask) (k : Z) : hom := feature_position (base (t_points t)) (at_base m k).

(** The error of the feature at time [k]; a pose of the reference that has no value raises an exception
    inside computeError, which handles it (feature-point6d-relative.cpp:130-158). *)
Definition rtask_error (g : R) (m : robot) (t : rtask) (k : Z) : outcome (list R) :=
  let* dim := p6_dimension (t_selec t) in
  rel6_error g (t_selec t) dim (t_other m t k) (t_base m t k) (Some (RelRef (t_position t) (t_positionRef t))).

(** meta_tasks_kine_relative.py:96-107 goto6dRel.  Simplification: the call of resetJacobianDerivative is left out. *)
Definition goto6dRel (t : rtask) (p pRef : poseArg) (gain : gainval) : outcome rtask :=
  let* M := generic6dReference p in
  let* MRef := generic6dReference pRef in
  let* s := of_string "111111" in
  Ok (mkRtask (t_points t) (Some (pose_of (matrixToTuple M))) (Some (pose_of (matrixToTuple MRef))) s
        (setGain (t_gain t) gain)).

(** meta_tasks_kine_relative.py:110-124 gotoNdRel, the selection being absent or a text. *)
Definition gotoNdRel (t : rtask) (p pRef : poseArg) (selec : option string) (gain : gainval) : outcome rtask :=
  let* M := generic6dReference p in
  let* MRef := generic6dReference pRef in
  let* s := match selec with None => Ok (t_selec t) | Some txt => of_string txt end in
  Ok (mkRtask (t_points t) (Some (pose_of (matrixToTuple M))) (Some (pose_of (matrixToTuple MRef))) s
        (setGain (t_gain t) gain)).

(** meta_task_6d.py:82-89 ref (setter): the position of the reference feature. *)
Definition set_ref (t : rtask) (m : hom) : rtask :=
  mkRtask (t_points t) (Some m) (t_positionRef t) (t_selec t) (t_gain t).

(** meta_tasks_kine_relative.py:49-51 keep, feature-point6d.cpp:481-494: the position of the feature at the
    time [k] of the robot becomes the position of the reference. *)
Definition rtask_keep (m : robot) (t : rtask) (k : Z) : outcome rtask :=
  let* p := p6_keep (t_other m t k) (Some (t_other m t k)) in
  match p with Some x => Ok (set_ref t x) | None => Ok t end.

(** A statement of a script on the task.  [TGoto]: goto6dRel; [TGotoN]: gotoNdRel; [TRef], [TOpmodif] and
    [TOpmodifBase]: assignment of a property; [TKeep]: keep at a time of the robot. *)
Inductive tcmd :=
  | TGoto (p pRef : poseArg) (gain : gainval)
  | TGotoN (p pRef : poseArg) (selec : option string) (gain : gainval)
  | TRef (m : hom) | TKeep (k : Z)
  | TOpmodif (a : modifArg) | TOpmodifBase (a : modifArg).

Definition keep_state (t : rtask) (o : outcome rtask) : rtask * bool :=
  match o with Ok t' => (t', false) | _ => (t, true) end.
(** The task after a statement, and whether the statement raised. *)
Definition tstep (m : robot) (t : rtask) (c : tcmd) : rtask * bool :=
  match c with
  | TGoto p q g => keep_state t (goto6dRel t p q g)
  | TGotoN p q s g => keep_state t (gotoNdRel t p q s g)
  | TRef x => (set_ref t x, false)
  | TKeep k => keep_state t (rtask_keep m t k)
  | TOpmodif a => (mkRtask (rel_exec (t_points t) (SetOp a)) (t_position t) (t_positionRef t) (t_selec t) (t_gain t),
                   snd (set_opmodif (other (t_points t)) a))
  | TOpmodifBase a => (mkRtask (rel_exec (t_points t) (SetBase a)) (t_position t) (t_positionRef t) (t_selec t) (t_gain t),
                       snd (set_opmodif (base (t_points t)) a))
  end.
Definition trun (m : robot) (h : list tcmd) (t : rtask) : rtask := fold_left (fun t c => fst (tstep m t c)) h t.

(** ** MetaTaskVisualPoint *)
(** [len] of what [filter] returns: a list in Python 2, an iterator without length in Python 3. *)
Definition len_filter (py3 : bool) {A} (l : list A) : outcome nat :=
  if py3 then Throw "TypeError: object of type 'filter' has no len()" else Ok (List.length l).

(** meta_task_visual_point.py:19-26 opPointExist; the chain [a == 1 & b == 1] evaluates len(P), then
    1 & len(J), and compares. *)
Definition vp_opPointExist (py3 : bool) (signals : list string) (opPoint : string) : outcome bool :=
  let sigsP := filter (fun x => String.eqb (short_name x) opPoint) signals in
  let sigsJ := filter (fun x => String.eqb (short_name x) ("J" ++ opPoint)) signals in
  let* a := len_filter py3 sigsP in
  let* b := len_filter py3 sigsJ in
  Ok ((a =? Nat.land 1 b) && (Nat.land 1 b =? 1))%nat%bool.

(** The point (plugs of proj.transfo and of feature.Jq, modifier), the target and the desired image point
    (no value after the constructor), the selection of the feature, the gain. *)
Record vtask := mkVtask { v_point : point; v_target : option (list R); v_ref : option (R * R);
                          v_selec : Flags; v_gain : adaptive }.

(** meta_task_visual_point.py:28-79: the constructor.  First component: whether createOpPoint of the robot was called.
    Simplification: the text "11" is taken as the flags it stands for. *)
Definition vtask_new (py3 : bool) (signals : list string) (opPoint : string) (tr : hom) : outcome (bool * vtask) :=
  let* known := vp_opPointExist py3 signals opPoint in
  let* fl := of_string "11" in
  Ok (negb known, mkVtask (point_init tr) None None fl (a_init (1 / 10) (1 / 10) 125000)).

(** meta_task_visual_point.py:117-123 goto3D without a selection; lines 81-93 ref and target. *)
Definition goto3D (t : vtask) (p3 : list R) (gain : gainval) (ref2D : option (R * R)) : vtask :=
  mkVtask (v_point t) (Some p3) (match ref2D with Some r => Some r | None => v_ref t end) (v_selec t)
    (setGain (v_gain t) gain).

Inductive vcmd := VGoto (p3 : list R) (gain : gainval) (ref2D : option (R * R)) | VOpmodif (a : modifArg).
Definition vstep (t : vtask) (c : vcmd) : vtask :=
  match c with
  | VGoto p g r => goto3D t p g r
  | VOpmodif a => mkVtask (fst (set_opmodif (v_point t) a)) (v_target t) (v_ref t) (v_selec t) (v_gain t)
  end.

(** meta_task_visual_point.py:57-65 plugEverything: the image of the target goes to the feature; [pos] is the
    pose the robot gives for the operational point. *)
Definition vtask_error (ndebug : bool) (t : vtask) (pos : hom) : outcome (list R) :=
  match v_target t with
  | None => Throw "no value"
  | Some p3 =>
      let* xy := proj_point2D ndebug (feature_position (v_point t) pos) p3 in
      match xy with
      | [x; y] => vp_error R Rminus (v_selec t) (x, y) (v_ref t)
      | _ => UB
      end
  end.
