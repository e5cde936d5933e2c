(** What ForceUtil prints of itself: src/tools/robot-utils.cpp:108-113, 197-226 (the maps are in Robot_Model.v). *)
From Coq Require Import String Ascii List Arith ZArith Bool.
From Verif Require Import Base SMap Float_Facts Robot_Model RefName_Model StackText_Model.
Import ListNotations.
Local Open Scope string_scope.

Section Text.
(** How the stream prints an index and a vector. *)
Variable pz : Z -> string.
Variable pv : list float -> string.

(** robot-utils.cpp:108-113 ForceLimits::display *)
Definition limits_text (l : flimits) : string :=
  "Lower limits:" ++ endl ++ pv (fl_lower l) ++ endl ++ "Upper Limits:" ++ endl ++ pv (fl_upper l) ++ endl.
(** robot-utils.cpp:209, 217: one pair *)
Definition pair_text (a b : string) : string := "(" ++ a ++ "," ++ b ++ ") ".
(** Reading an index that was never set is undefined. *)
Definition index_text (i : option Z) : outcome string := match i with Some i => Ok (pz i) | None => UB end.
(** robot-utils.cpp:197-226 ForceUtil::display *)
Definition force_display (f : forceutil) : outcome string :=
  let os := "Force Id to limits " ++ endl in
  let os := emit (fun p => limits_text (snd p)) (fu_limits f) os in
  let os := os ++ "Name to force id:" ++ endl in
  let os := emit (fun p => pair_text (fst p) (pz (snd p))) (fu_name_id f) os in
  let os := os ++ endl in
  let os := os ++ "Force id to Name:" ++ endl in
  let os := emit (fun p => pair_text (pz (fst p)) (snd p)) (fu_id_name f) os in
  let os := os ++ endl in
  let os := os ++ "Index for force sensors:" ++ endl in
  let* lh := index_text (fu_lh f) in
  let* rh := index_text (fu_rh f) in
  let* lf := index_text (fu_lf f) in
  let* rf := index_text (fu_rf f) in
  Ok (os ++ "Left Hand (" ++ lh ++ ") ," ++ "Right Hand (" ++ rh ++ ") ," ++ "Left Foot (" ++ lf ++ ") ," ++ "Right Foot (" ++ rf ++ ") " ++ endl).
End Text.

(** robot-utils.hh:98-111 the setters of the four ids *)
Inductive side := LeftHand | RightHand | LeftFoot | RightFoot.
Definition set_force_id (f : forceutil) (s : side) (i : Z) : forceutil :=
  match s with
  | LeftHand => mkFU (fu_limits f) (fu_name_id f) (fu_id_name f) (Some i) (fu_rh f) (fu_lf f) (fu_rf f)
  | RightHand => mkFU (fu_limits f) (fu_name_id f) (fu_id_name f) (fu_lh f) (Some i) (fu_lf f) (fu_rf f)
  | LeftFoot => mkFU (fu_limits f) (fu_name_id f) (fu_id_name f) (fu_lh f) (fu_rh f) (Some i) (fu_rf f)
  | RightFoot => mkFU (fu_limits f) (fu_name_id f) (fu_id_name f) (fu_lh f) (fu_rh f) (fu_lf f) (Some i)
  end.
Inductive fucall := FName (n : string) (i : Z) | FLimits (i : Z) (lo up : list float) | FSide (s : side) (i : Z).
Definition fu_exec (f : forceutil) (c : fucall) : forceutil :=
  match c with
  | FName n i => set_name_to_force_id f n i
  | FLimits i lo up => set_force_id_to_limits f i lo up
  | FSide s i => set_force_id f s i
  end.
Definition fu_run (h : list fucall) : forceutil := fold_left fu_exec h fu_start.
