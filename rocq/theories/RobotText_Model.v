(** What RobotUtil prints of itself: src/tools/robot-utils.cpp:117-129, 409-437; the command displayRobotUtil of
    src/tools/parameter-server.cpp:378 prints it to the standard output. *)
From Coq Require Import String Ascii List Arith ZArith Bool.
From Verif Require Import Base SMap Float_Facts Robot_Model RefName_Model StackText_Model ForceText_Model.
Import ListNotations.
Local Open Scope string_scope.

Section Text.
(** How the stream prints an index, a size, a vector; how the property tree is written as XML (Boost, line 436). *)
Variable pz : Z -> string.
Variable pn : nat -> string.
Variable pv : list float -> string.
Variable px : ptree -> string.

(** robot-utils.cpp:117-122 FootUtil::display *)
Definition foot_text (r : robot) : string :=
  "Right Foot Sole XYZ " ++ endl ++ pv (ru_sole r) ++ endl ++
  "Left Foot Frame Name:" ++ ru_lfoot r ++ endl ++ "Right Foot Frame Name:" ++ ru_rfoot r ++ endl.
(** robot-utils.cpp:126-129 HandUtil::display *)
Definition hand_text (r : robot) : string :=
  "Left Hand Frame Name:" ++ ru_lhand r ++ endl ++ "Right Hand Frame Name:" ++ ru_rhand r ++ endl.
(** robot-utils.cpp:418-419: one pair of the map of joints *)
Fixpoint u2s_text (l : list Z) (i : nat) (os : string) : string :=
  match l with
  | [] => os
  | x :: r => u2s_text r (S i) (os ++ "(" ++ pn i ++ " : " ++ pz x ++ ") ")
  end.
(** Reading the number of joints before the joints are set is undefined. *)
Definition nb_text (n : option nat) : outcome string := match n with Some n => Ok (pn n) | None => UB end.
(** robot-utils.cpp:409-437 RobotUtil::display *)
Definition robot_display (r : robot) : outcome string :=
  let* os := force_display pz pv (ru_force r) in
  let os := os ++ foot_text r in
  let os := os ++ hand_text r in
  let* nb := nb_text (ru_nb r) in
  let os := os ++ "Nb of joints: " ++ nb ++ endl in
  let os := os ++ "Urdf file name: " ++ ru_urdf r ++ endl in
  let os := os ++ "Map from urdf index to the Sot Index " ++ endl in
  let os := u2s_text (ru_u2s r) 0 os in
  let os := os ++ endl in
  let os := os ++ "Joint name to joint id:" ++ endl in
  let os := emit (fun p => pair_text (fst p) (pz (snd p))) (ru_name_id r) os in
  let os := os ++ endl in
  let os := os ++ "Joint id to joint Name:" ++ endl in
  let os := emit (fun p => pair_text (pz (fst p)) (snd p)) (ru_id_name r) os in
  let os := os ++ endl in
  Ok (os ++ px (ru_tree r)).
End Text.
