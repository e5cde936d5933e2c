(** ExtractJointMimics (src/tools/robot-utils.cpp:47-107): the list of the mimic joints of a robot
    description.  The XML parser (boost read_xml) is external: the input is its tree, in which the
    attributes of an element are the children of its first child, "<xmlattr>". *)
From Coq Require Import String List Arith Bool.
From Verif Require Import Base Robot_Model.
Import ListNotations.
Local Open Scope string_scope.

(** robot-utils.cpp:74-104: the stage given to a child, and the name pushed. *)
Definition child_stage (stage : nat) (key : string) : nat :=
  if key =? "joint" then 1
  else if key =? "<xmlattr>" then (if (stage =? 1)%nat then 2 else stage)
  else if key =? "name" then (if (stage =? 2)%nat then 3 else stage)
  else if key =? "mimic" then stage
  else 0.
Definition pushes (stage : nat) (key : string) : bool := (key =? "mimic") && (stage =? 1)%nat.

(** robot-utils.cpp:67-106 go_through: state = (current_joint_name_, mimic_joints_).  The argument
    level is not used.  A leaf is a node without children, whatever its data. *)
Fixpoint go_through (t : ptree) (stage : nat) (st : string * list string) {struct t} : string * list string :=
  match t with
  | PNode data ch =>
      match ch with
      | [] => if (stage =? 3)%nat then (data, snd st) else st
      | _ =>
        (fix walk (l : list (string * ptree)) (s : string * list string) {struct l} :=
           match l with
           | [] => s
           | (key, sub) :: r =>
               let s1 := if pushes stage key then (fst s, (snd s ++ [fst s])%list) else s in
               walk r (go_through sub (child_stage stage key) s1)
           end) ch st
      end
  end.

(** robot-utils.cpp:47-65 constructor, go_through_full, get_mimic_joints *)
Definition mimic_joints (tree : ptree) : list string := snd (go_through tree 0 ("", [])).
