(** What features of poses, sequencers and periodic calls print of themselves (the text of [print(entity)]).  The stream never fails
    and [dec] is what it writes of an integer. *)
From Coq Require Import String Ascii List Arith Lia ZArith Bool.
From Verif Require Import Base SMap Flags_Model RefName_Model StackText_Model Sched_Model.
Import ListNotations.
Local Open Scope string_scope.
Local Open Scope list_scope.
Local Open Scope nat_scope.

(** feature-point6d.cpp:496, feature-point6d-relative.cpp:256, feature-pose.hxx:321 *)
Definition featureNames : list string := ["X "; "Y "; "Z "; "RX"; "RY"; "RZ"]%string.
(** feature-point6d.cpp:503-511, feature-point6d-relative.cpp:262-270, feature-pose.hxx:328-336: the loop from component [i] on, the
    names of these components, and [first]. *)
Fixpoint comps (fl : Flags) (i : nat) (names : list string) (first : bool) (os : string) : outcome string :=
  match names with
  | [] => Ok os
  | n :: r =>
      let* b := at_ fl (Z.of_nat i) in
      if b then comps fl (S i) r false ((if first then os else os ++ ",") ++ n)%string
      else comps fl (S i) r first os
  end.
(** feature-point6d.cpp:497-514, feature-point6d-relative.cpp:257-274, feature-pose.hxx:322-339 display: [title] is "Point6d <",
    "Point6dRelative <" or the class and "<"; [sel] is the selection last computed, if any. *)
Definition pose_text (title name : string) (sel : option Flags) : outcome string :=
  let os := (title ++ name ++ ">: (")%string in
  match sel with
  | Some fl => let* os := comps fl 0 featureNames true os in Ok (os ++ ") ")%string
  | None => Ok (os ++ " selectSIN not set.")%string
  end.

Section Events.
Variable dec : Z -> string.
Variable tname : nat -> string.
(** The text of a command event (sequencer.cpp:128-150: given to the constructor, or replaced by init). *)
Variable cmd_of : ev -> string.
(** sequencer.cpp:69-74, 98-102, 120-124, 151 display *)
Definition task_text (t : option nat) : string := match t with Some t => tname t | None => "NULL" end.
Definition ev_text (e : ev) (os : string) : string :=
  match ekd e with
  | KAdd t => os ++ "Add<" ++ task_text t ++ ">"
  | KRm t => os ++ "Remove<" ++ task_text t ++ ">"
  | KCmd _ => os ++ "Run: " ++ cmd_of e
  end%string.
(** sequencer.cpp:255-259: a null pointer is dereferenced. *)
Fixpoint evs_text (tl : list (option ev)) (os : string) : outcome string :=
  match tl with
  | [] => Ok os
  | None :: _ => UB
  | Some e :: r => evs_text r (ev_text e os ++ " ")%string
  end.
(** sequencer.cpp:251-261 *)
Fixpoint times_text (m : list (Z * list (option ev))) (os : string) : outcome string :=
  match m with
  | [] => Ok os
  | (t, tl) :: r =>
      let* os := evs_text tl (os ++ " - t=" ++ dec t ++ ":" ++ tb)%string in
      times_text r (os ++ endl)%string
  end.
(** sequencer.cpp:246-262 display; noOutput is false, as the constructor leaves it (27). *)
Definition seq_text (self : string) (s : Sequencer) : outcome string :=
  times_text (taskMap s)
    ("Sequencer " ++ self ++ "(t0=" ++ dec (timeInit s) ++ ",mode=" ++ (if playMode s then "play" else "pause") ++ "): " ++ endl)%string.

(** periodic-call.cpp:92-100, periodic-call-entity.cpp:57-60 display; innerTime is 0, as the constructor leaves it (periodic-call.cpp:32). *)
Definition innerTime : Z := 0.
Definition pc_text (self : string) (p : PeriodicCall) : string :=
  emit (fun x => " - " ++ fst x ++ endl)%string p
    ("PeriodicCallEntity <" ++ self ++ "> " ++ "  (t=" ++ dec innerTime ++ ")" ++ endl ++ " -> SIGNALS:" ++ endl)%string.
End Events.
