(** What a stack and a task print of themselves: Sot::display and Sot::writeGraph (src/sot/sot.cpp), Task::display
    and Task::writeGraph (src/task/task.cpp), the edge of the reference of a feature
    (src/feature/feature-abstract.cpp). The name of an object (Entity::getName) is a function of its identity; every
    object named is alive; the stream never fails. *)
From Coq Require Import String Ascii List Arith Lia ZArith Bool.
From Verif Require Import Base Pool_Model Deps_Model RefName_Model Stack_Model Task_Model.
Import ListNotations.
Local Open Scope nat_scope.
Local Open Scope string_scope.
Local Open Scope list_scope.

(** The loops over a list that write each element in turn (sot.cpp:652-655, 687-694, task.cpp:323-326, 331-336). *)
Definition emit {A} (f : A -> string) (l : list A) (os : string) : string :=
  fold_left (fun os a => (os ++ f a)%string) l os.

(** sot.cpp:648-657 display *)
Definition display (name : nat -> string) (s : Sot) : string :=
  let os := ("+-----------------" ++ endl ++ "+   SOT     " ++ endl ++ "+-----------------" ++ endl)%string in
  let os := emit (fun t => "| " ++ name t ++ endl)%string (stack s) os in
  (os ++ "+-----------------" ++ endl)%string.

(** sot.cpp:669-680: the iterator [iter] and its successor [nextiter], which is the end for the last task. *)
Fixpoint chain (name : nat -> string) (l : list nat) (os : string) : string :=
  match l with
  | [] => os
  | t :: r =>
      let os := match r with
                | [] => os
                | next :: _ =>
                    (os ++ tb ++ tb ++ tb ++ qt ++ name t ++ qt ++ " -> " ++ qt ++ name next ++ qt ++ " [color=red]" ++ endl)%string
                end in
      chain name r os
  end.
(** sot.cpp:688-693 *)
Definition stack_node (n : string) : string :=
  (tb ++ tb ++ tb ++ tb ++ qt ++ n ++ qt ++ " [ label = " ++ qt ++ n ++ qt ++ " ," ++ endl ++
   tb ++ tb ++ tb ++ tb ++ "   fontcolor = black, color = black, fillcolor = magenta, " ++ "style=filled, shape=box ]" ++ endl)%string.
(** sot.cpp:667-698 writeGraph; [self] is the name of the stack *)
Definition stack_graph (self : string) (name : nat -> string) (s : Sot) : string :=
  let os := chain name (stack s) "" in
  let os := (os ++ tb ++ tb ++ "subgraph cluster_Tasks {" ++ endl ++
             tb ++ tb ++ tb ++ "subgraph " ++ qt ++ "cluster_" ++ self ++ qt ++ " {" ++ endl ++
             tb ++ tb ++ tb ++ tb ++ "color=lightsteelblue1; label=" ++ qt ++ self ++ qt ++ "; style=filled;" ++ endl)%string in
  let os := emit (fun t => stack_node (name t)) (stack s) os in
  (os ++ tb ++ tb ++ tb ++ "}" ++ endl ++ tb ++ tb ++ tb ++ "}" ++ endl)%string.

(** task.cpp:319-327 display *)
Definition task_display (self : string) (name : nat -> string) (t : flist) : string :=
  emit (fun f => "-> " ++ name f ++ endl)%string (featureList t)
    ("Task " ++ self ++ ": " ++ endl ++ "--- LIST ---  " ++ endl)%string.
(** task.cpp:329-338 writeGraph *)
Definition task_graph (self : string) (name : nat -> string) (t : flist) : string :=
  emit (fun f => tb ++ qt ++ name f ++ qt ++ " -> " ++ qt ++ self ++ qt ++ endl)%string (featureList t) "".

(** feature-abstract.cpp:69-80 writeGraph: what goes to the file, and what goes to the standard output. [entity] is
    what Entity::writeGraph (dynamic-graph) writes. The name of a deleted reference is undefined. *)
Definition feature_graph (w : rworld) (entity : string) (f : nat) : outcome (string * string) :=
  if is_alive (rw_pool w) f then
    match r_ref (rw_ref w f) with
    | Some r =>
        if is_alive (rw_pool w) r then
          Ok ((entity ++ tb ++ qt ++ rw_name w r ++ qt ++ " -> " ++ qt ++ rw_name w f ++ qt ++ "[ color=darkseagreen4 ]" ++ endl)%string, "")
        else UB
    | None => Ok (entity, ("asotFAT : 0" ++ endl)%string)
    end
  else UB.
