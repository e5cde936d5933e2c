(** References of features given by name (src/feature/feature-abstract.cpp, include/sot/core/feature-abstract.hh)
    and the text of the graph of the pool (src/factory/pool.cpp). *)
From Coq Require Import String Ascii List Arith Lia ZArith Bool.
From Verif Require Import Base SMap Pool_Model Deps_Model.
Import ListNotations.
Local Open Scope nat_scope.
Local Open Scope list_scope.

Section Refs.
(** The class of an object, and whether a class derives from another (or is it). *)
Variables (cls : nat -> nat) (sub : nat -> nat -> bool).

(** The pool and the objects, their names (Entity::getName) and their references. *)
Record rworld := RW { rw_pool : world; rw_name : nat -> string; rw_ref : nat -> rfeat }.
Definition rworld0 : rworld := RW world0 (fun _ => ""%string) (fun _ => new_feature).
Definition put {A} (f : nat -> A) (k : nat) (v : A) : nat -> A := fun x => if Nat.eqb x k then v else f x.
Definition is_alive (w : world) (e : nat) : bool := existsb (Nat.eqb e) (alive w).

(** The constructor of a task or feature gives it its name, and no reference (feature-abstract.hh:234). *)
Definition construct (w : rworld) (a : act) : outcome unit * rworld :=
  let '(o, p) := pool_step (rw_pool w) a in
  match a, o with
  | NewTask n e, Ok _ | NewFeature n e, Ok _ => (o, RW p (put (rw_name w) e n) (put (rw_ref w) e new_feature))
  | _, _ => (o, RW p (rw_name w) (rw_ref w))
  end.

(** feature-abstract.cpp:82-85 setReferenceByName, feature-abstract.hh:244-264. The cast reads the object:
    undefined when it has been deleted. *)
Definition setReferenceByName (w : rworld) (f : nat) (n : string) : outcome unit * rworld :=
  if is_alive (rw_pool w) f then
    match getFeature (getInstance (rw_pool w)) n with
    | Ok r =>
        if is_alive (rw_pool w) r then
          (Ok tt, RW (rw_pool w) (rw_name w)
             (put (rw_ref w) f (set_reference (rw_ref w f) (if sub (cls r) (cls f) then RSame r else ROther r))))
        else (UB, w)
    | Throw x => (Throw x, w)
    | UB => (UB, w)
    end
  else (UB, w).
(** feature-abstract.hh:214, 254-257 unsetReference *)
Definition unsetReference (w : rworld) (f : nat) : outcome unit * rworld :=
  if is_alive (rw_pool w) f then
    (Ok tt, RW (rw_pool w) (rw_name w) (put (rw_ref w) f (set_reference (rw_ref w f) RNull)))
  else (UB, w).
(** feature-abstract.cpp:87-92 getReferenceByName *)
Definition getReferenceByName (w : rworld) (f : nat) : outcome string :=
  if is_alive (rw_pool w) f then
    match r_ref (rw_ref w f) with
    | Some r => if is_alive (rw_pool w) r then Ok (rw_name w r) else UB
    | None => Ok "none"%string
    end
  else UB.

Inductive ract := RPool (a : act) | RSet (f : nat) (n : string) | RUnset (f : nat).
Definition ref_step (w : rworld) (c : ract) : outcome unit * rworld :=
  match c with
  | RPool a => construct w a
  | RSet f n => setReferenceByName w f n
  | RUnset f => unsetReference w f
  end.
Definition ref_run (l : list ract) : rworld := fold_left (fun w c => snd (ref_step w c)) l rworld0.
End Refs.

(** The text of the graph, pool.cpp:114-143: [date] is the text of the date; [names] are the names of the
    tasks, in the order of the map; the stream that takes them is a file opened for writing. *)
Local Open Scope string_scope.
Definition endl : string := String (ascii_of_nat 10) "".
Definition tb : string := String (ascii_of_nat 9) "".
Definition qt : string := String (ascii_of_nat 34) "".
Definition graph_node (n : string) : string :=
  tb ++ tb ++ n ++ " [ label = " ++ qt ++ n ++ qt ++ " ," ++ endl ++
  tb ++ tb ++ "   fontcolor = black, color = black, fillcolor = magenta, style=filled, shape=box ]" ++ endl.
Definition graph_text (date label : string) (names : list string) : string :=
  "/* This graph has been automatically generated. " ++ endl ++ "   " ++ date ++ " */" ++ endl ++
  "digraph " ++ label ++ " { " ++ tb ++ " graph [ label=" ++ qt ++ label ++ qt ++ " bgcolor = white rankdir=LR ]" ++ endl ++
  tb ++ " node [ fontcolor = black, color = black, fillcolor = gold1, style=filled, shape=box ] ; " ++ endl ++
  tb ++ "subgraph cluster_Tasks { " ++ endl ++
  tb ++ tb ++ " color=blue; label=" ++ qt ++ "Tasks" ++ qt ++ ";" ++ endl ++
  fold_left (fun s n => s ++ graph_node n) names "" ++
  "}" ++ endl.
(** pool.cpp:92-143 writeGraph: what is written in the file; the name of a task is read from the object, which
    is undefined when it has been deleted. *)
Definition writeGraph (w : world) (name : nat -> string) (date : string) (path : list ascii) : outcome string :=
  let* label := graph_name path in
  if forallb (fun x => is_alive w (snd x)) (ptasks (getInstance w)) then
    Ok (graph_text date (string_of_list_ascii label) (graph_tasks name (getInstance w)))
  else UB.
