(** Model of the task stack of [Sot]: src/sot/sot.cpp:210-322, the dependency
    list of its control signal, and the List command (src/sot/sot-command.h). *)
From Coq Require Import String Ascii List Arith Lia ZArith Bool.
From Verif Require Import Base.
Import ListNotations.

(** A [TaskAbstract*] is compared by address: identity is a number. *)
Notation task := nat (only parsing).

(** Dependencies of controlSOUT.  [DIn] are the three input signals given at
    construction (sot.cpp:72-74). *)
Inductive dep := DTask (t : task) | DJac (t : task) | DIn (n : nat).
Definition dep_eqb (a b : dep) : bool :=
  match a, b with
  | DTask x, DTask y => x =? y
  | DJac x, DJac y => x =? y
  | DIn x, DIn y => x =? y
  | _, _ => false
  end.

(** sot.hh: members stack, nbJoints, and the dependency list of controlSOUT.
    The solver parameters are in the solver model. *)
Record Sot := mkSot { stack : list task; nbJoints : N; deps : list dep }.

(** sot.cpp:62-77 *)
Definition init : Sot := mkSot [] 0 [DIn 2; DIn 1; DIn 0].

(** dynamic-graph TimeDependency::addDependency pushes at the front,
    removeDependency is [std::list::remove]: it removes every equal entry.
    (External library; this is its documented behaviour.) *)
Definition addDependency (d : dep) (l : list dep) : list dep := d :: l.
Definition removeDep (d : dep) (l : list dep) : list dep :=
  filter (fun x => negb (dep_eqb x d)) l.

(** sot.cpp:210-218.  An exception leaves the object unchanged. *)
Definition push (s : Sot) (t : task) : outcome unit * Sot :=
  if (nbJoints s =? 0)%N then (Throw "logic_error", s)
  else (Ok tt, mkSot (stack s ++ [t]) (nbJoints s)
                 (addDependency (DJac t) (addDependency (DTask t) (deps s)))).

(** sot.cpp:253-257 *)
Definition removeDependency (t : task) (l : list dep) : list dep :=
  removeDep (DJac t) (removeDep (DTask t) l).

(** sot.cpp:219-226.  [stack.back()] of an empty list is UB. *)
Definition pop (s : Sot) : outcome task * Sot :=
  match rev (stack s) with
  | [] => (UB, s)
  | t :: _ => (Ok t, mkSot (removelast (stack s)) (nbJoints s) (removeDependency t (deps s)))
  end.

(** The search loops of exist/remove/up/down (sot.cpp:229-233, 239-244, 262-267,
    285-290): index of the first entry equal to the key; [None] when the loop
    reaches the end with find = false. *)
Fixpoint find_it (l : list task) (key : task) : option nat :=
  match l with
  | [] => None
  | x :: r => if x =? key then Some 0 else
                match find_it r key with Some i => Some (S i) | None => None end
  end.

(** std::list::erase / insert at the position of an iterator. *)
Definition erase {A} (l : list A) (i : nat) : list A := firstn i l ++ skipn (S i) l.
Definition insert {A} (l : list A) (i : nat) (a : A) : list A := firstn i l ++ a :: skipn i l.

(** sot.cpp:227-235 *)
Definition exist (s : Sot) (key : task) : bool :=
  match find_it (stack s) key with Some _ => true | None => false end.

(** sot.cpp:236-251 *)
Definition remove (s : Sot) (key : task) : Sot :=
  match find_it (stack s) key with
  | None => s
  | Some i => mkSot (erase (stack s) i) (nbJoints s) (removeDependency key (deps s))
  end.

(** sot.cpp:259-281.  [pos] is the predecessor of [it]: position [i-1], which the
    erasure of position [i] does not move. *)
Definition up (s : Sot) (key : task) : Sot :=
  match find_it (stack s) key with
  | None => s
  | Some 0 => s
  | Some (S j as i) => mkSot (insert (erase (stack s) i) j key) (nbJoints s) (deps s)
  end.

(** sot.cpp:282-309.  [pos] is the successor of [it]: after the erasure it is at
    position [i] of the remaining list; if that is the end the task is pushed
    back, else it is inserted after it. *)
Definition down (s : Sot) (key : task) : Sot :=
  match find_it (stack s) key with
  | None => s
  | Some i =>
      let l := erase (stack s) i in
      let l' := if i =? length l then l ++ [key] else insert l (S i) key in
      mkSot l' (nbJoints s) (deps s)
  end.

(** sot.cpp:311-317 *)
Definition clear (s : Sot) : Sot :=
  mkSot [] (nbJoints s)
    (fold_left (fun d t => removeDependency t d) (stack s) (deps s)).

(** sot.cpp:319-322 *)
Definition defineNbDof (s : Sot) (n : N) : Sot := mkSot (stack s) n (deps s).

(** Commands and histories.  An exception leaves the state as returned; UB ends
    the run. *)
Inductive cmd :=
| CPush (t : task) | CPop | CRemove (t : task) | CUp (t : task) | CDown (t : task)
| CClear | CSetSize (n : N).

Definition step (s : Sot) (c : cmd) : outcome unit * Sot :=
  match c with
  | CPush t => push s t
  | CPop => let '(o, s') := pop s in (let* _ := o in Ok tt, s')
  | CRemove t => (Ok tt, remove s t)
  | CUp t => (Ok tt, up s t)
  | CDown t => (Ok tt, down s t)
  | CClear => (Ok tt, clear s)
  | CSetSize n => (Ok tt, defineNbDof s n)
  end.

Fixpoint run (s : Sot) (cs : list cmd) : option Sot :=
  match cs with
  | [] => Some s
  | c :: r => match step s c with
              | (UB, _) => None
              | (_, s') => run s' r
              end
  end.

(** sot-command.h:137-152.  [name] is getName(). *)
Fixpoint list_items (name : task -> string) (l : list task) : string :=
  match l with
  | [] => ")"
  | t :: r => String "034" (name t ++ String "034" ", ")%string ++ list_items name r
  end.
Definition list_cmd (name : task -> string) (s : Sot) : string :=
  ("( " ++ list_items name (stack s))%string.
