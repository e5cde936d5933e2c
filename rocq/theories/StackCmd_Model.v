(** The commands of the solver that name a task: src/sot/sot-command.h, on the pool (Pool_Model.v) and the stack (Stack_Model.v). *)
From Coq Require Import String Ascii List Arith NArith Bool.
From Verif Require Import Base SMap Pool_Model Stack_Model.
Import ListNotations.

(** One solver, with the pool of tasks and features. *)
Record sworld := mkSW { pw : world; sot : Sot }.
Definition sworld0 : sworld := mkSW world0 init.

(** sot-command.h:32-42, 53-63, 74-84, 95-105: the task is looked up first; getInstance creates the pool when there is none. *)
Definition by_name (w : sworld) (n : string) (c : task -> cmd) : outcome unit * sworld :=
  let p := getInstance (pw w) in
  let pw' := mkW (Some p) (alive (pw w)) in
  match getTask p n with
  | Ok t => let '(o, s) := step (sot w) (c t) in (o, mkSW pw' s)
  | Throw x => (Throw x, mkSW pw' (sot w))
  | UB => (UB, w)
  end.

(** The registrations of Pool_Model.v and the commands push, remove, up, down, clear and setSize (sot.cpp:99-205). *)
Inductive sact :=
| SPool (a : act) | SPush (n : string) | SRemove (n : string) | SUp (n : string) | SDown (n : string) | SClear | SSize (k : N).
Definition sexec (w : sworld) (a : sact) : outcome unit * sworld :=
  match a with
  | SPool a => let '(o, p) := pool_step (pw w) a in (o, mkSW p (sot w))
  | SPush n => by_name w n CPush
  | SRemove n => by_name w n CRemove
  | SUp n => by_name w n CUp
  | SDown n => by_name w n CDown
  | SClear => let '(o, s) := step (sot w) CClear in (o, mkSW (pw w) s)
  | SSize k => let '(o, s) := step (sot w) (CSetSize k) in (o, mkSW (pw w) s)
  end.
(** Histories: a refused command does not end them. *)
Definition srun (h : list sact) : sworld := fold_left (fun w a => snd (sexec w a)) h sworld0.
(** The command list, sot-command.h:137-152 *)
Definition slist (name : task -> string) (w : sworld) : string := list_cmd name (sot w).
