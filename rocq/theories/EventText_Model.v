(** The commands addSignal and list of an event: include/sot/core/event.hh (the event itself is in Sched_Model.v). *)
From Coq Require Import String Ascii List Arith ZArith Bool.
From Verif Require Import Base Sched_Model StackText_Model.
Import ListNotations.
Local Open Scope string_scope.

(** The signals of the pool of dynamic-graph by the names a command gives them ("entity.signal"); a signal is a number. *)
Definition signals := string -> option nat.

(** event.hh:87-90: getSignal throws when there is no such signal. *)
Definition addSignal (p : signals) (e : Event) (n : string) : outcome unit * Event :=
  match p n with
  | Some s => (Ok tt, event_add e s)
  | None => (Throw "UNREFERED_SIGNAL", e)
  end.
(** event.hh:93-101 getSignalsByName; [name] is getName() of a signal. *)
Definition event_list (name : nat -> string) (e : Event) : string :=
  emit (fun s => "'" ++ name s ++ "', ") (triggers e) "(" ++ ")".

(** Commands and evaluations; an evaluation whose counter overflows ends the history. *)
Inductive evcmd := EAddSignal (n : string) | ERepeat (k : Z) | EEval (v : bool).
Definition ev_exec (p : signals) (e : Event) (c : evcmd) : outcome Event :=
  match c with
  | EAddSignal n => Ok (snd (addSignal p e n))
  | ERepeat k => Ok (event_repeat e k)
  | EEval v => let* (_, _, e') := event_check e v in Ok e'
  end.
(** The signals recomputed by the evaluation that ends a history. *)
Definition ev_fired (p : signals) (h : list evcmd) (v : bool) : outcome (list nat) :=
  let* e := ofold (ev_exec p) h event_new in
  let* (_, l, _) := event_check e v in Ok l.
