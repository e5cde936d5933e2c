(** Models of the schedulers: src/tools/sequencer.cpp, src/tools/periodic-call.cpp
    with src/tools/periodic-call-entity.cpp, src/tools/event.cpp with
    include/sot/core/event.hh, include/sot/core/latch.hh. *)
From Coq Require Import String Ascii List Arith Lia ZArith Bool.
From Verif Require Import Base SMap Stack_Model.
Import ListNotations.
Local Open Scope nat_scope.
Local Open Scope list_scope.

(** [int] is 32 bits; conversion to [unsigned int]. *)
Definition int_max : Z := 2147483647.
Definition int_min : Z := -2147483648.
Definition in_int (z : Z) : bool := (int_min <=? z)%Z && (z <=? int_max)%Z.
Definition to_unsigned (z : Z) : Z := (z mod 4294967296)%Z.

(* ------------------------------------------------------------------ *)
(** * Sequencer *)
Section Sequencer.
(** getName() of a task *)
Variable tname : nat -> string.

(** sequencer.cpp:50-161.  [None] is a null task pointer.  A command event keeps
    the name given at construction (131-136). *)
Inductive ekind :=
| KAdd (t : option nat)
| KRm (t : option nat)
| KCmd (name : string).
(** An event object: its address and what it does. *)
Record ev := mkEv { eptr : nat; ekd : ekind }.

(** sequencer.hh:60 *)
Definition getEventType (e : ev) : Z :=
  match ekd e with KAdd _ => 0%Z | KRm _ => 1%Z | KCmd _ => 2%Z end.
(** sequencer.cpp:75-80, sequencer.hh:70 *)
Definition ev_name (e : ev) : string :=
  match ekd e with
  | KAdd (Some t) | KRm (Some t) => tname t
  | KAdd None | KRm None => "NULL"%string
  | KCmd n => n
  end.

(** sotPtr is not initialised by the constructor (sequencer.cpp:23-31). *)
Inductive sotref := Uninit | Null | Ref (s : Sot).

(** sequencer.hh:77-87.  A [TaskList] holds pointers, possibly null. *)
Record Sequencer := mkSeq {
  sotPtr : sotref;
  taskMap : list (Z * list (option ev));
  timeInit : Z;
  playMode : bool
}.

(** sequencer.cpp:23-31 *)
Definition seq_new : Sequencer := mkSeq Uninit [] (-1) false.
(** sequencer.hh:94 *)
Definition setSotRef (s : Sequencer) (r : sotref) : Sequencer :=
  mkSeq r (taskMap s) (timeInit s) (playMode s).

(** sequencer.cpp:167-176 *)
Definition addTask (s : Sequencer) (e : option ev) (t : Z) : Sequencer :=
  let m := match mfind Z.compare (taskMap s) t with
           | None => mset Z.compare (taskMap s) t [e]
           | Some tl => mset Z.compare (taskMap s) t (tl ++ [e])
           end in
  mkSeq (sotPtr s) m (timeInit s) (playMode s).

(** The loop sequencer.cpp:185-190: the first event of that type and name; a null
    pointer met before it is dereferenced. *)
Fixpoint find_event (ty : Z) (nm : string) (tl : list (option ev)) : outcome (option ev) :=
  match tl with
  | [] => Ok None
  | None :: _ => UB
  | Some e :: r =>
      if (getEventType e =? ty)%Z && (ev_name e =? nm)%string then Ok (Some e)
      else find_event ty nm r
  end.
(** [tl.remove( *itL )]: std::list::remove drops every equal pointer. *)
Definition is_ptr (p : nat) (x : option ev) : bool :=
  match x with Some e => eptr e =? p | None => false end.
Definition list_remove (p : nat) (tl : list (option ev)) : list (option ev) :=
  filter (fun x => negb (is_ptr p x)) tl.

(** sequencer.cpp:179-195 *)
Definition rmTask (s : Sequencer) (ty : Z) (nm : string) (t : Z) : outcome Sequencer :=
  match mfind Z.compare (taskMap s) t with
  | None => Ok s
  | Some tl =>
      let* f := find_event ty nm tl in
      let tl' := match f with Some e => list_remove (eptr e) tl | None => tl end in
      let m := match tl' with
               | [] => merase Z.compare (taskMap s) t
               | _ => mset Z.compare (taskMap s) t tl'
               end in
      Ok (mkSeq (sotPtr s) m (timeInit s) (playMode s))
  end.

(** Addresses deleted by clearAll, in order. *)
Fixpoint ptrs (l : list (option ev)) : list nat :=
  match l with
  | [] => []
  | Some e :: r => eptr e :: ptrs r
  | None :: r => ptrs r
  end.
Fixpoint nodupb (l : list nat) : bool :=
  match l with
  | [] => true
  | x :: r => negb (existsb (Nat.eqb x) r) && nodupb r
  end.
(** sequencer.cpp:198-209: every pointer is deleted once per registration; a second
    [delete] of the same event is UB. *)
Definition clearAll (s : Sequencer) : outcome Sequencer :=
  if nodupb (ptrs (concat (map snd (taskMap s)))) then
    Ok (mkSeq (sotPtr s) [] (timeInit s) (playMode s))
  else UB.

(** The call operators, sequencer.cpp:90-96, 112-118, 152-160 (a command event
    only parses its text: the shell call is commented out). *)
Definition ev_run (r : sotref) (e : ev) : outcome unit * sotref :=
  match r with
  | Uninit => (UB, r)
  | Null => (Ok tt, r)
  | Ref s =>
      match ekd e with
      | KAdd (Some t) => let '(o, s') := push s t in (o, Ref s')
      | KRm (Some t) => (Ok tt, Ref (remove s t))
      | _ => (Ok tt, r)
      end
  end.

(** What a trigger did: the events run to completion, in order, and how it ended. *)
Record trig := mkTrig { ran : list ev; ended : outcome unit }.

(** The loop sequencer.cpp:226-235 *)
Fixpoint run_list (r : sotref) (tl : list (option ev)) : trig * sotref :=
  match tl with
  | [] => (mkTrig [] (Ok tt), r)
  | None :: rest => run_list r rest
  | Some e :: rest =>
      match ev_run r e with
      | (Ok _, r1) => let '(g, r2) := run_list r1 rest in (mkTrig (e :: ran g) (ended g), r2)
      | (o, r1) => (mkTrig [] o, r1)
      end
  end.

(** sequencer.cpp:214-240.  The subtraction of ints may overflow: UB. *)
Definition seq_trigger (s : Sequencer) (t : Z) : trig * Sequencer :=
  if negb (playMode s) then (mkTrig [] (Ok tt), s)
  else
    let t0 := if (timeInit s =? -1)%Z then t else timeInit s in
    let s1 := mkSeq (sotPtr s) (taskMap s) t0 (playMode s) in
    if in_int (t - t0) then
      match mfind Z.compare (taskMap s) (to_unsigned (t - t0)) with
      | None => (mkTrig [] (Ok tt), s1)
      | Some tl => let '(g, r) := run_list (sotPtr s) tl in
                   (g, mkSeq r (taskMap s) t0 (playMode s))
      end
    else (mkTrig [] UB, s1).

(** The public interface. *)
Inductive scall :=
| SAdd (e : option ev) (t : Z)
| SRm (ty : Z) (nm : string) (t : Z)
| SClear
| SSot (r : sotref)
| STrigger (t : Z).

(** One call; [None] when its behaviour is undefined.  An exception thrown by an
    event leaves the object usable. *)
Definition seq_step (s : Sequencer) (c : scall) : option Sequencer :=
  match c with
  | SAdd e t => Some (addTask s e t)
  | SRm ty nm t => match rmTask s ty nm t with Ok s' => Some s' | _ => None end
  | SClear => match clearAll s with Ok s' => Some s' | _ => None end
  | SSot r => Some (setSotRef s r)
  | STrigger t => let '(g, s') := seq_trigger s t in
                  match ended g with UB => None | _ => Some s' end
  end.
Fixpoint seq_run (s : Sequencer) (cs : list scall) : option Sequencer :=
  match cs with
  | [] => Some s
  | c :: r => match seq_step s c with Some s' => seq_run s' r | None => None end
  end.
End Sequencer.

(* ------------------------------------------------------------------ *)
(** * Periodic call *)

(** periodic-call.hh:39-53; a signal is its identity. *)
Record SignalToCall := mkStc { psig : nat; factor : Z }.
Definition PeriodicCall := list (string * SignalToCall).

(** periodic-call.cpp:37-40 *)
Definition pc_add (p : PeriodicCall) (name : string) (sig : nat) : PeriodicCall :=
  mset scmp p name (mkStc sig 1).
(** periodic-call.cpp:50-55 *)
Definition pc_add_down (p : PeriodicCall) (name : string) (sig : nat) (f : Z) : PeriodicCall :=
  mset scmp p name (mkStc sig f).
(** periodic-call.cpp:66-69 *)
Definition pc_rm (p : PeriodicCall) (name : string) : PeriodicCall := merase scmp p name.
(** periodic-call.hh:81 *)
Definition pc_clear (p : PeriodicCall) : PeriodicCall := [].

(** periodic-call.cpp:74-81: names and signals recomputed, in order.  In
    [t % downsamplingFactor] the int is converted to unsigned; a null factor is a
    division by zero. *)
Fixpoint runSignals (p : PeriodicCall) (t : Z) : outcome (list (string * nat)) :=
  match p with
  | [] => Ok []
  | (nm, c) :: r =>
      if (factor c =? 0)%Z then UB
      else
        let* rest := runSignals r t in
        Ok (if (to_unsigned t mod factor c =? 0)%Z then (nm, psig c) :: rest else rest)
  end.

(** periodic-call-entity.cpp:43-51 *)
Definition trigerCall (p : PeriodicCall) (t : Z) : outcome (list (string * nat)) * PeriodicCall :=
  (runSignals p t, p).
Definition trigerOnceCall (p : PeriodicCall) (t : Z) : outcome (list (string * nat)) * PeriodicCall :=
  (runSignals p t, pc_clear p).

Inductive pcall :=
| PAdd (name : string) (sig : nat)
| PAddDown (name : string) (sig : nat) (f : Z)
| PRm (name : string)
| PClear
| PTrigger (t : Z)
| PTriggerOnce (t : Z).
Definition pc_step (p : PeriodicCall) (c : pcall) : PeriodicCall :=
  match c with
  | PAdd n s => pc_add p n s
  | PAddDown n s f => pc_add_down p n s f
  | PRm n => pc_rm p n
  | PClear => pc_clear p
  | PTrigger t => snd (trigerCall p t)
  | PTriggerOnce t => snd (trigerOnceCall p t)
  end.
Definition pc_run (cs : list pcall) : PeriodicCall := fold_left pc_step cs [].

(* ------------------------------------------------------------------ *)
(** * Event *)

(** event.hh:115-119 *)
Record Event := mkEvent {
  triggers : list nat;
  lastVal : bool;
  timeSinceUp : Z;
  repeatAfter : Z
}.
(** event.hh:45-51: [lastVal_(2)] is a bool, hence true. *)
Definition event_new : Event := mkEvent [] true 0 0.
(** event.hh:87-90 (the lookup of the signal by name is not modelled) *)
Definition event_add (e : Event) (s : nat) : Event :=
  mkEvent (triggers e ++ [s]) (lastVal e) (timeSinceUp e) (repeatAfter e).
(** event.hh:103-105 *)
Definition event_repeat (e : Event) (n : Z) : Event :=
  mkEvent (triggers e) (lastVal e) (timeSinceUp e) n.

(** event.cpp:11-33.  Result: the value of the output signal and the signals
    recomputed.  The increment may overflow: UB. *)
Definition event_check (e : Event) (val : bool) : outcome (bool * list nat * Event) :=
  let ret := xorb val (lastVal e) in
  let up := negb (lastVal e) && val in
  if negb up && val && (timeSinceUp e =? int_max)%Z then UB
  else
    let t1 := if up then 0%Z else if val then (timeSinceUp e + 1)%Z else timeSinceUp e in
    let trigger := up || ((0 <? repeatAfter e)%Z && (repeatAfter e <=? t1)%Z) in
    let last := if ret then val else lastVal e in
    if trigger then Ok (ret, triggers e, mkEvent (triggers e) last 0 (repeatAfter e))
    else Ok (ret, [], mkEvent (triggers e) last t1 (repeatAfter e)).

Inductive ecall := EvAdd (s : nat) | EvRepeat (n : Z) | EvCheck (val : bool).
(** A history of calls: the outputs of the evaluations, in order. *)
Fixpoint event_run (e : Event) (cs : list ecall) : outcome (list (bool * list nat) * Event) :=
  match cs with
  | [] => Ok ([], e)
  | EvAdd s :: r => event_run (event_add e s) r
  | EvRepeat n :: r => event_run (event_repeat e n) r
  | EvCheck v :: r =>
      let* (b, l, e1) := event_check e v in
      let* (o, e2) := event_run e1 r in
      Ok ((b, l) :: o, e2)
  end.

(* ------------------------------------------------------------------ *)
(** * Latch *)

(** latch.hh:41-68: the state is signalOutput.  Calls: the two commands and the
    three signals; a signal returns what its callback wrote. *)
Inductive lcall := LTurnOn | LTurnOff | LEvalOn | LEvalOff | LEvalOut.
Definition latch_new : bool := false.
Definition latch_step (s : bool) (c : lcall) : option bool * bool :=
  match c with
  | LTurnOn => (None, true)            (* latch.hh:42 *)
  | LTurnOff => (None, false)          (* latch.hh:48 *)
  | LEvalOn => (Some true, true)       (* latch.hh:43-46 *)
  | LEvalOff => (Some false, false)    (* latch.hh:49-52 *)
  | LEvalOut => (Some s, s)            (* latch.hh:54-57 *)
  end.
Fixpoint latch_run (s : bool) (cs : list lcall) : list (option bool) * bool :=
  match cs with
  | [] => ([], s)
  | c :: r => let '(o, s1) := latch_step s c in
              let '(os, s2) := latch_run s1 r in (o :: os, s2)
  end.
