(** The shortcuts of the interruptible loop (src/dynamic_graph/sot/core/utils/thread_interruptible_loop.py:98-120): go, stop, next and
    n + x.  next calls the loop function from the script thread, while the loop thread may be calling it too; the function is
    therefore entered and left in two steps here.  The thread and its commands are those of Loop_Model. *)
From Coq Require Import List Arith ZArith Bool.
From Verif Require Import Loop_Model.
Import ListNotations.

(** [n_tin], [n_sin]: the thread, the script is inside the loop function; [n_calls]: the calls that have ended. *)
Record nstate := mkN { n_l : lstate; n_tin : bool; n_sin : bool; n_calls : nat }.
Definition n_new : nstate := mkN l_new false false 0.

(** thread_interruptible_loop.py:50-57: one step of the thread. *)
Definition nwork (s : nstate) : nstate :=
  match l_pc (n_l s) with
  | P5 => if n_tin s then mkN (work (n_l s)) false (n_sin s) (S (n_calls s)) else mkN (n_l s) true (n_sin s) (n_calls s)
  | _ => mkN (work (n_l s)) (n_tin s) (n_sin s) (n_calls s)
  end.
(** One step: of the thread, of a command of the script, or entering and leaving the loop function by next (108-110). *)
Inductive nstep := NWork | NOp (o : lop) | NEnter | NLeave.
Definition nexec (s : nstate) (x : nstep) : nstate :=
  match x with
  | NWork => nwork s
  | NOp o => mkN (oper (n_l s) o) (n_tin s) (n_sin s) (n_calls s)
  | NEnter => mkN (n_l s) (n_tin s) true (n_calls s)
  | NLeave => mkN (n_l s) (n_tin s) false (S (n_calls s))
  end.
Definition nrun (sch : list nstep) (s : nstate) : nstate := fold_left nexec sch s.

(** 100-117: the shortcuts, as steps of the script. *)
Definition go_ops : list nstep := map NOp play_ops.
Definition stop_ops : list nstep := map NOp pause_ops.
Definition next_ops : list nstep := [NEnter; NLeave].
Definition add_ops (x : Z) : list nstep := concat (repeat next_ops (Z.to_nat x)).
(** The steps of the script in a schedule. *)
Definition script_of (sch : list nstep) : list nstep := filter (fun x => match x with NWork => false | _ => true end) sch.

(** thread_interruptible_loop.py:69-73 restart: join (an error before the thread is launched, and a wait until it has ended), then
    play, then setSigHandler, which no class defines. [ERuntime]: RuntimeError of threading; [EAttribute]: AttributeError. *)
Inductive lerr := ERuntime | EAttribute.
Inductive rout := RWaits | RRaised (e : lerr) (s : lstate).
Definition restart (s : lstate) : rout :=
  match l_pc s with
  | P0 => RRaised ERuntime s
  | PEnd => let s' := fold_left oper play_ops s in RRaised (if l_abort s' then ERuntime else EAttribute) s'
  | _ => RWaits
  end.
