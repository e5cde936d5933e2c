(** Interruptible loop (src/dynamic_graph/sot/core/utils/thread_interruptible_loop.py): two threads that
    share attributes. A step is one read or one write of an attribute (the interpreter lock makes them
    atomic); the loop function itself is one step. *)
From Coq Require Import List Arith Lia Bool.
Import ListNotations.

(** thread_interruptible_loop.py:44-56 run: where the thread is.
    [P0] not launched; [P1] isQuit = False; [P2] isRunning = True; [P3] test of isQuit; [P4] test of isPlay;
    [P5] loop(), iter += 1; [P6] test of isOnce; [P7] pause(); [P8] sleep; [P9] isRunning = False; [PEnd]. *)
Inductive lpc := P0 | P1 | P2 | P3 | P4 | P5 | P6 | P7 | P8 | P9 | PEnd.
(** thread_interruptible_loop.py:19-27; [l_saw] and [l_abort] are the value of isRunning read by the last
    play() and whether it raised. *)
Record lstate := mkL { l_quit : bool; l_play : bool; l_once : bool; l_run : bool; l_iter : nat; l_pc : lpc;
  l_saw : bool; l_abort : bool }.
Definition l_new : lstate := mkL false false false false 0 P0 false false.

Definition set_pc s p := mkL (l_quit s) (l_play s) (l_once s) (l_run s) (l_iter s) p (l_saw s) (l_abort s).
Definition set_quit s b := mkL b (l_play s) (l_once s) (l_run s) (l_iter s) (l_pc s) (l_saw s) (l_abort s).
Definition set_play s b := mkL (l_quit s) b (l_once s) (l_run s) (l_iter s) (l_pc s) (l_saw s) (l_abort s).
Definition set_once s b := mkL (l_quit s) (l_play s) b (l_run s) (l_iter s) (l_pc s) (l_saw s) (l_abort s).
Definition set_run s b := mkL (l_quit s) (l_play s) (l_once s) b (l_iter s) (l_pc s) (l_saw s) (l_abort s).
Definition tick_iter s := mkL (l_quit s) (l_play s) (l_once s) (l_run s) (S (l_iter s)) (l_pc s) (l_saw s) (l_abort s).

(** One step of the thread. *)
Definition work (s : lstate) : lstate :=
  match l_pc s with
  | P0 | PEnd => s
  | P1 => set_pc (set_quit s false) P2
  | P2 => set_pc (set_run s true) P3
  | P3 => set_pc s (if l_quit s then P9 else P4)
  | P4 => set_pc s (if l_play s then P5 else P8)
  | P5 => set_pc (tick_iter s) P6
  | P6 => set_pc s (if l_once s then P7 else P8)
  | P7 => set_pc (set_play s false) P8
  | P8 => set_pc s P3
  | P9 => set_pc (set_run s false) PEnd
  end.

(** Steps of the commands, by the script thread. [g]: the step belongs to play(), which may have raised. *)
Inductive lop := OReadRunning | OStartPlay | OStartThread | OOnce (g b : bool) | OPlay (g b : bool) | OQuit.
Definition guarded (g : bool) (s s' : lstate) : lstate := if g && l_abort s then s else s'.
Definition oper (s : lstate) (o : lop) : lstate :=
  match o with
  | OReadRunning => mkL (l_quit s) (l_play s) (l_once s) (l_run s) (l_iter s) (l_pc s) (l_run s) false
  | OStartPlay => if l_saw s then s else set_play s true
  | OStartThread =>
      if l_saw s then s
      else match l_pc s with
           | P0 => set_pc s P1
           | _ => mkL (l_quit s) (l_play s) (l_once s) (l_run s) (l_iter s) (l_pc s) (l_saw s) true
           end
  | OOnce g b => guarded g s (set_once s b)
  | OPlay g b => guarded g s (set_play s b)
  | OQuit => set_quit s true
  end.
(** thread_interruptible_loop.py:33-47, 58-60 quit, play (with start), pause, once *)
Definition quit_ops : list lop := [OQuit].
Definition play_ops : list lop := [OReadRunning; OStartPlay; OStartThread; OOnce true false; OPlay true true].
Definition pause_ops : list lop := [OPlay false false].
Definition once_ops : list lop := [OOnce false true; OPlay false true].

(** A schedule: the steps of the thread and those of the script. *)
Inductive lstep := Work | Op (o : lop).
Definition sexec (s : lstate) (x : lstep) : lstate := match x with Work => work s | Op o => oper s o end.
Definition works (n : nat) (s : lstate) : lstate := Nat.iter n work s.
