(** Model of the mailbox, include/sot/core/mailbox.hh and mailbox.hxx, as any
    number of threads calling post, get and hasBeenUpdated.

    The object is made of [nw] words and the time stamp of two fields, each
    written and read by a separate step, so that torn reads could be seen.
    Sequentially consistent memory.  A [Vector] whose size changes is not
    modelled. *)
From Coq Require Import String Ascii List Arith Lia ZArith Bool.
From Verif Require Import Base.
Import ListNotations.
Local Open Scope nat_scope.
Local Open Scope list_scope.

Section Mailbox.
Variable W : Type.
Variable nw : nat.
(** [mainObject()] *)
Variable obj0 : list W.

(** A time stamp field; [None] before any post: mainTimeStamp is not initialised
    by the constructor (mailbox.hxx:22-26). *)
Notation stamp := (option Z) (only parsing).

(** MailboxTimestampedObject, mailbox.hh:36-40 *)
Record tobj := mkT { tval : list W; tsec : stamp; tusec : stamp }.

(** mailbox.hh:64-67; [ready] is the flag of SOUT set at mailbox.hxx:83. *)
Record shared := mkSh {
  mobj : list W; msec : stamp; musec : stamp; mupd : bool; lock : option nat; ready : bool
}.

(** Where a thread is.  The names tell the next thing it does. *)
Inductive pc :=
| Idle
(* post, mailbox.hxx:77-86 *)
| PLock (v : list W)                  (* 79: wait for the mutex *)
| PObj (v : list W) (i : nat)         (* 80: write word i *)
| PSec (v : list W)                   (* 81: gettimeofday writes tv_sec ... *)
| PUsec (v : list W) (s u : Z)        (* 81: ... and tv_usec *)
| PUpd (v : list W) (s u : Z)         (* 82 *)
| PReady (v : list W) (s u : Z)       (* 83 *)
| PUnlock (v : list W) (s u : Z)      (* 85: the lock is released at the end *)
(* get, mailbox.hxx:60-74 *)
| GTry (r : tobj)                     (* 63 *)
| GSec                                (* 66 *)
| GUsec (s : stamp)                   (* 67 *)
| GUpd (s u : stamp)                  (* 69 *)
| GObj (s u : stamp) (acc : list W)   (* 70: read word number |acc| *)
| GUnlock (r : tobj)                  (* 73 *)
(* hasBeenUpdated, mailbox.hxx:48-56 *)
| HTry                                (* 49 *)
| HRead                               (* 52 *)
| HUnlock (b : bool).

(** What a step shows. *)
Inductive label :=
| Tau
| PostDone (p : tobj)                 (* post returns *)
| GetDone (r : tobj)                  (* get returns, having had the mutex *)
| GetBusy (r : tobj)                  (* get returns, the mutex was taken *)
| HasDone (b : bool)
| HasBusy.

(** Calls a thread may make when idle, and the values of the clock. *)
Inductive call := CPost (v : list W) | CGet (r : tobj) | CHas.
Record input := mkIn { icall : call; isec : Z; iusec : Z }.

Record state := mkState { sh : shared; th : nat -> pc }.
Definition init : state := mkState (mkSh obj0 None None false None false) (fun _ => Idle).

Definition setpc (s : state) (t : nat) (m : shared) (p : pc) : state :=
  mkState m (fun x => if x =? t then p else th s x).
Definition with_lock (m : shared) (l : option nat) : shared :=
  mkSh (mobj m) (msec m) (musec m) (mupd m) l (ready m).

(** One step of thread [t]; [None]: it has to wait. *)
Definition step (s : state) (t : nat) (i : input) : option (label * state) :=
  let m := sh s in
  match th s t with
  | Idle =>
      match icall i with
      | CPost v => if length v =? nw then Some (Tau, setpc s t m (PLock v)) else None
      | CGet r => Some (Tau, setpc s t m (GTry r))
      | CHas => Some (Tau, setpc s t m HTry)
      end
  | PLock v =>
      match lock m with
      | None => Some (Tau, setpc s t (with_lock m (Some t)) (PObj v 0))
      | Some _ => None
      end
  | PObj v k =>
      if k =? nw then Some (Tau, setpc s t m (PSec v))
      else
        match nth_error v k with
        | Some w => Some (Tau, setpc s t (mkSh (upd (mobj m) k w) (msec m) (musec m) (mupd m) (lock m) (ready m))
                               (PObj v (S k)))
        | None => None
        end
  | PSec v =>
      Some (Tau, setpc s t (mkSh (mobj m) (Some (isec i)) (musec m) (mupd m) (lock m) (ready m))
                   (PUsec v (isec i) (iusec i)))
  | PUsec v a b =>
      Some (Tau, setpc s t (mkSh (mobj m) (msec m) (Some b) (mupd m) (lock m) (ready m)) (PUpd v a b))
  | PUpd v a b =>
      Some (Tau, setpc s t (mkSh (mobj m) (msec m) (musec m) true (lock m) (ready m)) (PReady v a b))
  | PReady v a b =>
      Some (Tau, setpc s t (mkSh (mobj m) (msec m) (musec m) (mupd m) (lock m) true) (PUnlock v a b))
  | PUnlock v a b =>
      Some (PostDone (mkT v (Some a) (Some b)), setpc s t (with_lock m None) Idle)
  | GTry r =>
      match lock m with
      | None => Some (Tau, setpc s t (with_lock m (Some t)) GSec)
      | Some _ => Some (GetBusy r, setpc s t m Idle)
      end
  | GSec => Some (Tau, setpc s t m (GUsec (msec m)))
  | GUsec a => Some (Tau, setpc s t m (GUpd a (musec m)))
  | GUpd a b =>
      Some (Tau, setpc s t (mkSh (mobj m) (msec m) (musec m) false (lock m) (ready m)) (GObj a b []))
  | GObj a b acc =>
      if length acc =? nw then Some (Tau, setpc s t m (GUnlock (mkT acc a b)))
      else
        match nth_error (mobj m) (length acc) with
        | Some w => Some (Tau, setpc s t m (GObj a b (acc ++ [w])))
        | None => None
        end
  | GUnlock r => Some (GetDone r, setpc s t (with_lock m None) Idle)
  | HTry =>
      match lock m with
      | None => Some (Tau, setpc s t (with_lock m (Some t)) HRead)
      | Some _ => Some (HasBusy, setpc s t m Idle)
      end
  | HRead => Some (Tau, setpc s t m (HUnlock (mupd m)))
  | HUnlock b => Some (HasDone b, setpc s t (with_lock m None) Idle)
  end.

(** Executions; the trace is newest first. *)
Inductive exec : state -> list (nat * label) -> Prop :=
| exec_init : exec init []
| exec_step s tr t i l s' :
    exec s tr -> step s t i = Some (l, s') -> exec s' ((t, l) :: tr).

(** Access to the signal SOUT by a reader (mailbox.hxx:89-92), with
    dynamic-graph's rule for a BOOL_DEPENDENT signal (external library, set at
    mailbox.hxx:36): the callback is called when the ready flag is set, and the
    flag is reset afterwards; otherwise the stored value is returned.
 *)
Definition sout_access (m : shared) (buf : tobj) : tobj * shared :=
  if ready m then
    match lock m with
    | Some _ => (buf, mkSh (mobj m) (msec m) (musec m) (mupd m) (lock m) false)
    | None => (mkT (mobj m) (msec m) (musec m),
               mkSh (mobj m) (msec m) (musec m) false (lock m) false)
    end
  else (buf, m).
End Mailbox.
