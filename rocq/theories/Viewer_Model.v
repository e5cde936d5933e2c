(** addRobotViewer (src/dynamic_graph/sot/core/utils/viewer_helper.py): the methods increment and
    set of the class of the robot are replaced by ones that also send the state to a viewer.

    Several robots may share the class.  A call nested deeper than [limit] raises RecursionError. *)
From Coq Require Import String List Arith Bool.
From Verif Require Import Base.
Import ListNotations.
Local Open Scope string_scope.

Section Viewer.
(** The state of a robot, a list of numbers; what the original methods do to it. *)
Variables num arg : Type.
Variable zero : num.
Variables inc0 set0 : list num -> arg -> list num.

(** The functions a method of the class may be. *)
Inductive meth := Inc0 | Set0 | IncrementView | SetView.
(** The attributes of the class that the module reads or writes: [extra] is the number of zeros that
    stateFullSize appends, if the attribute is defined; [refresh] tells whether refresh is defined. *)
Record class := Class { increment : meth; incrementNoView : option meth;
                        set_ : meth; setNoView : option meth; refresh : bool; extra : option nat }.
Definition class0 : class := Class Inc0 None Set0 None false None.

(** A message: name of the element, values. *)
Definition message := (string * list num)%type.
(** viewer: absent, the faked one (lines 1-6), a client that received messages; [fails]: sending
    raises an exception. *)
Inductive viewer := NoViewer | Faked | Client (fails : bool) (got : list message).
(** [displayList]: how many times each function of the list was called (None: the attribute is missing). *)
Record robot := Robot { rname : string; state : list num; view : viewer; displayList : option (list nat) }.

(** viewer_helper.py:14-18: the name that the first test assigns is overwritten by the second test. *)
Definition element_name (n : string) : string :=
  let name := if String.eqb n "robot" then "hrp" else "" in
  if String.eqb n "robot_device" then "hrp" else n.

(** viewer_helper.py:9-10, 56-61.  Simplified: the value of the signal is a tuple, so that + appends
    (on an array + would add). *)
Definition stateFullSize (k : nat) (r : robot) : list num := state r ++ repeat zero k.

(** viewer_helper.py:13-23 refreshView: what the robot becomes, and how the call ends. *)
Definition refreshView (c : class) (r : robot) : robot * outcome unit :=
  match extra c with
  | None => (r, Throw "AttributeError")
  | Some k =>
      match view r with
      | NoViewer => (r, Throw "AttributeError")
      | Client true _ => (r, Throw "connection")
      | v =>
          let v' := match v with
                    | Client b got => Client b (got ++ [(element_name (rname r), stateFullSize k r)])
                    | v => v
                    end in
          match displayList r with
          | None => (Robot (rname r) (state r) v' None, Throw "AttributeError")
          | Some l => (Robot (rname r) (state r) v' (Some (map S l)), Ok tt)
          end
      end
  end.

Definition callRefresh (c : class) (r : robot) : robot * outcome unit :=
  if refresh c then refreshView c r else (r, Throw "AttributeError").

(** viewer_helper.py:26-36: [IncrementView] and [SetView] call the method kept under the other name,
    then refresh. *)
Fixpoint call (limit : nat) (c : class) (m : meth) (r : robot) (a : arg) : robot * outcome unit :=
  match limit with
  | O => (r, Throw "RecursionError")
  | S n =>
      let inner (om : option meth) :=
        match om with
        | None => (r, Throw "AttributeError")
        | Some m' =>
            let '(r1, o) := call n c m' r a in
            match o with Ok _ => callRefresh c r1 | _ => (r1, o) end
        end in
      match m with
      | Inc0 => (Robot (rname r) (inc0 (state r) a) (view r) (displayList r), Ok tt)
      | Set0 => (Robot (rname r) (set0 (state r) a) (view r) (displayList r), Ok tt)
      | IncrementView => inner (incrementNoView c)
      | SetView => inner (setNoView c)
      end
  end.

(** viewer_helper.py:39-84 addRobotViewer.  [import]: the module robotviewer is found; [client]: what
    robotviewer.client gives (None: it raises); [small]: the number of zeros to append (None: the
    argument small is false); [dorefresh]. *)
Definition addRobotViewer (import : bool) (client : option bool) (small : option nat) (dorefresh : bool)
  (c : class) (r : robot) : class * robot :=
  let faked r := Robot (rname r) (state r) Faked (displayList r) in
  if negb import then (c, faked r) else
  let c1 := Class (increment c) (incrementNoView c) (set_ c) (setNoView c) (refresh c)
                  (Some (match small with Some k => k | None => O end)) in
  match client with
  | None => (c1, faked r)
  | Some fails =>
      let r1 := Robot (rname r) (state r) (Client fails []) (displayList r) in
      let c2 := Class IncrementView (Some (increment c1)) SetView (Some (set_ c1)) true (extra c1) in
      let r2 := Robot (rname r1) (state r1) (view r1) (Some []) in
      if dorefresh then
        let '(r3, o) := callRefresh c2 r2 in
        match o with Ok _ => (c2, r3) | _ => (c2, faked r3) end
      else (c2, r2)
  end.

(** The calls of the user. *)
Inductive ucall := CInc (a : arg) | CSet (a : arg).
Definition ucall_exec (limit : nat) (c : class) (r : robot) (u : ucall) : outcome robot :=
  let '(r', o) := match u with
                  | CInc a => call limit c (increment c) r a
                  | CSet a => call limit c (set_ c) r a
                  end in
  let* _ := o in Ok r'.
End Viewer.
