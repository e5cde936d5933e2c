(** The Python features FeaturePosition (src/dynamic_graph/sot/core/feature_position.py) and
    FeaturePositionRelative (feature_position_relative.py): a 6d point feature (Point6d_Model,
    Rel6_Model) and its reference, created and connected together.

    An input is a signal, that is a function of time, or a constant. *)
From Coq Require Import String List Arith ZArith Bool Reals.
From Verif Require Import Base Flags_Model Feature_Model Geom_Model OpPoint_Model Point6d_Model Rel6_Model.
Import ListNotations.
Local Open Scope R_scope.
Local Open Scope string_scope.

Inductive input := Sig (f : Z -> hom) | Val (m : hom).
Definition at_time (i : input) (t : Z) : hom := match i with Sig f => f t | Val m => m end.

(** Flags("111111") *)
Definition six : outcome Flags := of_string "111111".
(** I4, feature_position_relative.py:14 *)
Definition I4 : input := Val hid.

(** * FeaturePositionRelative *)
(** The inputs of the feature and of its reference that hold poses; the selection. *)
Record relative := Relative { f_position : input; f_positionRef : input;
                              r_position : input; r_positionRef : input; r_selec : Flags }.

Definition default (i : option input) : input := match i with None => I4 | Some i => i end.

(** feature_position_relative.py:65-103; the four poses are optional. *)
Definition relative_new (basePosition otherPosition baseReference otherReference : option input) : outcome relative :=
  let* fl := six in
  Ok (Relative (default otherPosition) (default basePosition) (default otherReference) (default baseReference) fl).

(** The signals kept in the map, feature_position_relative.py:106-126; only the four poses and the
    selection are told apart, the others cannot be set to a pose. *)
Inductive rsignal := FPosition | FPositionRef | RPosition | RPositionRef | FJqRef | FJq | FError | FJacobian | FSelec.
Definition relative_map : list (string * rsignal) :=
  [("basePosition", FPositionRef); ("otherPosition", FPosition);
   ("baseReference", RPositionRef); ("otherReference", RPosition);
   ("JqBase", FJqRef); ("JqOther", FJq); ("error", FError); ("jacobian", FJacobian); ("selec", FSelec)].
Definition lookup {A} (m : list (string * A)) (name : string) : outcome A :=
  match find (fun p => String.eqb (fst p) name) m with
  | Some p => Ok (snd p)
  | None => Throw "No signal with this name"
  end.
(** feature_position_relative.py:132-139 *)
Definition relative_signal (name : string) : outcome rsignal := lookup relative_map name.

(** Plugging a signal or setting a value. *)
Definition relative_set (r : relative) (s : rsignal) (i : input) : outcome relative :=
  match s with
  | FPosition => Ok (Relative i (f_positionRef r) (r_position r) (r_positionRef r) (r_selec r))
  | FPositionRef => Ok (Relative (f_position r) i (r_position r) (r_positionRef r) (r_selec r))
  | RPosition => Ok (Relative (f_position r) (f_positionRef r) i (r_positionRef r) (r_selec r))
  | RPositionRef => Ok (Relative (f_position r) (f_positionRef r) (r_position r) i (r_selec r))
  | _ => Throw "the signal does not hold a pose"
  end.

(** feature_position_relative.py:158-159, feature-point6d.cpp:481-494: only the position of the
    reference is set; [t] is the time of the last computation of the position. *)
Definition relative_keep (r : relative) (t : Z) : outcome relative :=
  let* p := p6_keep (at_time (f_position r) t) (Some (at_time (r_position r) t)) in
  match p with
  | Some m => relative_set r RPosition (Val m)
  | None => Ok r
  end.

(** error, jacobian at a time *)
Definition relative_error (g : R) (r : relative) (t : Z) : outcome (list R) :=
  let* dim := p6_dimension (r_selec r) in
  rel6_error g (r_selec r) dim (at_time (f_position r) t) (at_time (f_positionRef r) t)
    (Some (RelRef (Some (at_time (r_position r) t)) (Some (at_time (r_positionRef r) t)))).

Inductive rcmd := Assign (name : string) (i : input) | Keep (t : Z).
Definition relative_exec (r : relative) (c : rcmd) : outcome relative :=
  match c with
  | Assign n i => let* s := relative_signal n in relative_set r s i
  | Keep t => relative_keep r t
  end.

(** * FeaturePosition *)
(** The argument referencePosition: absent, rows of a matrix in a tuple or a list, a numpy array. *)
Inductive refarg := RNone | RTuple (m : hom) | RArray (m : hom).

Record position := Position { q_position : option input; q_reference : option input; q_selec : Flags; q_p6 : p6 }.

(** feature_position.py:30-45; [p] is the state of a new feature.  The truth value of an array of
    more than one element raises an exception (line 36). *)
Definition position_new (p : p6) (signalPosition : option input) (ref : refarg) : outcome position :=
  let* r := match ref with
            | RNone => Ok None
            | RTuple m => Ok (Some (Val m))
            | RArray _ => Throw "The truth value of an array with more than one element is ambiguous"
            end in
  let* fl := six in
  let* p' := p6_set_frame p "current" in
  Ok (Position signalPosition r fl p').

Inductive psignal := PPosition | PReference | PVelocity | PJq | PError | PErrordot | PSelec.
(** The members of the object, feature_position.py:48-54. *)
Definition position_members : list (string * psignal) :=
  [("position", PPosition); ("reference", PReference); ("velocity", PVelocity); ("Jq", PJq);
   ("error", PError); ("errordot", PErrordot); ("selec", PSelec)].
(** feature_position.py:56-62, 68-75 *)
Definition position_map : list (string * psignal) :=
  [("position", PPosition); ("reference", PReference); ("Jq", PJq); ("error", PError); ("selec", PSelec)].
Definition position_signal (name : string) : outcome psignal := lookup position_map name.

Definition position_set (q : position) (s : psignal) (i : input) : outcome position :=
  match s with
  | PPosition => Ok (Position (Some i) (q_reference q) (q_selec q) (q_p6 q))
  | PReference => Ok (Position (q_position q) (Some i) (q_selec q) (q_p6 q))
  | _ => Throw "the signal does not hold a pose"
  end.

(** feature_position.py:89-90 and 95-96 *)
Definition position_frame (q : position) (s : string) : outcome position :=
  let* p := p6_set_frame (q_p6 q) s in Ok (Position (q_position q) (q_reference q) (q_selec q) p).
Definition position_keep (q : position) (t : Z) : outcome position :=
  match q_position q with
  | None => Throw "no value"
  | Some i =>
      let* p := p6_keep (at_time i t) (Some (at_time i t)) in
      match p with Some m => position_set q PReference (Val m) | None => Ok q end
  end.

(** A signal that is neither plugged nor set raises an exception when it is read. *)
Definition position_error (g : R) (q : position) (t : Z) : outcome (list R) :=
  match q_position q, q_reference q with
  | Some a, Some b =>
      let* dim := p6_dimension (q_selec q) in
      let* (_, e) := p6_error g (q_p6 q) (q_selec q) dim (at_time a t) (Some (at_time b t)) in Ok e
  | _, _ => Throw "no value"
  end.

Inductive pcmd := PAssign (name : string) (i : input) | PKeep (t : Z) | PFrame (s : string).
Definition position_exec (q : position) (c : pcmd) : outcome position :=
  match c with
  | PAssign n i => let* s := position_signal n in position_set q s i
  | PKeep t => position_keep q t
  | PFrame s => position_frame q s
  end.
