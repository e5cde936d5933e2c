(** Entities with a varying number of inputs (include/sot/core/variadic-op.hh), the
    switch (include/sot/core/switch.hh) and the variadic operators of
    src/matrix/operator.hh. *)
From Coq Require Import String Ascii List Arith Lia ZArith Bool Decimal DecimalString.
From Verif Require Import Base.
Import ListNotations.
Local Open Scope string_scope.
Local Open Scope nat_scope.
Local Open Scope list_scope.

(** std::ostringstream << "sin" << i : variadic-op.hh:64-65, 98-99 (the class prefix
    in front of the name is left out: signals are registered under their short
    name, dynamic-graph Entity::signalRegistration). *)
Definition sin_name (i : nat) : string :=
  ("sin" ++ NilEmpty.string_of_uint (Nat.to_uint i))%string.

(** An input signal object: its address (a number that is never reused) and its
    short name. *)
Record sigobj := mksig { sid : nat; sname : string }.

(** Members of VariadicAbstract (variadic-op.hh:61,118,135) and of its base Entity:
    - [slots] is signalsIN, where [None] is a NULL pointer;
    - [reg] is the entity's map from short names to signals (dynamic-graph
      Entity::signalMap), kept here in order of registration;
    - [deps] is the list of dependencies of SOUT;
    - [fresh] is the next unused address;
    - [ops] is the state of the operator (coefficients, segments). *)
Record vstate (O : Type) := mkv {
  slots : list (option sigobj);
  reg : list (string * nat);
  deps : list nat;
  fresh : nat;
  ops : O }.
Arguments mkv {O}. Arguments slots {O}. Arguments reg {O}. Arguments deps {O}.
Arguments fresh {O}. Arguments ops {O}.

(** What a call leaves behind: undefined behaviour, or a state and whether it threw. *)
Inductive after (S : Type) : Type :=
| Done (s : S)
| Threw (s : S)
| Undef.
Arguments Done {S}. Arguments Threw {S}. Arguments Undef {S}.

Definition reg_find (r : list (string * nat)) (n : string) : option nat :=
  option_map snd (find (fun x => String.eqb (fst x) n) r).
Definition reg_erase (r : list (string * nat)) (n : string) :=
  filter (fun x => negb (String.eqb (fst x) n)) r.

Section V.
  Context {O : Type}.
  (** virtual updateSignalNumber(n): variadic-op.hh:122,175. *)
  Variable onNumber : nat -> O -> O.

  (** VariadicAbstract::_declareSignal, variadic-op.hh:131-134.  signalRegistration
      throws when the short name is taken by another signal. *)
  Definition declareSignal (s : sigobj) (st : vstate O) : after (vstate O) :=
    match reg_find (reg st) (sname s) with
    | Some _ => Threw st
    | None => Done (mkv (slots st) (reg st ++ [(sname s, sid s)]) (deps st ++ [sid s])
                        (fresh st) (ops st))
    end.

  (** VariadicAbstract::_removeSignal, variadic-op.hh:125-130.  A NULL pointer is
      dereferenced on line 127; signalDeregistration throws when the name is unknown.
      The object is deleted: the pointer left in the slot is not to be dereferenced any
      more, which is modelled by storing NULL there. *)
  Definition removeAt (i : nat) (st : vstate O) : after (vstate O) :=
    match nth_error (slots st) i with
    | Some (Some s) =>
        match reg_find (reg st) (sname s) with
        | None => Threw st
        | Some _ => Done (mkv (upd (slots st) i None) (reg_erase (reg st) (sname s))
                              (remove Nat.eq_dec (sid s) (deps st)) (fresh st) (ops st))
        end
    | _ => Undef
    end.

  (** VariadicAbstract::addSignal(name), variadic-op.hh:69-80. *)
  Definition addSignalNamed (n : string) (st : vstate O) : after (vstate O) :=
    let s := mksig (fresh st) n in
    match declareSignal s (mkv (slots st) (reg st) (deps st) (S (fresh st)) (ops st)) with
    | Done st' => Done (mkv (slots st' ++ [Some s]) (reg st') (deps st') (fresh st') (ops st'))
    | r => r
    end.

  (** VariadicAbstract::addSignal(), variadic-op.hh:63-67. *)
  Definition addSignal (st : vstate O) : after (vstate O) :=
    addSignalNamed (sin_name (length (slots st))) st.

  (** VariadicAbstract::removeSignal, variadic-op.hh:82-87.  With no signal the index
      wraps around (the assert is compiled out): undefined. *)
  Definition removeSignal (st : vstate O) : after (vstate O) :=
    match length (slots st) with
    | 0 => Undef
    | S k =>
        match removeAt k st with
        | Done st' => Done (mkv (firstn k (slots st')) (reg st') (deps st') (fresh st') (ops st'))
        | r => r
        end
    end.

  Fixpoint afold {I} (f : I -> vstate O -> after (vstate O)) (l : list I) (st : vstate O)
    : after (vstate O) :=
    match l with
    | [] => Done st
    | i :: r => match f i st with Done st' => afold f r st' | x => x end
    end.

  (** Body of the second loop of setSignalNumber, variadic-op.hh:97-104: the slot is
      filled before the signal is registered. *)
  Definition createAt (i : nat) (st : vstate O) : after (vstate O) :=
    let s := mksig (fresh st) (sin_name i) in
    declareSignal s (mkv (upd (slots st) i (Some s)) (reg st) (deps st) (S (fresh st)) (ops st)).

  (** VariadicAbstract::setSignalNumber, variadic-op.hh:89-107.  For a negative number
      (the assert is compiled out) the first loop is empty and resize throws
      std::length_error, leaving everything as it was. *)
  Definition setSignalNumber (n : Z) (st : vstate O) : after (vstate O) :=
    if (n <? 0)%Z then Threw st else
    let k := Z.to_nat n in
    let old := length (slots st) in
    match afold removeAt (seq k (old - k)) st with
    | Done st1 =>
        let st2 := mkv (vresize (slots st1) k None) (reg st1) (deps st1) (fresh st1) (ops st1) in
        match afold createAt (seq old (k - old)) st2 with
        | Done st3 => Done (mkv (slots st3) (reg st3) (deps st3) (fresh st3) (onNumber k (ops st3)))
        | r => r
        end
    | r => r
    end.

  (** VariadicAbstract::getSignalNumber, variadic-op.hh:109. *)
  Definition getSignalNumber (st : vstate O) : nat := length (slots st).

  (** VariadicAbstract::getSignalIn, variadic-op.hh:111-115. *)
  Definition getSignalIn (i : Z) (st : vstate O) : outcome (option sigobj) :=
    if (i <? 0)%Z || (Z.of_nat (length (slots st)) <=? i)%Z
    then Throw "Wrong signal index" else vget (slots st) (Z.to_nat i).

  (** signalsIN[i]->access(time): reading a signal object may itself fail; a NULL
      pointer is undefined.  [val] gives the value of each signal object. *)
  Definition readSlot {V} (val : nat -> outcome V) (s : option sigobj) : outcome V :=
    match s with Some o => val (sid o) | None => UB end.

  Fixpoint readAll {V} (val : nat -> outcome V) (l : list (option sigobj)) : outcome (list V) :=
    match l with
    | [] => Ok []
    | s :: r => let* v := readSlot val s in let* vs := readAll val r in Ok (v :: vs)
    end.

  (** VariadicOp::computeOperation, variadic-op.hh:165-173; [res] is the previous value
      of the output, which the operator receives by reference. *)
  Definition computeOperation {V W} (op : O -> list V -> W -> outcome W)
    (val : nat -> outcome V) (st : vstate O) (res : W) : outcome W :=
    let* vs := readAll val (slots st) in op (ops st) vs res.

  (** Switch::signal, switch.hh:65-78.  [sel] is the integer selection when it is
      plugged; [bsel] reads the boolean selection. *)
  Definition switchSignal {V} (sel : option (outcome Z)) (bsel : outcome bool)
    (val : nat -> outcome V) (st : vstate O) : outcome V :=
    let* s := match sel with
              | Some r => r
              | None => let* b := bsel in Ok (if b then 1%Z else 0%Z)
              end in
    if (s <? 0)%Z || (Z.of_nat (length (slots st)) <=? s)%Z
    then Throw "Signal selection is out of range."
    else let* o := vget (slots st) (Z.to_nat s) in readSlot val o.

  (** Commands of the C++ API. *)
  Inductive vcmd := CAdd | CAddNamed (n : string) | CRemove | CNumber (n : Z)
                  | COp (f : nat -> O -> option O).

  (** An operator command (setCoeffs, addSelec) sees the number of inputs; it changes only
      the operator state, or throws. *)
  Definition vstep (c : vcmd) (st : vstate O) : after (vstate O) :=
    match c with
    | CAdd => addSignal st
    | CAddNamed n => addSignalNamed n st
    | CRemove => removeSignal st
    | CNumber n => setSignalNumber n st
    | COp f => match f (length (slots st)) (ops st) with
               | Some o => Done (mkv (slots st) (reg st) (deps st) (fresh st) o)
               | None => Threw st
               end
    end.

  (** A history of commands; a command that threw leaves its state and the next one
      goes on from there. *)
  Fixpoint vrun (h : list vcmd) (st : vstate O) : option (vstate O) :=
    match h with
    | [] => Some st
    | c :: r => match vstep c st with Done s | Threw s => vrun r s | Undef => None end
    end.

  (** Construction: VariadicAbstract::VariadicAbstract, variadic-op.hh:44-51, registers
      the output; [own] are the names of the further signals the derived class
      registers (switch.hh:33); [d] their dependencies of the output (switch.hh:35-36).
      Addresses 0, 1, .. are those of the members. *)
  Definition vinit (own : list string) (d : list nat) (o : O) : vstate O :=
    let names := "sout"%string :: own in
    mkv [] (combine names (seq 0 (length names))) d (length names) o.
End V.
Arguments vcmd : clear implicits.

(** Switch::Switch, switch.hh:28-36. *)
Definition switch0 : vstate unit := vinit ["selection"; "boolSelection"]%string [1; 2] tt.

(* ------------------------------------------------------------------ *)
(** * Operators *)

Section Ops.
  Context {num : Type}.
  Variables (one : num) (T : Type).
  Variables (scale : num -> T -> T) (plus : T -> T -> outcome T).

  (** AdderVariadic::operator(), operator.hh:909-914 (the assert is compiled out:
      coeffs[i] is read without check). *)
  Definition adderOp (coeffs : list num) (vs : list T) (res : T) : outcome T :=
    match vs with
    | [] => Ok res
    | v0 :: _ =>
        let* c0 := vget coeffs 0 in
        ofor_range 1 (length vs)
          (fun i r => let* c := vget coeffs i in let* v := vget vs i in plus r (scale c v))
          (scale c0 v0)
    end.

  (** AdderVariadic::updateSignalNumber, operator.hh:921. *)
  Definition adderNumber (n : nat) (_ : list num) : list num := repeat one n.

  (** AdderVariadic::setCoeffs, operator.hh:916-920. *)
  Definition setCoeffs (c : list num) : vcmd (list num) :=
    COp (fun n _ => if n =? length c then Some c else None).

  (** AdderVariadic::AdderVariadic, initialize: operator.hh:908,923-926. *)
  Definition adder0 : after (vstate (list num)) :=
    setSignalNumber adderNumber 2 (vinit [] [] []).

  (** Multiplier::operator(), operator.hh:946-953, and its specialisations for
      homogeneous matrices (965-975) and vectors (976-985): [ident] is what they write
      without input, [times] the product [res *= v]. *)
  Definition multiplierOp (ident : T) (times : T -> T -> T) (vs : list T) : outcome T :=
    match vs with
    | [] => Ok ident
    | v0 :: _ => ofor_range 1 (length vs) (fun i r => let* v := vget vs i in Ok (times r v)) v0
    end.
End Ops.

(** BoolOp<operation>::operator(), operator.hh:992-1008: the loop returns as soon as the
    result is known. *)
Fixpoint boolLoop (conj : bool) (vs : list bool) (res : bool) : bool :=
  match vs with
  | [] => res
  | v :: r => if Bool.eqb res (negb conj) then res else boolLoop conj r v
  end.
Definition boolOp (conj : bool) (vs : list bool) (res : bool) : bool :=
  match vs with [] => res | v0 :: r => boolLoop conj r v0 end.

(** VectorMix: segments (index, size, signal) of operator.hh:858-863; the unused member
    [input] is left out.  The signal index is converted to size_t: a negative one is
    larger than any size. *)
Record segment := mkseg { sgIndex : Z; sgSize : Z; sgSig : Z }.

(** res.segment(index, size) = v: undefined unless the segment is inside and v has its
    size. *)
Definition assign_segment {num} (res : list num) (i n : Z) (v : list num) : outcome (list num) :=
  if ((0 <=? i) && (0 <=? n) && (i + n <=? Z.of_nat (length res))
      && (n =? Z.of_nat (length v)))%Z
  then Ok (firstn (Z.to_nat i) res ++ v ++ skipn (Z.to_nat (i + n)) res)
  else UB.

(** VectorMix::operator(), operator.hh:867-876. *)
Definition vectorMixOp {num} (idxs : list segment) (vs : list (list num)) (_ : list num)
  : outcome (list num) :=
  let* v0 := vget vs 0 in
  ofold (fun res s =>
    if ((sgSig s <? 0) || (Z.of_nat (length vs) <=? sgSig s))%Z
    then Throw "Index out of range in VectorMix"
    else let* v := vget vs (Z.to_nat (sgSig s)) in assign_segment res (sgIndex s) (sgSize s) v)
    idxs v0.

(** VectorMix::addSelec, operator.hh:878-880. *)
Definition addSelec (sg i n : Z) : vcmd (list segment) :=
  COp (fun _ l => Some (l ++ [mkseg i n sg])).

(** VectorMix::initialize, operator.hh:882-886. *)
Definition mix0 : after (vstate (list segment)) :=
  addSignalNamed "default" (vinit [] [] []).
