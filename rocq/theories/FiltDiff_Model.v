(** FilterDifferentiator (src/filters/filter-differentiator.cpp) over the causal filter on vectors
    (src/filters/causal-filter.cpp): the buffers are matrices, kept as lists of columns.

    Real numbers for doubles; sizes are natural numbers. Assumption on the library: the input signal has a new value
    at each time, so a signal read at a time after its last computation is computed, at any other time it hands out
    what it holds. *)
From Coq Require Import String Ascii List Arith Lia ZArith Bool Reals.
From Verif Require Import Base Filter_Model.
Import ListNotations.
Local Open Scope nat_scope.
Local Open Scope list_scope.

Fixpoint zipw (f : R -> R -> R) (a b : list R) : list R :=
  match a, b with x :: a, y :: b => f x y :: zipw f a b | _, _ => [] end.
(** The product of a matrix with [rows] rows by a vector. *)
Definition mulv (rows : nat) (cols : list (list R)) (v : list R) : list R :=
  map (fun r => dot (map (fun c => nth r c 0%R) cols) v) (seq 0 rows).

(** Members of CausalFilter, include/sot/core/causal-filter.hh. *)
Record vfilter := VF { v_dt : R; v_size : nat; v_num : list R; v_den : list R; v_first : bool;
  v_pn : nat; v_pd : nat; v_in : list (list R); v_out : list (list R) }.

(** causal-filter.cpp 36-55 *)
Definition vf_new (dt : R) (size : nat) (num den : list R) : vfilter :=
  VF dt size num den true 0 0 (repeat (repeat 0%R size) (length num)) (repeat (repeat 0%R size) (length den - 1)).

(** get_x_dx_ddx, causal-filter.cpp 57-104. An input of another size than the columns, an empty numerator or a
    denominator of size below two make the expressions ill sized: UB. *)
Definition vf_step (f : vfilter) (x : list R) : outcome (vfilter * list R) :=
  let m := length (v_num f) in
  let n := length (v_den f) in
  if (m =? 0) || (n <? 2) || negb (length x =? v_size f) then UB else
  let inb := if v_first f then repeat x m else v_in f in
  let outb := if v_first f
              then repeat (map (fun a => a * rsum (v_num f) / rsum (v_den f))%R x) (n - 1) else v_out f in
  let* inb := vset inb (v_pn f) x in
  let b := rev (firstn (v_pn f + 1) (v_num f)) ++ rev (skipn (v_pn f + 1) (v_num f)) in
  let a := rev (firstn (v_pd f + 1) (skipn 1 (v_den f))) ++ rev (skipn (v_pd f + 2) (v_den f)) in
  let* den0 := vget (v_den f) 0 in
  let y := map (fun z => z / den0)%R (zipw Rminus (mulv (v_size f) inb b) (mulv (v_size f) outb a)) in
  let prev := if v_pd f =? 0 then n - 2 else v_pd f - 1 in
  let* y1 := vget outb (v_pd f) in
  let* y2 := vget outb prev in
  let dx := map (fun z => z / v_dt f)%R (zipw Rminus y y1) in
  let ddx := map (fun z => z / v_dt f / v_dt f)%R (zipw Rplus (zipw Rminus y (map (fun z => 2 * z)%R y1)) y2) in
  let pn := if v_pn f + 1 <? m then v_pn f + 1 else 0 in
  let pd := if v_pd f + 1 <? n - 1 then v_pd f + 1 else 0 in
  let* outb := vset outb pd y in
  Ok (VF (v_dt f) (v_size f) (v_num f) (v_den f) false pn pd inb outb, y ++ dx ++ ddx).

(** switch_filter, causal-filter.cpp 106-134 *)
Definition vf_switch (f : vfilter) (num den : list R) : outcome vfilter :=
  let* cur := vget (v_in f) (v_pn f) in
  Ok (VF (v_dt f) (v_size f) num den (v_first f) 0 0
        (repeat cur (length num))
        (repeat (map (fun a => a * rsum num / rsum den)%R cur) (length den - 1))).

Inductive fout := FX | FDx | FDdx.
Definition fout_eqb (a b : fout) : bool :=
  match a, b with FX, FX | FDx, FDx | FDdx, FDdx => true | _, _ => false end.
(** The entity: size of the signal, filter (no object before init), time and value of the inner signal, time and
    value of each output. *)
Record fd := FD { fd_size : nat; fd_filter : option vfilter; fd_inner : option (Z * list R); fd_held : fout -> option (Z * list R) }.
(** filter-differentiator.cpp 56-88; the size and the filter have no value before init *)
Definition fd_new : fd := FD 0 None None (fun _ => None).
(** filter-differentiator.cpp 92-104 init *)
Definition fd_init (s : fd) (dt : R) (size : nat) (num den : list R) : fd :=
  FD size (Some (vf_new dt size num den)) (fd_inner s) (fd_held s).
(** filter-differentiator.cpp 106-114 switch_filter *)
Definition fd_switch (s : fd) (num den : list R) : outcome fd :=
  match fd_filter s with
  | None => UB
  | Some f => let* f' := vf_switch f num den in Ok (FD (fd_size s) (Some f') (fd_inner s) (fd_held s))
  end.
Definition after (last : option (Z * list R)) (t : Z) : bool := match last with None => true | Some (u, _) => (u <? t)%Z end.
(** filter-differentiator.cpp 120-128: the inner signal; [x] is the input signal *)
Definition fd_compute (x : Z -> list R) (s : fd) (t : Z) : outcome (fd * list R) :=
  match fd_inner s with
  | Some (u, v) =>
      if (u <? t)%Z then
        match fd_filter s with
        | None => UB
        | Some f => let* (f', o) := vf_step f (x t) in Ok (FD (fd_size s) (Some f') (Some (t, o)) (fd_held s), o)
        end
      else Ok (s, v)
  | None =>
      match fd_filter s with
      | None => UB
      | Some f => let* (f', o) := vf_step f (x t) in Ok (FD (fd_size s) (Some f') (Some (t, o)) (fd_held s), o)
      end
  end.
(** filter-differentiator.cpp 136-161: head, segment and tail *)
Definition fd_part (o : fout) (n : nat) (v : list R) : outcome (list R) :=
  let k := match o with FX => 0 | FDx => n | FDdx => length v - n end in
  if (k + n <=? length v) then Ok (firstn n (skipn k v)) else UB.
Definition fd_read (x : Z -> list R) (s : fd) (o : fout) (t : Z) : outcome (fd * list R) :=
  if after (fd_held s o) t then
    let* (s', v) := fd_compute x s t in
    let* r := fd_part o (fd_size s') v in
    Ok (FD (fd_size s') (fd_filter s') (fd_inner s') (fun q => if fout_eqb q o then Some (t, r) else fd_held s' q), r)
  else match fd_held s o with Some (_, r) => Ok (s, r) | None => UB end.

(** Reads and changes of filter; the values read. *)
Inductive faction := ARead (o : fout) (t : Z) | ASwitch (num den : list R).
Fixpoint fd_run (x : Z -> list R) (s : fd) (l : list faction) : outcome (fd * list (list R)) :=
  match l with
  | [] => Ok (s, [])
  | ARead o t :: r => let* (s1, v) := fd_read x s o t in let* (s2, vs) := fd_run x s1 r in Ok (s2, v :: vs)
  | ASwitch num den :: r => let* s1 := fd_switch s num den in fd_run x s1 r
  end.
