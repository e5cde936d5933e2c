(** Report of the stop watch (src/utils/stop-watch.cpp:185-192, 224-250). *)
From Coq Require Import String Ascii List Arith Lia ZArith Bool Reals.
From Verif Require Import Base SMap Watch_Model RefName_Model.
Import ListNotations.
Local Open Scope R_scope.
Local Open Scope string_scope.

Section Report.
(** The stream operators: [fmt p x] is the text of a long double with std::fixed and std::setprecision(p), where no
    number ([None]) is the quotient of zero by zero; [fmti] is that of an int. *)
Variables (fmt : nat -> option R -> string) (fmti : nat -> string).

(** include/sot/core/stop-watch.hh:54 *)
Definition MAX_NAME : nat := 80.
(** stop-watch.cpp:233-235: the loop from the length of the name *)
Definition pad (n : string) : string := fold_left (fun s _ => s ++ " ") (seq (String.length n) (MAX_NAME - String.length n)) "".
(** stop-watch.cpp:237-249: the average is computed as total * 1e3 / stops; total is not a zero divided by zero unless
    [stops] is 0 (a total that is not zero divided by no stop, after pause only, is also [None] here). *)
Definition report_text (n : string) (precision : nat) (p : perf) : string :=
  let out := n ++ pad n in
  let out := out ++ fmt precision (Some (w_min p * 1000)) ++ tb in
  let out := out ++ fmt precision (if (w_stops p =? 0)%nat then None else Some (w_total p * 1000 / INR (w_stops p))) ++ tb in
  let out := out ++ fmt precision (Some (w_max p * 1000)) ++ tb in
  let out := out ++ fmt precision (Some (w_last p * 1000)) ++ tb in
  let out := out ++ fmti (w_stops p) ++ endl in
  out ++ fmt precision (Some (w_total p * 1000)) ++ endl.
(** stop-watch.cpp:224-231 *)
Definition report (w : watch) (n : string) (precision : nat) : outcome string :=
  if negb (w_active w) then Ok ""
  else match mfind scmp (w_recs w) n with
       | None => not_init
       | Some p => Ok (report_text n precision p)
       end.
(** stop-watch.cpp:185-194 report_all *)
Definition report_all (w : watch) (precision : nat) : outcome string :=
  if negb (w_active w) then Ok ""
  else ofold (fun out x => let* t := report w (fst x) precision in Ok (out ++ t)) (w_recs w)
         (endl ++ "*** PROFILING RESULTS [ms] (min - avg - max - lastTime - " ++ "nSamples - totalTime) ***" ++ endl).
End Report.
