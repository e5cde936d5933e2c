(** The text of a trajectory: RulesJointTrajectory and Trajectory (src/tools/trajectory.cpp,
    include/sot/core/trajectory.hh).

    The regular expressions are those of the constructor, run by a small model of boost's
    regex_search with the default (Perl) syntax: leftmost match, alternatives in order, greedy
    repetitions with backtracking.  [value] is the conversion of a text to a double by a stream
    (is >> aValue), external.  Debug output is not modelled. *)
From Coq Require Import String Ascii List Arith Lia ZArith Bool Reals.
From Verif Require Import Base Traj_Model.
Import ListNotations.
Local Open Scope list_scope.
Local Open Scope nat_scope.

Definition text := list ascii.
Definition txt (s : string) : text := list_ascii_of_string s.

(** external: regular expressions. [Grp i] is the i-th pair of parentheses. *)
Inductive re :=
| Eps
| Chr (p : ascii -> bool)
| Cat (a b : re)
| Alt (a b : re)
| Star (a : re)
| Grp (i : nat) (a : re).
Definition Plus (a : re) : re := Cat a (Star a).

(** external: what[i]; a group that did not take part in the match is empty. *)
Definition caps := nat -> text.
Definition no_caps : caps := fun _ => [].
Definition set_cap (i : nat) (t : text) (c : caps) : caps := fun j => if j =? i then t else c j.

(** external: a match at the beginning of [s], [k] being the rest of the expression. *)
Fixpoint rmatch (r : re) (s : text) (c : caps) (k : text -> caps -> option (caps * text)) : option (caps * text) :=
  match r with
  | Eps => k s c
  | Chr p => match s with x :: s' => if p x then k s' c else None | [] => None end
  | Cat a b => rmatch a s c (fun s' c' => rmatch b s' c' k)
  | Alt a b => match rmatch a s c k with Some x => Some x | None => rmatch b s c k end
  | Star a =>
      (fix loop n s c :=
         match n with
         | 0 => k s c
         | S n =>
             match rmatch a s c (fun s' c' => if length s' <? length s then loop n s' c' else None) with
             | Some x => Some x
             | None => k s c
             end
         end) (length s) s c
  | Grp i a => rmatch a s c (fun s' c' => k s' (set_cap i (firstn (length s - length s') s) c'))
  end.
(** external: boost::regex_search, with what follows the match. *)
Fixpoint rsearch (r : re) (s : text) : option (caps * text) :=
  match rmatch r s no_caps (fun s' c' => Some (c', s')) with
  | Some x => Some x
  | None => match s with [] => None | _ :: s' => rsearch r s' end
  end.

Definition is_char (x : ascii) (y : ascii) : bool := Ascii.eqb x y.
Definition in_range (a b : ascii) (x : ascii) : bool :=
  (nat_of_ascii a <=? nat_of_ascii x) && (nat_of_ascii x <=? nat_of_ascii b).
Definition is_digit := in_range "0" "9".
Definition lit (x : ascii) : re := Chr (is_char x).
(** trajectory.cpp:35 [-0-9]+\.[0-9]* *)
Definition float_char (x : ascii) : bool := is_char "-" x || is_digit x.
Definition float_re : re := Cat (Plus (Chr float_char)) (Cat (lit ".") (Star (Chr is_digit))).
(** trajectory.cpp:40 [a-zA-z_0-9]: the range A-z also holds the characters between Z and a *)
Definition frame_char (x : ascii) : bool :=
  in_range "a" "z" x || in_range "A" "z" x || is_char "_" x || is_digit x.
(** trajectory.cpp:41-42 *)
Definition header_re : re :=
  Cat (lit "(") (Cat (Grp 1 (Plus (Chr is_digit))) (Cat (lit ",") (Cat (lit "(")
  (Cat (Grp 2 float_re) (Cat (lit ",") (Cat (Grp 3 float_re) (Cat (lit ")") (Cat (lit ",")
  (Cat (Grp 4 (Star (Chr frame_char))) (Cat (lit ")") (Cat (lit ",") (lit "(")))))))))))).
(** trajectory.cpp:45-46 *)
Definition name_char (x : ascii) : bool :=
  in_range "a" "z" x || in_range "A" "Z" x || is_digit x || is_char "_" x.
Definition sep_char (x : ascii) : bool := is_char "," x || is_char ")" x.
Definition list_of_jn_re : re := Cat (Grp 1 (Plus (Chr name_char))) (Grp 2 (Chr sep_char)).
(** trajectory.cpp:49-50 ([-0-9]+\.[0-9]*+)|(?:)(\,|\)).  The alternative has the lowest precedence.
    The repetition *+ does not backtrack; nothing follows it in its alternative. *)
Definition list_of_pv_re : re := Alt (Grp 1 float_re) (Cat Eps (Grp 2 (Chr sep_char))).
(** trajectory.cpp:51-56 *)
Definition bg_pt_re : re := lit "(".
Definition end_pt_re : re := lit ")".
Definition comma_pt_re : re := Cat (lit ",") (lit "(").
Definition bg_liste_of_pts_re : re := Cat (lit ",") (lit "(").

Section TrajText.
Variable num : Type.
Variable value : text -> num.

(** trajectory.hh:107-137, 176-187 *)
Record jpoint := mkJp { jp_pos : list num; jp_vel : list num; jp_acc : list num; jp_eff : list num }.
Record ttraj := mkTt { tt_seq : Z; tt_stamp : stamp; tt_frame : text; tt_names : list text; tt_points : list jpoint }.
(** trajectory.cpp:284, trajectory.hh:112 *)
Definition tt_new : ttraj := mkTt 0 (0, 0)%Z (txt "initial_trajectory") [] [].

(** trajectory.cpp:67-97 search_exp_sub_string: [None] leaves the text as it is. *)
Definition search_exp (r : re) (t : text) : option (caps * text) := rsearch r t.

(** Digits of a text, for the integer extractions of Traj_Model. *)
Definition as_digit (x : ascii) : option nat :=
  if is_digit x then Some (nat_of_ascii x - nat_of_ascii "0") else None.

(** trajectory.cpp:99-124 parse_header; the extractions are those of Traj_Model *)
Definition parse_head (tr : ttraj) (t : text) : ttraj * text :=
  match search_exp header_re t with
  | None => (tr, t)
  | Some (c, rest) =>
      let '(sq, st) := parse_header (map as_digit (c 1)) (map as_digit (c 2)) (map as_digit (c 3))
                         (tt_seq tr, tt_stamp tr) in
      (mkTt sq st (c 4) (tt_names tr) (tt_points tr), rest)
  end.

(** How a loop ends; [Loops]: it never does. *)
Inductive ending (A : Type) := Ended (a : A) | Loops | Fuel.
Arguments Ended {A}. Arguments Loops {A}. Arguments Fuel {A}.

(** trajectory.cpp:126-152 parse_joint_names: without a match nothing changes and the loop goes on *)
Fixpoint parse_joint_names (n : nat) (t : text) (acc : list text) : ending (list text * text) :=
  match n with
  | 0 => Fuel
  | S n =>
      match search_exp list_of_jn_re t with
      | None => Loops
      | Some (c, rest) =>
          if list_eq_dec ascii_dec (c 2) (txt ")") then Ended (acc ++ [c 1], rest)
          else parse_joint_names n rest (acc ++ [c 1])
      end
  end.

(** trajectory.cpp:154-194 parse_seq: what.size() is always three *)
Fixpoint parse_seq (n : nat) (t : text) (acc : list num) : ending (list num * text) :=
  match n with
  | 0 => Fuel
  | S n =>
      match search_exp list_of_pv_re t with
      | None => Ended (acc, t)
      | Some (c, rest) =>
          let acc := match c 1 with [] => acc | v => acc ++ [value v] end in
          if list_eq_dec ascii_dec (c 2) (txt ")") then Ended (acc, rest) else parse_seq n rest acc
      end
  end.
Definition pseq (t : text) : ending (list num * text) := parse_seq (S (length t)) t [].

(** trajectory.cpp:196-231 parse_point; [Ended None]: it returned false *)
Definition ebind {A B} (e : ending A) (f : A -> ending B) : ending B :=
  match e with Ended a => f a | Loops => Loops | Fuel => Fuel end.
Definition parse_point (t : text) : ending (option (jpoint * text)) :=
  match search_exp bg_pt_re t with
  | None => Ended None
  | Some (_, t) =>
      ebind (pseq t) (fun '(p, t) =>
      match search_exp comma_pt_re t with
      | None => Ended None
      | Some (_, t) =>
          ebind (pseq t) (fun '(v, t) =>
          match search_exp comma_pt_re t with
          | None => Ended None
          | Some (_, t) =>
              ebind (pseq t) (fun '(a, t) =>
              match search_exp comma_pt_re t with
              | None => Ended None
              | Some (_, t) => ebind (pseq t) (fun '(e, t) => Ended (Some (mkJp p v a e, t)))
              end)
          end)
      end)
  end.

(** trajectory.cpp:233-266 parse_points: the loop; the points pushed.  [what[1]] is compared with the
    closing parenthesis (lines 259-261): it is the number of list_of_pv_re, never a parenthesis, so the loop goes on until a search
    fails (points_end_unused in TrajText_Props). *)
Fixpoint points_loop (n : nat) (t : text) (acc : list jpoint) : ending (list jpoint) :=
  match n with
  | 0 => Fuel
  | S n =>
      match search_exp bg_pt_re t with
      | None => Ended acc
      | Some (_, t) =>
          ebind (parse_point t) (fun o =>
          match o with
          | None => Ended acc
          | Some (p, t) =>
              let acc := acc ++ [p] in
              match search_exp end_pt_re t with
              | None => Ended acc
              | Some (_, t) =>
                  match search_exp list_of_pv_re t with
                  | None => Ended acc
                  | Some (c, t) =>
                      if list_eq_dec ascii_dec (c 1) (txt ")") then Ended acc else points_loop n t acc
                  end
              end
          end)
      end
  end.
Definition parse_points (t : text) (acc : list jpoint) : ending (list jpoint) :=
  match search_exp bg_liste_of_pts_re t with
  | None => Ended acc
  | Some (_, t) => points_loop (S (length t)) t acc
  end.

(** trajectory.cpp:268-282 parse_string and 294-300 deserialize: the trajectory given is filled *)
Definition deserialize (tr : ttraj) (t : text) : ending ttraj :=
  let '(tr, t) := parse_head tr t in
  ebind (parse_joint_names (S (length t)) t (tt_names tr)) (fun '(names, t) =>
  ebind (parse_points t (tt_points tr)) (fun pts =>
  Ended (mkTt (tt_seq tr) (tt_stamp tr) (tt_frame tr) names pts))).

(** trajectory.cpp:286-290 the copy constructor *)
Definition copy_traj (tr : ttraj) : ttraj := mkTt (tt_seq tr) (tt_stamp tr) (tt_frame tr) [] (tt_points tr).

End TrajText.
Arguments Ended {A}. Arguments Loops {A}. Arguments Fuel {A}.
Arguments mkJp {num}. Arguments mkTt {num}.
Arguments jp_pos {num}. Arguments jp_vel {num}. Arguments jp_acc {num}. Arguments jp_eff {num}.
Arguments tt_seq {num}. Arguments tt_stamp {num}. Arguments tt_frame {num}. Arguments tt_names {num}. Arguments tt_points {num}.
