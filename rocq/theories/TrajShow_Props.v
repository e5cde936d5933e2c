(** C140: what a trajectory, a point and a time stamp print of themselves. *)
From Coq Require Import String Ascii List Arith ZArith NArith QArith Bool Lia.
From Verif Require Import Base RefName_Model RefName_Props StackText_Model StackText_Props TrajShow_Model.
Import ListNotations.
Local Open Scope string_scope.
Local Open Scope list_scope.
Local Open Scope nat_scope.

Arguments mkSP {V}. Arguments s_pos {V}. Arguments s_vel {V}. Arguments s_acc {V}. Arguments s_eff {V}.
Arguments mkST {V}. Arguments s_joints {V}. Arguments s_points {V}.
Arguments transfer {V}. Arguments point_text {V}. Arguments traj_text {V}.

(** * Specification *)
Definition dashes : string := "---------".
(** The lines of a point: four sections, each a title, a rule and one line per value. *)
Definition point_lines {V} (pd : V -> string) (p : spoint V) : list string :=
  ["Positions"; dashes] ++ map pd (s_pos p) ++ ["Velocities"; dashes] ++ map pd (s_vel p) ++
  ["Accelerations"; dashes] ++ map pd (s_acc p) ++ ["Effort"; dashes] ++ map pd (s_eff p).
Definition joint_line (pn : nat -> string) (x : nat * string) : string := ("Joint(" ++ pn (fst x) ++ ")=" ++ snd x)%string.
Definition traj_lines {V} (pd : V -> string) (pn : nat -> string) (t : straj V) : list string :=
  ["-- Trajectory --"] ++ map (joint_line pn) (combine (seq 0 (length (s_joints t))) (s_joints t)) ++
  [(" Number of points: " ++ pn (length (s_points t)))%string] ++ concat (map (point_lines pd) (s_points t)) ++ [""].

(** * Texts *)
Lemma point_out {V} (pd : V -> string) p os : point_text pd p os = (os ++ point_text pd p "")%string.
Proof.
  unfold point_text. cbn [seq array_names combine fold_left fst snd chosen].
  repeat rewrite (emit_out _ _ (_ ++ _)%string). rewrite !app_s. reflexivity.
Qed.
Lemma values_lines {V} (pd : V -> string) l b : (forall v, flat (pd v)) ->
  cut_lines (emit (fun v => pd v ++ endl)%string l "" ++ b)%string = map pd l ++ cut_lines b.
Proof.
  intros H. rewrite (emit_lines (fun v => [pd v])).
  - f_equal. induction l as [|v l IH]; [reflexivity|]. cbn [map concat List.app]. now rewrite IH.
  - intros v c _. rewrite app_s, cut_line; [reflexivity|apply H].
Qed.
Lemma point_cut {V} (pd : V -> string) p b : (forall v, flat (pd v)) ->
  cut_lines (point_text pd p "" ++ b)%string = point_lines pd p ++ cut_lines b.
Proof.
  intros H. unfold point_text. cbn [seq array_names combine fold_left fst snd chosen].
  repeat rewrite (emit_out _ _ (_ ++ _)%string). rewrite !app_s. unfold point_lines.
  change ("" ++ ?x)%string with x.
  rewrite (cut_line "Positions"), (cut_line "---------"), values_lines by (auto; reflexivity).
  rewrite (cut_line "Velocities"), (cut_line "---------"), values_lines by (auto; reflexivity).
  rewrite (cut_line "Accelerations"), (cut_line "---------"), values_lines by (auto; reflexivity).
  rewrite (cut_line "Effort"), (cut_line "---------"), values_lines by (auto; reflexivity).
  rewrite <- !app_assoc. reflexivity.
Qed.
Lemma points_cut {V} (pd : V -> string) l : forall os, (forall v, flat (pd v)) ->
  exists r, fold_left (fun os p => point_text pd p os) l os = (os ++ r)%string /\
            cut_lines r = concat (map (point_lines pd) l) ++ [""].
Proof.
  induction l as [|p l IH]; intros os H.
  - exists "". split; [|reflexivity]. cbn. induction os as [|c os I]; [reflexivity|]. cbn. now rewrite <- I.
  - cbn [fold_left]. rewrite point_out. destruct (IH (os ++ point_text pd p "")%string H) as (r & E & C).
    exists (point_text pd p "" ++ r)%string. split; [now rewrite E, app_s|].
    rewrite point_cut, C by exact H. cbn [map concat]. now rewrite app_assoc.
Qed.
Lemma joints_cut (pn : nat -> string) l : forall k os, (forall n, flat (pn n)) -> (forall n, In n l -> flat n) ->
  exists r, joints_text pn l k os = (os ++ r)%string /\
            forall b, cut_lines (r ++ b)%string = map (joint_line pn) (combine (seq k (length l)) l) ++ cut_lines b.
Proof.
  induction l as [|n l IH]; intros k os Hn H.
  - exists "". split; [|reflexivity]. cbn. induction os as [|c os I]; [reflexivity|]. cbn. now rewrite <- I.
  - cbn [joints_text]. destruct (IH (S k) (os ++ "Joint(" ++ pn k ++ ")=" ++ n ++ endl)%string Hn) as (r & E & C); [intros; apply H; now right|].
    exists (("Joint(" ++ pn k ++ ")=" ++ n ++ endl) ++ r)%string. split; [now rewrite E, app_s|]. intros b.
    cbn [length seq combine map]. unfold joint_line at 1. cbn [fst snd].
    replace ((("Joint(" ++ pn k ++ ")=" ++ n ++ endl) ++ r) ++ b)%string
      with (("Joint(" ++ pn k ++ ")=" ++ n) ++ endl ++ (r ++ b))%string by now rewrite !app_s.
    rewrite cut_line, C; [reflexivity|].
    apply flat_app; [reflexivity|]. apply flat_app; [apply Hn|]. apply flat_app; [reflexivity|]. apply H. now left.
Qed.

(** The text of a trajectory, line by line: a heading, the joints in order with their index, the number of points, then
    each point in order. *)
Theorem trajectory_text_lines {V} (pd : V -> string) (pn : nat -> string) t :
  (forall v, flat (pd v)) -> (forall n, flat (pn n)) -> (forall n, In n (s_joints t) -> flat n) ->
  cut_lines (traj_text pd pn t) = traj_lines pd pn t.
Proof.
  intros Hd Hn Hj. unfold traj_text, traj_lines.
  destruct (joints_cut pn (s_joints t) 0 ("-- Trajectory --" ++ endl)%string Hn Hj) as (r & -> & C).
  destruct (points_cut pd (s_points t) ((("-- Trajectory --" ++ endl) ++ r) ++ " Number of points: " ++ pn (length (s_points t)) ++ endl)%string Hd)
    as (r' & -> & C').
  rewrite !app_s. rewrite cut_line by reflexivity. rewrite C. rewrite <- (app_s " Number of points: ").
  rewrite cut_line by (apply flat_app; [reflexivity|apply Hn]). rewrite C'. reflexivity.
Qed.

(** * What the text determines *)
Lemma sapp_inj (a b c : string) : (a ++ b)%string = (a ++ c)%string -> b = c.
Proof. induction a as [|x a IH]; [auto|]. cbn. intros E. injection E. exact IH. Qed.
Lemma until {V} (pd : V -> string) (m : string) : (forall v, pd v <> m) -> (forall v w, pd v = pd w -> v = w) ->
  forall l l' a b, map pd l ++ m :: a = map pd l' ++ m :: b -> l = l' /\ a = b.
Proof.
  intros Hm Hi. induction l as [|v l IH]; intros [|w l'] a b E; cbn [map List.app] in E.
  - injection E. auto.
  - exfalso. assert (X : m = pd w) by congruence. now apply (Hm w).
  - exfalso. assert (X : pd v = m) by congruence. now apply (Hm v).
  - assert (X : pd v = pd w) by congruence. assert (Y : map pd l ++ m :: a = map pd l' ++ m :: b) by congruence.
    apply IH in Y. apply Hi in X. destruct Y. subst. auto.
Qed.
Lemma heads (pn : nat -> string) (m : string) : (forall x, joint_line pn x <> m) ->
  forall l l' k a b, map (joint_line pn) (combine (seq k (length l)) l) ++ m :: a =
                     map (joint_line pn) (combine (seq k (length l')) l') ++ m :: b -> l = l' /\ a = b.
Proof.
  intros Hm. induction l as [|v l IH]; intros [|w l'] k a b E; cbn [length seq combine map List.app] in E.
  - split; [reflexivity|congruence].
  - exfalso. apply (Hm (k, w)). congruence.
  - exfalso. apply (Hm (k, v)). congruence.
  - assert (X : joint_line pn (k, v) = joint_line pn (k, w)) by congruence.
    unfold joint_line in X. cbn [fst snd] in X. do 3 apply sapp_inj in X. subst w.
    match type of E with _ :: ?p = _ :: ?q => assert (Y : p = q) by congruence end.
    apply IH in Y. destruct Y. subst. auto.
Qed.
Definition lines_of {V} (pd : V -> string) (p : spoint V) : list string := Eval unfold point_lines in point_lines pd p.
Definition titles : list string := ["Positions"; "Velocities"; "Accelerations"; "Effort"; ""].
Lemma points_det {V} (pd : V -> string) : (forall v, ~ In (pd v) titles) -> (forall v w, pd v = pd w -> v = w) ->
  forall l l', concat (map (point_lines pd) l) ++ [""] = concat (map (point_lines pd) l') ++ [""] -> l = l'.
Proof.
  intros Ht Hi.
  assert (N : forall m, In m titles -> forall v, pd v <> m) by (intros m Hm v E; apply (Ht v); now rewrite E).
  assert (F : forall l, exists m a, In m titles /\ concat (map (point_lines pd) l) ++ [""] = m :: a /\
                        m = match l with [] => "" | _ => "Positions" end).
  { intros [|p l]; [exists "", []|exists "Positions"; eexists]; (split; [cbn; auto 10|split; reflexivity]). }
  induction l as [|p l IH]; intros [|q l'] E; [reflexivity|discriminate E|discriminate E|].
  cbn [map concat] in E. rewrite <- !app_assoc in E.
  change (point_lines pd p) with (lines_of pd p) in E. change (point_lines pd q) with (lines_of pd q) in E.
  unfold lines_of in E. rewrite <- !app_assoc in E. cbn [List.app] in E.
  assert (E1 := f_equal (@tl string) (f_equal (@tl string) E)). cbn [tl] in E1. clear E.
  apply (until pd _ (N "Velocities" ltac:(cbn; auto 10)) Hi) in E1. destruct E1 as [P E].
  apply (f_equal (@tl string)) in E. cbn [tl] in E.
  apply (until pd _ (N "Accelerations" ltac:(cbn; auto 10)) Hi) in E. destruct E as [Q E].
  apply (f_equal (@tl string)) in E. cbn [tl] in E.
  apply (until pd _ (N "Effort" ltac:(cbn; auto 10)) Hi) in E. destruct E as [R E].
  apply (f_equal (@tl string)) in E. cbn [tl] in E.
  destruct (F l) as (m & a & Hm & Ea & Em), (F l') as (m' & a' & Hm' & Ea' & Em').
  assert (K : m = m').
  { (* the first line after the values that is a title *)
    rewrite Ea, Ea' in E. clear - E Hm Hm' N. revert E. generalize (s_eff p) (s_eff q).
    induction l as [|v x I]; intros [|w y] E; cbn [map List.app] in E.
    - congruence.
    - exfalso. apply (N m Hm w). congruence.
    - exfalso. apply (N m' Hm' v). congruence.
    - apply (I y). congruence. }
  subst m'. rewrite Ea, Ea', <- K in E. apply (until pd _ (N m Hm) Hi) in E. destruct E as [S E].
  f_equal.
  - destruct p, q. cbn in *. now subst.
  - apply IH. rewrite Ea, Ea'. congruence.
Qed.
(** The text determines the trajectory's joints and points, when the numbers print on one line, distinctly, and as no title. *)
Theorem trajectory_text_determines {V} (pd : V -> string) (pn : nat -> string) t t' :
  (forall v, flat (pd v)) -> (forall n, flat (pn n)) ->
  (forall n, In n (s_joints t) -> flat n) -> (forall n, In n (s_joints t') -> flat n) ->
  (forall v, ~ In (pd v) titles) -> (forall v w, pd v = pd w -> v = w) -> (forall n m, pn n = pn m -> n = m) ->
  traj_text pd pn t = traj_text pd pn t' -> t = t'.
Proof.
  intros Hd Hn Hj Hj' Ht Hi Hk E. apply (f_equal cut_lines) in E. rewrite !trajectory_text_lines in E by assumption.
  unfold traj_lines in E. cbn [List.app] in E. apply (f_equal (@tl string)) in E. cbn [tl] in E.
  set (m := (" Number of points: " ++ pn (length (s_points t)))%string) in E.
  set (m' := (" Number of points: " ++ pn (length (s_points t')))%string) in E.
  assert (J : forall k x, joint_line pn x <> (" Number of points: " ++ pn k)%string) by (intros k x X; discriminate X).
  assert (M : m = m').
  { revert E. generalize 0 (s_joints t) (s_joints t'). intros k l. revert k.
    induction l as [|v x I]; intros k [|w y] E; cbn [length seq combine map List.app] in E.
    - congruence.
    - exfalso. apply (J (length (s_points t)) (k, w)). fold m. congruence.
    - exfalso. apply (J (length (s_points t')) (k, v)). fold m'. congruence.
    - apply (I (S k) y). congruence. }
  rewrite <- M in E. apply (heads pn m (J _)) in E. destruct E as [A B].
  apply (points_det pd Ht Hi) in B. destruct t, t'. cbn in *. now subst.
Qed.

(** * Filling a point *)
(** Filling the four vectors in any order that names each of them leaves exactly these vectors; each fill leaves the others. *)
Theorem transfer_sets {V} (p : spoint V) src k :
  k < 4 ->
  nth k [s_pos (transfer p src k); s_vel (transfer p src k); s_acc (transfer p src k); s_eff (transfer p src k)] [] = src /\
  (forall j, j <> k ->
     nth j [s_pos (transfer p src k); s_vel (transfer p src k); s_acc (transfer p src k); s_eff (transfer p src k)] [] =
     nth j [s_pos p; s_vel p; s_acc p; s_eff p] []).
Proof.
  intros H. destruct k as [|[|[|[|k]]]]; [| | | |lia]; (split; [reflexivity|]); intros [|[|[|[|j]]]] D; try reflexivity; contradiction.
Qed.
(** After any sequence of fills each vector is the last one sent to its index, or the first one if none was. *)
Definition last_sent {V} (k : nat) (l : list (nat * list V)) (d : list V) : list V :=
  match find (fun x => fst x =? k) (rev l) with Some x => snd x | None => d end.
Theorem transfers_last {V} (l : list (nat * list V)) (p : spoint V) :
  fold_left (fun p x => transfer p (snd x) (fst x)) l p =
  mkSP (last_sent 0 l (s_pos p)) (last_sent 1 l (s_vel p)) (last_sent 2 l (s_acc p)) (last_sent 3 l (s_eff p)).
Proof.
  induction l as [|x l IH] using rev_ind; [destruct p; reflexivity|].
  rewrite fold_left_app. cbn [fold_left]. rewrite IH. unfold last_sent. rewrite rev_app_distr. cbn [rev List.app find].
  destruct x as [[|[|[|[|k]]]] v]; reflexivity.
Qed.

(** * Time stamps *)
(** Two stamps are equal exactly when both fields are. *)
Theorem stamp_equal a b : stamp_eqb a b = true <-> a = b.
Proof.
  unfold stamp_eqb. destruct a as [s n], b as [s' n']. cbn [secs nsecs].
  destruct (N.eqb_spec s s'), (N.eqb_spec n n'); cbn; split; intros H; congruence.
Qed.
(** The number of seconds a stamp stands for. *)
Definition stamp_seconds (t : tstamp) : Q := (inject_Z (Z.of_N (secs t)) + (1 # 1000000000) * inject_Z (Z.of_N (nsecs t)))%Q.
(** The printed number is the stamp's time in seconds only when the stamp is a whole number of seconds. *)
Theorem stamp_shown_exact t : (stamp_shown t == stamp_seconds t)%Q <-> nsecs t = 0%N.
Proof.
  unfold stamp_shown, stamp_seconds. destruct t as [s n]. cbn [secs nsecs]. unfold Qeq, Qplus, Qmult, inject_Z. cbn [Qnum Qden].
  split; intros H; [|subst n]; rewrite ?Pos2Z.inj_mul in *; lia.
Qed.
(** Stamps of less than a second each can print the same as a later one, and out of order. *)
Theorem stamp_shown_distinct_refuted : exists a b, (nsecs a < 1000000000)%N /\ (nsecs b < 1000000000)%N /\
  stamp_eqb a b = false /\ (stamp_shown a == stamp_shown b)%Q.
Proof. exists (mkTS 1 0), (mkTS 0 1000000). repeat split; reflexivity. Qed.
Theorem stamp_shown_order_refuted : exists a b, (nsecs a < 1000000000)%N /\ (nsecs b < 1000000000)%N /\
  (stamp_seconds a < stamp_seconds b)%Q /\ (stamp_shown b < stamp_shown a)%Q.
Proof. exists (mkTS 0 2000000), (mkTS 1 0). repeat split; reflexivity. Qed.

(** * Cases *)
Definition pb (b : bool) : string := if b then "1" else "0".
Fixpoint pu (n : nat) : string := match n with 0 => "" | S k => ("|" ++ pu k)%string end.
Example trajectory_text_case :
  cut_lines (traj_text pb pu (mkST ["hip"; "knee"] [mkSP [true; false] [] [true] []])) =
  ["-- Trajectory --"; "Joint()=hip"; "Joint(|)=knee"; " Number of points: |"; "Positions"; "---------"; "1"; "0";
   "Velocities"; "---------"; "Accelerations"; "---------"; "1"; "Effort"; "---------"; ""].
Proof. reflexivity. Qed.
Example trajectory_text_hypotheses :
  (forall v, flat (pb v)) /\ (forall n, flat (pu n)) /\ (forall v, ~ In (pb v) titles) /\
  (forall v w, pb v = pb w -> v = w) /\ (forall n m, pu n = pu m -> n = m).
Proof.
  split; [intros []; reflexivity|]. split; [induction n as [|n IH]; [reflexivity|exact IH]|].
  split; [intros [] H; cbn in H; repeat (destruct H as [H|H]; [discriminate H|]); exact H|].
  split; [intros [] []; (reflexivity || discriminate)|].
  induction n as [|n IH]; intros [|m] E; try discriminate; [reflexivity|]. cbn in E. f_equal. apply IH. congruence.
Qed.
Example transfers_case :
  fold_left (fun p x => transfer p (snd x) (fst x)) [(0, [1]); (2, [2]); (0, [3])] (mkSP [] [7] [] [8]) = mkSP [3] [7] [2] [8].
Proof. reflexivity. Qed.

Print Assumptions trajectory_text_lines.
Print Assumptions trajectory_text_determines.
Print Assumptions transfer_sets.
Print Assumptions transfers_last.
Print Assumptions stamp_equal.
Print Assumptions stamp_shown_exact.
Print Assumptions stamp_shown_distinct_refuted.
Print Assumptions stamp_shown_order_refuted.
