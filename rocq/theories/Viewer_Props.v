(** addRobotViewer (C116). *)
From Coq Require Import String List Arith Lia Bool.
From Verif Require Import Base Viewer_Model.
Import ListNotations.
Local Open Scope string_scope.
Local Open Scope list_scope.

Section Props.
Variables num arg : Type.
Variable zero : num.
Variables inc0 set0 : list num -> arg -> list num.
Notation robot := (robot num).
Notation add := (addRobotViewer num zero).
Notation run := (ofold (ucall_exec num arg zero inc0 set0)).

(** ** Specification: what the original methods do *)
Definition original (s : list num) (u : ucall arg) : list num :=
  match u with CInc _ a => inc0 s a | CSet _ a => set0 s a end.
(** The states the robot goes through, the first one excluded. *)
Fixpoint states (s : list num) (l : list (ucall arg)) : list (list num) :=
  match l with [] => [] | u :: l => original s u :: states (original s u) l end.

Definition received (r : robot) : list (message num) :=
  match view _ r with Client _ _ got => got | _ => [] end.

(** The viewer is there: the calls do what they did before, and every new state is sent, once, in
    order, under one name, followed by the zeros asked for. *)
Definition connected (k : nat) (c : class) (r : robot) : Prop :=
  c = Class IncrementView (Some Inc0) SetView (Some Set0) true (Some k) /\
  (exists got, view _ r = Client _ false got) /\ exists l, displayList _ r = Some l.

Lemma connected_call limit k c r u : 2 <= limit -> connected k c r ->
  exists r', ucall_exec num arg zero inc0 set0 limit c r u = Ok r' /\ connected k c r' /\
    rname _ r' = rname _ r /\ state _ r' = original (state _ r) u /\
    received r' = received r ++ [(element_name (rname _ r), original (state _ r) u ++ repeat zero k)].
Proof.
  intros HL (-> & (got & V) & (dl & D)). destruct limit as [|[|n]]; try lia.
  destruct r as [nm st v d]; simpl in V, D; subst. unfold ucall_exec.
  destruct u; cbn; eexists; (split; [reflexivity|]); cbn; (split; [|auto]);
    (split; [reflexivity|]); cbn; eauto.
Qed.

Theorem viewer_sees_every_state (limit : nat) (small : option nat) (dorefresh : bool) (r r1 : robot) (c : class) (l : list (ucall arg)) :
  2 <= limit -> add true (Some false) small dorefresh class0 r = (c, r1) ->
  let zeros := repeat zero (match small with Some k => k | None => 0 end) in
  exists r', ofold (fun r u => ucall_exec num arg zero inc0 set0 limit c r u) l r1 = Ok r' /\
    state _ r' = fold_left original l (state _ r) /\
    exists name, received r' = map (fun s => (name, s ++ zeros))
                  ((if dorefresh then [state _ r] else []) ++ states (state _ r) l).
Proof.
  intros HL E. cbn zeta. set (k := match small with Some k => k | None => 0 end).
  assert (C1 : connected k c r1 /\ state _ r1 = state _ r /\ rname _ r1 = rname _ r /\
    received r1 = map (fun s => (element_name (rname _ r), s ++ repeat zero k)) (if dorefresh then [state _ r] else [])).
  { unfold addRobotViewer in E. cbn in E. destruct dorefresh; cbn in E; injection E as <- <-; cbn; repeat split; cbn; eauto. }
  destruct C1 as (C1 & S1 & N1 & G1). clear E.
  cut (forall l r1, connected k c r1 -> rname _ r1 = rname _ r ->
    exists r', ofold (fun r u => ucall_exec num arg zero inc0 set0 limit c r u) l r1 = Ok r' /\
      state _ r' = fold_left original l (state _ r1) /\
      received r' = received r1 ++ map (fun s => (element_name (rname _ r), s ++ repeat zero k)) (states (state _ r1) l)).
  { intros H. destruct (H l r1 C1 N1) as (r' & E & S' & G). exists r'. split; [exact E|]. rewrite S1 in *. split; [exact S'|].
    exists (element_name (rname _ r)). rewrite G, G1, map_app. reflexivity. }
  clear - HL. induction l as [|u l IH]; intros r1 C1 N1; simpl.
  - exists r1. rewrite app_nil_r. auto.
  - destruct (connected_call limit k c r1 u HL C1) as (r2 & E & C2 & N2 & S2 & G2). rewrite E. simpl.
    destruct (IH r2 C2 ltac:(congruence)) as (r' & E' & S' & G'). exists r'. split; [exact E'|].
    rewrite S2 in *. split; [exact S'|]. rewrite G', G2, N1, <- app_assoc. reflexivity.
Qed.

(** The viewer is missing: its module is not found, its server is not reached, or it fails on the
    first message.  The calls do what they did before. *)
Theorem viewer_missing (limit : nat) (import : bool) (client : option bool) (small : option nat) (dorefresh : bool)
  (r r1 : robot) (c : class) (l : list (ucall arg)) :
  2 <= limit -> import = false \/ client = None \/ (client = Some true /\ dorefresh = true) ->
  add import client small dorefresh class0 r = (c, r1) ->
  exists r', ofold (fun r u => ucall_exec num arg zero inc0 set0 limit c r u) l r1 = Ok r' /\
    state _ r' = fold_left original l (state _ r) /\ received r' = [].
Proof.
  intros HL Hm E.
  assert (C : state _ r1 = state _ r /\ view _ r1 = Faked _ /\
    ((increment c = Inc0 /\ set_ c = Set0) \/
     (exists k, c = Class IncrementView (Some Inc0) SetView (Some Set0) true (Some k)) /\ exists dl, displayList _ r1 = Some dl)).
  { unfold addRobotViewer in E. destruct import; cbn in E; [|injection E as <- <-; cbn; auto].
    destruct client as [[|]|]; cbn in E.
    - destruct dorefresh; cbn in E.
      + injection E as <- <-; cbn. split; [reflexivity|]. split; [reflexivity|]. right. split; eauto.
      + exfalso. destruct Hm as [?|[?|[_ ?]]]; discriminate.
    - exfalso. destruct Hm as [?|[?|[? _]]]; discriminate.
    - injection E as <- <-; cbn; auto. }
  destruct C as (S1 & V1 & C). rewrite <- S1. clear E S1 Hm.
  revert r1 V1 C. induction l as [|u l IH]; intros r1 V1 C; simpl.
  - exists r1. unfold received. rewrite V1. auto.
  - assert (X : exists r2, ucall_exec num arg zero inc0 set0 limit c r1 u = Ok r2 /\ state _ r2 = original (state _ r1) u /\
      view _ r2 = Faked _ /\ ((increment c = Inc0 /\ set_ c = Set0) \/
       (exists k, c = Class IncrementView (Some Inc0) SetView (Some Set0) true (Some k)) /\ exists dl, displayList _ r2 = Some dl)).
    { destruct limit as [|[|n]]; try lia. destruct r1 as [nm st v d]; cbn in V1; subst v. destruct C as [(A & B)|((k & ->) & (dl & D))].
      - unfold ucall_exec. rewrite A, B. destruct u; cbn; eexists; (split; [reflexivity|]); cbn; auto.
      - cbn in D. subst d. unfold ucall_exec. destruct u; cbn; eexists; (split; [reflexivity|]); cbn;
          (split; [reflexivity|]); (split; [reflexivity|]); right; split; eauto. }
    destruct X as (r2 & E & S2 & V2 & C2). rewrite E. simpl. rewrite <- S2. apply IH; assumption.
Qed.

(** When the module or the server is missing, the class is left as it was, whatever it was, except the number of values
    added for a small robot. *)
Theorem viewer_missing_class (import : bool) (client : option bool) (small : option nat) (dorefresh : bool) (r r1 : robot) (c0 c : class) :
  import = false \/ client = None -> add import client small dorefresh c0 r = (c, r1) ->
  increment c = increment c0 /\ incrementNoView c = incrementNoView c0 /\ set_ c = set_ c0 /\ setNoView c = setNoView c0 /\
  refresh c = refresh c0 /\ (import = false -> c = c0) /\
  rname _ r1 = rname _ r /\ state _ r1 = state _ r /\ displayList _ r1 = displayList _ r.
Proof.
  intros H E. unfold addRobotViewer in E. destruct import; cbn in E.
  - destruct H as [H|H]; [discriminate|]. subst client. injection E as <- <-. cbn. repeat split. discriminate.
  - injection E as <- <-. cbn. repeat split.
Qed.

(** Wanted: the viewer can be added again, or added to a second robot of the class.  After that
    every call raises RecursionError, whatever the limit, and nothing is done. *)
Theorem viewer_twice_refuted (f1 f2 : bool) (s1 s2 : option nat) (d1 d2 : bool) (r1 r2 r1' r2' : robot) (c1 c2 : class) :
  add true (Some f1) s1 d1 class0 r1 = (c1, r1') -> add true (Some f2) s2 d2 c1 r2 = (c2, r2') ->
  forall limit r u, ucall_exec num arg zero inc0 set0 limit c2 r u = Throw "RecursionError".
Proof.
  intros E1 E2.
  assert (C : increment c2 = IncrementView /\ incrementNoView c2 = Some IncrementView /\ set_ c2 = SetView /\ setNoView c2 = Some SetView).
  { unfold addRobotViewer in E1, E2. cbn in E1, E2.
    assert (Q : increment c1 = IncrementView /\ set_ c1 = SetView).
    { destruct d1, f1; injection E1 as <- _; auto. }
    destruct Q as (Q1 & Q2). rewrite Q1, Q2 in E2.
    destruct d2, f2; injection E2 as <- _; cbn; auto. }
  destruct C as (A & B & C & D). intros limit r u. unfold ucall_exec.
  assert (X : forall n a, call num arg zero inc0 set0 n c2 IncrementView r a = (r, Throw "RecursionError")).
  { induction n; intros a; cbn; [reflexivity|]. rewrite B, IHn. reflexivity. }
  assert (Y : forall n a, call num arg zero inc0 set0 n c2 SetView r a = (r, Throw "RecursionError")).
  { induction n; intros a; cbn; [reflexivity|]. rewrite D, IHn. reflexivity. }
  destruct u; [rewrite A, X|rewrite C, Y]; reflexivity.
Qed.

(** A robot of the same class that has no viewer moves, then raises an exception. *)
Theorem viewer_other_robot_refuted (s : option nat) (d : bool) (r1 r1' r : robot) (c : class) limit a :
  2 <= limit -> add true (Some false) s d class0 r1 = (c, r1') -> view _ r = NoViewer _ ->
  exists r' w, call num arg zero inc0 set0 limit c (increment c) r a = (r', Throw w) /\ state _ r' = inc0 (state _ r) a.
Proof.
  intros HL E V. destruct limit as [|[|n]]; try lia. destruct r as [nm st v dl]; cbn in V; subst v.
  unfold addRobotViewer in E. cbn in E. destruct d; cbn in E; injection E as <- _; cbn; do 2 eexists; split; reflexivity.
Qed.
End Props.

(** The name given to the viewer: wanted is "hrp" for "robot" and "robot_device". *)
Theorem viewer_name_partial (n : string) :
  element_name "robot_device" = "hrp" /\ (n <> "robot" -> n <> "robot_device" -> element_name n = n).
Proof.
  split; [reflexivity|]. intros H1 H2. unfold element_name.
  destruct (String.eqb_spec n "robot_device"); [contradiction|reflexivity].
Qed.
(* Missing: "robot". *)
Theorem viewer_name_refuted : element_name "robot" = "robot".
Proof. reflexivity. Qed.

Example viewer_case :
  let add := addRobotViewer nat 0 in
  let '(c, r1) := add true (Some false) (Some 2) true class0 (Robot nat "robot_device" [1; 2] (NoViewer _) None) in
  exists r', ofold (fun r u => ucall_exec nat nat 0 (fun s a => map (Nat.add a) s) (fun s a => [a]) 5 c r u) [CInc _ 3; CSet _ 7] r1 = Ok r' /\
    received nat r' = [("hrp", [1; 2; 0; 0]); ("hrp", [4; 5; 0; 0]); ("hrp", [7; 0; 0])].
Proof. cbn. eexists. split; reflexivity. Qed.

Print Assumptions viewer_sees_every_state.
Print Assumptions viewer_missing.
Print Assumptions viewer_twice_refuted.
Print Assumptions viewer_other_robot_refuted.
Print Assumptions viewer_name_partial.
Print Assumptions viewer_name_refuted.
Print Assumptions viewer_missing_class.
