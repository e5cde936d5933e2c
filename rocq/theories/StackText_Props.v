(** What a stack and a task print of themselves (C125). *)
From Coq Require Import String Ascii List Arith Lia ZArith Bool Relations.
From Verif Require Import Base Pool_Model Deps_Model RefName_Model RefName_Props Stack_Model Task_Model StackText_Model.
Import ListNotations.
Local Open Scope nat_scope.
Local Open Scope string_scope.
Local Open Scope list_scope.

(** * Specification *)
(** A text on one line. *)
Definition flat (s : string) : Prop := count (ascii_of_nat 10) s = 0.
(** The pairs of neighbours of a list. *)
Definition neighbours {A} (l : list A) : list (A * A) := combine l (tl l).
(** Some occurrence of [a] comes before some occurrence of [b]. *)
Definition before {A} (l : list A) (a b : A) : Prop := exists u v w, l = u ++ a :: v ++ b :: w.
Definition bar := "+-----------------".
Definition indent (n : nat) : string := Nat.iter n (fun s => (tb ++ s)%string) "".
Definition quoted (s : string) : string := (qt ++ s ++ qt)%string.
Definition edge_line (k : nat) (a b attrs : string) : string := (indent k ++ quoted a ++ " -> " ++ quoted b ++ attrs)%string.

(** * Lines of a loop *)
Lemma emit_out {A} (f : A -> string) l : forall os, emit f l os = (os ++ emit f l "")%string.
Proof.
  unfold emit. induction l as [|a l IH]; intros os; cbn [fold_left]; [induction os; cbn; congruence|].
  rewrite IH, (IH ("" ++ f a)%string). now rewrite app_s.
Qed.
Lemma emit_cons {A} (f : A -> string) a l b : (emit f (a :: l) "" ++ b = f a ++ emit f l "" ++ b)%string.
Proof. unfold emit at 1. cbn [fold_left]. change (fold_left _ l ?x) with (emit f l x). rewrite emit_out, app_s. reflexivity. Qed.
Lemma emit_lines {A} (g : A -> list string) (f : A -> string) l b :
  (forall a c, In a l -> cut_lines (f a ++ c)%string = g a ++ cut_lines c) ->
  cut_lines (emit f l "" ++ b)%string = concat (map g l) ++ cut_lines b.
Proof.
  induction l as [|a l IH]; intros H; [reflexivity|]. rewrite emit_cons, H by now left. cbn [map concat].
  rewrite IH by (intros; apply H; now right). now rewrite app_assoc.
Qed.
Lemma flat_app a b : flat a -> flat b -> flat (a ++ b)%string.
Proof. unfold flat. intros. rewrite count_app. lia. Qed.
Ltac flats := repeat apply flat_app; try assumption; try reflexivity.

(** * The stack *)
(** The stack prints a frame of three lines, one line per task in the order of priority, and a line. *)
Theorem stack_display name s : (forall t, In t (stack s) -> flat (name t)) ->
  cut_lines (display name s) = [bar; "+   SOT     "; bar] ++ map (fun t => ("| " ++ name t)%string) (stack s) ++ [bar; ""].
Proof.
  intros H. unfold display. rewrite emit_out, !app_s.
  rewrite (cut_line "+-----------------"), (cut_line "+   SOT     "), (cut_line "+-----------------") by reflexivity.
  cbn [List.app]. do 3 f_equal.
  rewrite (emit_lines (fun t => [("| " ++ name t)%string])).
  - replace ("+-----------------" ++ endl)%string with ("+-----------------" ++ endl ++ "")%string by reflexivity.
    rewrite cut_line by reflexivity. f_equal.
    induction (stack s) as [|t l IH]; [reflexivity|]. cbn [map concat List.app]. rewrite IH by (intros; apply H; now right). reflexivity.
  - intros t c Ht. rewrite !app_s. rewrite <- (app_s "| "), cut_line; [reflexivity|]. flats. now apply H.
Qed.

(** So what is printed tells the tasks and their order, whatever the histories that led there. *)
Theorem stack_display_faithful name cs1 cs2 s1 s2 : run init cs1 = Some s1 -> run init cs2 = Some s2 ->
  (forall t, flat (name t)) -> (forall t u, name t = name u -> t = u) ->
  display name s1 = display name s2 -> stack s1 = stack s2.
Proof.
  intros _ _ Hf Hi E. apply (f_equal cut_lines) in E. rewrite !stack_display in E by auto.
  apply app_inv_head, app_inv_tail in E. revert E. generalize (stack s2).
  induction (stack s1) as [|t l IH]; intros [|u l'] E; cbn in E; try discriminate; [reflexivity|].
  injection E as E1 E2. f_equal; auto.
Qed.

Lemma chain_out name l : forall os, chain name l os = (os ++ chain name l "")%string.
Proof.
  induction l as [|t r IH]; intros os; cbn [chain]; [induction os; cbn; congruence|]. destruct r as [|u r]; [apply IH|].
  rewrite IH, (IH ("" ++ _)%string). now rewrite !app_s.
Qed.
Lemma chain_lines name l b : (forall t, In t l -> flat (name t)) ->
  cut_lines (chain name l "" ++ b)%string =
  map (fun x => edge_line 3 (name (fst x)) (name (snd x)) " [color=red]") (neighbours l) ++ cut_lines b.
Proof.
  induction l as [|t r IH]; intros H; [reflexivity|]. destruct r as [|u r]; [reflexivity|].
  change (chain name (t :: u :: r) "") with
    (chain name (u :: r) ("" ++ tb ++ tb ++ tb ++ qt ++ name t ++ qt ++ " -> " ++ qt ++ name u ++ qt ++ " [color=red]" ++ endl)%string).
  rewrite chain_out, !app_s.
  set (ln := edge_line 3 (name t) (name u) " [color=red]").
  transitivity (cut_lines (ln ++ endl ++ chain name (u :: r) "" ++ b)%string).
  { f_equal. unfold ln, edge_line, quoted, indent. cbn [Nat.iter]. rewrite !app_s. reflexivity. }
  rewrite cut_line.
  - rewrite IH by (intros; apply H; now right). reflexivity.
  - unfold ln, edge_line, quoted. flats; apply H; cbn; auto.
Qed.

Definition attrs4 : string := (indent 4 ++ "   fontcolor = black, color = black, fillcolor = magenta, style=filled, shape=box ]")%string.
(** The graph of a stack: an edge from each task to the next, then a cluster with the name of the stack and one
    node per task, in order. *)
Theorem stack_graph_lines self name s : flat self -> (forall t, In t (stack s) -> flat (name t)) ->
  cut_lines (stack_graph self name s) =
    map (fun x => edge_line 3 (name (fst x)) (name (snd x)) " [color=red]") (neighbours (stack s)) ++
    [(indent 2 ++ "subgraph cluster_Tasks {")%string; (indent 3 ++ "subgraph " ++ quoted ("cluster_" ++ self) ++ " {")%string;
     (indent 4 ++ "color=lightsteelblue1; label=" ++ quoted self ++ "; style=filled;")%string] ++
    concat (map (fun t => [(indent 4 ++ quoted (name t) ++ " [ label = " ++ quoted (name t) ++ " ,")%string; attrs4]) (stack s)) ++
    [(indent 3 ++ "}")%string; (indent 3 ++ "}")%string; ""].
Proof.
  intros Hs H. unfold stack_graph. rewrite emit_out, !app_s, chain_lines by assumption. f_equal.
  set (l1 := (indent 2 ++ "subgraph cluster_Tasks {")%string). set (l2 := (indent 3 ++ "subgraph " ++ quoted ("cluster_" ++ self) ++ " {")%string).
  set (l3 := (indent 4 ++ "color=lightsteelblue1; label=" ++ quoted self ++ "; style=filled;")%string).
  set (body := emit (fun t => stack_node (name t)) (stack s) ""). set (c := (indent 3 ++ "}")%string).
  transitivity (cut_lines (l1 ++ endl ++ l2 ++ endl ++ l3 ++ endl ++ body ++ c ++ endl ++ c ++ endl ++ "")%string).
  { f_equal. unfold l1, l2, l3, c, quoted, indent. cbn [Nat.iter]. rewrite !app_s. reflexivity. }
  rewrite (cut_line l1), (cut_line l2), (cut_line l3); try (unfold l1, l2, l3, quoted; flats).
  cbn [List.app]. do 3 f_equal. unfold body.
  rewrite (emit_lines (fun t => [(indent 4 ++ quoted (name t) ++ " [ label = " ++ quoted (name t) ++ " ,")%string; attrs4])).
  - reflexivity.
  - intros t k Ht. set (ln := (indent 4 ++ quoted (name t) ++ " [ label = " ++ quoted (name t) ++ " ,")%string).
    transitivity (cut_lines (ln ++ endl ++ attrs4 ++ endl ++ k)%string).
    { f_equal. unfold stack_node, ln, attrs4, quoted, indent. cbn [Nat.iter]. rewrite !app_s. reflexivity. }
    rewrite !cut_line; [reflexivity|reflexivity|]. unfold ln, quoted. flats; apply H; assumption.
Qed.

(** Neighbours and order. *)
Lemma neighbours_before {A} (l : list A) a b : In (a, b) (neighbours l) <-> exists u w, l = u ++ a :: b :: w.
Proof.
  split.
  - induction l as [|x r IH]; [intros []|]. destruct r as [|y r]; [intros []|]. cbn. intros [E|E].
    + injection E as -> ->. now exists [], r.
    + destruct (IH E) as (u & w & ->). now exists (x :: u), w.
  - intros (u & w & ->). induction u as [|x u IH]; [now left|].
    destruct u as [|y u]; cbn in *; right; exact IH.
Qed.
(** Following the red edges from one task leads to those after it, and, when no task is there twice, to no other. *)
Theorem stack_graph_order (l : list nat) a b : NoDup l ->
  (clos_trans nat (fun x y => In (x, y) (neighbours l)) a b <-> before l a b).
Proof.
  intros N. split.
  - intros H. apply clos_trans_t1n in H. induction H as [x y H|x y z H _ IH].
    + apply neighbours_before in H as (u & w & ->). now exists u, [], w.
    + apply neighbours_before in H as (u & w & E). destruct IH as (u' & v' & w' & E'). rewrite E in E', N.
      assert (u' = u ++ [x] /\ w = v' ++ z :: w') as [-> ->].
      { clear -E' N. revert u' E'. induction u as [|k u IH]; intros u' E'.
        - destruct u' as [|p u']; cbn in E'.
          + injection E' as E0 _. exfalso. cbn in N. inversion N as [|? ? N1 _]. apply N1. now left.
          + injection E' as <- E'. destruct u' as [|q u']; cbn in E'.
            * injection E' as E'. now subst.
            * injection E' as <- E'. exfalso. cbn in N. inversion N as [|? ? _ N1]. inversion N1 as [|? ? N2 _]. apply N2.
              rewrite E'. apply in_or_app. now right; left.
        - cbn in N. inversion N as [|? ? N1 N2]. subst. destruct u' as [|p u']; cbn in E'.
          + injection E' as -> E'. exfalso. apply N1. apply in_or_app. now right; right; left.
          + injection E' as <- E'. destruct (IH N2 u' E') as [-> ->]. now split. }
      exists u, (y :: v'), w'. now rewrite E.
  - intros (u & v & w & ->). clear N. revert u a. induction v as [|x v IH]; intros u a; cbn.
    + apply t_step. apply neighbours_before. now exists u, w.
    + eapply t_trans; [apply t_step, neighbours_before; now exists u, (v ++ b :: w)|].
      specialize (IH (u ++ [a]) x). rewrite <- !app_assoc in IH. exact IH.
Qed.
(** A task pushed twice is in a loop of the graph: nothing forbids the second push. *)
Theorem stack_graph_loop_refuted : exists cs s a b, run init cs = Some s /\ a <> b /\
  In (a, b) (neighbours (stack s)) /\ In (b, a) (neighbours (stack s)).
Proof. exists [CSetSize 6; CPush 1; CPush 2; CPush 1], (mkSot [1; 2; 1] 6 [DJac 1; DTask 1; DJac 2; DTask 2; DJac 1; DTask 1; DIn 2; DIn 1; DIn 0]), 1, 2. cbn. intuition (try lia; auto). Qed.

(** * The task *)
Theorem task_display_lines self name (t : flist) : flat self -> (forall f, In f (featureList t) -> flat (name f)) ->
  cut_lines (task_display self name t) =
    [("Task " ++ self ++ ": ")%string; "--- LIST ---  "] ++ map (fun f => ("-> " ++ name f)%string) (featureList t) ++ [""].
Proof.
  intros Hs H. unfold task_display. rewrite emit_out, !app_s.
  replace ("Task " ++ self ++ ": " ++ endl ++ "--- LIST ---  " ++ endl ++ emit (fun f => "-> " ++ name f ++ endl) (featureList t) "")%string
    with (("Task " ++ self ++ ": ") ++ endl ++ "--- LIST ---  " ++ endl ++ emit (fun f => "-> " ++ name f ++ endl) (featureList t) "" ++ "")%string.
  2:{ rewrite !app_s. repeat f_equal. induction (emit _ _ _); cbn; congruence. }
  rewrite (cut_line ("Task " ++ self ++ ": ")), (cut_line "--- LIST ---  ") by flats. cbn [List.app]. do 2 f_equal.
  rewrite (emit_lines (fun f => [("-> " ++ name f)%string])).
  - f_equal. induction (featureList t) as [|f l IH]; [reflexivity|]. cbn [map concat List.app]. rewrite IH by (intros; apply H; now right). reflexivity.
  - intros f c Hf. rewrite !app_s. rewrite <- (app_s "-> "), cut_line; [reflexivity|]. flats. now apply H.
Qed.
(** One edge per feature, from the feature to the task, in the order in which they were added. *)
Theorem task_graph_lines self name (t : flist) : flat self -> (forall f, In f (featureList t) -> flat (name f)) ->
  cut_lines (task_graph self name t) = map (fun f => edge_line 1 (name f) self "") (featureList t) ++ [""].
Proof.
  intros Hs H. unfold task_graph.
  assert (Z : forall x, x = (x ++ "")%string) by (intros x; induction x; cbn; congruence). rewrite (Z (emit _ _ "")). clear Z.
  rewrite (emit_lines (fun f => [edge_line 1 (name f) self ""])).
  - f_equal. induction (featureList t) as [|f l IH]; [reflexivity|]. cbn [map concat List.app]. rewrite IH by (intros; apply H; now right). reflexivity.
  - intros f c Hf. set (ln := edge_line 1 (name f) self ""). transitivity (cut_lines (ln ++ endl ++ c)%string).
    { f_equal. unfold ln, edge_line, quoted, indent. cbn [Nat.iter]. rewrite !app_s. reflexivity. }
    rewrite cut_line; [reflexivity|]. unfold ln, edge_line, quoted. flats. now apply H.
Qed.
(** The features that a sequence of additions and clearings leaves: those added after the last clearing. *)
Fixpoint since_clear (l : list flcmd) (acc : list nat) : list nat :=
  match l with [] => acc | AddF f :: r => since_clear r (acc ++ [f]) | ClearF :: r => since_clear r [] end.
Theorem task_history_display self name cs : flat self -> (forall f, flat (name f)) ->
  let t := fold_left fl_exec cs (mkFL [] []) in
  cut_lines (task_graph self name t) = map (fun f => edge_line 1 (name f) self "") (since_clear cs []) ++ [""] /\
  cut_lines (task_display self name t) =
    [("Task " ++ self ++ ": ")%string; "--- LIST ---  "] ++ map (fun f => ("-> " ++ name f)%string) (since_clear cs []) ++ [""].
Proof.
  intros Hs Hn t. assert (E : featureList t = since_clear cs []).
  { unfold t. change (@nil nat) with (featureList (mkFL [] [])) at 3. generalize (mkFL [] []).
    induction cs as [|[f|] cs IH]; intros s; cbn [fold_left since_clear]; [reflexivity|rewrite IH; reflexivity|rewrite IH; reflexivity]. }
  rewrite task_graph_lines, task_display_lines, E by auto. auto.
Qed.

(** * The reference of a feature *)
(** The edge of the graph and the command that tells the reference agree: an edge is written to the file when a
    reference is set, from the reference told by the command to the feature; otherwise the file gets nothing more and a
    message goes to the standard output. *)
Theorem feature_graph_reference w entity f n : getReferenceByName w f = Ok n ->
  (feature_graph w entity f = Ok ((entity ++ edge_line 1 n (rw_name w f) "[ color=darkseagreen4 ]" ++ endl)%string, "") /\ r_ref (rw_ref w f) <> None) \/
  (feature_graph w entity f = Ok (entity, ("asotFAT : 0" ++ endl)%string) /\ r_ref (rw_ref w f) = None /\ n = "none").
Proof.
  unfold getReferenceByName, feature_graph. destruct (is_alive (rw_pool w) f); [|discriminate].
  destruct (r_ref (rw_ref w f)) as [r|].
  - destruct (is_alive (rw_pool w) r); [|discriminate]. intros [= <-]. left. split; [|discriminate].
    unfold edge_line, quoted, indent. cbn [Nat.iter]. rewrite !app_s. reflexivity.
  - intros [= <-]. right. auto.
Qed.
Theorem feature_graph_undefined w entity f : feature_graph w entity f = UB <-> getReferenceByName w f = UB.
Proof.
  unfold getReferenceByName, feature_graph. destruct (is_alive (rw_pool w) f); [|tauto].
  destruct (r_ref (rw_ref w f)) as [r|]; [destruct (is_alive (rw_pool w) r)|]; split; congruence.
Qed.

Example stack_text_case : let name t := match t with 1 => "com" | 2 => "left" | _ => "x" end in
  exists s, run init [CSetSize 6; CPush 1; CPush 2; CUp 2] = Some s /\
  cut_lines (display name s) = [bar; "+   SOT     "; bar; "| left"; "| com"; bar; ""] /\
  hd "" (cut_lines (stack_graph "sot" name s)) = edge_line 3 "left" "com" " [color=red]".
Proof. eexists. split; [reflexivity|]. split; reflexivity. Qed.

Print Assumptions stack_display.
Print Assumptions stack_display_faithful.
Print Assumptions stack_graph_lines.
Print Assumptions stack_graph_order.
Print Assumptions stack_graph_loop_refuted.
Print Assumptions task_history_display.
Print Assumptions feature_graph_reference.
Print Assumptions feature_graph_undefined.
