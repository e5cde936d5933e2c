(** Properties of the meta task on the center of mass (C128). *)
From Coq Require Import String List Arith ZArith Bool Reals Lra Lia Psatz.
From Verif Require Import Base Flags_Model Bound_Model Feature_Model Feature_Proofs Feature_Props Gain_Model Gain_Props Task_Model Task_Props Meta_Model Meta_Props MetaCom_Model.
Import ListNotations.
Local Open Scope R_scope.

Section Props.
Variable g : R.

(** Specification: what was given last. *)
Definition last_ref (h : list ccmd) : option (list R) := fold_left (fun r c => match c with CRef v => Some v | _ => r end) h None.
Definition last_selec (h : list ccmd) : Flags := fold_left (fun s c => match c with CSelec f => f | _ => s end) h (of_bool true).
Definition gain_after (h : list ccmd) : adaptive := fold_left (fun a c => match c with CGain v => setGain a v | _ => a end) h a_init0.
(** The robot is one robot: its center of mass has [n] coordinates, at each read. *)
Definition size_ok (n : nat) (c : ccmd) : Prop := match c with CEval com _ => length com = n | _ => True end.

Definition run h := fold_left (ct_step g) h ct_new.

Lemma eval_keeps t com J : let t' := fst (ct_eval g t com J) in
  ct_ref t' = ct_ref t /\ ct_selec t' = ct_selec t /\ ct_gain t' = ct_gain t /\
  (ct_dd t' = ct_dd t \/ ct_dd t' = (if ct_dd t =? 0 then length com else ct_dd t)%nat).
Proof.
  unfold ct_eval, generic_dimension. rewrite count_flags_ok. cbn [bind].
  destruct (match ct_ref t with Some r => _ | None => _ end); cbn; repeat split; right; reflexivity.
Qed.

Lemma run_state n h : Forall (size_ok n) h ->
  ct_ref (run h) = last_ref h /\ ct_selec (run h) = last_selec h /\ ct_gain (run h) = gain_after h /\
  (ct_dd (run h) = 0 \/ ct_dd (run h) = n)%nat.
Proof.
  unfold run. induction h as [|c h IH] using rev_ind; intros F; [repeat split; left; reflexivity|].
  apply Forall_app in F as [F1 F2]. inversion_clear F2 as [|? ? Hc _]. destruct (IH F1) as (A & B & C & D). clear IH F1.
  unfold last_ref, last_selec, gain_after. rewrite !fold_left_app. cbn [fold_left]. fold (last_ref h) (last_selec h) (gain_after h).
  set (t := fold_left (ct_step g) h ct_new) in *. destruct c as [v|f|v|com J]; cbn [ct_step].
  1-3: cbn; rewrite ?A, ?B, ?C; repeat split; exact D.
  cbn in Hc. destruct (eval_keeps t com J) as (A' & B' & C' & D'). rewrite A', B', C'. repeat split; try assumption.
  destruct D' as [->| ->]; [exact D|]. destruct D as [->| ->]; cbn; [right; exact Hc|]. destruct (n =? 0)%nat eqn:E; [right; exact Hc|right; reflexivity].
Qed.

(** Whatever was done before, a read of the task gives: the selected coordinates of com minus the reference set last, as
    the error; minus the gain at this error times the error, coordinate by coordinate, as the wanted motion; and the selected
    rows of the jacobian. *)
Theorem com_task_read n h com J r :
  Forall (size_ok n) h -> length com = n -> (n <= length J)%nat -> last_ref h = Some r -> length r = n ->
  let sel := chosen (last_selec h) n in
  let e := map (fun i => nth i com 0 - nth i r 0) sel in
  exists v, snd (ct_eval g (run h) com J) = Ok (CRead e v (map (fun i => nth i J []) sel)) /\
    length v = length e /\
    forall i b, nth_error v i = Some b -> exists x, nth_error e i = Some x /\ is_single b (- x * a_computeGain (gain_after h) e).
Proof.
  intros F Hn HJ Hr Hrn sel e. destruct (run_state n h F) as (A & B & C & D).
  unfold ct_eval, generic_dimension. rewrite count_flags_ok. cbn [bind]. rewrite A, B, C, Hr.
  assert (E : (if ct_dd (run h) =? 0 then length com else ct_dd (run h))%nat = n) by (destruct D as [->| ->]; cbn; [exact Hn|destruct (n =? 0)%nat; [exact Hn|reflexivity]]).
  rewrite E, (generic_error_selected_partial g Rminus (last_selec h) com r n 0 Hn Hrn). cbn [bind]. fold sel. fold e. rewrite task_error_single. cbn [snd].
  destruct (task_reference 0 Ropp Rminus Rmult e [] (a_computeGain (gain_after h) e) false) as (v & V1 & V2 & V3); [discriminate|].
  rewrite V1. cbn [bind]. pose proof (generic_jacobian_selected (last_selec h) J n [] HJ) as GJ. fold sel in GJ. rewrite GJ. cbn [bind].
  exists v. split; [reflexivity|]. split; [exact V2|]. intros i b Hb.
  destruct (nth_error e i) as [x|] eqn:X.
  - destruct (V3 i x X) as (b' & B1 & B2). exists x. split; [reflexivity|]. rewrite Hb in B1. injection B1 as <-. exact B2.
  - apply nth_error_None in X. assert (i < length v)%nat by (apply nth_error_Some; congruence). lia.
Qed.

(** Before a reference is given the task cannot be read, whatever else was done. *)
Theorem com_task_needs_reference h com J : last_ref h = None -> exists m, snd (ct_eval g (run h) com J) = Throw m.
Proof.
  intro Hr. assert (A : ct_ref (run h) = last_ref h).
  { unfold run, last_ref. clear Hr. induction h as [|c h IH] using rev_ind; [reflexivity|]. rewrite !fold_left_app. cbn [fold_left].
    destruct c; cbn [ct_step ct_ref]; try exact IH; try reflexivity. destruct (eval_keeps (fold_left (ct_step g) h ct_new) com0 J0) as (-> & _). exact IH. }
  unfold ct_eval, generic_dimension. rewrite count_flags_ok. cbn [bind]. rewrite A, Hr. eexists. reflexivity.
Qed.

(** Until setGain is called with something it understands, the gain is a tenth at every error. *)
Theorem com_task_default_gain h e : (forall v, In (CGain v) h -> setGain a_init0 v = a_init0) -> a_computeGain (gain_after h) e = 1 / 10.
Proof.
  intro H. assert (E : gain_after h = a_init0).
  { unfold gain_after. induction h as [|c h IH] using rev_ind; [reflexivity|]. rewrite fold_left_app. cbn [fold_left].
    rewrite IH by (intros v Hv; apply H, in_or_app; left; exact Hv). destruct c; try reflexivity. apply H, in_or_app. right. left. reflexivity. }
  rewrite E. unfold a_computeGain, a_init0, a_init. cbn. lra.
Qed.

(** The reference is met: when every coordinate is selected and at each period [dt] the center of mass moves by the wanted
    motion, each coordinate comes closer to the reference, without passing it, by a factor [1 - lo dt] at least, [lo] and [hi]
    being bounds of the gain. *)
Definition motion (v : list (MultiBound R)) : outcome (list R) := ofold (fun l b => let* x := getSingleBound b in Ok (l ++ [x])) v [].
Definition com_tick (dt : R) (J : list (list R)) (st : ctask * list R) (_ : unit) : outcome (ctask * list R) :=
  let '(t, c) := st in
  let '(t', o) := ct_eval g t c J in
  let* x := o in let* m := motion (cr_task x) in
  Ok (t', map (fun i => nth i c 0 + dt * nth i m 0) (seq 0 (length c))).

Lemma motion_of v l : length v = length l -> (forall i b, nth_error v i = Some b -> exists x, nth_error l i = Some x /\ is_single b x) -> motion v = Ok l.
Proof.
  unfold motion. intros L H. enough (A : forall acc, ofold (fun l b => let* x := getSingleBound b in Ok (l ++ [x])) v acc = Ok (acc ++ l)) by apply A.
  revert l L H. induction v as [|b v IH]; intros [|x l] L H acc; try discriminate L; cbn [ofold]; [now rewrite app_nil_r|].
  destruct (H 0%nat b eq_refl) as (x' & X1 & X2). injection X1 as <-. destruct X2 as [E _].
  rewrite E. cbn [bind]. rewrite IH with (l := l); [now rewrite <- app_assoc| injection L as L; exact L|].
  intros i b' Hb. exact (H (S i) b' Hb).
Qed.

Lemma chosen_all n : chosen (of_bool true) n = seq 0 n.
Proof.
  unfold chosen. generalize 0%nat as k. induction n as [|n IH]; intro k; [reflexivity|]. cbn [seq filter].
  assert (E : flag (of_bool true) k = true) by (unfold flag, at_; cbn; destruct k; reflexivity). rewrite E, IH. reflexivity.
Qed.

Lemma nth_map_seq (f : nat -> R) n i : (i < n)%nat -> nth i (map f (seq 0 n)) 0 = f i.
Proof. intro H. rewrite (nth_indep _ 0 (f 0%nat)) by (rewrite map_length, seq_length; exact H). rewrite (map_nth f), seq_nth by exact H. reflexivity. Qed.

Theorem com_task_converges n h J r dt lo hi c k :
  Forall (size_ok n) h -> (n <= length J)%nat -> last_ref h = Some r -> length r = n -> last_selec h = of_bool true -> length c = n ->
  0 <= dt -> (forall e, lo <= a_computeGain (gain_after h) e <= hi) -> hi * dt <= 1 ->
  exists t' c', ofold (com_tick dt J) (repeat tt k) (run h, c) = Ok (t', c') /\ length c' = n /\
    forall i, (i < n)%nat -> exists rho, 0 <= rho <= (1 - lo * dt) ^ k /\ nth i c' 0 - nth i r 0 = rho * (nth i c 0 - nth i r 0).
Proof.
  intros F HJ Hr Hrn Hs Hc Hdt HG Hhi. revert h F Hr Hs HG c Hc. induction k as [|k IH]; intros h F Hr Hs HG c Hc.
  { exists (run h), c. repeat split; [exact Hc|]. intros i Hi. exists 1. cbn. lra. }
  destruct (com_task_read n h c J r F Hc HJ Hr Hrn) as (v & V1 & V2 & V3). rewrite Hs, chosen_all in V1, V2, V3.
  set (e := map (fun i => nth i c 0 - nth i r 0) (seq 0 n)) in *. set (lam := a_computeGain (gain_after h) e) in *.
  assert (M : motion v = Ok (map (fun x => - x * lam) e)).
  { apply motion_of; [rewrite map_length; exact V2|]. intros i b Hb. destruct (V3 i b Hb) as (x & X1 & X2). exists (- x * lam). split; [|exact X2]. apply (map_nth_error (fun x => - x * lam)), X1. }
  cbn [repeat ofold com_tick]. destruct (ct_eval g (run h) c J) as [t1 o] eqn:Ev. cbn [snd] in V1. subst o. cbn [bind cr_task]. rewrite M. cbn [bind].
  set (c1 := map _ (seq 0 (length c))).
  assert (T1 : t1 = run (h ++ [CEval c J])) by (unfold run; rewrite fold_left_app; cbn [fold_left ct_step]; fold (run h); rewrite Ev; reflexivity).
  assert (C1 : length c1 = n) by (unfold c1; rewrite map_length, seq_length; exact Hc).
  destruct (IH (h ++ [CEval c J])) with (c := c1) as (t' & c' & R1 & R2 & R3).
  - apply Forall_app. split; [exact F|repeat constructor; exact Hc].
  - unfold last_ref. rewrite fold_left_app. exact Hr.
  - unfold last_selec. rewrite fold_left_app. exact Hs.
  - unfold gain_after. rewrite fold_left_app. exact HG.
  - exact C1.
  - exists t', c'. rewrite T1. split; [exact R1|]. split; [exact R2|]. intros i Hi. destruct (R3 i Hi) as (rho & B & E).
    exists (rho * (1 - lam * dt)). pose proof (HG e) as G. fold lam in G.
    assert (E1 : nth i c1 0 - nth i r 0 = (1 - lam * dt) * (nth i c 0 - nth i r 0)).
    { unfold c1. rewrite Hc, nth_map_seq by exact Hi. unfold e. rewrite map_map, nth_map_seq by exact Hi. ring. }
    split; [|rewrite E, E1; ring].
    assert (L : 0 <= 1 - lam * dt <= 1 - lo * dt) by nra. cbn [pow]. split; [nra|]. rewrite (Rmult_comm (1 - lo * dt)). apply Rmult_le_compat; lra.
Qed.

(** With the gain as it is at first, or set to a constant [l], the distance to the reference is multiplied by
    exactly [1 - l dt] at each period. *)
Theorem com_task_geometric n h J r dt l c k :
  Forall (size_ok n) h -> (n <= length J)%nat -> last_ref h = Some r -> length r = n -> last_selec h = of_bool true -> length c = n ->
  (forall e, a_computeGain (gain_after h) e = l) ->
  exists t' c', ofold (com_tick dt J) (repeat tt k) (run h, c) = Ok (t', c') /\ length c' = n /\
    forall i, (i < n)%nat -> nth i c' 0 - nth i r 0 = (1 - l * dt) ^ k * (nth i c 0 - nth i r 0).
Proof.
  intros F HJ Hr Hrn Hs Hc HG. revert h F Hr Hs HG c Hc. induction k as [|k IH]; intros h F Hr Hs HG c Hc.
  { exists (run h), c. repeat split; [exact Hc|]. intros i Hi. cbn. lra. }
  destruct (com_task_read n h c J r F Hc HJ Hr Hrn) as (v & V1 & V2 & V3). rewrite Hs, chosen_all in V1, V2, V3.
  set (e := map (fun i => nth i c 0 - nth i r 0) (seq 0 n)) in *. rewrite HG in V3.
  assert (M : motion v = Ok (map (fun x => - x * l) e)).
  { apply motion_of; [rewrite map_length; exact V2|]. intros i b Hb. destruct (V3 i b Hb) as (x & X1 & X2). exists (- x * l). split; [|exact X2]. apply (map_nth_error (fun x => - x * l)), X1. }
  cbn [repeat ofold com_tick]. destruct (ct_eval g (run h) c J) as [t1 o] eqn:Ev. cbn [snd] in V1. subst o. cbn [bind cr_task]. rewrite M. cbn [bind].
  set (c1 := map _ (seq 0 (length c))).
  assert (T1 : t1 = run (h ++ [CEval c J])) by (unfold run; rewrite fold_left_app; cbn [fold_left ct_step]; fold (run h); rewrite Ev; reflexivity).
  assert (C1 : length c1 = n) by (unfold c1; rewrite map_length, seq_length; exact Hc).
  destruct (IH (h ++ [CEval c J])) with (c := c1) as (t' & c' & R1 & R2 & R3).
  - apply Forall_app. split; [exact F|repeat constructor; exact Hc].
  - unfold last_ref. rewrite fold_left_app. exact Hr.
  - unfold last_selec. rewrite fold_left_app. exact Hs.
  - unfold gain_after. rewrite fold_left_app. exact HG.
  - exact C1.
  - exists t', c'. rewrite T1. split; [exact R1|]. split; [exact R2|]. intros i Hi. rewrite (R3 i Hi).
    unfold c1. rewrite Hc, nth_map_seq by exact Hi. unfold e. rewrite map_map, nth_map_seq by exact Hi. cbn [pow]. ring.
Qed.

(** A reference with more coordinates than the center of mass is taken without a word: the last ones are left out. *)
Theorem com_task_long_reference_refuted n h com J r extra :
  Forall (size_ok n) h -> length com = n -> length r = n ->
  snd (ct_eval g (run (h ++ [CRef (r ++ extra)])) com J) = snd (ct_eval g (run (h ++ [CRef r])) com J).
Proof.
  intros F Hn Hrn.
  assert (F' : forall x, Forall (size_ok n) (h ++ [CRef x])) by (intro x; apply Forall_app; split; [exact F|repeat constructor]).
  destruct (run_state n _ (F' (r ++ extra))) as (A & B & C & _). destruct (run_state n _ (F' r)) as (A' & B' & C' & _).
  assert (D : ct_dd (run (h ++ [CRef (r ++ extra)])) = ct_dd (run (h ++ [CRef r])) /\ ct_buf (run (h ++ [CRef (r ++ extra)])) = ct_buf (run (h ++ [CRef r]))) by (unfold run; rewrite !fold_left_app; split; reflexivity).
  destruct D as [D1 D2].
  assert (S : last_selec (h ++ [CRef (r ++ extra)]) = last_selec (h ++ [CRef r]) /\ gain_after (h ++ [CRef (r ++ extra)]) = gain_after (h ++ [CRef r])) by (unfold last_selec, gain_after; rewrite !fold_left_app; split; reflexivity).
  destruct S as [S1 S2].
  assert (L : forall x, last_ref (h ++ [CRef x]) = Some x) by (intro x; unfold last_ref; rewrite fold_left_app; reflexivity).
  unfold ct_eval, generic_dimension. rewrite !count_flags_ok. cbn [bind]. rewrite A, A', B, B', C, C', D1, D2, S1, S2, !L.
  set (dim := length (chosen _ _)).
  assert (Q : (let* e := generic_error R g Rminus (last_selec (h ++ [CRef r])) dim com (Some (r ++ extra)) in computeError R 0 g (ct_buf (run (h ++ [CRef r]))) [e]) =
              (let* e := generic_error R g Rminus (last_selec (h ++ [CRef r])) dim com (Some r) in computeError R 0 g (ct_buf (run (h ++ [CRef r]))) [e])).
  { f_equal. unfold generic_error. destruct (Nat.ltb_spec (length com) dim); [reflexivity|].
    rewrite app_length. destruct (Nat.ltb_spec (length r) dim); [lia|]. destruct (Nat.ltb_spec (length r + length extra) dim); [lia|].
    unfold collect. rewrite Hn. assert (E : forall l st, (forall i, In i l -> (i < n)%nat) ->
      ofold (collect_step R (last_selec (h ++ [CRef r])) (fun i => let* a := vget com i in let* b := vget (r ++ extra) i in Ok (a - b))) l st =
      ofold (collect_step R (last_selec (h ++ [CRef r])) (fun i => let* a := vget com i in let* b := vget r i in Ok (a - b))) l st).
    { induction l as [|i l IH]; intros st Hl; [reflexivity|]. cbn [ofold].
      assert (E : vget (r ++ extra) i = vget r i) by (unfold vget; rewrite nth_error_app1 by (rewrite Hrn; apply Hl; left; reflexivity); reflexivity).
      unfold collect_step at 1 3. destruct st as [cur res]. rewrite E. destruct (at_ _ _); cbn [bind]; try reflexivity.
      destruct a; [|apply IH; intros; apply Hl; right; assumption].
      destruct (let* a := vget com i in _); cbn [bind]; try reflexivity. destruct (vset res cur a); cbn [bind]; try reflexivity. apply IH; intros; apply Hl; right; assumption. }
    rewrite E; [reflexivity|]. intros i Hi. apply in_seq in Hi. lia. }
  cbv beta iota. rewrite Q. clear Q. match goal with |- snd (match ?x with Ok _ => _ | Throw _ => _ | UB => _ end) = _ => destruct x; reflexivity end.
Qed.
End Props.

(** Three coordinates, the second left out, a reference and a constant gain of 2. *)
Example com_task_case :
  exists h r f, of_string "101" = Ok f /\ h = [CRef [9; 9; 9]; CSelec f; CEval [0; 0; 0] [[0]; [0]; [0]]; CGain (GNum 2); CRef r] /\ r = [1; 1; 1] /\
    Forall (size_ok 3) h /\ last_ref h = Some r /\ chosen (last_selec h) 3 = [0; 2]%nat /\
    (forall e, a_computeGain (gain_after h) e = 2) /\
    exists v J, snd (ct_eval 7 (run 7 h) [4; 5; 6] [[1]; [2]; [3]]) = Ok (CRead [4 - 1; 6 - 1] v J) /\ J = [[1]; [3]] /\ motion v = Ok [- (4 - 1) * 2; - (6 - 1) * 2].
Proof.
  destruct (of_string "101") as [f| |] eqn:Ef; try discriminate Ef. injection Ef as Ef.
  exists [CRef [9; 9; 9]; CSelec f; CEval [0; 0; 0] [[0]; [0]; [0]]; CGain (GNum 2); CRef [1; 1; 1]], [1; 1; 1], f.
  assert (F : Forall (size_ok 3) [CRef [9; 9; 9]; CSelec f; CEval [0; 0; 0] [[0]; [0]; [0]]; CGain (GNum 2); CRef [1; 1; 1]]) by (repeat constructor).
  assert (Ch : chosen (last_selec [CRef [9; 9; 9]; CSelec f; CEval [0; 0; 0] [[0]; [0]; [0]]; CGain (GNum 2); CRef [1; 1; 1]]) 3 = [0; 2]%nat) by (cbn [last_selec fold_left]; subst f; reflexivity).
  assert (G : forall e, a_computeGain (gain_after [CRef [9; 9; 9]; CSelec f; CEval [0; 0; 0] [[0]; [0]; [0]]; CGain (GNum 2); CRef [1; 1; 1]]) e = 2).
  { intro e. cbn. unfold a_computeGain, a_init1, a_init. cbn. lra. }
  split; [reflexivity|]. split; [reflexivity|]. split; [reflexivity|]. split; [exact F|]. split; [reflexivity|]. split; [exact Ch|]. split; [exact G|].
  destruct (com_task_read 7 3 _ [4; 5; 6] [[1]; [2]; [3]] [1; 1; 1] F eq_refl (le_n 3) eq_refl eq_refl) as (v & V1 & V2 & V3).
  rewrite Ch in V1, V2, V3. cbn [map nth] in V1, V2, V3. rewrite G in V3. exists v, [[1]; [3]]. split; [exact V1|]. split; [reflexivity|].
  apply motion_of; [exact V2|]. intros i b Hb. destruct (V3 i b Hb) as (x & X1 & X2). exists (- x * 2). split; [|exact X2].
  change [- (4 - 1) * 2; - (6 - 1) * 2] with (map (fun x => - x * 2) [4 - 1; 6 - 1]). apply (map_nth_error (fun x => - x * 2)), X1.
Qed.

Print Assumptions com_task_read.
Print Assumptions com_task_needs_reference.
Print Assumptions com_task_default_gain.
Print Assumptions com_task_converges.
Print Assumptions com_task_geometric.
Print Assumptions com_task_long_reference_refuted.
