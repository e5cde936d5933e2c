(** The entity that filters and differentiates a vector signal (C43, C44). *)
From Coq Require Import String Ascii List Arith Lia ZArith Bool Reals Lra.
From Verif Require Import Base Filter_Model Filter_Fir_Props Filter_Causal_Props FiltDiff_Model.
Import ListNotations.
Local Open Scope nat_scope.
Local Open Scope list_scope.

(** * Specification: one scalar filter per coordinate *)
(** Times of the reads never decrease, and come after [last]. *)
Definition not_before (last : option Z) (t : Z) : Prop := match last with None => True | Some u => (u <= t)%Z end.
Fixpoint onward (last : option Z) (l : list faction) : Prop :=
  match l with
  | [] => True
  | ARead _ t :: r => not_before last t /\ onward (Some t) r
  | ASwitch _ _ :: r => onward last r
  end.
Definition moved (last : option Z) (t : Z) : bool := match last with None => true | Some u => negb (u =? t)%Z end.
(** What coordinate [i] receives: one sample at each new time, whatever the outputs read and how often; and the changes
    of coefficients. *)
Fixpoint received (x : Z -> list R) (i : nat) (last : option Z) (l : list faction) : list cf_event :=
  match l with
  | [] => []
  | ARead _ t :: r => (if moved last t then [CSample (nth i (x t) 0%R)] else []) ++ received x i (Some t) r
  | ASwitch num den :: r => CSwitch num den :: received x i last r
  end.
Definition part (o : fout) (y : R * R * R) : R := match o with FX => fst (fst y) | FDx => snd (fst y) | FDdx => snd y end.
Fixpoint count_reads (l : list faction) : nat := match l with [] => 0 | ARead _ _ :: r => S (count_reads r) | _ :: r => count_reads r end.

(** * One coordinate of the vector filter *)
Definition at_row (i : nat) (cols : list (list R)) : list R := map (fun c => nth i c 0%R) cols.
Definition row (i : nat) (f : vfilter) : cfilter :=
  mkCF (v_dt f) (v_num f) (v_den f) (v_first f) (v_pn f) (v_pd f) (at_row i (v_in f)) (at_row i (v_out f)).
Definition even (f : vfilter) : Prop :=
  Forall (fun c => length c = v_size f) (v_in f) /\ Forall (fun c => length c = v_size f) (v_out f).

Lemma vset_map {A B} (g : A -> B) l k a l' : vset l k a = Ok l' -> vset (map g l) k (g a) = Ok (map g l').
Proof.
  unfold vset. rewrite map_length. destruct (k <? length l); [|discriminate]. intros [= <-]. f_equal. clear. revert k.
  induction l as [|x l IH]; intros [|k]; cbn; auto. now rewrite IH.
Qed.
Lemma vget_map {A B} (g : A -> B) l k a : vget l k = Ok a -> vget (map g l) k = Ok (g a).
Proof. unfold vget. rewrite nth_error_map. destruct (nth_error l k); [|discriminate]. now intros [= <-]. Qed.
Lemma vset_Forall {A} (P : A -> Prop) l k a l' : vset l k a = Ok l' -> Forall P l -> P a -> Forall P l'.
Proof.
  unfold vset. destruct (k <? length l); [|discriminate]. intros [= <-]. clear. revert k.
  induction l as [|x l IH]; intros [|k] H Ha; cbn; auto; inversion H; constructor; auto.
Qed.
Lemma vget_Forall {A} (P : A -> Prop) l k a : vget l k = Ok a -> Forall P l -> P a.
Proof. intros E H. apply vget_inv in E as [_ E]. apply nth_error_In in E. rewrite Forall_forall in H. auto. Qed.
Lemma at_row_repeat i c k : at_row i (repeat c k) = repeat (nth i c 0%R) k.
Proof. unfold at_row. induction k; cbn; congruence. Qed.
Lemma zipw_length f a : forall b, length a = length b -> length (zipw f a b) = length a.
Proof. induction a as [|x a IH]; intros [|y b] H; cbn in *; auto; lia. Qed.
Lemma zipw_nth f a : forall b i, length a = length b -> i < length a -> nth i (zipw f a b) 0%R = f (nth i a 0%R) (nth i b 0%R).
Proof. induction a as [|x a IH]; intros [|y b] [|i] H Hi; cbn in *; try lia; auto. apply IH; lia. Qed.
Lemma map_nth0 (f : R -> R) a i : i < length a -> nth i (map f a) 0%R = f (nth i a 0%R).
Proof. intros H. rewrite (nth_indep _ _ (f 0%R)) by now rewrite map_length. apply map_nth. Qed.
Lemma mulv_length n c v : length (mulv n c v) = n.
Proof. unfold mulv. now rewrite map_length, seq_length. Qed.
Lemma mulv_nth n c v i : i < n -> nth i (mulv n c v) 0%R = dot (at_row i c) v.
Proof.
  intros H. unfold mulv. rewrite (nth_indep _ _ ((fun r => dot (at_row r c) v) 0)) by (rewrite map_length, seq_length; lia).
  change (map (fun r => dot (map (fun c0 => nth r c0 0%R) c) v)) with (map (fun r => dot (at_row r c) v)).
  rewrite (map_nth (fun r => dot (at_row r c) v)), seq_nth by lia. reflexivity.
Qed.

Lemma step_row f x : even f -> sized (v_num f) (v_den f) -> length x = v_size f ->
  (v_first f = false -> length (v_in f) = length (v_num f) /\ length (v_out f) = length (v_den f) - 1) ->
  v_pn f < length (v_num f) -> v_pd f < length (v_den f) - 1 ->
  exists f' out, vf_step f x = Ok (f', out) /\ even f' /\ v_size f' = v_size f /\ v_num f' = v_num f /\ v_den f' = v_den f /\ v_dt f' = v_dt f /\
    v_first f' = false /\ length (v_in f') = length (v_num f) /\ length (v_out f') = length (v_den f) - 1 /\
    v_pn f' < length (v_num f) /\ v_pd f' < length (v_den f) - 1 /\ length out = 3 * v_size f /\
    forall i, i < v_size f -> cf_step (row i f) (nth i x 0%R) =
      Ok (row i f', (nth i out 0%R, nth (v_size f + i) out 0%R, nth (2 * v_size f + i) out 0%R)).
Proof.
  intros [E1 E2] [S1 S2] Hx Hf P1 P2. unfold vf_step.
  assert (G : (length (v_num f) =? 0) || (length (v_den f) <? 2) || negb (length x =? v_size f) = false).
  { rewrite Hx, Nat.eqb_refl. destruct (Nat.eqb_spec (length (v_num f)) 0), (Nat.ltb_spec (length (v_den f)) 2); try lia; reflexivity. }
  rewrite G.
  set (n := v_size f) in *. set (m := length (v_num f)) in *. set (k := length (v_den f)) in *.
  set (g := (rsum (v_num f), rsum (v_den f))). cbv zeta.
  set (inb := if v_first f then repeat x m else v_in f).
  set (outb := if v_first f then repeat (map (fun a => a * rsum (v_num f) / rsum (v_den f))%R x) (k - 1) else v_out f).
  assert (Li : length inb = m) by (unfold inb; destruct (v_first f); [apply repeat_length|now apply Hf]).
  assert (Lo : length outb = k - 1) by (unfold outb; destruct (v_first f); [apply repeat_length|now apply Hf]).
  assert (Fi : Forall (fun c => length c = n) inb).
  { unfold inb. destruct (v_first f); [|exact E1]. apply Forall_forall. intros c Hc. apply repeat_spec in Hc. now subst. }
  assert (Fo : Forall (fun c => length c = n) outb).
  { unfold outb. destruct (v_first f); [|exact E2]. apply Forall_forall. intros c Hc. apply repeat_spec in Hc. subst. now rewrite map_length. }
  assert (Ri : forall i, at_row i inb = if v_first f then repeat (nth i x 0%R) m else at_row i (v_in f)).
  { intros i. unfold inb. destruct (v_first f); [apply at_row_repeat|reflexivity]. }
  assert (Ro : forall i, i < n -> at_row i outb = if v_first f then repeat (nth i x 0 * rsum (v_num f) / rsum (v_den f))%R (k - 1) else at_row i (v_out f)).
  { intros i Hi. unfold outb. destruct (v_first f); [|reflexivity]. rewrite at_row_repeat. f_equal. rewrite map_nth0 by lia. reflexivity. }
  clearbody inb outb.
  destruct (vset inb (v_pn f) x) as [inb'| |] eqn:A1; try (unfold vset in A1; destruct (Nat.ltb_spec (v_pn f) (length inb)); [discriminate|lia]).
  cbn [bind]. rewrite (vget_ok _ 0 0%R) by lia. cbn [bind].
  destruct (vget outb (v_pd f)) as [y1| |] eqn:A2; try (unfold vget in A2; destruct (nth_error outb (v_pd f)) eqn:Z; [discriminate|]; apply nth_error_None in Z; lia).
  cbn [bind].
  set (prev := if v_pd f =? 0 then k - 2 else v_pd f - 1).
  assert (Hp : prev < length outb) by (unfold prev; destruct (Nat.eqb_spec (v_pd f) 0); lia).
  destruct (vget outb prev) as [y2| |] eqn:A3; try (unfold vget in A3; destruct (nth_error outb prev) eqn:Z; [discriminate|]; apply nth_error_None in Z; lia).
  cbn [bind].
  set (b := rev (firstn (v_pn f + 1) (v_num f)) ++ rev (skipn (v_pn f + 1) (v_num f))).
  set (a := rev (firstn (v_pd f + 1) (skipn 1 (v_den f))) ++ rev (skipn (v_pd f + 2) (v_den f))).
  set (y := map (fun z => z / nth 0 (v_den f) 0)%R (zipw Rminus (mulv n inb' b) (mulv n outb a))).
  set (pd := if v_pd f + 1 <? k - 1 then v_pd f + 1 else 0).
  assert (Hpd : pd < k - 1) by (unfold pd; destruct (Nat.ltb_spec (v_pd f + 1) (k - 1)); lia).
  destruct (vset outb pd y) as [outb'| |] eqn:A4; try (unfold vset in A4; destruct (Nat.ltb_spec pd (length outb)); [discriminate|lia]).
  cbn [bind].
  assert (Ly : length y = n) by (unfold y; rewrite map_length, zipw_length, mulv_length by (now rewrite !mulv_length); reflexivity).
  pose proof (vget_Forall _ _ _ _ A2 Fo) as L1. pose proof (vget_Forall _ _ _ _ A3 Fo) as L2. cbn beta in L1, L2.
  set (dx := map (fun z => z / v_dt f)%R (zipw Rminus y y1)).
  set (ddx := map (fun z => z / v_dt f / v_dt f)%R (zipw Rplus (zipw Rminus y (map (fun z => 2 * z)%R y1)) y2)).
  assert (Ldx : length dx = n) by (unfold dx; rewrite map_length, zipw_length by lia; lia).
  assert (Lm : length (zipw Rminus y (map (fun z => 2 * z)%R y1)) = n) by (rewrite zipw_length by (rewrite map_length; lia); lia).
  assert (Lddx : length ddx = n) by (unfold ddx; rewrite map_length, zipw_length by lia; lia).
  assert (Lset : forall (l : list (list R)) q v l', vset l q v = Ok l' -> length l' = length l).
  { intros l q v l'. unfold vset. destruct (q <? length l); [|discriminate]. intros [= <-]. apply upd_length. }
  eexists _, _. split; [reflexivity|]. cbn [v_size v_num v_den v_dt v_first v_in v_out v_pn v_pd even].
  split; [split; [exact (vset_Forall _ _ _ _ _ A1 Fi Hx)|exact (vset_Forall _ _ _ _ _ A4 Fo Ly)]|].
  do 5 (split; [reflexivity|]). split; [rewrite (Lset _ _ _ _ A1); exact Li|]. split; [rewrite (Lset _ _ _ _ A4); exact Lo|].
  split; [fold m; destruct (Nat.ltb_spec (v_pn f + 1) m); lia|]. split; [exact Hpd|]. split; [rewrite !app_length; lia|].
  intros i Hi. unfold cf_step. cbn [row cf_num cf_den cf_first cf_pn cf_pd cf_in cf_out cf_dt].
  assert (G' : (length (v_num f) =? 0) || (length (v_den f) <? 2) = false) by (apply orb_false_iff in G as [G _]; exact G).
  rewrite G'. fold m k. rewrite <- (Ri i), <- (Ro i Hi).
  unfold at_row in *. rewrite (vset_map (fun c => nth i c 0%R) _ _ _ _ A1). cbn [bind]. rewrite (vget_ok _ 0 0%R) by lia. cbn [bind].
  fold prev. rewrite (vget_map (fun c => nth i c 0%R) _ _ _ A2). cbn [bind]. rewrite (vget_map (fun c => nth i c 0%R) _ _ _ A3). cbn [bind].
  fold b a pd.
  assert (Ey : nth i y 0%R = ((dot (at_row i inb') b - dot (at_row i outb) a) / nth 0 (v_den f) 0)%R).
  { unfold y. rewrite map_nth0 by (rewrite zipw_length by (now rewrite !mulv_length); rewrite mulv_length; exact Hi).
    rewrite zipw_nth by (rewrite ?mulv_length; auto). now rewrite !mulv_nth. }
  unfold at_row in Ey. rewrite <- Ey. rewrite (vset_map (fun c => nth i c 0%R) _ _ _ _ A4). cbn [bind].
  unfold row, at_row. cbn [v_size v_num v_den v_dt v_first v_in v_out v_pn v_pd]. do 2 f_equal.
  rewrite !app_nth1 by lia. rewrite (app_nth2 y) by lia. rewrite app_nth1 by lia. rewrite (app_nth2 y) by lia. rewrite app_nth2 by lia.
  replace (n + i - length y) with i by lia. replace (2 * n + i - length y - length dx) with i by lia.
  f_equal; [f_equal|].
  - unfold dx. rewrite map_nth0 by (rewrite zipw_length; lia). rewrite zipw_nth by lia. reflexivity.
  - unfold ddx. rewrite map_nth0 by (rewrite zipw_length; lia). rewrite zipw_nth by lia.
    rewrite zipw_nth by (rewrite ?map_length; lia). rewrite map_nth0 by lia. reflexivity.
Qed.

Definition good (f : vfilter) : Prop :=
  even f /\ sized (v_num f) (v_den f) /\ length (v_in f) = length (v_num f) /\ length (v_out f) = length (v_den f) - 1 /\
  v_pn f < length (v_num f) /\ v_pd f < length (v_den f) - 1.
Lemma switch_row f num den : good f -> sized num den ->
  exists f', vf_switch f num den = Ok f' /\ good f' /\ v_size f' = v_size f /\
    forall i, i < v_size f -> cf_switch (row i f) num den = Ok (row i f').
Proof.
  intros ([E1 E2] & _ & Li & _ & P1 & _) [S1 S2]. unfold vf_switch.
  destruct (vget (v_in f) (v_pn f)) as [cur| |] eqn:A; try (unfold vget in A; destruct (nth_error (v_in f) (v_pn f)) eqn:Z; [discriminate|]; apply nth_error_None in Z; lia).
  cbn [bind]. pose proof (vget_Forall _ _ _ _ A E1) as L. cbn beta in L.
  eexists. split; [reflexivity|]. split.
  - unfold good, even, sized. cbn [v_size v_num v_den v_dt v_first v_in v_out v_pn v_pd]. rewrite !repeat_length.
    split; [split; apply Forall_forall; intros c Hc; apply repeat_spec in Hc; subst; rewrite ?map_length; exact L|]. lia.
  - split; [reflexivity|]. intros i Hi. unfold cf_switch. cbn [row cf_in cf_pn cf_dt cf_first]. unfold at_row.
    rewrite (vget_map (fun c => nth i c 0%R) _ _ _ A). cbn [bind]. unfold row. cbn [v_size v_num v_den v_dt v_first v_in v_out v_pn v_pd].
    rewrite !at_row_repeat, map_nth0 by lia. reflexivity.
Qed.
Lemma step_good f x : good f -> length x = v_size f ->
  exists f' out, vf_step f x = Ok (f', out) /\ good f' /\ v_size f' = v_size f /\ length out = 3 * v_size f /\
    forall i, i < v_size f -> cf_step (row i f) (nth i x 0%R) =
      Ok (row i f', (nth i out 0%R, nth (v_size f + i) out 0%R, nth (2 * v_size f + i) out 0%R)).
Proof.
  intros (E & S & Li & Lo & P1 & P2) Hx. destruct (step_row f x E S Hx (fun _ => conj Li Lo) P1 P2)
    as (f' & out & A & B & C & D & F & G & H & I & J & K & L & M & N).
  exists f', out. split; [exact A|]. split; [|auto]. unfold good. rewrite D, F. auto 10.
Qed.

(** * Histories of the entity *)
(** Nothing was computed at [t] or later. *)
Definition unread (s : fd) (t : Z) : Prop :=
  (forall u v, fd_inner s = Some (u, v) -> (u < t)%Z) /\ (forall o u v, fd_held s o = Some (u, v) -> (u < t)%Z).
Definition action_sized (a : faction) : Prop := match a with ARead _ _ => True | ASwitch num den => sized num den end.
Definition three (n i : nat) (v : list R) : R * R * R := (nth i v 0, nth (n + i) v 0, nth (2 * n + i) v 0)%R.
Definition slice (o : fout) (n : nat) (v : list R) : list R := firstn n (skipn (match o with FX => 0 | FDx => n | FDdx => 2 * n end) v).

Section Run.
Variables (x : Z -> list R) (dt : R) (n : nat) (num den : list R).
Definition rel (evs : nat -> list cf_event) (last : option Z) (s : fd) : Prop :=
  fd_size s = n /\ exists f, fd_filter s = Some f /\ good f /\ v_size f = n /\
  match last with
  | None => forall i, i < n -> exists outs, cf_run dt num den (evs i) = Ok (row i f, outs)
  | Some T => exists val, fd_inner s = Some (T, val) /\ length val = 3 * n /\
      (forall i, i < n -> exists outs, cf_run dt num den (evs i) = Ok (row i f, outs) /\ List.last outs (0, 0, 0)%R = three n i val) /\
      forall o u v, fd_held s o = Some (u, v) -> (u < T)%Z \/ (u = T /\ v = slice o n val)
  end.
Lemma part_ok o v : length v = 3 * n -> fd_part o n v = Ok (slice o n v).
Proof.
  intros L. unfold fd_part, slice. destruct o; [| |replace (length v - n) with (2 * n) by lia].
  all: match goal with |- context [?a <=? ?b] => destruct (Nat.leb_spec a b); [reflexivity|lia] end.
Qed.
Lemma slice_nth o v i : length v = 3 * n -> i < n -> nth i (slice o n v) 0%R = part o (three n i v).
Proof.
  intros L H. unfold slice. rewrite nth_firstn_f by exact H.
  destruct o; cbn [part three fst snd]; rewrite nth_skipn_f; reflexivity.
Qed.
Lemma slice_length o v : length v = 3 * n -> length (slice o n v) = n.
Proof. intros L. unfold slice. rewrite firstn_length, skipn_length. destruct o; lia. Qed.
Lemma run_snoc (evs : nat -> list cf_event) e i f outs : cf_run dt num den (evs i) = Ok (f, outs) -> cf_run dt num den (evs i ++ [e]) = cf_ev (f, outs) e.
Proof.
  unfold cf_run. intros E. rewrite ofold_app, E. cbn [bind ofold]. destruct (cf_ev (f, outs) e) as [[? ?]| |]; reflexivity.
Qed.
Definition sampled (evs : nat -> list cf_event) (last : option Z) (t : Z) (i : nat) : list cf_event :=
  evs i ++ (if moved last t then [CSample (nth i (x t) 0%R)] else []).
Lemma compute_step evs last s t : rel evs last s -> not_before last t -> (last = None -> unread s t) -> length (x t) = n ->
  exists s' val, fd_compute x s t = Ok (s', val) /\ rel (sampled evs last t) (Some t) s' /\ fd_inner s' = Some (t, val).
Proof.
  intros (Hs & f & Hf & Hg & Hn & H) Hb Hu Hx.
  assert (New : (fd_compute x s t = (let* (f', o) := vf_step f (x t) in Ok (FD (fd_size s) (Some f') (Some (t, o)) (fd_held s), o))) ->
     moved last t = true -> (forall o u v, fd_held s o = Some (u, v) -> (u < t)%Z) ->
     (forall i, i < n -> exists outs, cf_run dt num den (evs i) = Ok (row i f, outs)) ->
     exists s' val, fd_compute x s t = Ok (s', val) /\ rel (sampled evs last t) (Some t) s' /\ fd_inner s' = Some (t, val)).
  { intros E Em Hh Hr. destruct (step_good f (x t) Hg) as (f' & out & A & B & C & D & F); [lia|]. rewrite E, A. cbn [bind].
    eexists _, out. split; [reflexivity|]. split; [|reflexivity]. split; [exact Hs|]. exists f'. cbn [fd_filter fd_inner fd_held].
    split; [reflexivity|]. split; [exact B|]. split; [lia|]. exists out. split; [reflexivity|]. split; [lia|]. split.
    - intros i Hi. destruct (Hr i Hi) as (outs & Eo). unfold sampled. rewrite Em. rewrite (run_snoc evs _ i _ _ Eo).
      unfold cf_ev. rewrite F by lia. cbn [bind]. eexists. split; [reflexivity|]. rewrite last_last. rewrite Hn. reflexivity.
    - intros o u v Ho. left. eauto. }
  destruct last as [T|].
  - destruct H as (val & Hi & Hl & Hr & Hh). cbn [not_before] in Hb. unfold fd_compute in New |- *. rewrite Hi, Hf in New. rewrite Hi, Hf.
    destruct (Z.ltb_spec T t) as [L|L].
    + apply New; [reflexivity|cbn; destruct (Z.eqb_spec T t); [lia|reflexivity]| |].
      * intros o u v Ho. apply Hh in Ho as [Ho|[Ho _]]; lia.
      * intros i Hi'. destruct (Hr i Hi') as (outs & Eo & _). eauto.
    + assert (T = t) by lia. subst T. exists s, val. split; [reflexivity|]. split; [|exact Hi].
      split; [exact Hs|]. exists f. split; [exact Hf|]. split; [exact Hg|]. split; [exact Hn|]. exists val. split; [exact Hi|]. split; [exact Hl|].
      split; [|exact Hh]. intros i Hi'. unfold sampled. cbn [moved]. rewrite Z.eqb_refl. cbn [negb]. rewrite app_nil_r. auto.
  - destruct (Hu eq_refl) as [U1 U2]. apply New; [|reflexivity|exact U2|exact H].
    unfold fd_compute. rewrite Hf. destruct (fd_inner s) as [[u v]|] eqn:Ei; [|reflexivity].
    specialize (U1 u v eq_refl). destruct (Z.ltb_spec u t); [reflexivity|lia].
Qed.
Lemma fout_eqb_eq a b : fout_eqb a b = true -> a = b.
Proof. now destruct a, b. Qed.
Lemma read_step evs last s o t : rel evs last s -> not_before last t -> (last = None -> unread s t) -> length (x t) = n ->
  exists s' v, fd_read x s o t = Ok (s', v) /\ rel (sampled evs last t) (Some t) s' /\ length v = n /\
    forall i, i < n -> exists f outs, cf_run dt num den (sampled evs last t i) = Ok (f, outs) /\ nth i v 0%R = part o (List.last outs (0, 0, 0)%R).
Proof.
  intros R Hb Hu Hx. unfold fd_read. destruct (after (fd_held s o) t) eqn:Ea.
  - destruct (compute_step evs last s t R Hb Hu Hx) as (s1 & val & E & R1 & I1). rewrite E. cbn [bind].
    destruct R1 as (Hs & f & Hf & Hg & Hn & val' & Hi & Hl & Hr & Hh). assert (val' = val) by congruence. subst val'.
    rewrite Hs, (part_ok o val Hl). cbn [bind]. eexists _, _. split; [reflexivity|]. split.
    + split; [reflexivity|]. exists f. cbn [fd_filter fd_inner fd_held]. split; [exact Hf|]. split; [exact Hg|]. split; [exact Hn|].
      exists val. split; [exact Hi|]. split; [exact Hl|]. split; [exact Hr|].
      intros q u v. destruct (fout_eqb q o) eqn:Q; [|apply Hh]. apply fout_eqb_eq in Q as ->. intros [= <- <-]. now right.
    + split; [now apply slice_length|]. intros i Hi'. destruct (Hr i Hi') as (outs & Eo & El). exists (row i f), outs. split; [exact Eo|].
      rewrite El. now apply slice_nth.
  - unfold after in Ea. destruct (fd_held s o) as [[u r]|] eqn:Eh; [|discriminate]. apply Z.ltb_ge in Ea.
    destruct last as [T|]; [|destruct (Hu eq_refl) as [_ U]; specialize (U o u r Eh); lia].
    destruct R as (Hs & f & Hf & Hg & Hn & val & Hi & Hl & Hr & Hh). cbn [not_before] in Hb.
    destruct (Hh o u r Eh) as [L|[L ->]]; [lia|]. assert (T = t) by lia. subst u t.
    assert (Es : forall i, sampled evs (Some T) T i = evs i) by (intros i; unfold sampled; cbn; rewrite Z.eqb_refl; cbn; apply app_nil_r).
    exists s, (slice o n val). split; [reflexivity|]. split.
    + split; [exact Hs|]. exists f. split; [exact Hf|]. split; [exact Hg|]. split; [exact Hn|]. exists val. split; [exact Hi|]. split; [exact Hl|].
      split; [|exact Hh]. intros i Hi'. rewrite Es. auto.
    + split; [now apply slice_length|]. intros i Hi'. destruct (Hr i Hi') as (outs & Eo & El). exists (row i f), outs. rewrite Es. split; [exact Eo|].
      rewrite El. now apply slice_nth.
Qed.
Lemma switch_step evs last s nu de : rel evs last s -> sized nu de ->
  exists s', fd_switch s nu de = Ok s' /\ rel (fun i => evs i ++ [CSwitch nu de]) last s' /\ fd_inner s' = fd_inner s /\ fd_held s' = fd_held s.
Proof.
  intros (Hs & f & Hf & Hg & Hn & H) Hz. unfold fd_switch. rewrite Hf. destruct (switch_row f nu de Hg Hz) as (f' & A & B & C & D). rewrite A. cbn [bind].
  eexists. split; [reflexivity|]. split; [|split; reflexivity]. split; [exact Hs|]. exists f'. cbn [fd_filter fd_inner fd_held].
  split; [reflexivity|]. split; [exact B|]. split; [lia|]. destruct last as [T|].
  - destruct H as (val & Hi & Hl & Hr & Hh). exists val. split; [exact Hi|]. split; [exact Hl|]. split; [|exact Hh].
    intros i Hi'. destruct (Hr i Hi') as (outs & Eo & El). exists outs. rewrite (run_snoc evs _ i _ _ Eo). unfold cf_ev. rewrite D by lia. cbn [bind]. auto.
  - intros i Hi'. destruct (H i Hi') as (outs & Eo). exists outs. rewrite (run_snoc evs _ i _ _ Eo). unfold cf_ev. rewrite D by lia. reflexivity.
Qed.
Lemma run_steps l : forall evs last s, rel evs last s -> onward last l -> (last = None -> forall o t, In (ARead o t) l -> unread s t) ->
  Forall action_sized l -> (forall o t, In (ARead o t) l -> length (x t) = n) ->
  exists s' vs, fd_run x s l = Ok (s', vs) /\ length vs = count_reads l /\
    forall l1 o t l2, l = l1 ++ ARead o t :: l2 -> exists v, nth_error vs (count_reads l1) = Some v /\ length v = n /\
      forall i, i < n -> exists f outs, cf_run dt num den (evs i ++ received x i last (l1 ++ [ARead o t])) = Ok (f, outs) /\
        nth i v 0%R = part o (List.last outs (0, 0, 0)%R).
Proof.
  induction l as [|a l IH]; intros evs last s R Ho Hu Hz Hx.
  - exists s, []. split; [reflexivity|]. split; [reflexivity|]. intros [|? ?]; discriminate.
  - apply Forall_cons_iff in Hz as [Za Hz]. destruct a as [o t|nu de]; cbn [fd_run count_reads onward] in *.
    + destruct Ho as [Hb Ho]. destruct (read_step evs last s o t R Hb) as (s1 & v & E & R1 & Lv & V); [intros E; apply (Hu E o); now left|apply (Hx o); now left|].
      rewrite E. cbn [bind]. destruct (IH (sampled evs last t) (Some t) s1 R1 Ho) as (s2 & vs & E2 & Ln & V2); [discriminate|exact Hz|intros; apply (Hx o0); now right|].
      rewrite E2. cbn [bind]. exists s2, (v :: vs). split; [reflexivity|]. split; [cbn; lia|].
      intros [|b l1] o' t' l2 El; cbn [List.app] in El.
      * injection El as -> -> ->. exists v. split; [reflexivity|]. split; [exact Lv|]. intros i Hi. destruct (V i Hi) as (f & outs & E3 & E4).
        exists f, outs. split; [|exact E4]. cbn [List.app received]. rewrite app_nil_r. exact E3.
      * injection El as <- ->. destruct (V2 l1 o' t' l2 eq_refl) as (v' & N & L' & V'). exists v'. split; [exact N|]. split; [exact L'|].
        intros i Hi. destruct (V' i Hi) as (f & outs & E3 & E4). exists f, outs. split; [|exact E4]. cbn [List.app received]. unfold sampled in E3.
        rewrite <- app_assoc in E3. exact E3.
    + destruct (switch_step evs last s nu de R Za) as (s1 & E & R1 & I1 & H1). rewrite E. cbn [bind].
      destruct (IH (fun i => evs i ++ [CSwitch nu de]) last s1 R1 Ho) as (s2 & vs & E2 & Ln & V2); [|exact Hz|intros; apply (Hx o); now right|].
      { intros El o t Hi. unfold unread. rewrite I1, H1. apply (Hu El o t). now right. }
      rewrite E2. exists s2, vs. split; [reflexivity|]. split; [exact Ln|].
      intros [|b l1] o' t' l2 El; cbn [List.app] in El; [discriminate|]. injection El as <- ->.
      destruct (V2 l1 o' t' l2 eq_refl) as (v' & N & L' & V'). exists v'. split; [exact N|]. split; [exact L'|].
      intros i Hi. destruct (V' i Hi) as (f & outs & E3 & E4). exists f, outs. split; [|exact E4]. cbn [List.app received]. 
      rewrite <- app_assoc in E3. exact E3.
Qed.
End Run.

(** C43, C44 for the entity. Once initialised (whatever happened to it before), every read is defined, and the value
    read at some time is, coordinate by coordinate, the latest output, derivative or second derivative of the scalar
    filter that received one sample of that coordinate per time at which some output was read, and the changes of
    coefficients in between. *)
Theorem differentiator_coordinates x s dt n num den l : sized num den -> Forall action_sized l ->
  onward None l -> (forall o t, In (ARead o t) l -> unread s t /\ length (x t) = n) ->
  exists s' vs, fd_run x (fd_init s dt n num den) l = Ok (s', vs) /\ length vs = count_reads l /\
    forall l1 o t l2, l = l1 ++ ARead o t :: l2 -> exists v, nth_error vs (count_reads l1) = Some v /\ length v = n /\
      forall i, i < n -> exists f outs, cf_run dt num den (received x i None (l1 ++ [ARead o t])) = Ok (f, outs) /\
        nth i v 0%R = part o (List.last outs (0, 0, 0)%R).
Proof.
  intros [S1 S2] Hz Ho Hx.
  apply (run_steps x dt n num den l (fun _ => []) None (fd_init s dt n num den)); auto.
  - split; [reflexivity|]. eexists. split; [reflexivity|]. split.
    + unfold good, even, sized. cbn. rewrite !repeat_length. split; [split; apply Forall_forall; intros c Hc; apply repeat_spec in Hc; subst; apply repeat_length|]. lia.
    + split; [reflexivity|]. intros i Hi. exists []. unfold cf_run, cf_new, row, vf_new. cbn [ofold v_dt v_num v_den v_first v_pn v_pd v_in v_out].
      rewrite !at_row_repeat. assert (Z : nth i (repeat 0%R n) 0%R = 0%R) by (clear; revert i; induction n; intros [|i]; cbn; auto). rewrite Z. reflexivity.
  - intros _ o t Hi. apply (Hx o t Hi).
  - intros o t Hi. apply (Hx o t Hi).
Qed.

(** The times at which the entity is read, each once. *)
Fixpoint new_times (last : option Z) (l : list (fout * Z)) : list Z :=
  match l with [] => [] | (_, t) :: r => (if moved last t then [t] else []) ++ new_times (Some t) r end.
Definition reading (p : fout * Z) : faction := ARead (fst p) (snd p).
Lemma received_reads x i l : forall last, received x i last (map reading l) = map CSample (map (fun t => nth i (x t) 0%R) (new_times last l)).
Proof.
  induction l as [|[o t] l IH]; intros last; [reflexivity|]. cbn [map reading fst snd received new_times]. rewrite IH, !map_app.
  destruct (moved last t); reflexivity.
Qed.
(** Without changes of coefficients: each coordinate of the three outputs obeys the difference equation and the finite
    differences over the samples of the successive times. *)
Theorem differentiator_equation x dt n num den l o t : sized num den -> nth 0 den 0%R <> 0%R -> dt <> 0%R ->
  onward None (map reading (l ++ [(o, t)])) -> (forall o' t', In (o', t') (l ++ [(o, t)]) -> length (x t') = n) ->
  exists s' vs v, fd_run x (fd_init fd_new dt n num den) (map reading (l ++ [(o, t)])) = Ok (s', vs ++ [v]) /\ length v = n /\
    forall i, i < n -> let xs := map (fun u => nth i (x u) 0%R) (new_times None (l ++ [(o, t)])) in
      exists outs, difference_equation dt num den (nth 0 xs 0%R) xs outs /\ nth i v 0%R = part o (List.last outs (0, 0, 0)%R).
Proof.
  intros Hs Hd Hdt Ho Hx.
  destruct (differentiator_coordinates x fd_new dt n num den (map reading (l ++ [(o, t)])) Hs) as (s' & vs & E & L & V).
  - apply Forall_forall. intros a Ha. apply in_map_iff in Ha as ([? ?] & <- & _). exact I.
  - exact Ho.
  - intros o' t' Hi. split; [split; cbn; discriminate|]. apply in_map_iff in Hi as ([o1 t1] & Q & Hi). injection Q as <- <-. eauto.
  - rewrite map_app in E, L, V. cbn [map reading fst snd] in E, L, V. destruct (V (map reading l) o t [] eq_refl) as (v & N & Lv & V').
    assert (C : forall m, count_reads (map reading m) = length m) by (induction m as [|? m IH]; cbn; congruence).
    assert (C' : count_reads (map reading l ++ [ARead o t]) = S (length l)).
    { change [ARead o t] with (map reading [(o, t)]). rewrite <- map_app, C, app_length. cbn. lia. }
    assert (L' : length vs = S (length l)) by (etransitivity; [exact L|exact C']). clear L. rename L' into L. rewrite C in N. exists s', (firstn (length l) vs), v. split.
    + rewrite map_app. cbn [map reading fst snd]. rewrite E. do 2 f_equal. rewrite <- (firstn_skipn (length l) vs) at 1. f_equal.
      destruct (skipn (length l) vs) as [|w q] eqn:Sk; [apply (f_equal (@length _)) in Sk; rewrite skipn_length in Sk; cbn in Sk; lia|].
      rewrite <- (firstn_skipn (length l) vs), Sk in N. rewrite nth_error_app2, firstn_length, Nat.min_l, Nat.sub_diag in N by (rewrite ?firstn_length; lia).
      cbn in N. injection N as ->. apply (f_equal (@length _)) in Sk. rewrite skipn_length in Sk. destruct q; [reflexivity|cbn in Sk; lia].
    + split; [exact Lv|]. intros i Hi xs. destruct (V' i Hi) as (f & outs & E3 & E4).
      change (map reading l ++ [ARead o t]) with (map reading l ++ map reading [(o, t)]) in E3. rewrite <- map_app, received_reads in E3. fold xs in E3.
      destruct (causal_difference_equation_partial dt num den xs Hs Hd Hdt) as (f2 & outs2 & E5 & E6). rewrite E5 in E3. injection E3 as <- <-.
      exists outs2. auto.
Qed.

(** Before init, reading an output and changing the filter are undefined; so is a sample of another size. *)
Theorem differentiator_before_init_refuted x o t num den : fd_read x fd_new o t = UB /\ fd_switch fd_new num den = UB.
Proof. split; reflexivity. Qed.
Theorem differentiator_size_refuted x s dt n num den o t : unread s t -> length (x t) <> n -> fd_read x (fd_init s dt n num den) o t = UB.
Proof.
  intros [U1 U2] Hx. unfold fd_read. cbn [fd_init fd_held]. assert (A : after (fd_held s o) t = true).
  { unfold after. destruct (fd_held s o) as [[u v]|] eqn:E; [|reflexivity]. apply Z.ltb_lt. eauto. }
  rewrite A. unfold fd_compute. cbn [fd_init fd_inner fd_filter].
  assert (V : vf_step (vf_new dt n num den) (x t) = UB).
  { unfold vf_step. cbn [vf_new v_num v_den v_size]. destruct (Nat.eqb_spec (length (x t)) n); [contradiction|]. rewrite !orb_true_r. reflexivity. }
  rewrite V. destruct (fd_inner s) as [[u v]|] eqn:E; [|reflexivity]. specialize (U1 u v eq_refl). destruct (Z.ltb_spec u t); [reflexivity|lia].
Qed.

Example differentiator_case : let x (t : Z) := [IZR t; 1%R] in
  let l := [(FX, 1%Z); (FDx, 1%Z); (FDx, 2%Z); (FDdx, 2%Z)] in
  sized [1; 1]%R [1; 2; 3]%R /\ onward None (map reading (l ++ [(FX, 3%Z)])) /\ (forall o t, In (o, t) (l ++ [(FX, 3%Z)]) -> length (x t) = 2) /\
  new_times None (l ++ [(FX, 3%Z)]) = [1; 2; 3]%Z.
Proof. cbn. unfold sized. cbn. repeat split; lia. Qed.

Print Assumptions differentiator_coordinates.
Print Assumptions differentiator_equation.
Print Assumptions differentiator_before_init_refuted.
Print Assumptions differentiator_size_refuted.
