(** C37: the switch; C49: variadic operators; C48 (mix): see also Operator_Props. *)
From Coq Require Import String Ascii List Arith Lia ZArith Bool Reals Lra.
From Verif Require Import Base Variadic_Model Variadic_Proofs.
Import ListNotations.
Local Open Scope nat_scope.
Local Open Scope list_scope.

(* ------------------------------------------------------------------ *)
(** * Specification of the inputs

    The inputs of an entity are the list of signals, in order; a signal is identified by
    its creation number and carries a name. *)

(** [m] new inputs called sin<i>, sin<i+1>, .. *)
Fixpoint new_inputs (i f m : nat) : list sigobj :=
  match m with 0 => [] | S m => mksig f (sin_name i) :: new_inputs (S i) (S f) m end.

Definition spec_step {O} (reserved : list string) (onNumber : nat -> O -> O) (c : vcmd O)
  (s : list sigobj * nat * O) : option (list sigobj * nat * O) :=
  let '(l, f, o) := s in
  match c with
  | CAdd => Some (l ++ [mksig f (sin_name (length l))], S f, o)
  | CAddNamed n =>                      (* refused when the name is taken *)
      if in_dec string_dec n (reserved ++ map sname l) then Some (l, S f, o)
      else Some (l ++ [mksig f n], S f, o)
  | CRemove => match l with [] => None | _ => Some (removelast l, f, o) end
  | CNumber n =>                        (* refused when negative *)
      if (n <? 0)%Z then Some (l, f, o)
      else let m := Z.to_nat n - length l in
           Some (firstn (Z.to_nat n) l ++ new_inputs (length l) f m, f + m,
                 onNumber (Z.to_nat n) o)
  | COp g =>                            (* the operator's own commands *)
      Some (l, f, match g (length l) o with Some o' => o' | None => o end)
  end.

Fixpoint spec_run {O} (reserved : list string) (onNumber : nat -> O -> O) (h : list (vcmd O)) s :=
  match h with
  | [] => Some s
  | c :: r => match spec_step reserved onNumber c s with
              | Some s' => spec_run reserved onNumber r s'
              | None => None
              end
  end.

(** Names given explicitly are not of the form sin<i>. *)
Definition clean {O} (h : list (vcmd O)) : Prop :=
  forall n i, In (CAddNamed n) h -> n <> sin_name i.

(* ------------------------------------------------------------------ *)

Lemma new_inputs_news i f m : new_inputs i f m = news i f m.
Proof. revert i f; induction m; intros; simpl; [reflexivity | f_equal; apply IHm]. Qed.

Lemma combine_seq_fst (l : list string) k : map fst (combine l (seq k (length l))) = l.
Proof. revert k; induction l; intros k; simpl; [reflexivity | f_equal; apply IHl]. Qed.

Section R.
  Context {O : Type}.
  Variable onNumber : nat -> O -> O.
  Variables (own : list string) (d : list nat).
  Let reserved := "sout"%string :: own.
  Hypothesis Hd : forall x, In x d -> x < length reserved.
  Hypothesis Hown : forall i, ~ In (sin_name i) own.
  Let reg0 := combine reserved (seq 0 (length reserved)).

  Lemma reg0_fst : map fst reg0 = reserved.
  Proof. apply combine_seq_fst. Qed.

  Lemma reserved_sin i : ~ In (sin_name i) reserved.
  Proof.
    intros [H | H]; [|exact (Hown i H)]. unfold sin_name in H. simpl in H. discriminate.
  Qed.

  Lemma vrun_spec h : clean h -> forall l f o,
    good reserved l f -> sins l -> length reserved <= f ->
    match vrun onNumber h (st_of reg0 d l f o), spec_run reserved onNumber h (l, f, o) with
    | Some st, Some (l', f', o') => st = st_of reg0 d l' f' o' /\ good reserved l' f'
    | None, None => True
    | _, _ => False
    end.
  Proof.
    induction h as [|c h IH]; intros Hc l f o G Hs Hf; cbn [vrun spec_run].
    - split; [reflexivity | exact G].
    - assert (Hc' : clean h) by (intros n i Hi; apply Hc; right; exact Hi).
      specialize (IH Hc').
      destruct c as [|n| |n|g]; cbn [vstep spec_step].
      + unfold addSignal. unfold st_of at 1. cbn [slots]. rewrite map_length.
        rewrite (addNamed_fresh reserved reg0 d reg0_fst l f o (sin_name (length l))
                   (reserved_sin _) (sins_new l Hs)).
        apply IH; [|apply sins_add; [exact Hs|] | lia].
        * apply good_add; auto. apply reserved_sin. apply sins_new, Hs.
        * intros j E. simpl in E. apply sin_name_inj in E. auto.
      + destruct (in_dec string_dec n (reserved ++ map sname l)) as [Hi | Hi].
        * rewrite (addNamed_taken reserved reg0 d reg0_fst l f o n) by (apply in_app_iff; exact Hi).
          apply IH; [apply good_weaken; exact G | exact Hs | lia].
        * rewrite in_app_iff in Hi.
          rewrite (addNamed_fresh reserved reg0 d reg0_fst l f o n) by tauto.
          apply IH; [|apply sins_add; [exact Hs|] | lia].
          -- apply good_add; auto.
          -- intros j E. simpl in E. exfalso. apply (Hc n j (or_introl eq_refl) E).
      + destruct l as [|s0 l0] using rev_ind.
        * reflexivity.
        * clear IHl0. rewrite (remove_spec reserved reg0 d reg0_fst Hd l0 s0 f o G).
          replace (match l0 ++ [s0] with [] => None | _ :: _ => Some (removelast (l0 ++ [s0]), f, o) end)
            with (Some (l0, f, o)).
          2:{ rewrite removelast_last. destruct l0; reflexivity. }
          apply IH; auto.
          -- apply (good_firstn reserved _ f (length l0)) in G.
             rewrite firstn_app, firstn_all, Nat.sub_diag in G. simpl in G.
             rewrite app_nil_r in G. exact G.
          -- apply (sins_firstn _ (length l0)) in Hs.
             rewrite firstn_app, firstn_all, Nat.sub_diag in Hs. simpl in Hs.
             rewrite app_nil_r in Hs. exact Hs.
      + destruct (Z.ltb_spec n 0) as [Hn | Hn].
        * unfold setSignalNumber. destruct (Z.ltb_spec n 0); [|lia]. apply IH; auto.
        * rewrite (setNumber_spec reserved reg0 d reg0_fst Hd reserved_sin onNumber l f o n Hn G Hs).
          cbv zeta. change (@new_inputs) with (@news).
          assert (HA : good reserved (firstn (Z.to_nat n) l ++ news (length l) f (Z.to_nat n - length l))
                         (f + (Z.to_nat n - length l))
                       /\ sins (firstn (Z.to_nat n) l ++ news (length l) f (Z.to_nat n - length l))).
          { destruct (Nat.le_gt_cases (Z.to_nat n) (length l)) as [Hk | Hk].
            - replace (Z.to_nat n - length l) with 0 by lia. cbn [news].
              rewrite app_nil_r, Nat.add_0_r.
              split; [apply good_firstn; exact G | apply sins_firstn; exact Hs].
            - rewrite (firstn_all2 (n := Z.to_nat n) l) by lia. split.
              + apply good_news; auto. exact reserved_sin.
              + apply (createRange reserved reg0 d reg0_fst reserved_sin o
                         (Z.to_nat n - length l) l f Hs). }
          destruct HA. apply IH; auto. lia.
      + unfold st_of at 1 2. cbn [slots ops]. rewrite map_length.
        destruct (g (length l) o) as [o'|].
        * apply (IH l f o' G Hs Hf).
        * apply (IH l f o G Hs Hf).
  Qed.

  (** C37, C49: after any history of additions, removals and renumberings, the entity has
      exactly the inputs of the specification: inputs that are kept are the same objects
      (so they stay plugged), the output depends on each of them and on nothing else, and
      each is found under its name.  Missing: inputs named by the user as the automatic names
      (variadic_number_conflict_refuted). *)
  Theorem variadic_inputs_partial : forall o h, clean h ->
    match vrun onNumber h (vinit own d o), spec_run reserved onNumber h ([], length reserved, o) with
    | Some st, Some (l, _, o') =>
        slots st = map Some l
        /\ ops st = o'
        /\ deps st = d ++ map sid l
        /\ (forall s, In s l -> reg_find (reg st) (sname s) = Some (sid s))
        /\ NoDup (map sname l)
    | None, None => True
    | _, _ => False
    end.
  Proof.
    intros o h Hc.
    assert (G0 : good reserved [] (length reserved)).
    { split; solve [apply NoDup_nil | intros s []]. }
    assert (S0 : sins []) by (intros [|i] j s; discriminate).
    pose proof (vrun_spec h Hc [] (length reserved) o G0 S0 (le_n _)) as H.
    assert (E0 : st_of reg0 d [] (length reserved) o = vinit own d o).
    { unfold st_of, vinit. simpl map. rewrite !app_nil_r. reflexivity. }
    rewrite E0 in H.
    destruct (vrun onNumber h (vinit own d o)) as [st|]; destruct (spec_run reserved onNumber h _) as [[[l f] o']|];
      try exact H.
    destruct H as (-> & [K1 K2 K3 K4]).
    split; [reflexivity|]. split; [reflexivity|]. split; [reflexivity|]. split; [|exact K1].
    intros s Hs. unfold st_of. cbn [reg]. unfold reg_find. rewrite find_app.
    assert (F : find (fun x => String.eqb (fst x) (sname s)) reg0 = None).
    { pose proof (proj2 (reg_find_none reg0 (sname s))) as Q. unfold reg_find in Q.
      rewrite reg0_fst in Q. specialize (Q (K2 s Hs)).
      destruct (find _ reg0); [discriminate | reflexivity]. }
    rewrite F. clear F K2 K3 K4. induction l as [|a l IH]; [destruct Hs|].
    cbn [map find fst entry]. inversion K1; subst.
    destruct (String.eqb_spec (sname a) (sname s)) as [E|E].
    - destruct Hs as [-> | Hs]; [reflexivity|].
      exfalso. apply H1. rewrite E. apply in_map. exact Hs.
    - destruct Hs as [-> | Hs]; [congruence|]. apply IH; auto.
  Qed.

  (** Reading the inputs by index: the specification's list, an error outside of it. *)
  Theorem variadic_get_signal : forall o h st l f o', clean h ->
    vrun onNumber h (vinit own d o) = Some st ->
    spec_run reserved onNumber h ([], length reserved, o) = Some (l, f, o') ->
    getSignalNumber st = length l /\
    (forall i s, nth_error l i = Some s -> getSignalIn (Z.of_nat i) st = Ok (Some s)) /\
    (forall i, (i < 0 \/ Z.of_nat (length l) <= i)%Z -> getSignalIn i st = Throw "Wrong signal index").
  Proof.
    intros o h st l f o' Hc E1 E2. pose proof (variadic_inputs_partial o h Hc) as H. rewrite E1, E2 in H.
    destruct H as (Hs & _). unfold getSignalNumber, getSignalIn. rewrite Hs, map_length. split; [reflexivity|]. split.
    - intros i s Hi. assert (i < length l)%nat by (apply nth_error_Some; congruence).
      destruct (Z.ltb_spec (Z.of_nat i) 0); [lia|]. destruct (Z.leb_spec (Z.of_nat (length l)) (Z.of_nat i)); [lia|]. cbn [orb].
      rewrite Nat2Z.id. unfold vget. rewrite nth_error_map, Hi. reflexivity.
    - intros i Hi. destruct (Z.ltb_spec i 0); [reflexivity|]. destruct (Z.leb_spec (Z.of_nat (length l)) i); [reflexivity|lia].
  Qed.
End R.

(* ------------------------------------------------------------------ *)
(** * C37: the switch *)

Lemma switch_names : forall i, ~ In (sin_name i) ["selection"; "boolSelection"]%string.
Proof. intros i [H | [H | []]]; discriminate H. Qed.

Lemma switch_deps : forall x, In x [1; 2] -> x < 3.
Proof. simpl. intros x [<- | [<- | []]]; lia. Qed.

Definition switch_reserved := ["sout"; "selection"; "boolSelection"]%string.

(** The selection requested: the integer one when it is plugged, else the boolean one. *)
Definition requested (sel : option (outcome Z)) (bsel : outcome bool) (s : Z) : Prop :=
  match sel with
  | Some r => r = Ok s
  | None => exists b, bsel = Ok b /\ s = if b then 1%Z else 0%Z
  end.

(** After any history, the output is the value of the selected input, or the error; other
    inputs are not read. *)
Theorem switch_selects : forall h l f st V (val : nat -> outcome V) sel bsel s, clean h ->
  spec_run switch_reserved (fun _ o => o) h ([], 3, tt) = Some (l, f, tt) ->
  vrun (fun _ o => o) h switch0 = Some st ->
  requested sel bsel s ->
  ((0 <= s < Z.of_nat (length l))%Z ->
     exists x, nth_error l (Z.to_nat s) = Some x
               /\ switchSignal sel bsel val st = val (sid x))
  /\ (~ (0 <= s < Z.of_nat (length l))%Z ->
     switchSignal sel bsel val st = Throw "Signal selection is out of range.").
Proof.
  intros h l f st V val sel bsel s Hc Hl Hst Hr.
  pose proof (variadic_inputs_partial (fun (_ : nat) (o : unit) => o)
                ["selection"; "boolSelection"]%string _ switch_deps switch_names tt h Hc) as H.
  unfold switch0 in Hst. rewrite Hst in H. unfold switch_reserved in Hl.
  change (length ("sout"%string :: ["selection"%string; "boolSelection"%string])) with 3 in H.
  rewrite Hl in H. destruct H as (HS & _).
  assert (E : switchSignal sel bsel val st =
              if (s <? 0)%Z || (Z.of_nat (length l) <=? s)%Z
              then Throw "Signal selection is out of range."
              else let* o := vget (map Some l) (Z.to_nat s) in readSlot val o).
  { unfold switchSignal, requested in *. rewrite HS, map_length.
    destruct sel as [r|].
    - subst r. reflexivity.
    - destruct Hr as (b & -> & ->). reflexivity. }
  rewrite E. split; intros Hs.
  - destruct (Z.ltb_spec s 0); [lia|]. destruct (Z.leb_spec (Z.of_nat (length l)) s); [lia|].
    simpl orb. destruct (nth_error l (Z.to_nat s)) as [x|] eqn:Ex.
    + exists x. split; auto. unfold vget. rewrite nth_error_map, Ex. reflexivity.
    + apply nth_error_None in Ex. lia.
  - destruct (Z.ltb_spec s 0); [reflexivity|].
    destruct (Z.leb_spec (Z.of_nat (length l)) s); [reflexivity | lia].
Qed.

(** The selection itself failing (not plugged, for instance) is reported as it is. *)
Theorem switch_no_selection : forall O (st : vstate O) V (val : nat -> outcome V) sel bsel w,
  (sel = Some (Throw w) \/ sel = None /\ bsel = Throw w) ->
  switchSignal sel bsel val st = Throw w.
Proof. intros O st V val sel bsel w [-> | [-> ->]]; reflexivity. Qed.

(** With the commands available from Python (setSignalNumber alone) the inputs are
    sin0 .. sin<n-1>, n being the last number accepted. *)
Theorem variadic_numbering : forall O reserved (onNumber : nat -> O -> O) f0 o0 ns l f o,
  spec_run reserved onNumber (map CNumber ns) ([], f0, o0) = Some (l, f, o) ->
  forall i, i < length l -> option_map sname (nth_error l i) = Some (sin_name i).
Proof.
  intros O reserved onNumber.
  assert (H : forall ns (l0 : list sigobj) f0 o0,
    (forall i, i < length l0 -> option_map sname (nth_error l0 i) = Some (sin_name i)) ->
    forall l f o, spec_run reserved onNumber (map CNumber ns) (l0, f0, o0) = Some (l, f, o) ->
    forall i, i < length l -> option_map sname (nth_error l i) = Some (sin_name i)).
  { induction ns as [|n ns IH]; intros l0 f0 o0 H0 l f o; cbn [map spec_run].
    - intros E; inversion E; subst; exact H0.
    - cbn [spec_step]. destruct (n <? 0)%Z; [apply IH; exact H0|]. cbv zeta.
      apply IH. intros i Hi.
      assert (Hnew : forall m a k i, i < m ->
                option_map sname (nth_error (new_inputs a k m) i) = Some (sin_name (a + i))).
      { clear. induction m; intros a k i Hi; [lia|]. destruct i; simpl.
        - rewrite Nat.add_0_r. reflexivity.
        - rewrite IHm by lia. do 2 f_equal. lia. }
      destruct (Nat.lt_ge_cases i (length (firstn (Z.to_nat n) l0))) as [Hf | Hf].
      + rewrite nth_error_app1 by exact Hf. rewrite firstn_length in Hf.
        rewrite <- (H0 i) by lia. f_equal.
        rewrite <- (firstn_skipn (Z.to_nat n) l0) at 2. rewrite nth_error_app1; [reflexivity|].
        rewrite firstn_length. lia.
      + rewrite nth_error_app2 by exact Hf. rewrite app_length, new_inputs_news, news_length in Hi.
        rewrite firstn_length in *. rewrite Hnew by lia. do 2 f_equal. lia. }
  intros f0 o0 ns l f o. apply H. simpl. intros i Hi. lia.
Qed.

(** Number of inputs after setSignalNumber. *)
Theorem variadic_number : forall O reserved (onNumber : nat -> O -> O) h n s0 l f o,
  (0 <= n)%Z ->
  spec_run reserved onNumber (h ++ [CNumber n]) s0 = Some (l, f, o) -> length l = Z.to_nat n.
Proof.
  intros O reserved onNumber h n.
  induction h as [|c h IH]; intros s0 l f o Hn; cbn [app spec_run].
  - destruct s0 as [[l0 f0] o0]. cbn [spec_step]. destruct (Z.ltb_spec n 0); [lia|].
    intros E; inversion E; subst. rewrite app_length, firstn_length, new_inputs_news, news_length. lia.
  - destruct (spec_step reserved onNumber c s0) as [s1|]; [|discriminate]. apply IH. exact Hn.
Qed.

(** An input whose name was chosen of the form sin<i> makes setSignalNumber fail half way:
    a pointer is left NULL and the next evaluation is undefined. *)
Theorem variadic_number_conflict_refuted :
  exists st st',
    vrun (O := unit) (fun _ o => o) [CNumber 1; CAddNamed (sin_name 2)] switch0 = Some st
    /\ setSignalNumber (fun _ o => o) 4 st = Threw st'
    /\ map (option_map sname) (slots st') = [Some (sin_name 0); Some (sin_name 2); Some (sin_name 2); None]
    /\ forall V (val : nat -> outcome V) bsel, switchSignal (Some (Ok 3%Z)) bsel val st' = UB.
Proof.
  eexists. eexists. split; [vm_compute; reflexivity|]. split; [vm_compute; reflexivity|].
  split; [reflexivity|]. intros. reflexivity.
Qed.

Example switch_example :
  exists st l f,
    vrun (O := unit) (fun _ o => o) [CNumber 3; CRemove; CNumber 4] switch0 = Some st
    /\ spec_run switch_reserved (fun _ o => o) [CNumber 3; CRemove; CNumber 4] ([], 3, tt) = Some (l, f, tt)
    /\ map sid l = [3; 4; 6; 7]
    /\ switchSignal None (Ok true) (fun i => Ok (10 * i)) st = Ok 40
    /\ switchSignal (Some (Ok 3%Z)) (Ok true) (fun i => Ok (10 * i)) st = Ok 70
    /\ switchSignal (Some (Ok 4%Z)) (Ok true) (fun i => Ok (10 * i)) st
       = Throw "Signal selection is out of range.".
Proof.
  eexists. eexists. eexists. split; [vm_compute; reflexivity|].
  split; [vm_compute; reflexivity|]. repeat split.
Qed.

(* ------------------------------------------------------------------ *)
(** * C49: sums *)

Section Sum.
  Local Open Scope R_scope.

  (** Eigen vectors: [r += c * v] is undefined when the sizes differ. *)
  Definition vscale (c : R) (v : list R) : list R := map (Rmult c) v.
  Definition vplus (a b : list R) : outcome (list R) :=
    if (length a =? length b)%nat then Ok (map (fun p => fst p + snd p) (combine a b)) else UB.

  (** sum_i c_i v_i, component [j]. *)
  Definition weighted_sum (c : list R) (vs : list (list R)) (j : nat) : R :=
    fold_right Rplus 0 (map (fun p => fst p * nth j (snd p) 0) (combine c vs)).

  Lemma nth_vscale c v j : nth j (vscale c v) 0 = c * nth j v 0.
  Proof.
    unfold vscale. replace 0 with (c * 0) at 1 by ring. apply (map_nth (Rmult c)).
  Qed.

  Lemma nth_vplus a b j : length a = length b ->
    nth j (map (fun p => fst p + snd p) (combine a b)) 0 = nth j a 0 + nth j b 0.
  Proof.
    revert b j; induction a as [|x a IH]; intros [|y b] j H; simpl in H; try discriminate.
    - destruct j; simpl; ring.
    - destruct j; simpl; [reflexivity|]. apply IH. lia.
  Qed.

  Lemma adder_loop dim : forall vs c i r,
    Forall (fun v => length v = dim) vs -> (i + length vs <= length c)%nat -> length r = dim ->
    forall pre, length pre = i ->
    exists res,
      ofold (fun s k => let* ck := vget c k in let* v := vget (pre ++ vs) k in vplus s (vscale ck v))
            (seq i (length vs)) r = Ok res
      /\ length res = dim
      /\ forall j, nth j res 0 = nth j r 0 + weighted_sum (skipn i c) vs j.
  Proof.
    induction vs as [|v vs IH]; intros c i r HV Hc Hr pre Hp; simpl seq; simpl ofold.
    - exists r. split; [reflexivity|]. split; [exact Hr|]. intros j. unfold weighted_sum.
      rewrite combine_nil. simpl. ring.
    - pose proof (Forall_inv HV) as H1. pose proof (Forall_inv_tail HV) as H2. simpl in H1.
      subst i. simpl in Hc.
      rewrite (vget_ok c (length pre) 0) by lia. cbn [bind].
      assert (E : vget (pre ++ v :: vs) (length pre) = Ok v).
      { unfold vget. rewrite nth_error_app2 by lia. rewrite Nat.sub_diag. reflexivity. }
      rewrite E. cbn [bind]. unfold vplus at 1. unfold vscale at 1. rewrite map_length, Hr, H1, Nat.eqb_refl.
      cbn [bind].
      specialize (IH c (S (length pre)) (map (fun p => fst p + snd p)
                    (combine r (vscale (nth (length pre) c 0) v))) H2 ltac:(lia)).
      destruct IH with (pre := pre ++ [v]) as (res & E1 & E2 & E3).
      { rewrite map_length, combine_length. unfold vscale. rewrite map_length, Hr, H1. apply Nat.min_id. }
      { rewrite app_length. simpl. lia. }
      exists res. split.
      { rewrite <- app_assoc in E1. simpl in E1. exact E1. }
      split; [exact E2|]. intros j. rewrite E3.
      rewrite nth_vplus by (unfold vscale; rewrite map_length; congruence).
      rewrite nth_vscale.
      assert (ES : skipn (length pre) c = nth (length pre) c 0 :: skipn (S (length pre)) c).
      { clear -Hc. revert c Hc. generalize (length pre) as n. induction n; intros [|x c] Hc; simpl in *; try lia; auto.
        apply IHn. lia. }
      rewrite ES. unfold weighted_sum. simpl. ring.
  Qed.

  Lemma adder_op_sum : forall dim c vs prev, vs <> [] ->
    (length vs <= length c)%nat -> Forall (fun v => length v = dim) vs ->
    exists res, adderOp (list R) vscale vplus c vs prev = Ok res
      /\ length res = dim /\ forall j, nth j res 0 = weighted_sum c vs j.
  Proof.
    intros dim c vs prev Hne Hc HV. destruct vs as [|v vs]; [congruence|].
    unfold adderOp. destruct c as [|c0 c]; [simpl in Hc; lia|]. cbn [vget nth_error bind].
    pose proof (Forall_inv HV) as H1. pose proof (Forall_inv_tail HV) as H2. simpl in H1.
    subst dim. unfold ofor_range. cbn [length]. rewrite Nat.sub_succ, Nat.sub_0_r.
    destruct (adder_loop (length v) vs (c0 :: c) 1 (vscale c0 v) H2 ltac:(simpl in *; lia)
                ltac:(unfold vscale; apply map_length) [v] eq_refl) as (res & E1 & E2 & E3).
    exists res. split; [exact E1|]. split; [exact E2|]. intros j. rewrite E3, nth_vscale.
    reflexivity.
  Qed.
End Sum.

(** Commands of a sum available from Python. *)
Inductive addcmd := ANumber (n : Z) | ACoeffs (c : list R).
Definition acmd (a : addcmd) : vcmd (list R) :=
  match a with ANumber n => CNumber n | ACoeffs c => setCoeffs c end.

(** Its coefficients: all ones after setting the number of inputs, else the last ones of
    the right size. *)
Definition coeffs_step (c : list R) (a : addcmd) : list R :=
  match a with
  | ANumber n => if (n <? 0)%Z then c else repeat 1%R (Z.to_nat n)
  | ACoeffs c' => if length c =? length c' then c' else c
  end.
Definition coeffs_of (h : list addcmd) : list R := fold_left coeffs_step h (repeat 1%R 2).

(** The values of all inputs, in order. *)
Fixpoint all_values {V} (val : nat -> outcome V) (l : list sigobj) : outcome (list V) :=
  match l with
  | [] => Ok []
  | s :: r => let* v := val (sid s) in let* vs := all_values val r in Ok (v :: vs)
  end.

Lemma readAll_map V (val : nat -> outcome V) l : readAll val (map Some l) = all_values val l.
Proof. induction l; simpl; auto. destruct (val (sid a)); simpl; auto. rewrite IHl. reflexivity. Qed.

Lemma all_values_length V (val : nat -> outcome V) l vs : all_values val l = Ok vs -> length vs = length l.
Proof.
  revert vs; induction l as [|s l IH]; simpl; intros vs H; [inversion H; reflexivity|].
  destruct (val (sid s)); simpl in H; try discriminate.
  destruct (all_values val l); simpl in H; try discriminate.
  inversion H; subst. simpl. f_equal. apply IH. reflexivity.
Qed.

(** State after a history of Python commands. *)
Lemma acmd_named h n : ~ In (CAddNamed n) (map acmd h).
Proof. intros H. apply in_map_iff in H. destruct H as ([k|c] & E & _); discriminate E. Qed.

Lemma adder_spec : forall h l f c,
  length l = length c ->
  exists l' f', spec_run ["sout"%string] (adderNumber 1%R) (map acmd h) (l, f, c)
                = Some (l', f', fold_left coeffs_step h c)
    /\ length l' = length (fold_left coeffs_step h c).
Proof.
  induction h as [|a h IH]; intros l f c HL; cbn [map spec_run fold_left].
  - exists l, f. auto.
  - destruct a as [n|c']; cbn [acmd setCoeffs spec_step coeffs_step].
    + destruct (n <? 0)%Z; [apply IH; exact HL|]. cbv zeta. apply IH.
      rewrite app_length, firstn_length, new_inputs_news, news_length, repeat_length. lia.
    + rewrite <- HL. destruct (Nat.eqb_spec (length l) (length c')); apply IH; congruence.
Qed.

Lemma adder_clean h : clean (CNumber 2 :: map acmd h).
Proof. intros n i [H | H]; [discriminate H|]. exfalso. exact (acmd_named _ _ H). Qed.

Lemma adder_state : forall h,
  exists st l f,
    vrun (adderNumber 1%R) (CNumber 2 :: map acmd h) (vinit [] [] []) = Some st
    /\ spec_run ["sout"%string] (adderNumber 1%R) (CNumber 2 :: map acmd h) ([], 1, [])
       = Some (l, f, coeffs_of h)
    /\ slots st = map Some l /\ ops st = coeffs_of h /\ length l = length (coeffs_of h).
Proof.
  intros h.
  pose proof (variadic_inputs_partial (adderNumber 1%R) [] []
                (fun x (Hx : In x []) => match Hx with end)
                (fun i (Hx : In (sin_name i) []) => Hx) [] _ (adder_clean h)) as HV.
  change (length ["sout"%string]) with 1 in HV.
  cbn [spec_run] in HV |- *. 
  destruct (adder_spec h (new_inputs 0 1 2) 3 (repeat 1%R 2) eq_refl) as (l & f & E & HL).
  change (spec_step ["sout"%string] (adderNumber 1%R) (CNumber 2) ([], 1, []))
    with (Some (new_inputs 0 1 2, 3, repeat 1%R 2)) in *.
  cbv beta iota in HV. rewrite E in HV.
  destruct (vrun _ _ _) as [st|] eqn:EV; [|contradiction].
  destruct HV as (H1 & H2 & _). exists st, l, f. unfold coeffs_of. auto.
Qed.

(** C49: after any sequence of setSignalNumber and setCoeffs, the output
    of a sum of vectors of a common size is the weighted sum of its
    inputs, each input with its coefficient. Missing: histories with
    addSignal, whose coefficient is read out of bounds; false of the code. *)
Theorem adder_output_partial : forall h val prev dim,
  exists st l f,
    vrun (adderNumber 1%R) (CNumber 2 :: map acmd h) (vinit [] [] []) = Some st
    /\ spec_run ["sout"%string] (adderNumber 1%R) (CNumber 2 :: map acmd h) ([], 1, [])
       = Some (l, f, coeffs_of h)
    /\ length l = length (coeffs_of h)
    /\ forall vs, all_values val l = Ok vs -> vs <> [] ->
        Forall (fun v => length v = dim) vs ->
        exists res,
          computeOperation (adderOp (list R) vscale vplus) val st prev = Ok res
          /\ length res = dim
          /\ forall j, nth j res 0%R = weighted_sum (coeffs_of h) vs j.
Proof.
  intros h val prev dim. destruct (adder_state h) as (st & l & f & E1 & E2 & E3 & E4 & E5).
  exists st, l, f. split; [exact E1|]. split; [exact E2|]. split; [exact E5|].
  intros vs HV Hne HD. unfold computeOperation. rewrite E3, readAll_map, HV, E4. cbn [bind].
  apply (adder_op_sum dim); auto. apply all_values_length in HV. lia.
Qed.

(** Without input the output keeps its previous value instead of becoming zero. *)
Theorem adder_empty_refuted : forall (T : Type) scale plus (c : list R) (prev : T),
  adderOp T scale plus c [] prev = Ok prev.
Proof. reflexivity. Qed.

(** Adding an input with addSignal does not extend the coefficients: the next evaluation
    reads past them, whatever the values. *)
Theorem adder_added_input_refuted : forall h st val prev vs,
  vrun (adderNumber 1%R) (CNumber 2 :: map acmd h ++ [CAdd]) (vinit [] [] []) = Some st ->
  readAll val (slots st) = Ok vs ->
  computeOperation (adderOp (list R) vscale vplus) val st prev = UB.
Proof.
  intros h st val prev vs HR HV.
  destruct (adder_spec h (new_inputs 0 1 2) 3 (repeat 1%R 2) eq_refl) as (l & f & E & HL).
  fold (coeffs_of h) in E, HL.
  assert (Hc : clean (CNumber 2 :: map acmd h ++ [CAdd])).
  { intros n i [H | H]; [discriminate H|]. apply in_app_iff in H.
    destruct H as [H | [H | []]]; [|discriminate H]. exfalso. exact (acmd_named _ _ H). }
  pose proof (variadic_inputs_partial (adderNumber 1%R) [] []
                (fun x (Hx : In x []) => match Hx with end)
                (fun i (Hx : In (sin_name i) []) => Hx) [] _ Hc) as H.
  rewrite HR in H. change (length ["sout"%string]) with 1 in H.
  assert (RS : forall h1 (c : vcmd (list R)) s0 s1,
      spec_run ["sout"%string] (adderNumber 1%R) h1 s0 = Some s1 ->
      spec_run ["sout"%string] (adderNumber 1%R) (h1 ++ [c]) s0
      = spec_step ["sout"%string] (adderNumber 1%R) c s1).
  { clear. induction h1 as [|c1 h1 IH]; intros c s0 s1; cbn [app spec_run].
    - intros E; inversion E; subst. destruct (spec_step _ _ c s1); reflexivity.
    - destruct (spec_step _ _ c1 s0); [apply IH | discriminate]. }
  change (CNumber 2 :: map acmd h ++ [CAdd]) with ((CNumber 2 :: map acmd h) ++ [CAdd]) in H.
  erewrite RS in H.
  2:{ cbn [spec_run]. change (spec_step ["sout"%string] (adderNumber 1%R) (CNumber 2) ([], 1, []))
      with (Some (new_inputs 0 1 2, 3, repeat 1%R 2)). cbv beta iota. exact E. }
  cbn [spec_step] in H. destruct H as (HS & HO & _).
  unfold computeOperation. rewrite HV. cbn [bind]. rewrite HO.
  rewrite HS, readAll_map in HV. apply all_values_length in HV.
  rewrite app_length, HL in HV. simpl in HV.
  destruct vs as [|v vs]; [simpl in HV; lia|]. unfold adderOp.
  generalize (coeffs_of h) HV. clear. intros c HV.
  destruct c as [|c0 c]; [reflexivity|]. cbn [vget nth_error bind].
  unfold ofor_range. cbn [length] in *. rewrite Nat.sub_succ, Nat.sub_0_r.
  (* every earlier step is fine or undefined; the last one is undefined *)
  assert (HLv : length vs = S (length c)) by lia. rewrite HLv, seq_S.
  rewrite ofold_app.
  assert (HT : forall l (s : list R) w,
    ofold (fun s i => let* c1 := vget (c0 :: c) i in let* v0 := vget (v :: vs) i in
                      vplus s (vscale c1 v0)) l s <> Throw w).
  { induction l as [|i l IH]; intros s w; simpl; [discriminate|].
    destruct (vget (c0 :: c) i) eqn:G1; simpl; try discriminate.
    - destruct (vget (v :: vs) i) eqn:G2; simpl; try discriminate.
      + unfold vplus at 1. destruct (_ =? _); simpl; [apply IH | discriminate].
      + unfold vget in G2. destruct (nth_error _ i); discriminate.
    - unfold vget in G1. destruct (nth_error _ i); discriminate. }
  destruct (ofold _ _ (vscale c0 v)) as [s|w|] eqn:EO; [| exfalso; exact (HT _ _ _ EO) | reflexivity].
  cbn [bind ofold]. assert (G : vget (c0 :: c) (1 + length c) = UB).
  { unfold vget. replace (nth_error (c0 :: c) (1 + length c)) with (@None R); auto.
    symmetry. apply nth_error_None. simpl. lia. }
  rewrite G. reflexivity.
Qed.

(** Setting the number of inputs, even to its present value, resets the coefficients. *)
Theorem adder_number_resets : forall h n, (0 <= n)%Z ->
  coeffs_of (h ++ [ANumber n]) = repeat 1%R (Z.to_nat n).
Proof.
  intros h n Hn. unfold coeffs_of. rewrite fold_left_app. simpl.
  destruct (Z.ltb_spec n 0); [lia | reflexivity].
Qed.

(* ------------------------------------------------------------------ *)
(** * C49: products and booleans *)

(** For any associative product with a unit (numbers, square matrices, rotations,
    homogeneous matrices, twists, quaternions) the output is the product of the inputs
    in their order, the unit without input. *)
Theorem multiplier_output : forall (T : Type) (one : T) (times : T -> T -> T),
  (forall a b c, times a (times b c) = times (times a b) c) ->
  (forall a, times one a = a) -> (forall a, times a one = a) ->
  forall vs, multiplierOp T one times vs = Ok (fold_right times one vs).
Proof.
  intros T one times HA H1 H2 vs. destruct vs as [|v vs]; [reflexivity|].
  unfold multiplierOp, ofor_range. cbn [length]. rewrite Nat.sub_succ, Nat.sub_0_r.
  assert (H : forall vs r pre,
    ofold (fun s i => let* v0 := vget (pre ++ vs) i in Ok (times s v0)) (seq (length pre) (length vs)) r
    = Ok (times r (fold_right times one vs))).
  { clear -HA H2. induction vs as [|v vs IH]; intros r pre; simpl.
    - rewrite H2. reflexivity.
    - assert (E : vget (pre ++ v :: vs) (length pre) = Ok v).
      { unfold vget. rewrite nth_error_app2 by lia. rewrite Nat.sub_diag. reflexivity. }
      rewrite E. simpl. specialize (IH (times r v) (pre ++ [v])).
      rewrite app_length, <- app_assoc in IH. simpl in IH. rewrite Nat.add_1_r in IH.
      rewrite IH, HA. reflexivity. }
  exact (H vs v [v]).
Qed.

(** And / or of the inputs; without input the output keeps its previous value. *)
Theorem bool_output : forall vs prev, vs <> [] ->
  boolOp true vs prev = forallb (fun b => b) vs
  /\ boolOp false vs prev = existsb (fun b => b) vs.
Proof.
  intros vs prev H. destruct vs as [|v vs]; [congruence|]. clear H. simpl. split.
  - revert v; induction vs as [|w vs IH]; intros [|]; simpl; auto.
  - revert v; induction vs as [|w vs IH]; intros [|]; simpl; auto.
Qed.

Theorem bool_empty_refuted : forall conj prev, boolOp conj [] prev = prev.
Proof. reflexivity. Qed.

(* ------------------------------------------------------------------ *)
(** * C48: mixing *)

(** Component [j] of the mix: that of the last segment covering it, else the default. *)
Definition covers (j : nat) (s : segment) : bool :=
  ((sgIndex s <=? Z.of_nat j) && (Z.of_nat j <? sgIndex s + sgSize s))%Z.

Definition mixed {num} (zero : num) (idxs : list segment) (vs : list (list num)) (j : nat) : num :=
  match find (covers j) (rev idxs) with
  | Some s => nth (j - Z.to_nat (sgIndex s)) (nth (Z.to_nat (sgSig s)) vs []) zero
  | None => nth j (nth 0 vs []) zero
  end.

(** A segment inside the default vector, of the size of the input it comes from. *)
Definition seg_ok {num} (vs : list (list num)) (s : segment) : Prop :=
  (0 <= sgSig s < Z.of_nat (length vs))%Z /\ (0 <= sgIndex s)%Z
  /\ sgSize s = Z.of_nat (length (nth (Z.to_nat (sgSig s)) vs []))
  /\ (sgIndex s + sgSize s <= Z.of_nat (length (nth 0 vs [])))%Z.

Theorem mix_output : forall num (zero : num) idxs vs prev, vs <> [] ->
  (forall s, In s idxs -> seg_ok vs s) ->
  exists res, vectorMixOp idxs vs prev = Ok res
    /\ length res = length (nth 0 vs [])
    /\ forall j, j < length res -> nth j res zero = mixed zero idxs vs j.
Proof.
  intros num zero idxs vs prev Hne. unfold vectorMixOp.
  rewrite (vget_ok vs 0 []) by (destruct vs; simpl; [congruence | lia]). cbn [bind].
  set (v0 := nth 0 vs []).
  induction idxs as [|s idxs IH] using rev_ind; intros Hok.
  - exists v0. split; [reflexivity|]. split; [reflexivity|]. reflexivity.
  - destruct IH as (res & E & HL & HJ).
    { intros x Hx. apply Hok. apply in_or_app. auto. }
    rewrite ofold_app, E. cbn [bind ofold].
    destruct (Hok s) as (H1 & H2 & H3 & H4); [apply in_or_app; right; left; reflexivity|].
    destruct (Z.ltb_spec (sgSig s) 0); [lia|].
    destruct (Z.leb_spec (Z.of_nat (length vs)) (sgSig s)); [lia|]. cbn [orb].
    rewrite (vget_ok vs (Z.to_nat (sgSig s)) []) by lia. cbn [bind].
    set (v := nth (Z.to_nat (sgSig s)) vs []) in *. fold v0 in H4.
    unfold assign_segment.
    destruct (Z.leb_spec 0 (sgIndex s)); [|lia]. destruct (Z.leb_spec 0 (sgSize s)); [|lia].
    destruct (Z.leb_spec (sgIndex s + sgSize s) (Z.of_nat (length res))); [|lia].
    destruct (Z.eqb_spec (sgSize s) (Z.of_nat (length v))); [|lia]. cbn [andb].
    cbn [bind].
    set (i := Z.to_nat (sgIndex s)) in *.
    assert (Hi : Z.to_nat (sgIndex s + sgSize s) = i + length v) by (subst i; lia).
    rewrite Hi. eexists. split; [reflexivity|]. split.
    + rewrite !app_length, firstn_length, skipn_length. lia.
    + intros j Hj. unfold mixed. rewrite rev_app_distr. cbn [rev app find].
      unfold covers at 1.
      destruct (Z.leb_spec (sgIndex s) (Z.of_nat j)); destruct (Z.ltb_spec (Z.of_nat j) (sgIndex s + sgSize s));
        cbn [andb].
      * fold i v. rewrite app_nth2 by (rewrite firstn_length; lia).
        rewrite firstn_length. replace (Nat.min i (length res)) with i by lia.
        apply app_nth1. lia.
      * fold (mixed zero idxs vs j). rewrite <- HJ.
        2:{ rewrite !app_length, firstn_length, skipn_length in Hj. lia. }
        rewrite app_nth2 by (rewrite firstn_length; lia).
        rewrite firstn_length. replace (Nat.min i (length res)) with i by lia.
        rewrite app_nth2 by lia.
        rewrite <- (firstn_skipn (i + length v) res) at 2.
        rewrite app_nth2; rewrite firstn_length; [|lia]. f_equal. lia.
      * fold (mixed zero idxs vs j). rewrite <- HJ.
        2:{ rewrite !app_length, firstn_length, skipn_length in Hj. lia. }
        rewrite app_nth1 by (rewrite firstn_length; lia).
        rewrite <- (firstn_skipn i res) at 2. rewrite app_nth1; [reflexivity|].
        rewrite firstn_length. lia.
      * exfalso. lia.
Qed.

(** A segment of an input that does not exist is an error, not a wild read. *)
Theorem mix_bad_input : forall num idxs1 s idxs2 (vs : list (list num)) prev, vs <> [] ->
  (forall s, In s idxs1 -> seg_ok vs s) ->
  ~ (0 <= sgSig s < Z.of_nat (length vs))%Z ->
  vectorMixOp (idxs1 ++ s :: idxs2) vs prev = Throw "Index out of range in VectorMix".
Proof.
  intros num idxs1 s idxs2 vs prev Hne Hok Hs.
  destruct vs as [|u vs0] eqn:Ev; [congruence|]. rewrite <- Ev in *.
  assert (HX : exists d : list num, True) by (exists []; exact I).
  destruct (length u) eqn:Hu.
  - (* an empty default: any element serves as a default value *)
    unfold vectorMixOp. rewrite (vget_ok vs 0 []) by (subst vs; simpl; lia). cbn [bind].
    rewrite ofold_app.
    assert (E : exists res, ofold (fun (res : list num) (s : segment) =>
        if ((sgSig s <? 0) || (Z.of_nat (length vs) <=? sgSig s))%Z
        then Throw "Index out of range in VectorMix"
        else let* v := vget vs (Z.to_nat (sgSig s)) in assign_segment res (sgIndex s) (sgSize s) v)
        idxs1 (nth 0 vs []) = Ok res).
    { clear Hs. revert Hok. assert (H0 : nth 0 vs [] = []) by (subst vs; simpl; destruct u; auto; discriminate).
      rewrite H0. induction idxs1 as [|x l IH]; intros Hok; [eexists; reflexivity|].
      cbn [ofold]. destruct (Hok x (or_introl eq_refl)) as (H1 & H2 & H3 & H4).
      rewrite H0 in H4. simpl in H4.
      destruct (Z.ltb_spec (sgSig x) 0); [lia|].
      destruct (Z.leb_spec (Z.of_nat (length vs)) (sgSig x)); [lia|]. cbn [orb].
      rewrite (vget_ok vs _ []) by lia. cbn [bind]. unfold assign_segment.
      destruct (Z.leb_spec 0 (sgIndex x)); [|lia]. destruct (Z.leb_spec 0 (sgSize x)); [|lia].
      simpl (length []). destruct (Z.leb_spec (sgIndex x + sgSize x) (Z.of_nat 0)); [|lia].
      destruct (Z.eqb_spec (sgSize x) (Z.of_nat (length (nth (Z.to_nat (sgSig x)) vs [])))); [|lia].
      cbn [andb bind]. rewrite firstn_nil, skipn_nil.
      destruct (nth (Z.to_nat (sgSig x)) vs []) eqn:En; [|simpl in H3; lia].
      simpl app. apply IH. intros y Hy. apply Hok. right; exact Hy. }
    destruct E as (res & ->). cbn [bind ofold].
    destruct (Z.ltb_spec (sgSig s) 0); [reflexivity|].
    destruct (Z.leb_spec (Z.of_nat (length vs)) (sgSig s)); [reflexivity | lia].
  - destruct u as [|zero u]; [discriminate|].
    destruct (mix_output num zero idxs1 vs prev Hne Hok) as (res & E & _).
    unfold vectorMixOp in *.
    rewrite (vget_ok vs 0 []) in * by (subst vs; simpl; lia). cbn [bind] in *.
    rewrite ofold_app, E. cbn [bind ofold].
    destruct (Z.ltb_spec (sgSig s) 0); [reflexivity|].
    destruct (Z.leb_spec (Z.of_nat (length vs)) (sgSig s)); [reflexivity | lia].
Qed.

(** The segments are those added, in order. *)
Theorem mix_segments : forall (sel : list segment) ns st l f o,
  clean (CAddNamed "default" :: map CNumber ns ++ map (fun s => addSelec (sgSig s) (sgIndex s) (sgSize s)) sel) ->
  vrun (fun _ o => o) (CAddNamed "default" :: map CNumber ns
        ++ map (fun s => addSelec (sgSig s) (sgIndex s) (sgSize s)) sel) (vinit [] [] []) = Some st ->
  spec_run ["sout"%string] (fun _ o => o) (CAddNamed "default" :: map CNumber ns
        ++ map (fun s => addSelec (sgSig s) (sgIndex s) (sgSize s)) sel) ([], 1, []) = Some (l, f, o) ->
  slots st = map Some l /\ ops st = sel.
Proof.
  intros sel ns st l f o Hc Hst Hsp.
  pose proof (variadic_inputs_partial (fun (_ : nat) (o : list segment) => o) [] []
                (fun x (Hx : In x []) => match Hx with end)
                (fun i (Hx : In (sin_name i) []) => Hx) [] _ Hc) as H.
  rewrite Hst in H. change (length ["sout"%string]) with 1 in H. rewrite Hsp in H.
  destruct H as (HS & HO & _). split; [exact HS|]. rewrite HO.
  cbn [spec_run spec_step] in Hsp.
  destruct (in_dec string_dec "default"%string _) in Hsp.
  { exfalso. simpl in i. destruct i as [E | []]. discriminate E. }
  revert Hsp. cbv beta iota. generalize ([] ++ [mksig 1 "default"]) 2. clear.
  induction ns as [|n ns IH]; intros l0 f0; cbn [map app].
  - assert (G : forall (pre : list segment) l0 f0,
      spec_run ["sout"%string] (fun _ o => o)
        (map (fun s => addSelec (sgSig s) (sgIndex s) (sgSize s)) sel) (l0, f0, pre) = Some (l, f, o) ->
      o = pre ++ sel).
    { clear. induction sel as [|s sel IH]; intros pre l0 f0; cbn [map spec_run].
      - intros E; inversion E. rewrite app_nil_r. reflexivity.
      - cbn [addSelec spec_step]. intros E. apply IH in E. rewrite E, <- app_assoc. simpl.
        destruct s; reflexivity. }
    intros E. apply (G [] _ _ E).
  - cbn [spec_run spec_step]. destruct (n <? 0)%Z; apply IH.
Qed.

Example mix_example :
  vectorMixOp [mkseg 1 2 1; mkseg 2 1 2] [[0; 0; 0; 0]; [7; 8]; [9]] [] = Ok [0; 7; 9; 0]
  /\ vectorMixOp [mkseg 1 2 3] [[0; 0; 0; 0]; [7; 8]; [9]] [] = Throw "Index out of range in VectorMix"
  /\ (forall s, In s [mkseg 1 2 1; mkseg 2 1 2] -> seg_ok [[0; 0; 0; 0]; [7; 8]; [9]] s).
Proof.
  split; [reflexivity|]. split; [reflexivity|].
  intros s [<- | [<- | []]]; unfold seg_ok; simpl; lia.
Qed.

Example adder_example :
  exists st, vrun (adderNumber 1%R) (CNumber 2 :: map acmd [ANumber 3; ACoeffs [1; 2; 3]%R; ANumber (-1)%Z])
               (vinit [] [] []) = Some st /\ ops st = [1; 2; 3]%R
    /\ exists st', vrun (adderNumber 1%R) (CNumber 2 :: map acmd [] ++ [CAdd]) (vinit [] [] []) = Some st'.
Proof.
  eexists. split; [vm_compute; reflexivity|]. split; [reflexivity|].
  eexists. vm_compute; reflexivity.
Qed.

Example bool_example : boolOp true [true; false; true] true = false /\ boolOp false [false; true] false = true.
Proof. split; reflexivity. Qed.

(** Products keep the order of the inputs: with lists and concatenation. *)
Example multiplier_example : multiplierOp (list nat) [] (@app nat) [[1]; [2; 3]; [4]] = Ok [1; 2; 3; 4].
Proof. reflexivity. Qed.

Print Assumptions variadic_inputs_partial.
Print Assumptions switch_selects.
Print Assumptions switch_no_selection.
Print Assumptions variadic_numbering.
Print Assumptions variadic_number.
Print Assumptions variadic_number_conflict_refuted.
Print Assumptions adder_output_partial.
Print Assumptions adder_added_input_refuted.
Print Assumptions adder_number_resets.
Print Assumptions multiplier_output.
Print Assumptions bool_output.
Print Assumptions mix_output.
Print Assumptions mix_bad_input.
Print Assumptions mix_segments.

Print Assumptions adder_empty_refuted.
Print Assumptions bool_empty_refuted.

(** A new adder has two inputs, called sin0 and sin1, with coefficients one; its histories are those of the theorems above. *)
Theorem adder_new : exists st, @adder0 R 1%R = Done st /\
  map (option_map sname) (slots st) = [Some "sin0"%string; Some "sin1"%string] /\ ops st = [1%R; 1%R] /\
  forall h, vrun (adderNumber 1%R) h st = vrun (adderNumber 1%R) (CNumber 2 :: h) (vinit [] [] []).
Proof. eexists. split; [reflexivity|]. repeat split. Qed.
Print Assumptions adder_new.
