(** C42: the FIR filter. *)
From Coq Require Import String Ascii List Arith Lia ZArith Bool Reals Lra.
From Verif Require Import Base Filter_Model.
Import ListNotations.
Local Open Scope nat_scope.
Local Open Scope list_scope.

(* ------------------------------------------------------------------ *)
(** * Specification *)

Section Spec.
Variables (sig coef : Type).
Variable sadd : sig -> sig -> sig.
Variable smul : coef -> sig -> sig.
Variable cdef : coef.
Variable reset : sig -> sig -> sig.

(** [c_0 s_0 + c_1 s_1 + ...] added to [z] from left to right, as far as both lists
    go. *)
Fixpoint weighted (z : sig) (cs : list coef) (ss : list sig) : sig :=
  match cs, ss with
  | c :: cs, s :: ss => weighted (sadd z (smul c s)) cs ss
  | _, _ => z
  end.

(** What the documentation promises: the coefficients set by the user and all the
    samples received since the last [setSize], latest first; no buffer.  [None]: the
    program does something undefined. *)
Record fspec := mkFspec { sp_coefs : list coef; sp_sized : option nat;
                          sp_samples : list sig; sp_outs : list sig }.

Definition fspec_step (s : fspec) (e : fir_event sig coef) : option fspec :=
  match e with
  | FResize n => Some (mkFspec (vresize (sp_coefs s) n cdef) (Some n) [] (sp_outs s))
  | FSet r c => if r <? length (sp_coefs s)
                then Some (mkFspec (upd (sp_coefs s) r c) (sp_sized s) (sp_samples s) (sp_outs s))
                else None
  | FSample res x =>
      match sp_sized s with
      | Some 0 => None
      | _ => Some (mkFspec (sp_coefs s) (sp_sized s) (x :: sp_samples s)
                     (sp_outs s ++ [weighted (reset res x) (sp_coefs s) (x :: sp_samples s)]))
      end
  end.

Fixpoint fspec_run (h : list (fir_event sig coef)) (s : fspec) : option fspec :=
  match h with
  | [] => Some s
  | e :: h => match fspec_step s e with Some s => fspec_run h s | None => None end
  end.
End Spec.
Arguments weighted {sig coef}. Arguments mkFspec {sig coef}. Arguments sp_coefs {sig coef}.
Arguments sp_sized {sig coef}. Arguments sp_samples {sig coef}. Arguments sp_outs {sig coef}.
Arguments fspec_step {sig coef}. Arguments fspec_run {sig coef}.

(* ------------------------------------------------------------------ *)
(** * The circular buffer holds the latest samples *)

Section Proofs.
Variables (sig coef : Type).
Variable sadd : sig -> sig -> sig.
Variable smul : coef -> sig -> sig.
Variable sdef : sig.
Variable cdef : coef.
Variable reset : sig -> sig -> sig.

Definition cview (b : cbuf sig) : list sig :=
  skipn (cb_start b) (cb_buf b) ++ firstn (cb_start b) (cb_buf b).

Definition cinv (b : cbuf sig) (ss : list sig) : Prop :=
  (cb_start b < length (cb_buf b) \/ (cb_buf b = [] /\ cb_start b = 0)) /\
  cb_numel b = Nat.min (length (cb_buf b)) (length ss) /\
  firstn (cb_numel b) (cview b) = firstn (length (cb_buf b)) ss.

Lemma skipn_upd_ge {A} (l : list A) i a : i < length l ->
  skipn i (upd l i a) = a :: skipn (S i) l.
Proof.
  revert l; induction i; intros [|x l] H; simpl in *; try lia; auto.
  rewrite IHi by lia. reflexivity.
Qed.

Lemma firstn_upd_le {A} (l : list A) i a n : n <= i -> firstn n (upd l i a) = firstn n l.
Proof.
  revert l i; induction n; intros [|x l] [|i] H; simpl; auto; try lia.
  f_equal. apply IHn. lia.
Qed.

Lemma cview_length b : cb_start b <= length (cb_buf b) -> length (cview b) = length (cb_buf b).
Proof. intros H. unfold cview. rewrite app_length, skipn_length, firstn_length. lia. Qed.

Lemma firstn_S_removelast {A} (l : list A) n : S n = length l -> firstn n l = removelast l.
Proof. intros H. rewrite removelast_firstn_len, <- H. reflexivity. Qed.

Lemma push_view b x b' :
  (cb_start b < length (cb_buf b)) -> push_front b x = Ok b' ->
  cview b' = x :: removelast (cview b) /\ cb_start b' < length (cb_buf b') /\
  length (cb_buf b') = length (cb_buf b) /\
  cb_numel b' = (if cb_numel b <? length (cb_buf b) then S (cb_numel b) else cb_numel b).
Proof.
  intros Hs. unfold push_front.
  set (st := if cb_start b =? 0 then _ else _).
  assert (Hst : st < length (cb_buf b)) by (subst st; destruct (Nat.eqb_spec (cb_start b) 0); lia).
  unfold vset. rewrite (proj2 (Nat.ltb_lt _ _) Hst). simpl. rewrite upd_length.
  intros E; inversion E; subst b'; clear E. simpl.
  repeat split; try (rewrite ?upd_length; lia); auto.
  unfold cview; cbn [cb_start cb_buf]. rewrite skipn_upd_ge by lia. rewrite firstn_upd_le by lia.
  rewrite <- app_comm_cons. f_equal.
  subst st. destruct (Nat.eqb_spec (cb_start b) 0) as [E0|E0].
  - replace (S (length (cb_buf b) - 1)) with (length (cb_buf b)) by lia.
    rewrite skipn_all, E0. simpl. rewrite app_nil_r. apply firstn_S_removelast. lia.
  - replace (S (cb_start b - 1)) with (cb_start b) by lia.
    rewrite removelast_app.
    + f_equal. rewrite <- firstn_S_removelast with (n := cb_start b - 1).
      * rewrite firstn_firstn. f_equal. lia.
      * rewrite firstn_length. lia.
    + intros En. apply (f_equal (@length _)) in En. rewrite firstn_length in En. simpl in En. lia.
Qed.

Lemma push_ok (b : cbuf sig) x : cb_start b < length (cb_buf b) -> exists b', push_front b x = Ok b'.
Proof.
  intros Hs. unfold push_front.
  set (st := if cb_start b =? 0 then _ else _).
  assert (Hst : st < length (cb_buf b)) by (subst st; destruct (Nat.eqb_spec (cb_start b) 0); lia).
  unfold vset. rewrite (proj2 (Nat.ltb_lt _ _) Hst). simpl. eauto.
Qed.

Lemma removelast_length' {A} (l : list A) : length (removelast l) = length l - 1.
Proof. rewrite removelast_firstn_len, firstn_length. lia. Qed.

Lemma firstn_removelast' {A} (l : list A) n : n <= length l - 1 -> firstn n (removelast l) = firstn n l.
Proof. intros H. rewrite removelast_firstn_len, firstn_firstn. f_equal. lia. Qed.

Lemma push_inv b ss x b' :
  cinv b ss -> push_front b x = Ok b' -> cinv b' (x :: ss) /\ length (cb_buf b') = length (cb_buf b).
Proof.
  intros (Hs & Hn & Hv) E.
  destruct Hs as [Hs | [Hb Hs]].
  - destruct (push_view b x b' Hs E) as (Hv' & Hs' & Hl & Hn').
    split; [|exact Hl]. split; [left; exact Hs'|].
    assert (Hlen : length (cview b) = length (cb_buf b)) by (apply cview_length; lia).
    assert (Hnum : cb_numel b' = Nat.min (length (cb_buf b')) (length (x :: ss))).
    { rewrite Hn', Hl, Hn. simpl length. destruct (Nat.ltb_spec (Nat.min (length (cb_buf b)) (length ss)) (length (cb_buf b))); lia. }
    split; [exact Hnum|].
    rewrite Hnum, Hv', Hl. simpl length.
    destruct (length (cb_buf b)) as [|k] eqn:Ek; [lia|].
    rewrite Nat.min_comm. replace (Nat.min (S (length ss)) (S k)) with (S (Nat.min (length ss) k)) by lia.
    rewrite !firstn_cons. f_equal.
    rewrite firstn_removelast' by lia.
    replace (Nat.min (length ss) k) with (Nat.min k (cb_numel b)) by lia.
    rewrite <- firstn_firstn, Hv, firstn_firstn. f_equal. lia.
  - exfalso. unfold push_front, vset in E. rewrite Hb, Hs in E. simpl in E. discriminate.
Qed.

Lemma push_empty b x ss : cinv b ss -> cb_buf b = [] -> push_front b x = UB.
Proof.
  intros _ Hb. unfold push_front, vset. rewrite Hb. simpl.
  destruct (cb_start b =? 0); reflexivity.
Qed.

Lemma nth_skipn_f {A} (l : list A) n i d : nth i (skipn n l) d = nth (n + i) l d.
Proof. revert l; induction n; intros [|a l]; simpl; auto. destruct i; reflexivity. Qed.

Lemma nth_firstn_f {A} (l : list A) n i d : i < n -> nth i (firstn n l) d = nth i l d.
Proof. revert l i; induction n; intros [|a l] [|i] H; simpl; try lia; auto. apply IHn. lia. Qed.

Lemma cb_get_view (b : cbuf sig) i d :
  cb_start b < length (cb_buf b) -> i < length (cb_buf b) -> cb_get b i = Ok (nth i (cview b) d).
Proof.
  intros Hs Hi. unfold cb_get.
  destruct (Nat.eqb_spec (length (cb_buf b)) 0); [lia|].
  rewrite (vget_ok _ _ d) by (apply Nat.mod_upper_bound; lia). f_equal.
  unfold cview. destruct (Nat.lt_ge_cases i (length (cb_buf b) - cb_start b)) as [H|H].
  - rewrite Nat.mod_small by lia. rewrite app_nth1 by (rewrite skipn_length; lia).
    rewrite nth_skipn_f. reflexivity.
  - rewrite app_nth2 by (rewrite skipn_length; lia). rewrite skipn_length.
    replace ((cb_start b + i) mod length (cb_buf b)) with (cb_start b + i - length (cb_buf b)).
    + rewrite nth_firstn_f by lia. f_equal. lia.
    + apply Nat.mod_unique with 1; lia.
Qed.

(** The summation loop. *)
Lemma weighted_loop (cs : list coef) (ss : list sig) (get : nat -> outcome sig) n0 n z :
  (forall i, i < n -> i < length cs /\ i < length ss /\ get (n0 + i) = vget ss i) ->
  n = Nat.min (length cs) (length ss) ->
  forall full, (forall i, i < n -> vget full (n0 + i) = vget cs i) ->
  ofold (fun r i => let* c := vget full i in let* s := get i in Ok (sadd r (smul c s))) (seq n0 n) z
  = Ok (weighted sadd smul z cs ss).
Proof.
  revert cs ss n0 z; induction n as [|n IH]; intros cs ss n0 z H En full Hf.
  - simpl. destruct cs, ss; simpl in *; try lia; reflexivity.
  - destruct cs as [|c cs]; [simpl in En; lia|]. destruct ss as [|s ss]; [simpl in En; lia|].
    simpl. specialize (Hf 0 ltac:(lia)) as Hf0. rewrite Nat.add_0_r in Hf0. rewrite Hf0.
    destruct (H 0 ltac:(lia)) as (_ & _ & Hg). rewrite Nat.add_0_r in Hg. rewrite Hg. simpl.
    apply IH.
    + intros i Hi. destruct (H (S i) ltac:(lia)) as (A & B & C). simpl in A, B.
      split; [lia|]. split; [lia|]. rewrite <- Nat.add_succ_comm in C. exact C.
    + simpl in En. lia.
    + intros i Hi. specialize (Hf (S i) ltac:(lia)). rewrite <- Nat.add_succ_comm in Hf. exact Hf.
Qed.

Lemma weighted_firstn n z (cs : list coef) (ss : list sig) :
  length cs <= n -> weighted sadd smul z cs (firstn n ss) = weighted sadd smul z cs ss.
Proof.
  revert cs ss z; induction n; intros [|c cs] [|s ss] z H; simpl in *; try lia; auto.
  apply IHn. lia.
Qed.

Lemma nth_error_firstn_lt {A} (l : list A) n i : i < n -> nth_error (firstn n l) i = nth_error l i.
Proof. revert l i; induction n; intros [|a l] [|i] H; simpl; try lia; auto. apply IHn. lia. Qed.

(** Relation between the implementation and the specification. *)
Definition frel (f : fir sig coef) (s : fspec sig coef) : Prop :=
  f_coefs f = sp_coefs s /\ cinv (f_data f) (sp_samples s) /\
  match sp_sized s with
  | Some n => length (cb_buf (f_data f)) = n /\ length (f_coefs f) = n
  | None => length (cb_buf (f_data f)) = 1 /\ f_coefs f = []
  end.

Lemma fir_compute_spec f s res x :
  frel f s -> sp_sized s <> Some 0 ->
  exists f', fir_compute sadd smul reset f res x
             = Ok (f', weighted sadd smul (reset res x) (sp_coefs s) (x :: sp_samples s)) /\
    frel f' (mkFspec (sp_coefs s) (sp_sized s) (x :: sp_samples s) (sp_outs s)).
Proof.
  intros (Hc & Hi & Hz) Hne.
  assert (Hlc : length (f_coefs f) <= length (cb_buf (f_data f)) /\ 0 < length (cb_buf (f_data f))).
  { destruct (sp_sized s) as [[|n]|]; [congruence| |]; destruct Hz as [A B].
    - lia.
    - rewrite B. simpl. lia. }
  destruct Hi as (Hst & Hnn & Hvv).
  assert (Hst' : cb_start (f_data f) < length (cb_buf (f_data f))).
  { destruct Hst as [?|[E _]]; auto. rewrite E in Hlc. simpl in Hlc. lia. }
  destruct (push_ok (f_data f) x Hst') as (d & Ed).
  assert (Hi : cinv (f_data f) (sp_samples s)) by (split; auto).
  destruct (push_inv _ _ _ _ Hi Ed) as (Hd & Hld).
  exists (mkFir (f_coefs f) d). split.
  - unfold fir_compute. rewrite Ed. simpl bind. unfold ofor_range.
    rewrite Nat.sub_0_r. rewrite Hc in Hlc |- *.
    destruct Hd as (Hs & Hn & Hv).
    destruct Hs as [Hs|[E _]]; [|rewrite E in Hld; simpl in Hld; lia].
    set (N := Nat.min (cb_numel d) (length (sp_coefs s))).
    rewrite (weighted_loop (sp_coefs s) (firstn (length (cb_buf d)) (x :: sp_samples s))
               (cb_get d) 0 N).
    + simpl bind. rewrite weighted_firstn by lia. reflexivity.
    + intros i HiN. subst N.
      assert (HL : length (firstn (length (cb_buf d)) (x :: sp_samples s)) = cb_numel d).
      { rewrite <- Hv, firstn_length. rewrite cview_length by lia. lia. }
      split; [lia|]. split; [lia|]. simpl plus.
      rewrite (cb_get_view d i x) by lia.
      unfold vget. rewrite <- Hv. rewrite nth_error_firstn_lt by lia.
      rewrite (nth_error_nth_lt _ i x); [reflexivity|]. rewrite cview_length by lia. lia.
    + subst N. rewrite firstn_length. lia.
    + intros i _. reflexivity.
  - split; [exact Hc|]. split; [exact Hd|]. simpl. rewrite Hld. exact Hz.
Qed.

Lemma reset_cinv b n : cinv (reset_capacity sdef b n) [].
Proof.
  unfold reset_capacity. split; [|split]; simpl.
  - destruct n; [right | left; rewrite vresize_length; lia].
    split; auto.
  - lia.
  - rewrite firstn_nil. reflexivity.
Qed.

Lemma fir_step_spec f s e :
  frel f s ->
  match fspec_step sadd smul cdef reset s e with
  | Some s' => exists f', fir_step sadd smul reset sdef cdef (f, sp_outs s) e = Ok (f', sp_outs s') /\ frel f' s'
  | None => fir_step sadd smul reset sdef cdef (f, sp_outs s) e = UB
  end.
Proof.
  intros HR. destruct e as [n|r c|res x]; simpl.
  - eexists. split; [reflexivity|]. destruct HR as (Hc & Hi & Hz).
    split; [simpl; rewrite Hc; reflexivity|]. split; [apply reset_cinv|].
    simpl. rewrite !vresize_length. auto.
  - destruct HR as (Hc & Hi & Hz). unfold fir_set, vset. rewrite Hc.
    destruct (r <? length (sp_coefs s)) eqn:E; [|reflexivity].
    simpl. eexists. split; [reflexivity|]. split; [reflexivity|]. split; [exact Hi|].
    simpl. rewrite upd_length. rewrite Hc in Hz.
    destruct (sp_sized s); destruct Hz as [A B]; split; auto.
    rewrite B in E. apply Nat.ltb_lt in E. simpl in E. lia.
  - destruct (sp_sized s) as [[|n]|] eqn:Ez.
    + unfold fir_compute. rewrite (push_empty _ _ (sp_samples s)); auto.
      * apply HR.
      * destruct HR as (_ & _ & Hz). rewrite Ez in Hz. destruct Hz as [A _].
        apply length_zero_iff_nil. exact A.
    + destruct (fir_compute_spec f s res x HR) as (f' & E & HR'); [congruence|].
      rewrite E. simpl. eexists. split; [reflexivity|].
      destruct HR' as (A & B & C). rewrite Ez in C. split; [exact A|]. split; [exact B|]. exact C.
    + destruct (fir_compute_spec f s res x HR) as (f' & E & HR'); [congruence|].
      rewrite E. simpl. eexists. split; [reflexivity|].
      destruct HR' as (A & B & C). rewrite Ez in C. split; [exact A|]. split; [exact B|]. exact C.
Qed.

(** C42.  For every history of commands and evaluations, the outputs are those of the
    buffer-free specification, and the filter misbehaves exactly when the specification
    says so: a coefficient set out of range, or a sample after [setSize 0]. *)
Theorem fir_refines (h : list (fir_event sig coef)) :
  match fspec_run sadd smul cdef reset h (mkFspec [] None [] []) with
  | Some s => exists f, fir_run sadd smul reset sdef cdef h = Ok (f, sp_outs s) /\
                f_coefs f = sp_coefs s
  | None => fir_run sadd smul reset sdef cdef h = UB
  end.
Proof.
  unfold fir_run.
  assert (H0 : frel (fir_new sdef) (mkFspec [] None [] [])).
  { split; [reflexivity|]. split; [|simpl; auto]. split; [left; simpl; lia|].
    split; simpl; auto. }
  assert (G : forall h f s, frel f s ->
    match fspec_run sadd smul cdef reset h s with
    | Some s' => exists f', ofold (fir_step sadd smul reset sdef cdef) h (f, sp_outs s) = Ok (f', sp_outs s')
                   /\ f_coefs f' = sp_coefs s'
    | None => ofold (fir_step sadd smul reset sdef cdef) h (f, sp_outs s) = UB
    end).
  { clear. induction h as [|e h IH]; intros f s HR.
    - simpl. eexists. split; [reflexivity|]. apply HR.
    - pose proof (fir_step_spec f s e HR) as HS. cbn [ofold fspec_run].
      destruct (fspec_step sadd smul cdef reset s e) as [s'|].
      + destruct HS as (f' & E & HR'). rewrite E. simpl bind. apply IH. exact HR'.
      + rewrite HS. reflexivity. }
  exact (G h _ _ H0).
Qed.
End Proofs.

(* ------------------------------------------------------------------ *)
(** * Real signals: the documented convolution *)

(** Sum over i < n of f i. *)
Fixpoint sum_lt (n : nat) (f : nat -> R) : R :=
  match n with 0 => 0%R | S n => (sum_lt n f + f n)%R end.

Lemma sum_lt_S_l n f : sum_lt (S n) f = (f O + sum_lt n (fun i => f (S i)))%R.
Proof. induction n; simpl in *; [lra|]. rewrite IHn. lra. Qed.

Lemma sum_lt_ext n f g : (forall i, i < n -> f i = g i) -> sum_lt n f = sum_lt n g.
Proof. induction n; intros H; simpl; auto. rewrite IHn by (intros; apply H; lia). rewrite H by lia. reflexivity. Qed.

Lemma weighted_sum z cs ss :
  weighted Rplus Rmult z cs ss
  = (z + sum_lt (Nat.min (length cs) (length ss)) (fun i => nth i cs 0 * nth i ss 0))%R.
Proof.
  revert z ss; induction cs as [|c cs IH]; intros z [|s ss]; cbn [weighted length Nat.min]; try (simpl; lra).
  rewrite IH, sum_lt_S_l. simpl nth. lra.
Qed.

(** Samples fed one after the other. *)
Definition feed (xs : list (R * R)) : list (fir_event R R) :=
  map (fun p => FSample (fst p) (snd p)) xs.

(** The setup a user performs: choose the size, then set every coefficient. *)
Definition setup_coefs (cs : list R) : list (fir_event R R) :=
  FResize (length cs) :: map (fun p => FSet (fst p) (snd p)) (combine (seq 0 (length cs)) cs).

Lemma setup_spec cs rest :
  fspec_run Rplus Rmult 0%R (fun _ _ => 0%R) (setup_coefs cs ++ rest) (mkFspec [] None [] [])
  = fspec_run Rplus Rmult 0%R (fun _ _ => 0%R) rest (mkFspec cs (Some (length cs)) [] []).
Proof.
  unfold setup_coefs. simpl.
  assert (H : forall done todo z, length z = length todo ->
    fspec_run Rplus Rmult 0%R (fun _ _ => 0%R)
      (map (fun p => FSet (fst p) (snd p)) (combine (seq (length done) (length todo)) todo) ++ rest)
      (mkFspec (done ++ z) (Some (length cs)) [] [])
    = fspec_run Rplus Rmult 0%R (fun _ _ => 0%R) rest (mkFspec (done ++ todo) (Some (length cs)) [] [])).
  { intros done todo; revert done; induction todo as [|c todo IH]; intros done z Hz.
    - destruct z; [reflexivity|discriminate].
    - destruct z as [|z0 z]; [discriminate|]. simpl.
      rewrite (proj2 (Nat.ltb_lt _ _)) by (rewrite app_length; simpl; lia).
      assert (EU : upd (done ++ z0 :: z) (length done) c = (done ++ [c]) ++ z).
      { clear. induction done; simpl; auto. f_equal. exact IHdone. }
      rewrite EU.
      replace (S (length done)) with (length (done ++ [c])) by (rewrite app_length; simpl; lia).
      rewrite IH by (simpl in Hz; lia). rewrite <- app_assoc. reflexivity. }
  specialize (H [] cs (vresize [] (length cs) 0%R)). simpl in H. apply H.
  apply vresize_length.
Qed.

(** C42, as documented: after the coefficients are set, the k-th output (from 0) is
    the sum over [i < min (k+1) N] of [c_i] times the sample received [i] samples
    earlier, whatever the output buffer contained.  Missing: the instance on doubles, which adds
    to the old output (fir_scalar_stale_refuted). *)
Theorem fir_convolution_partial (cs : list R) (xs : list (R * R)) :
  cs <> [] ->
  exists f outs,
    fir_run Rplus Rmult (fun _ _ => 0%R) 0%R 0%R (setup_coefs cs ++ feed xs) = Ok (f, outs) /\
    length outs = length xs /\
    forall k, k < length xs ->
      nth k outs 0%R
      = sum_lt (Nat.min (S k) (length cs)) (fun i => nth i cs 0 * snd (nth (k - i)%nat xs (0, 0)))%R.
Proof.
  intros Hne.
  pose proof (fir_refines R R Rplus Rmult 0%R 0%R (fun _ _ => 0%R) (setup_coefs cs ++ feed xs)) as HR.
  rewrite setup_spec in HR.
  assert (H : forall done todo outs,
    length outs = length done ->
    (forall k, k < length done -> nth k outs 0%R
      = sum_lt (Nat.min (S k) (length cs)) (fun i => nth i cs 0 * snd (nth (k - i)%nat done (0, 0)))%R) ->
    exists s, fspec_run Rplus Rmult 0%R (fun _ _ => 0%R) (feed todo)
                (mkFspec cs (Some (length cs)) (map snd (rev done)) outs) = Some s /\
      length (sp_outs s) = length (done ++ todo) /\
      (forall k, k < length (done ++ todo) -> nth k (sp_outs s) 0%R
        = sum_lt (Nat.min (S k) (length cs)) (fun i => nth i cs 0 * snd (nth (k - i)%nat (done ++ todo) (0, 0)))%R)).
  { intros done todo; revert done; induction todo as [|[r x] todo IH]; intros done outs HL HK; simpl.
    - rewrite app_nil_r. eexists. split; [reflexivity|]. simpl. auto.
    - destruct (length cs) as [|n] eqn:En; [destruct cs; [congruence|discriminate]|].
      rewrite weighted_sum. rewrite En.
      replace (x :: map snd (rev done)) with (map snd (rev (done ++ [(r, x)])))
        by (rewrite rev_app_distr; reflexivity).
      replace (done ++ (r, x) :: todo) with ((done ++ [(r, x)]) ++ todo) by (rewrite <- app_assoc; reflexivity).
      apply IH.
      + rewrite !app_length; simpl; lia.
      + intros k Hk. rewrite app_length in Hk. simpl in Hk.
        destruct (Nat.lt_ge_cases k (length done)) as [Hlt|Hge].
        * rewrite app_nth1 by lia. rewrite (HK k Hlt).
          apply sum_lt_ext. intros i Hi. rewrite app_nth1 by lia. reflexivity.
        * assert (k = length done) by lia. subst k.
          rewrite app_nth2 by lia. rewrite HL, Nat.sub_diag. cbn [nth].
          rewrite Rplus_0_l. rewrite map_length, rev_length, app_length. cbn [length].
          replace (Nat.min (S n) (length done + 1)) with (Nat.min (S (length done)) (S n)) by lia.
          apply sum_lt_ext. intros i Hi. f_equal.
          change 0%R with (snd (0%R, 0%R)) at 1. rewrite map_nth. f_equal.
          rewrite rev_nth by (rewrite app_length; simpl; lia). rewrite app_length. cbn [length].
          f_equal. lia. }
  destruct (H [] xs [] eq_refl ltac:(simpl; intros; lia)) as (s & E & HL & HK).
  simpl map in E. rewrite E in HR. destruct HR as (f & Ef & _).
  exists f, (sp_outs s). split; [exact Ef|]. split; [exact HL|]. exact HK.
Qed.

(** Consequence: outputs only depend on the last N samples. *)
Theorem fir_finite_memory (cs : list R) (xs xs' : list (R * R)) k k' f outs f' outs' :
  cs <> [] ->
  fir_run Rplus Rmult (fun _ _ => 0%R) 0%R 0%R (setup_coefs cs ++ feed xs) = Ok (f, outs) ->
  fir_run Rplus Rmult (fun _ _ => 0%R) 0%R 0%R (setup_coefs cs ++ feed xs') = Ok (f', outs') ->
  k < length xs -> k' < length xs' -> length cs <= S k -> length cs <= S k' ->
  (forall i, i < length cs -> snd (nth (k - i) xs (0, 0)%R) = snd (nth (k' - i) xs' (0, 0)%R)) ->
  nth k outs 0%R = nth k' outs' 0%R.
Proof.
  intros Hne E E' Hk Hk' HN HN' HX.
  destruct (fir_convolution_partial cs xs Hne) as (f1 & o1 & E1 & _ & H1).
  destruct (fir_convolution_partial cs xs' Hne) as (f2 & o2 & E2 & _ & H2).
  rewrite E in E1. injection E1 as <- <-. rewrite E' in E2. injection E2 as <- <-.
  rewrite H1, H2 by lia. rewrite !Nat.min_r by lia.
  apply sum_lt_ext. intros i Hi. rewrite HX by lia. reflexivity.
Qed.

(** Finding: the generic [reset_signal] does nothing, so the scalar filter
    (FIRFilter<double,double>) adds the sum to whatever the output buffer held. *)
Theorem fir_scalar_stale_refuted :
  exists (cs : list R) (stale x : R) f y,
    fir_run Rplus Rmult reset_generic 0%R 0%R (setup_coefs cs ++ [FSample stale x]) = Ok (f, [y]) /\
    y = (stale + nth 0 cs 0 * x)%R /\ y <> (nth 0 cs 0 * x)%R.
Proof.
  exists [1%R], 3%R, 2%R.
  do 2 eexists. split; [unfold fir_run, setup_coefs; simpl; reflexivity|].
  unfold reset_generic. simpl. split; lra.
Qed.

(** Finding: [setSize 0] is accepted and the next evaluation writes out of bounds. *)
Theorem fir_size_zero_refuted (res x : R) :
  fir_run Rplus Rmult reset_generic 0%R 0%R [FResize 0; FSample res x] = UB.
Proof. reflexivity. Qed.

(** The filter on vectors (FIRFilter<Vector,double>): sums and products coefficient by coefficient. *)
Definition vplus (a b : list R) : list R := map (fun p => (fst p + snd p)%R) (combine a b).
Definition vtimes (c : R) (v : list R) : list R := map (Rmult c) v.
(** What happens on the coefficient [j] of the samples. *)
Definition coord (j : nat) (e : fir_event (list R) R) : fir_event R R :=
  match e with
  | FResize n => FResize n
  | FSet r c => FSet r c
  | FSample res x => FSample (nth j res 0%R) (nth j x 0%R)
  end.

Lemma vplus_length a b : length a = length b -> length (vplus a b) = length a.
Proof. intros E. unfold vplus. rewrite map_length, combine_length. lia. Qed.
Lemma vplus_nth j a b : length a = length b -> nth j (vplus a b) 0%R = (nth j a 0 + nth j b 0)%R.
Proof.
  revert j b. induction a as [|x a IH]; intros j b E; destruct b as [|y b]; try discriminate.
  - destruct j; cbn; lra.
  - destruct j; [reflexivity|]. cbn in E |- *. apply IH. lia.
Qed.
Lemma vtimes_nth j c v : nth j (vtimes c v) 0%R = (c * nth j v 0)%R.
Proof. unfold vtimes. rewrite <- (map_nth (Rmult c) v 0%R j). f_equal. ring. Qed.
Lemma weighted_coord n j cs : forall (z : list R) ss, length z = n -> Forall (fun s => length s = n) ss ->
  length (weighted vplus vtimes z cs ss) = n /\
  nth j (weighted vplus vtimes z cs ss) 0%R = weighted Rplus Rmult (nth j z 0%R) cs (map (fun s => nth j s 0%R) ss).
Proof.
  induction cs as [|c cs IH]; intros z ss Hz HS; [split; [exact Hz|reflexivity]|].
  destruct ss as [|s ss]; [split; [exact Hz|reflexivity]|]. inversion HS as [|? ? Hs HS']; subst. cbn [weighted map].
  assert (L : length (vplus z (vtimes c s)) = length z)
    by (apply vplus_length; unfold vtimes; rewrite map_length; lia).
  destruct (IH (vplus z (vtimes c s)) ss L HS') as [A B]. split; [exact A|].
  rewrite B, vplus_nth, vtimes_nth; [reflexivity|]. unfold vtimes. rewrite map_length. lia.
Qed.

(** C42, vectors: when all the samples have the same size [n], each output has the size [n] and its
    coefficient [j] is what the filter with a buffer reset to zero computes from the coefficients [j] of
    the samples (see fir_convolution_partial); neither depends on the contents of the output buffer. *)
Theorem fir_vector_coordinates n j (h : list (fir_event (list R) R)) :
  j < n -> (forall res x, In (FSample res x) h -> length x = n) ->
  match fir_run vplus vtimes reset_vector [] 0%R h with
  | Ok (_, outs) =>
      (exists f, fir_run Rplus Rmult (fun _ _ => 0%R) 0%R 0%R (map (coord j) h) = Ok (f, map (fun v => nth j v 0%R) outs)) /\
      Forall (fun v => length v = n) outs
  | Throw _ => False
  | UB => fir_run Rplus Rmult (fun _ _ => 0%R) 0%R 0%R (map (coord j) h) = UB
  end.
Proof.
  intros Hj HX.
  pose proof (fir_refines (list R) R vplus vtimes [] 0%R reset_vector h) as HV.
  pose proof (fir_refines R R Rplus Rmult 0%R 0%R (fun _ _ => 0%R) (map (coord j) h)) as HS.
  assert (G : forall h s t, (forall res x, In (FSample res x) h -> length x = n) ->
    sp_coefs s = sp_coefs t -> sp_sized s = sp_sized t -> map (fun v => nth j v 0%R) (sp_samples s) = sp_samples t ->
    map (fun v => nth j v 0%R) (sp_outs s) = sp_outs t ->
    Forall (fun v => length v = n) (sp_samples s) -> Forall (fun v => length v = n) (sp_outs s) ->
    match fspec_run vplus vtimes 0%R reset_vector h s, fspec_run Rplus Rmult 0%R (fun _ _ => 0%R) (map (coord j) h) t with
    | Some s', Some t' => map (fun v => nth j v 0%R) (sp_outs s') = sp_outs t' /\ Forall (fun v => length v = n) (sp_outs s')
    | None, None => True
    | _, _ => False
    end).
  { clear. induction h as [|e h IH]; intros s t HX E1 E2 E3 E4 F1 F2; [cbn; auto|].
    assert (HX' : forall res x, In (FSample res x) h -> length x = n) by (intros res x I; apply (HX res x); now right).
    cbn [map fspec_run]. destruct e as [m|r c|res x]; cbn [coord fspec_step].
    - apply IH; cbn; auto. now rewrite E1.
    - rewrite <- E1. destruct (r <? length (sp_coefs s)); [|exact I]. apply IH; cbn; auto.
    - rewrite <- E2. assert (Hx : length x = n) by (apply (HX res x); now left).
      destruct (sp_sized s) as [[|m]|]; [exact I| |];
        (destruct (weighted_coord n j (sp_coefs s) (reset_vector res x) (x :: sp_samples s)) as [A B];
         [unfold reset_vector; now rewrite map_length|constructor; assumption|];
         apply IH; cbn [sp_coefs sp_sized sp_samples sp_outs]; auto;
         [cbn [map]; now rewrite E3
         |rewrite map_app, E4; f_equal; cbn [map]; f_equal; rewrite B, <- E1; cbn [map]; rewrite E3; f_equal;
          unfold reset_vector; rewrite <- Hx in *; clear; generalize j; induction x as [|y x IH]; intros [|k]; cbn; auto
         |apply Forall_app; split; [exact F2|constructor; [exact A|constructor]]]). }
  specialize (G h (mkFspec [] None [] []) (mkFspec [] None [] []) HX eq_refl eq_refl eq_refl eq_refl (Forall_nil _) (Forall_nil _)).
  destruct (fspec_run vplus _ _ _ h _) as [s|]; destruct (fspec_run Rplus _ _ _ _ _) as [t|]; try contradiction.
  - destruct HV as (f & -> & _). destruct HS as (f' & E & _). destruct G as [G1 G2]. split; [|exact G2].
    exists f'. now rewrite G1.
  - rewrite HV. exact HS.
Qed.

(** Non-vacuity: three coefficients, five samples. *)
Example fir_example :
  exists f o, fir_run Rplus Rmult (fun _ _ => 0%R) 0%R 0%R
    (setup_coefs [1; 2; 3]%R ++ feed [(9, 1); (9, 10); (9, 100); (9, 1000); (9, 10000)]%R) = Ok (f, o)
  /\ nth 4 o 0%R = (12300)%R /\ nth 1 o 0%R = 12%R.
Proof.
  destruct (fir_convolution_partial [1; 2; 3]%R [(9, 1); (9, 10); (9, 100); (9, 1000); (9, 10000)]%R
              ltac:(discriminate)) as (f & o & E & _ & H).
  exists f, o. split; [exact E|]. rewrite !H by (simpl; lia). simpl. split; lra.
Qed.

Example fir_vector_example : exists f outs,
  fir_run vplus vtimes reset_vector [] 0%R
    [FResize 2; FSet 0 2%R; FSet 1 3%R; FSample [] [1; 10]%R; FSample [7; 7; 7]%R [2; 20]%R] = Ok (f, outs) /\
  nth 1 outs [] = [7; 70]%R.
Proof.
  do 2 eexists. split; [cbn; reflexivity|]. cbn. unfold vplus, vtimes, reset_vector. cbn. repeat f_equal; lra.
Qed.

Print Assumptions fir_vector_coordinates.
Print Assumptions fir_refines.
Print Assumptions fir_convolution_partial.
Print Assumptions fir_finite_memory.
Print Assumptions fir_scalar_stale_refuted.
Print Assumptions fir_size_zero_refuted.
