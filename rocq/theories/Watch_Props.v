(** C67: statistics of the stop watch. *)
From Coq Require Import String List Arith Lia ZArith Bool Reals Lra Psatz.
From Verif Require Import Base SMap Watch_Model.
Import ListNotations.
Local Open Scope R_scope.

(** ** Specification: the list of measures *)
(** Clock of a mode, and duration in seconds between two readings. *)
Definition clock (m : wmode) (t : tick) : R := match m with MCpu => t_cpu t | _ => t_real t end.
Definition seconds (m : wmode) (d : R) : R := match m with MCpu => d / 1000000 | _ => d end.
(** The measures of a name over a history: on or off, the pending start, the measures since the last reset. *)
Record measures := mkMeas { s_on : bool; s_from : option R; s_laps : list R }.
Definition meas0 : measures := mkMeas true None [].
Definition mstep (m : wmode) (n : string) (s : measures) (c : wcmd) : measures :=
  match c with
  | WTurn b => mkMeas b (s_from s) (s_laps s)
  | WStart n' t => if s_on s && String.eqb n' n then mkMeas true (Some (clock m t)) (s_laps s) else s
  | WStop n' t => if s_on s && String.eqb n' n then
                    match s_from s with
                    | Some c0 => mkMeas true (Some c0) (s_laps s ++ [seconds m (clock m t - c0)])
                    | None => s
                    end
                  else s
  | WReset n' => if s_on s && String.eqb n' n then mkMeas true None [] else s
  | WResetAll => if s_on s then mkMeas true None [] else s
  | _ => s
  end.
Definition laps (m : wmode) (n : string) (cs : list wcmd) : list R := s_laps (fold_left (mstep m n) cs meas0).
Fixpoint sum (l : list R) : R := match l with [] => 0 | x :: r => x + sum r end.

(** Histories of start, stop, reset, on and off (without pause nor change of mode), at positive dates. *)
Definition plain (m : wmode) (c : wcmd) : Prop :=
  match c with WStart _ t | WStop _ t => 0 < clock m t | WPause _ _ | WMode _ => False | _ => True end.
Definition date (m : wmode) (c : wcmd) : option R :=
  match c with WStart _ t | WStop _ t => Some (clock m t) | _ => None end.
(** Dates increase. *)
Fixpoint increasing (m : wmode) (d : R) (cs : list wcmd) : Prop :=
  match cs with
  | [] => True
  | c :: r => match date m c with Some t => d < t /\ increasing m t r | None => increasing m d r end
  end.

(** ** What the record of a name holds *)
Definition min_code (l : list R) : R :=
  fold_left (fun mn x => if Rle_dec x mn then x else if Req_EM_T mn 0 then x else mn) l 0.
Definition max_code (l : list R) : R := fold_left (fun mx x => if Rle_dec mx x then x else mx) l 0.
Definition holds (w : watch) (n : string) (s : measures) : Prop :=
  match mfind scmp (w_recs w) n with
  | None => s_from s = None /\ s_laps s = []
  | Some p => w_start p = match s_from s with Some c => c | None => 0 end /\
      w_total p = sum (s_laps s) /\ w_stops p = length (s_laps s) /\
      w_min p = min_code (s_laps s) /\ w_max p = max_code (s_laps s) /\ w_last p = last (s_laps s) 0
  end.
Definition inv (m : wmode) (w : watch) : Prop := w_mode w = m /\ msorted scmp (w_recs w).
Definition from_ok (s : measures) : Prop := match s_from s with Some c => 0 < c | None => True end.

Lemma find_set (r : list (string * perf)) n p n' : msorted scmp r ->
  mfind scmp (mset scmp r n p) n' = if String.eqb n n' then Some p else mfind scmp r n'.
Proof.
  intros Hs. rewrite (mfind_mset _ _ scmp scmp_eq scmp_antisym scmp_trans _ _ _ _ Hs).
  destruct (String.eqb_spec n n') as [->|Hn].
  - assert (E : scmp n' n' = Eq) by now apply scmp_eq. now rewrite E.
  - destruct (scmp n' n) eqn:E; try reflexivity. apply scmp_eq in E. congruence.
Qed.
Lemma set_sorted (r : list (string * perf)) n p : msorted scmp r -> msorted scmp (mset scmp r n p).
Proof. apply mset_sorted; [apply scmp_eq|apply scmp_antisym|apply scmp_trans]. Qed.

Lemma sum_app a b : sum (a ++ b) = sum a + sum b.
Proof. induction a as [|x a IH]; cbn; [ring|]. rewrite IH. ring. Qed.

Lemma reset_find w n : w_active w = true -> msorted scmp (w_recs w) ->
  inv (w_mode w) (fst (reset w n)) /\ w_active (fst (reset w n)) = true /\
  forall n', mfind scmp (w_recs (fst (reset w n))) n' =
    match mfind scmp (w_recs w) n' with Some p => Some (if String.eqb n n' then perf0 else p) | None => None end.
Proof.
  intros Ha Hs. unfold reset. rewrite Ha. cbn [negb]. destruct (mfind scmp (w_recs w) n) as [p|] eqn:F; cbn.
  - split; [split; [reflexivity|now apply set_sorted]|]. split; [assumption|]. intros n'. rewrite find_set by assumption.
    destruct (String.eqb_spec n n') as [->|Hn].
    + now rewrite F.
    + destruct (mfind scmp (w_recs w) n'); reflexivity.
  - split; [split; [reflexivity|assumption]|]. split; [assumption|]. intros n'.
    destruct (mfind scmp (w_recs w) n') as [q|] eqn:G; [|reflexivity].
    destruct (String.eqb_spec n n') as [->|Hn]; [congruence|reflexivity].
Qed.
Lemma reset_many l : forall w, w_active w = true -> msorted scmp (w_recs w) ->
  let w' := fold_left (fun w n => fst (reset w n)) l w in
  inv (w_mode w) w' /\ w_active w' = true /\
  forall n', mfind scmp (w_recs w') n' =
    match mfind scmp (w_recs w) n' with Some p => Some (if existsb (fun n => String.eqb n n') l then perf0 else p) | None => None end.
Proof.
  induction l as [|n l IH]; intros w Ha Hs; cbn.
  - split; [split; auto|]. split; [assumption|]. intros n'. destruct (mfind scmp (w_recs w) n'); reflexivity.
  - destruct (reset_find w n Ha Hs) as ([Hm Hs1] & Ha1 & F1). destruct (IH _ Ha1 Hs1) as (I2 & Ha2 & F2).
    rewrite Hm in I2. split; [exact I2|]. split; [exact Ha2|]. intros n'. rewrite F2, F1.
    destruct (mfind scmp (w_recs w) n'); [|reflexivity]. destruct (String.eqb n n'); cbn; [|reflexivity].
    destruct (existsb (fun n0 : string => (n0 =? n')%string) l); reflexivity.
Qed.
Lemma find_in_keys (r : list (string * perf)) n p : msorted scmp r -> mfind scmp r n = Some p -> existsb (fun n0 => String.eqb n0 n) (map fst r) = true.
Proof.
  intros Hs F. apply (mfind_in _ _ scmp scmp_eq scmp_antisym _ _ _ Hs) in F.
  apply existsb_exists. exists n. split; [|apply String.eqb_refl]. apply in_map_iff. exists (n, p). auto.
Qed.

Lemma holds_reset w n s : match mfind scmp (w_recs w) n with Some p => p = perf0 | None => True end -> holds w n (mkMeas s None []).
Proof. unfold holds. destruct (mfind scmp (w_recs w) n); [|auto]. intros ->. cbn. auto 10. Qed.

Lemma watch_step m w n s c : m <> MNone -> plain m c -> inv m w -> w_active w = s_on s -> from_ok s -> holds w n s ->
  inv m (wexec w c) /\ w_active (wexec w c) = s_on (mstep m n s c) /\ from_ok (mstep m n s c) /\ holds (wexec w c) n (mstep m n s c).
Proof.
  intros Hm Hp [Em Hs] Ha Hf Hh.
  assert (TT : forall t, take_time w t = Ok (clock m t)) by (intros t; unfold take_time; rewrite Em; destruct m; [congruence|reflexivity..]).
  destruct c as [n' t|n' t|n' t|n'| |b|m']; cbn [plain] in Hp; try contradiction; cbn [wexec mstep].
  - unfold start. rewrite Ha. destruct (s_on s) eqn:On; cbn [negb andb]; [|split; [split; auto|rewrite On; auto]].
    rewrite TT. cbn [fst]. split; [split; [exact Em|now apply set_sorted]|]. cbn [set_recs w_active]. rewrite Ha.
    unfold holds in *. cbn [set_recs w_recs]. rewrite find_set by assumption.
    destruct (String.eqb_spec n' n) as [->|Hn]; [|rewrite On; auto]. split; [reflexivity|]. split; [exact Hp|].
    cbn. destruct (mfind scmp (w_recs w) n) as [p|]; cbn.
    + tauto.
    + destruct Hh as [_ ->]. cbn. auto 10.
  - unfold stop. rewrite Ha. destruct (s_on s) eqn:On; cbn [negb andb]; [|split; [split; auto|rewrite On; auto]].
    rewrite TT. destruct (mfind scmp (w_recs w) n') as [p|] eqn:F; cbn [fst].
    + destruct (String.eqb_spec n' n) as [->|Hn].
      * unfold holds in Hh. rewrite F in Hh. destruct Hh as (H1 & H2 & H3 & H4 & H5 & H6). unfold from_ok in Hf.
        destruct (s_from s) as [c0|] eqn:Fr.
        -- destruct (Req_EM_T (w_start p) 0); [lra|]. cbn [fst].
           split; [split; [exact Em|now apply set_sorted]|]. cbn [set_recs w_active]. split; [exact Ha|]. split; [exact Hf|].
           unfold holds. cbn [set_recs w_recs]. rewrite find_set, String.eqb_refl by assumption. cbn.
           assert (L : lapse (w_mode w) (w_start p) (clock m t) = seconds m (clock m t - c0)).
           { rewrite Em, H1. destruct m; reflexivity. }
           rewrite L, H2, H3, H4, H5, H1. rewrite sum_app, app_length, last_last. cbn. unfold min_code, max_code. rewrite !fold_left_app. cbn.
           split; [reflexivity|]. split; [ring|]. split; [lia|]. auto.
        -- destruct (Req_EM_T (w_start p) 0); [|contradiction]. cbn [fst]. split; [split; auto|]. rewrite On. split; [exact Ha|].
           unfold from_ok. rewrite Fr. split; [exact I|]. unfold holds. rewrite F, Fr. auto 10.
      * destruct (Req_EM_T (w_start p) 0); cbn [fst]; [split; [split; auto|rewrite On; auto]|].
        split; [split; [exact Em|now apply set_sorted]|]. cbn [set_recs w_active]. rewrite On. split; [exact Ha|]. split; [exact Hf|].
        unfold holds in *. cbn [set_recs w_recs]. rewrite find_set by assumption. destruct (String.eqb_spec n' n); [contradiction|exact Hh].
    + destruct (String.eqb_spec n' n) as [->|Hn]; [|split; [split; auto|rewrite On; auto]].
      split; [split; auto|]. unfold holds in Hh. rewrite F in Hh. destruct Hh as [Hfr Hl]. rewrite Hfr. rewrite On. split; [exact Ha|].
      split; [exact Hf|]. unfold holds. rewrite F. auto.
  - destruct (s_on s) eqn:On; cbn [andb].
    + destruct (reset_find w n' Ha Hs) as ([Hm1 Hs1] & Ha1 & F). rewrite Em in Hm1. split; [split; assumption|]. rewrite Ha1.
      destruct (String.eqb_spec n' n) as [->|Hn].
      * split; [reflexivity|]. split; [exact I|]. apply holds_reset. rewrite F. destruct (mfind scmp (w_recs w) n); [|exact I].
        now rewrite String.eqb_refl.
      * rewrite On. split; [reflexivity|]. split; [exact Hf|]. unfold holds in *. rewrite F.
        destruct (String.eqb_spec n' n); [contradiction|]. destruct (mfind scmp (w_recs w) n); exact Hh.
    + unfold reset. rewrite Ha. cbn. rewrite On. split; [split; auto|auto].
  - unfold reset_all. destruct (s_on s) eqn:On; rewrite Ha; cbn [negb].
    + cbn [fst]. destruct (reset_many (map fst (w_recs w)) w Ha Hs) as ([Hm1 Hs1] & Ha1 & F). rewrite Em in Hm1.
      split; [split; assumption|]. rewrite Ha1. split; [reflexivity|]. split; [exact I|]. apply holds_reset. rewrite F.
      destruct (mfind scmp (w_recs w) n) as [p|] eqn:G; [|exact I]. now rewrite (find_in_keys _ _ _ Hs G).
    + cbn. rewrite On. split; [split; auto|auto].
  - split; [split; auto|]. cbn. auto.
Qed.

(** ** For every history *)
(** total, last and number of measures. *)
Theorem watch_measures m cs n : m <> MNone -> Forall (plain m) cs -> laps m n cs <> [] ->
  let w := fold_left wexec cs (w_new m) in
  get_total w n = Ok (sum (laps m n cs)) /\
  get_last w n = Ok (last (laps m n cs) 0) /\
  get_average w n = Ok (Some (sum (laps m n cs) / INR (length (laps m n cs)))) /\
  get_min w n = Ok (min_code (laps m n cs)) /\ get_max w n = Ok (max_code (laps m n cs)).
Proof.
  intros Hm Hp. unfold laps.
  assert (G : forall w s, inv m w -> w_active w = s_on s -> from_ok s -> holds w n s ->
     holds (fold_left wexec cs w) n (fold_left (mstep m n) cs s)).
  { induction Hp as [|c cs Hc Hcs IH]; intros w s Hi Ha Hf Hh; cbn; [exact Hh|].
    destruct (watch_step m w n s c Hm Hc Hi Ha Hf Hh) as (A & B & C & D). apply IH; assumption. }
  assert (H0 : holds (fold_left wexec cs (w_new m)) n (fold_left (mstep m n) cs meas0)).
  { apply G.
    - split; [reflexivity|]. apply msorted_nil.
    - reflexivity.
    - exact I.
    - unfold holds. cbn. auto. }
  intros Hl. cbv zeta. unfold holds in H0. unfold get_total, get_last, get_average, get_min, get_max, getter.
  destruct (mfind scmp (w_recs (fold_left wexec cs (w_new m))) n) as [p|].
  - destruct H0 as (_ & -> & -> & -> & -> & ->). repeat split.
    destruct (Nat.eqb_spec (length (s_laps (fold_left (mstep m n) cs meas0))) 0) as [Z|]; [|reflexivity].
    apply length_zero_iff_nil in Z. contradiction.
  - destruct H0 as [_ Z]. contradiction.
Qed.

(** Measures are positive when the clock increases. *)
Lemma laps_positive m n cs : forall d s, 0 <= d -> Forall (plain m) cs -> increasing m d cs ->
  (forall c, s_from s = Some c -> c <= d) -> Forall (fun x => 0 < x) (s_laps s) ->
  Forall (fun x => 0 < x) (s_laps (fold_left (mstep m n) cs s)).
Proof.
  induction cs as [|c cs IH]; intros d s Hd Hp Hi Hc Hl; cbn; [exact Hl|].
  apply Forall_cons_iff in Hp as [Pc Pcs]. cbn [increasing] in Hi.
  destruct c as [n' t|n' t|n' t|n'| |b|m']; cbn [date plain] in *; try contradiction.
  - destruct Hi as [H1 H2]. apply (IH (clock m t)); try assumption; try lra.
    + cbn. destruct (s_on s && (n' =? n)%string); cbn; intros c E; [injection E as <-; lra|]. apply Hc in E. lra.
    + cbn. destruct (s_on s && (n' =? n)%string); exact Hl.
  - destruct Hi as [H1 H2]. apply (IH (clock m t)); try assumption; try lra; cbn.
    + destruct (s_on s && (n' =? n)%string); [destruct (s_from s) as [c0|] eqn:Fr|]; cbn; intros c E; rewrite ?Fr in E; try discriminate; apply Hc in E; lra.
    + destruct (s_on s && (n' =? n)%string); [|assumption]. destruct (s_from s) as [c0|] eqn:Fr; cbn; [|assumption].
      apply Forall_app. split; [assumption|]. constructor; [|constructor]. specialize (Hc _ eq_refl).
      unfold seconds. destruct m; lra.
  - apply (IH d); try assumption; cbn; destruct (s_on s && (n' =? n)%string); cbn; try assumption; try discriminate. constructor.
  - apply (IH d); try assumption; cbn; destruct (s_on s); cbn; try assumption; try discriminate. constructor.
  - apply (IH d); assumption.
Qed.

Lemma min_code_spec l : Forall (fun x => 0 < x) l -> l <> [] -> In (min_code l) l /\ Forall (fun x => min_code l <= x) l.
Proof.
  induction l as [|x l IH] using rev_ind; [congruence|]. intros Hp _. apply Forall_app in Hp as [Hl Hx].
  apply Forall_cons_iff in Hx as [Hx _]. unfold min_code. rewrite fold_left_app. cbn. fold (min_code l).
  destruct l as [|y l'] eqn:E.
  - cbn. destruct (Rle_dec x 0); [lra|]. destruct (Req_EM_T 0 0); [|lra]. split; [now left|]. constructor; [lra|constructor].
  - rewrite <- E in *. destruct (IH Hl) as [Hin Hall]; [rewrite E; discriminate|].
    destruct (Rle_dec x (min_code l)) as [Hle|Hle].
    + split; [apply in_or_app; right; now left|]. apply Forall_app. split; [|constructor; [lra|constructor]].
      eapply Forall_impl; [|exact Hall]. cbn. intros; lra.
    + destruct (Req_EM_T (min_code l) 0) as [Z|Z].
      * exfalso. rewrite Forall_forall in Hl. specialize (Hl _ Hin). lra.
      * split; [apply in_or_app; now left|]. apply Forall_app. split; [exact Hall|]. constructor; [lra|constructor].
Qed.
Lemma max_code_spec l : Forall (fun x => 0 < x) l -> l <> [] -> In (max_code l) l /\ Forall (fun x => x <= max_code l) l.
Proof.
  induction l as [|x l IH] using rev_ind; [congruence|]. intros Hp _. apply Forall_app in Hp as [Hl Hx].
  apply Forall_cons_iff in Hx as [Hx _]. unfold max_code. rewrite fold_left_app. cbn. fold (max_code l).
  destruct l as [|y l'] eqn:E.
  - cbn. destruct (Rle_dec 0 x); [|lra]. split; [now left|]. constructor; [lra|constructor].
  - rewrite <- E in *. destruct (IH Hl) as [Hin Hall]; [rewrite E; discriminate|].
    destruct (Rle_dec (max_code l) x) as [Hle|Hle].
    + split; [apply in_or_app; right; now left|]. apply Forall_app. split; [|constructor; [lra|constructor]].
      eapply Forall_impl; [|exact Hall]. cbn. intros; lra.
    + split; [apply in_or_app; now left|]. apply Forall_app. split; [exact Hall|]. constructor; [lra|constructor].
Qed.
Lemma sum_bounds l a b : Forall (fun x => a <= x) l -> Forall (fun x => x <= b) l -> INR (length l) * a <= sum l <= INR (length l) * b.
Proof.
  induction l as [|x l IH]; intros Ha Hb; [cbn; lra|].
  apply Forall_cons_iff in Ha as [Ha1 Ha2], Hb as [Hb1 Hb2]. specialize (IH Ha2 Hb2).
  cbn [sum]. change (length (x :: l)) with (S (length l)). rewrite S_INR. lra.
Qed.

(** Extrema are attained and bound every measure; the average is between them.  Missing: measures of zero
    (zero_measure_refuted) and pauses (pause_refuted). *)
Theorem watch_statistics_partial m cs n : m <> MNone -> Forall (plain m) cs -> increasing m 0 cs -> laps m n cs <> [] ->
  let w := fold_left wexec cs (w_new m) in
  exists mn mx av, get_min w n = Ok mn /\ get_max w n = Ok mx /\ get_average w n = Ok (Some av) /\
    In mn (laps m n cs) /\ In mx (laps m n cs) /\ Forall (fun x => mn <= x <= mx) (laps m n cs) /\ mn <= av <= mx /\ 0 < mn.
Proof.
  intros Hm Hp Hi Hl. destruct (watch_measures m cs n Hm Hp Hl) as (_ & _ & A & B & C). cbv zeta.
  do 3 eexists. split; [exact B|]. split; [exact C|]. split; [exact A|].
  assert (Pos : Forall (fun x => 0 < x) (laps m n cs)).
  { unfold laps. apply laps_positive with (d := 0); auto; try lra. cbn. discriminate. constructor. }
  destruct (min_code_spec _ Pos Hl) as [I1 A1]. destruct (max_code_spec _ Pos Hl) as [I2 A2].
  split; [exact I1|]. split; [exact I2|]. split.
  - rewrite Forall_forall in *. intros x Hx. split; [apply A1|apply A2]; exact Hx.
  - pose proof (sum_bounds _ _ _ A1 A2) as [S1 S2].
    assert (N : 0 < INR (length (laps m n cs))).
    { apply lt_0_INR. destruct (laps m n cs); [congruence|cbn; lia]. }
    split.
    + split; [apply Rmult_le_reg_r with (INR (length (laps m n cs)))|apply Rmult_le_reg_r with (INR (length (laps m n cs)))]; try exact N;
        unfold Rdiv; rewrite Rmult_assoc, Rinv_l, Rmult_1_r by lra; lra.
    + rewrite Forall_forall in Pos. apply Pos, I1.
Qed.

(** A name never started (or reset) has no measure, and stopping an unknown one throws. *)
Theorem stop_unknown w n t : w_active w = true -> w_mode w <> MNone -> mfind scmp (w_recs w) n = None ->
  stop w n t = (w, Throw "Performance not initialized.").
Proof.
  intros Ha Hm F. unfold stop, take_time. rewrite Ha, F. cbn. destruct (w_mode w); [congruence|reflexivity..].
Qed.
(** Without a way to take the time (and turned on), start and stop raise an exception. *)
Theorem watch_no_mode w n t : w_active w = true -> w_mode w = MNone ->
  let e := Throw "Clock not initialized to a time taking mode!" in
  snd (start w n t) = e /\ stop w n t = (w, e).
Proof. intros Ha Hm. unfold start, stop, take_time. rewrite Ha, Hm. split; reflexivity. Qed.
(** When it is turned off nothing is measured. *)
Theorem off_is_inert w c : w_active w = false -> (match c with WTurn _ | WMode _ => False | _ => True end) -> wexec w c = w.
Proof. intros Ha. destruct c; cbn; try contradiction; intros _; unfold start, stop, pause, reset, reset_all; rewrite Ha; reflexivity. Qed.
Theorem off_raises_nothing w n t : w_active w = false ->
  start w n t = (w, Ok tt) /\ stop w n t = (w, Ok tt) /\ pause w n t = (w, Ok tt) /\
  reset w n = (w, Ok tt) /\ reset_all w = (w, Ok tt).
Proof. intros Ha. unfold start, stop, pause, reset, reset_all. rewrite Ha. repeat split. Qed.

(** The time since the pending start of a name. *)
Theorem watch_time_so_far m cs n t : m <> MNone -> Forall (plain m) cs ->
  let w := fold_left wexec cs (w_new m) in
  match s_from (fold_left (mstep m n) cs meas0) with
  | Some c0 => time_so_far w n t = Ok (seconds m (clock m t - c0))
  | None => True
  end.
Proof.
  intros Hm Hp. cbv zeta.
  assert (G : forall w s, inv m w -> w_active w = s_on s -> from_ok s -> holds w n s ->
     inv m (fold_left wexec cs w) /\ holds (fold_left wexec cs w) n (fold_left (mstep m n) cs s)).
  { induction Hp as [|c cs Hc Hcs IH]; intros w s Hi Ha Hf Hh; cbn; [auto|].
    destruct (watch_step m w n s c Hm Hc Hi Ha Hf Hh) as (A & B & C & D). apply IH; assumption. }
  destruct (G (w_new m) meas0) as ((Em & _) & H0).
  - split; [reflexivity|]. apply msorted_nil.
  - reflexivity.
  - exact I.
  - unfold holds. cbn. auto.
  - unfold holds in H0. revert H0. destruct (s_from _) as [c0|]; [|intros; exact I]. intros H0. unfold time_so_far.
    destruct (mfind scmp _ n) as [p|].
    + destruct H0 as (-> & _). unfold take_time. rewrite Em. destruct m; [congruence|reflexivity..].
    + destruct H0 as [H0 _]. discriminate.
Qed.

(** ** What does not hold *)
(** A measure of zero is forgotten by the minimum. *)
Theorem zero_measure_refuted : exists cs mn, Forall (plain MReal) cs /\
  get_min (fold_left wexec cs (w_new MReal)) "a" = Ok mn /\ ~ Forall (fun x => mn <= x) (laps MReal "a" cs).
Proof.
  exists [WStart "a" (mkTick 0 1); WStop "a" (mkTick 0 1); WStop "a" (mkTick 0 2)], (min_code [0; 1]).
  split; [repeat constructor; cbn; lra|].
  assert (E : laps MReal "a" [WStart "a" (mkTick 0 1); WStop "a" (mkTick 0 1); WStop "a" (mkTick 0 2)] = [0; 1]).
  { unfold laps. cbn. f_equal; [ring|]. f_equal. ring. }
  split.
  - rewrite <- E. apply watch_measures; [discriminate|repeat constructor; cbn; lra|]. rewrite E. discriminate.
  - rewrite E. intros F. apply Forall_cons_iff in F as [F _]. revert F. unfold min_code. cbn.
    destruct (Rle_dec 0 0); [|lra]. destruct (Rle_dec 1 0); [lra|]. destruct (Req_EM_T 0 0); lra.
Qed.
(** pause on a pending measure adds the ticks of clock() since its start to the total and to the last time, and leaves the extremes, the
    average's count and the other names; on a measure that is not pending it does nothing; on an unknown name it raises. *)
Theorem pause_effect w n t : msorted scmp (w_recs w) -> w_active w = true ->
  match mfind scmp (w_recs w) n with
  | None => pause w n t = (w, not_init)
  | Some p =>
      snd (pause w n t) = Ok tt /\
      (w_start p = 0 -> fst (pause w n t) = w) /\
      (w_start p <> 0 -> let w' := fst (pause w n t) in
         get_total w' n = Ok (w_total p + (t_cpu t - w_start p)) /\ get_last w' n = Ok (w_last p + (t_cpu t - w_start p)) /\
         get_min w' n = get_min w n /\ get_max w' n = get_max w n /\ getter w_stops w' n = getter w_stops w n /\
         getter w_start w' n = getter w_start w n /\ w_active w' = true /\ w_mode w' = w_mode w /\
         forall m, m <> n -> mfind scmp (w_recs w') m = mfind scmp (w_recs w) m)
  end.
Proof.
  intros S A. unfold pause, get_total, get_last, get_min, get_max, getter. rewrite A. cbn [negb].
  destruct (mfind scmp (w_recs w) n) as [p|] eqn:E; [|reflexivity].
  destruct (Req_EM_T (w_start p) 0) as [Z|Z]; cbn [fst snd]; (split; [reflexivity|]); split; intro K; try contradiction; try reflexivity.
  unfold set_recs. cbn [w_recs w_active w_mode].
  assert (M : forall m, mfind scmp (mset scmp (w_recs w) n (mkPerf (w_start p) (w_total p + (t_cpu t - w_start p)) (w_min p) (w_max p) (w_last p + (t_cpu t - w_start p)) (w_stops p))) m =
    match scmp n m with Eq => Some (mkPerf (w_start p) (w_total p + (t_cpu t - w_start p)) (w_min p) (w_max p) (w_last p + (t_cpu t - w_start p)) (w_stops p)) | _ => mfind scmp (w_recs w) m end).
  { intro m. rewrite mfind_mset; try solve [assumption | exact scmp_eq | exact scmp_antisym | exact scmp_trans].
    rewrite (scmp_antisym m n). destruct (scmp m n); reflexivity. }
  rewrite !M. assert (R : scmp n n = Eq) by now apply scmp_eq. rewrite R. cbn.
  repeat split; auto. intros m Hm. rewrite M. destruct (scmp n m) eqn:C; [|reflexivity|reflexivity]. apply scmp_eq in C. congruence.
Qed.
(** pause in real time mode adds the difference of two unrelated clocks. *)
Theorem pause_refuted n c0 c t0 t : c0 <> 0 -> t_real t0 = c0 -> t_cpu t = c ->
  get_total (fold_left wexec [WStart n t0; WPause n t] (w_new MReal)) n = Ok (c - c0).
Proof.
  intros Hc H0 Ht. cbn. unfold start, pause, get_total, getter. cbn. assert (E : scmp n n = Eq) by now apply scmp_eq.
  rewrite !E. cbn. rewrite H0. destruct (Req_EM_T c0 0); [contradiction|]. cbn. rewrite !E. cbn. f_equal. rewrite Ht. ring.
Qed.
(** and the time before the pause is lost in the last time. *)
Theorem pause_last_refuted : exists cs, get_last (fold_left wexec cs (w_new MCpu)) "a" = Ok (1 / CLOCKS_PER_SEC) /\
  cs = [WStart "a" (mkTick 1 1); WPause "a" (mkTick 6 6); WStart "a" (mkTick 7 7); WStop "a" (mkTick 8 8)].
Proof.
  eexists. split; [|reflexivity]. cbn. unfold start, stop, pause, get_last, getter. cbn.
  destruct (Req_EM_T 1 0); [lra|]. cbn. destruct (Req_EM_T 7 0); [lra|]. cbn. f_equal. unfold CLOCKS_PER_SEC. lra.
Qed.

Example watch_example :
  let cs := [WStart "a" (mkTick 0 1); WStart "b" (mkTick 0 2); WStop "a" (mkTick 0 4); WStart "a" (mkTick 0 5); WStop "a" (mkTick 0 6)] in
  Forall (plain MReal) cs /\ increasing MReal 0 cs /\ laps MReal "a" cs = [3; 1] /\ laps MReal "b" cs = [].
Proof.
  cbn. repeat split; try (repeat constructor; cbn; lra); try lra. unfold laps. cbn. f_equal; [ring|]. f_equal. ring.
Qed.

Print Assumptions watch_measures.
Print Assumptions watch_statistics_partial.
Print Assumptions stop_unknown.
Print Assumptions off_is_inert.
Print Assumptions zero_measure_refuted.
Print Assumptions pause_effect.
Print Assumptions pause_refuted.
Print Assumptions pause_last_refuted.
Print Assumptions off_raises_nothing.
Print Assumptions watch_time_so_far.
Print Assumptions watch_no_mode.
