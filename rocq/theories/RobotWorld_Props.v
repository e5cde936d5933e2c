(** C84: parameter servers sharing robots through the registry. *)
From Coq Require Import String Ascii List Arith Lia ZArith Bool Permutation Sorting.Sorted.
From Coq Require Import SpecFloat.
From Verif Require Import Base SMap Float_Facts Robot_Model Robot_Props.
Import ListNotations.
Local Open Scope string_scope.

(** ** Specification.  A time step is accepted unless it is less than or equal to zero.  The state of
    the specification is what the user knows: the robots registered so far (in order), the robot each
    server speaks to, whether it accepts commands, and the log of the commands accepted, with the
    robot they are meant for. *)
Definition accepted (dt : float) : bool := negb (fleb dt f0).

Record psp := mkSP {
  sp_known : list string; sp_bound : nat -> option string; sp_ready : nat -> bool;
  sp_log : list (string * rcmd); sp_urdf : list (string * string) }.
Definition sp_start : psp := mkSP [] (fun _ => None) (fun _ => false) [] [].
Definition fset {B} (f : nat -> B) k b := fun j => if (j =? k)%nat then b else f j.

Definition sp_step (s : psp) (kc : nat * pcmd) : psp :=
  let '(k, c) := kc in
  match c with
  | PInit dt urdf n =>
      if accepted dt then
        mkSP (if existsb (String.eqb n) (sp_known s) then sp_known s else sp_known s ++ [n])%list
             (fset (sp_bound s) k (Some n)) (fset (sp_ready s) k true) (sp_log s) (sp_urdf s ++ [(n, urdf)])%list
      else s
  | PInitSimple dt =>
      if accepted dt then
        mkSP (sp_known s)
             (match sp_known s with [n] => fset (sp_bound s) k (Some n) | _ => sp_bound s end)
             (fset (sp_ready s) k true) (sp_log s) (sp_urdf s)
      else s
  | PRobot c =>
      match sp_ready s k, sp_bound s k with
      | true, Some n => mkSP (sp_known s) (sp_bound s) (sp_ready s) (sp_log s ++ [(n, c)])%list (sp_urdf s)
      | _, _ => s
      end
  end.
Definition sp_run (h : list (nat * pcmd)) : psp := fold_left sp_step h sp_start.

(** The commands of the log that concern robot [n]. *)
Definition commands_of (l : list (string * rcmd)) (n : string) : list rcmd :=
  map snd (filter (fun p => fst p =? n) l).
Definition urdf_of (l : list (string * string)) (n : string) : option string :=
  last_of (fun p => if fst p =? n then Some (snd p) else None) l.

(** A history of commands to the servers; an exception is caught by the caller and the next command
    is executed in the state it left. *)
Definition prun (h : list (nat * pcmd)) : outcome pworld :=
  ofold (fun w kc => let* x := pstep w (fst kc) (snd kc) in Ok (fst x)) h pw_start.

Definition clear_urdf (r : robot) : robot := ru_with_misc r (ru_imu r) "" (ru_tree r).

(** ** Proofs *)
Lemma commands_of_snoc l n m c :
  commands_of (l ++ [(m, c)]) n = if m =? n then (commands_of l n ++ [c])%list else commands_of l n.
Proof.
  unfold commands_of. rewrite filter_app, map_app. cbn [filter fst]. destruct (m =? n); cbn; [reflexivity|].
  apply app_nil_r.
Qed.

Lemma rapply_clear r c : rapply (clear_urdf r) c = (let* r' := rapply r c in Ok (clear_urdf r')).
Proof.
  destruct c; cbn; try reflexivity.
  - unfold set_urdf_to_sot_doubles. destruct (forallb _ _); reflexivity.
  - destruct (side =? "Left"), (side =? "Right"); reflexivity.
  - destruct (side =? "Left"), (side =? "Right"); reflexivity.
Qed.

Lemma rapply_urdf r c r' : rapply r c = Ok r' -> ru_urdf r' = ru_urdf r.
Proof.
  destruct c; cbn [rapply]; intros E;
    try (unfold set_urdf_to_sot_doubles in E; destruct (forallb _ _); [|discriminate]);
    try destruct (side =? "Left"); try destruct (side =? "Right"); injection E as <-; reflexivity.
Qed.

Lemma existsb_in n l : existsb (String.eqb n) l = true <-> In n l.
Proof.
  rewrite existsb_exists. split; [intros (x & A & B); apply String.eqb_eq in B; congruence|].
  intros H. exists n. split; [exact H|apply String.eqb_refl].
Qed.

Record pw_inv (s : psp) (w : pworld) : Prop := {
  pi_sorted : msorted scmp (pw_reg w);
  pi_known : Permutation (sp_known s) (robots w);
  pi_bound : forall k, ps_robot (pw_srv w k) = sp_bound s k;
  pi_ready : forall k, ps_init (pw_srv w k) = sp_ready s k;
  pi_known_bound : forall k n, sp_bound s k = Some n -> In n (sp_known s);
  pi_log : forall n c, In (n, c) (sp_log s) -> In n (sp_known s);
  pi_robot : forall n r, mfind scmp (pw_reg w) n = Some r ->
     ofold rapply (commands_of (sp_log s) n) ru_start = Ok (clear_urdf r) /\
     urdf_of (sp_urdf s) n = Some (ru_urdf r) }.

Lemma in_robots w n : msorted scmp (pw_reg w) -> (In n (robots w) <-> exists r, mfind scmp (pw_reg w) n = Some r).
Proof.
  intros S. unfold robots. rewrite in_map_iff. split.
  - intros ([a r] & E & H). cbn in E. subst a. exists r. apply (mfind_in _ _ scmp scmp_eq scmp_antisym _ _ _ S), H.
  - intros (r & H). exists (n, r). split; [reflexivity|]. apply (mfind_in _ _ scmp scmp_eq scmp_antisym _ _ _ S), H.
Qed.

Lemma sorted_keys {V} (m m' : smap V) : msorted scmp m -> msorted scmp m' ->
  (forall k, In k (map fst m) <-> In k (map fst m')) -> Permutation (map fst m) (map fst m').
Proof.
  intros A B H. apply NoDup_Permutation; [| |exact H]; eapply msorted_nodup; eauto using scmp_eq, scmp_antisym.
Qed.

Lemma no_commands s n : (forall m c, In (m, c) (sp_log s) -> In m (sp_known s)) -> ~ In n (sp_known s) ->
  commands_of (sp_log s) n = [].
Proof.
  intros H Hn. unfold commands_of. enough (E : filter (fun p => fst p =? n) (sp_log s) = []) by now rewrite E.
  induction (sp_log s) as [|[m c] l IH]; [reflexivity|]. cbn [filter fst]. destruct (String.eqb_spec m n) as [-> | N].
  - exfalso. apply Hn, (H n c). cbn; auto.
  - apply IH. intros. apply (H m0 c0). cbn; auto.
Qed.

Lemma pw_inv_step s w k c x : pw_inv s w -> pstep w k c = Ok x -> pw_inv (sp_step s (k, c)) (fst x).
Proof.
  intros I E. destruct c as [dt urdf n|dt|c].
  - (* init *)
    cbn [pstep sp_step] in *. unfold accepted. destruct (fleb dt f0); cbn [negb].
    { injection E as <-. exact I. }
    set (w1 := if is_robot w n then w else fst (create_robot w n)) in *.
    assert (W1 : msorted scmp (pw_reg w1) /\ pw_srv w1 = pw_srv w /\
      forall m, mfind scmp (pw_reg w1) m = match mfind scmp (pw_reg w) m with
         | Some r => Some r | None => if n =? m then Some ru_start else None end).
    { destruct I. unfold w1, is_robot, create_robot. destruct (mfind scmp (pw_reg w) n) as [r|] eqn:F; cbn.
      - split; [assumption|]. split; [reflexivity|]. intros m. destruct (String.eqb_spec n m) as [<-|N].
        + now rewrite F.
        + now destruct (mfind scmp (pw_reg w) m).
      - split; [now apply smset_sorted|]. split; [reflexivity|]. intros m. rewrite sfind_mset by assumption.
        destruct (String.eqb_spec n m) as [<-|N]; [now rewrite F|]. now destruct (mfind scmp (pw_reg w) m). }
    destruct W1 as (S1 & V1 & F1). clearbody w1.
    destruct (mfind scmp (pw_reg w1) n) as [r|] eqn:Fn; [|discriminate].
    injection E as <-. cbn [fst]. rewrite V1. destruct I.
    set (reg := mset scmp (pw_reg w1) n (ru_with_misc r (ru_imu r) urdf (ru_tree r))).
    assert (S2 : msorted scmp reg) by (now apply smset_sorted).
    assert (F2 : forall m, mfind scmp reg m = if n =? m then Some (ru_with_misc r (ru_imu r) urdf (ru_tree r))
                                              else mfind scmp (pw_reg w) m).
    { intros m. unfold reg. rewrite sfind_mset, F1 by assumption. destruct (n =? m); [reflexivity|].
      now destruct (mfind scmp (pw_reg w) m). }
    assert (Kn : forall m, In m (sp_known s) <-> exists r, mfind scmp (pw_reg w) m = Some r).
    { intros m. rewrite <- (in_robots w m pi_sorted0). split; intros H.
      - eapply Permutation_in; eassumption.
      - eapply Permutation_in; [apply Permutation_sym; eassumption|exact H]. }
    constructor; cbn [pw_reg pw_srv srv_set sp_known sp_bound sp_ready sp_log sp_urdf]; try assumption.
    + destruct (existsb (String.eqb n) (sp_known s)) eqn:Ex.
      * rewrite existsb_in in Ex. eapply Permutation_trans; [exact pi_known0|]. unfold robots. cbn [pw_reg].
        apply sorted_keys; try assumption. intros m.
        change (In m (robots w) <-> In m (robots (mkPW reg (pw_srv w)))).
        rewrite !in_robots by assumption. cbn [pw_reg]. rewrite F2. destruct (String.eqb_spec n m) as [<-|N]; [|tauto].
        split; intros _; [eauto|]. now apply Kn.
      * assert (Nn : ~ In n (sp_known s)) by (intros H; apply existsb_in in H; congruence).
        assert (ND : NoDup (map fst reg)) by (eapply msorted_nodup; eauto using scmp_eq, scmp_antisym).
        apply NoDup_Permutation; [|exact ND|].
        -- assert (NK : NoDup (sp_known s)).
           { eapply Permutation_NoDup; [apply Permutation_sym, pi_known0|]. eapply msorted_nodup; eauto using scmp_eq, scmp_antisym. }
           apply (Permutation_NoDup (l := n :: sp_known s)); [apply Permutation_cons_append|]. now constructor.
        -- intros m. rewrite in_app_iff.
           change (In m (sp_known s) \/ In m [n] <-> In m (robots (mkPW reg (pw_srv w)))).
           rewrite in_robots by assumption. cbn [pw_reg]. rewrite F2, Kn. destruct (String.eqb_spec n m) as [<-|N]; cbn.
           ++ split; [eauto|auto].
           ++ split; [intros [H|[H|[]]]; [exact H|congruence]|auto].
    + intros j. unfold fset. destruct (j =? k)%nat; [reflexivity|apply pi_bound0].
    + intros j. unfold fset. destruct (j =? k)%nat; [reflexivity|apply pi_ready0].
    + intros j m. unfold fset. intros Hm.
      assert (In m (sp_known s) \/ m = n) as [H|H].
      { destruct (j =? k)%nat; [injection Hm as <-; auto|]. left. eapply pi_known_bound0; eassumption. }
      * destruct (existsb _ _); [exact H|]. rewrite in_app_iff. auto.
      * subst. destruct (existsb (String.eqb n) (sp_known s)) eqn:Ex; [now apply existsb_in|].
        rewrite in_app_iff. cbn. auto.
    + intros m c0 H. apply pi_log0 in H. destruct (existsb _ _); [exact H|]. rewrite in_app_iff. auto.
    + intros m r' Hm. rewrite F2 in Hm. unfold urdf_of. rewrite last_of_snoc. cbn [fst snd].
      destruct (String.eqb_spec n m) as [<-|N].
      * injection Hm as <-. cbn [ru_urdf ru_with_misc]. split; [|reflexivity].
        rewrite F1, String.eqb_refl in Fn. destruct (mfind scmp (pw_reg w) n) as [r0|] eqn:F0.
        -- injection Fn as <-. apply (pi_robot0 n r0 F0).
        -- injection Fn as <-. rewrite (no_commands s n pi_log0); [reflexivity|]. rewrite Kn. intros (r0 & H). congruence.
      * apply pi_robot0, Hm.
  - (* init_simple *)
    cbn [pstep sp_step] in *. unfold accepted. destruct (fleb dt f0); cbn [negb].
    { injection E as <-. exact I. }
    destruct I.
    assert (L : forall n, robots w = [n] <-> sp_known s = [n]).
    { intros n. split; intros H.
      - rewrite H in pi_known0. apply Permutation_sym, Permutation_length_1_inv in pi_known0. exact pi_known0.
      - rewrite H in pi_known0. apply Permutation_length_1_inv in pi_known0. exact pi_known0. }
    destruct (robots w) as [|n [|n' rest]] eqn:Rw.
    + assert (Hk : sp_known s = []) by (apply Permutation_sym, Permutation_nil in pi_known0; exact pi_known0).
      injection E as <-. cbn [fst]. rewrite Hk in *.
      constructor; cbn [pw_reg pw_srv srv_set sp_known sp_bound sp_ready sp_log sp_urdf]; try assumption.
      * unfold robots in *. cbn [pw_reg srv_set]. rewrite Rw. constructor.
      * intros j. destruct (Nat.eqb_spec j k) as [-> |]; [apply pi_bound0|apply pi_bound0].
      * intros j. unfold fset. destruct (j =? k)%nat; [reflexivity|apply pi_ready0].
    + assert (Hk : sp_known s = [n]) by (now apply L).
      assert (E' : fst x = srv_set w k (mkPS (Some n) true (Some dt) true)).
      { destruct (ps_getter _); injection E as <-; reflexivity. }
      rewrite E'. rewrite Hk in *.
      constructor; cbn [pw_reg pw_srv srv_set sp_known sp_bound sp_ready sp_log sp_urdf]; try assumption.
      * unfold robots in *. cbn [pw_reg srv_set]. rewrite Rw. apply Permutation_refl.
      * intros j. unfold fset. destruct (j =? k)%nat; [reflexivity|apply pi_bound0].
      * intros j. unfold fset. destruct (j =? k)%nat; [reflexivity|apply pi_ready0].
      * intros j m. unfold fset. destruct (j =? k)%nat; [intros [= ->]; cbn; auto|apply pi_known_bound0].
    + assert (Hk : exists a b c, sp_known s = a :: b :: c).
      { apply Permutation_length in pi_known0. destruct (sp_known s) as [|a [|b l]]; cbn in pi_known0; try discriminate. eauto. }
      destruct Hk as (a & b & c & Hk). injection E as <-. cbn [fst]. rewrite Hk in *.
      constructor; cbn [pw_reg pw_srv srv_set sp_known sp_bound sp_ready sp_log sp_urdf]; try assumption.
      * unfold robots in *. cbn [pw_reg srv_set]. rewrite Rw. exact pi_known0.
      * intros j. destruct (Nat.eqb_spec j k) as [-> |]; [apply pi_bound0|apply pi_bound0].
      * intros j. unfold fset. destruct (j =? k)%nat; [reflexivity|apply pi_ready0].
  - (* command *)
    cbn [pstep sp_step] in *. destruct I. rewrite pi_ready0, pi_bound0 in E. destruct (sp_ready s k); [|injection E as <-; now constructor].
    destruct (sp_bound s k) as [n|] eqn:Bk; [|discriminate].
    destruct (mfind scmp (pw_reg w) n) as [r|] eqn:Fn; [|discriminate].
    destruct (rapply r c) as [r'| |] eqn:Er; cbn [bind] in E; try discriminate. injection E as <-. cbn [fst].
    assert (F2 : forall m, mfind scmp (mset scmp (pw_reg w) n r') m = if n =? m then Some r' else mfind scmp (pw_reg w) m).
    { intros m. now rewrite sfind_mset. }
    constructor; cbn [pw_reg pw_srv sp_known sp_bound sp_ready sp_log sp_urdf]; try assumption.
    + now apply smset_sorted.
    + eapply Permutation_trans; [exact pi_known0|]. apply sorted_keys; [assumption|now apply smset_sorted|].
      intros m. change (In m (robots w) <-> In m (robots (mkPW (mset scmp (pw_reg w) n r') (pw_srv w)))).
      rewrite !in_robots by (try assumption; now apply smset_sorted). cbn [pw_reg]. rewrite F2.
      destruct (String.eqb_spec n m) as [<-|N]; [|tauto]. split; eauto.
    + intros m c0. rewrite in_app_iff. intros [H|[H|[]]]; [eapply pi_log0; eassumption|]. injection H as <- <-.
      eapply pi_known_bound0; eassumption.
    + intros m r0. rewrite F2, commands_of_snoc. destruct (String.eqb_spec n m) as [<-|N].
      * intros [= <-]. destruct (pi_robot0 n r Fn) as [A B]. split.
        -- rewrite ofold_app, A. cbn. rewrite rapply_clear, Er. reflexivity.
        -- rewrite B. f_equal. symmetry. now apply (rapply_urdf r c).
      * apply pi_robot0.
Qed.

Lemma pw_inv_run h w : prun h = Ok w -> pw_inv (sp_run h) w.
Proof.
  unfold prun, sp_run. revert w. induction h as [|[k c] h IH] using rev_ind; intros w E.
  - injection E as <-. constructor; cbn; try discriminate; try reflexivity; try constructor. intros ? ? [].
  - rewrite ofold_app in E. rewrite fold_left_app. cbn [fold_left].
    destruct (ofold _ h pw_start) as [w0| |]; cbn [bind] in E; try discriminate. cbn [ofold fst snd] in E.
    destruct (pstep w0 k c) as [x| |] eqn:Es; cbn [bind] in E; try discriminate. cbn in E. injection E as <-.
    eapply pw_inv_step; [now apply IH|exact Es].
Qed.

(** ** Theorems *)

(** After any history of commands to any number of servers: the robots registered are the ones
    named in accepted [init] commands, each once, listed in alphabetical order; every server speaks
    to the robot it was last bound to; and a robot holds exactly the result of the commands meant
    for it, in order, whatever server they came from. *)
Theorem servers_refine h w : prun h = Ok w ->
  Permutation (sp_known (sp_run h)) (robots w) /\ StronglySorted (fun a b => scmp a b = Lt) (robots w) /\
  (forall k, ps_robot (pw_srv w k) = sp_bound (sp_run h) k /\ ps_init (pw_srv w k) = sp_ready (sp_run h) k) /\
  (forall n, In n (robots w) -> exists r,
     mfind scmp (pw_reg w) n = Some r /\
     ofold rapply (commands_of (sp_log (sp_run h)) n) ru_start = Ok (clear_urdf r) /\
     urdf_of (sp_urdf (sp_run h)) n = Some (ru_urdf r)).
Proof.
  intros E. apply pw_inv_run in E. destruct E. split; [assumption|]. split; [|split].
  - unfold robots. clear - pi_sorted0. induction pi_sorted0 as [|p m S IH F]; cbn; constructor; [assumption|].
    rewrite Forall_map. exact F.
  - auto.
  - intros n Hn. apply in_robots in Hn; [|assumption]. destruct Hn as (r & Hr). exists r. split; [exact Hr|]. auto.
Qed.

(** A robot is registered exactly when an accepted [init] names it. *)
Theorem robots_registered h w n : prun h = Ok w ->
  (is_robot w n = true <-> exists k dt urdf, In (k, PInit dt urdf n) h /\ accepted dt = true).
Proof.
  intros E. destruct (servers_refine h w E) as (P & _ & _ & _). pose proof (pw_inv_run h w E) as [S _ _ _ _ _ _].
  assert (X : is_robot w n = true <-> In n (sp_known (sp_run h))).
  { transitivity (In n (robots w)).
    - rewrite in_robots by exact S. unfold is_robot. destruct (mfind scmp (pw_reg w) n); split; eauto; try discriminate.
      intros (r & H). discriminate.
    - split; apply Permutation_in; [apply Permutation_sym|]; exact P. }
  rewrite X. clear. unfold sp_run. induction h as [|[k c] h IH] using rev_ind.
  - cbn. split; [contradiction|]. intros (? & ? & ? & [] & _).
  - rewrite fold_left_app. cbn [fold_left]. set (s := fold_left sp_step h sp_start) in *.
    assert (K : In n (sp_known (sp_step s (k, c))) <->
                In n (sp_known s) \/ exists dt urdf, c = PInit dt urdf n /\ accepted dt = true).
    { destruct c as [dt urdf m|dt|c]; cbn [sp_step].
      - destruct (accepted dt) eqn:A; cbn [sp_known].
        + destruct (existsb (String.eqb m) (sp_known s)) eqn:Ex.
          * apply existsb_in in Ex. split; [auto|]. intros [H|(d & u & [= <- <- <-] & _)]; assumption.
          * rewrite in_app_iff. cbn. split.
            -- intros [H|[-> |[]]]; [auto|]. right. eauto.
            -- intros [H|(d & u & [= <- <- <-] & _)]; auto.
        + split; [auto|]. intros [H|(d & u & [= <- <- <-] & B)]; [exact H|congruence].
      - destruct (accepted dt); cbn [sp_known]; split; auto; intros [H|(? & ? & ? & _)]; auto; discriminate.
      - destruct (sp_ready s k), (sp_bound s k); cbn [sp_known]; split; auto; intros [H|(? & ? & ? & _)]; auto; discriminate. }
    rewrite K, IH. split.
    + intros [(k0 & dt & urdf & H & A)|(dt & urdf & -> & A)]; [|exists k]; [exists k0|]; exists dt, urdf;
        rewrite in_app_iff; cbn; auto.
    + intros (k0 & dt & urdf & H & A). rewrite in_app_iff in H. destruct H as [H|[H|[]]]; [left; eauto|].
      injection H as <- ->. right. eauto.
Qed.

(** A command on a server whose [init] has not succeeded has no effect at all. *)
Theorem command_before_init w k c : ps_init (pw_srv w k) = false -> pstep w k (PRobot c) = Ok (w, None).
Proof. intros H. cbn. now rewrite H. Qed.

(** A rejected time step has no effect at all. *)
Theorem init_rejected w k dt urdf n : fleb dt f0 = true ->
  pstep w k (PInit dt urdf n) = Ok (w, None) /\ pstep w k (PInitSimple dt) = Ok (w, None).
Proof. intros H. cbn. now rewrite H. Qed.

(** Servers of the same robot see each other's commands; robots do not see each other's: a read
    through any server after a command. *)
Theorem server_write h w k c w' :
  prun h = Ok w -> pstep w k (PRobot c) = Ok (w', None) -> ps_init (pw_srv w k) = true ->
  exists n r r', ps_robot (pw_srv w k) = Some n /\ ps_view w k = Some r /\ rapply r c = Ok r' /\
    (forall j, ps_robot (pw_srv w j) = Some n -> ps_view w' j = Some r') /\
    (forall j, ps_robot (pw_srv w j) <> Some n -> ps_view w' j = ps_view w j).
Proof.
  intros E Es Hi. pose proof (pw_inv_run h w E) as [S _ _ _ _ _ _]. cbn in Es. rewrite Hi in Es.
  destruct (ps_robot (pw_srv w k)) as [n|] eqn:B; [|discriminate].
  destruct (mfind scmp (pw_reg w) n) as [r|] eqn:F; [|discriminate].
  destruct (rapply r c) as [r'| |] eqn:Er; cbn [bind] in Es; try discriminate. injection Es as <-.
  exists n, r, r'. unfold ps_view. cbn [pw_reg pw_srv]. rewrite B, F. split; [reflexivity|]. split; [reflexivity|].
  split; [exact Er|]. split.
  - intros j ->. rewrite sfind_mset by exact S. now rewrite String.eqb_refl.
  - intros j Hj. destruct (ps_robot (pw_srv w j)) as [m|]; [|reflexivity]. rewrite sfind_mset by exact S.
    destruct (String.eqb_spec n m); [congruence|reflexivity].
Qed.

(** Without [init_simple], and with joint maps of representable indices,
    no history is undefined. Missing: histories where init_simple fails,
    after which a command dereferences a null pointer. *)
Theorem servers_defined_partial h :
  (forall k dt, ~ In (k, PInitSimple dt) h) ->
  (forall k u x, In (k, PRobot (RJoints u)) h -> In x u -> (0 <= x < 2 ^ 32)%Z) ->
  exists w, prun h = Ok w.
Proof.
  intros HS HJ.
  enough (G : exists w, prun h = Ok w /\ forall k, ps_init (pw_srv w k) = true -> exists n, ps_robot (pw_srv w k) = Some n)
    by (destruct G as (w & G & _); eauto).
  induction h as [|[k c] h IH] using rev_ind.
  - exists pw_start. split; [reflexivity|]. cbn. discriminate.
  - destruct IH as (w & E & B).
    { intros k0 dt H. apply (HS k0 dt). rewrite in_app_iff. auto. }
    { intros k0 u x H. apply (HJ k0 u x). rewrite in_app_iff. auto. }
    pose proof (pw_inv_run h w E) as I. unfold prun in *. rewrite ofold_app, E. cbn [bind ofold fst snd].
    destruct c as [dt urdf n|dt|c].
    + cbn [pstep]. destruct (fleb dt f0); cbn; [exists w; auto|].
      assert (F : exists r, mfind scmp (pw_reg (if is_robot w n then w else fst (create_robot w n))) n = Some r).
      { unfold is_robot, create_robot. destruct (mfind scmp (pw_reg w) n) eqn:F; cbn; [eauto|].
        exists ru_start. rewrite sfind_mset by apply I. now rewrite String.eqb_refl. }
      destruct F as (r & F). rewrite F. cbn. eexists. split; [reflexivity|]. intros j. cbn.
      assert (V : pw_srv (if is_robot w n then w else fst (create_robot w n)) = pw_srv w).
      { unfold is_robot, create_robot. destruct (mfind scmp (pw_reg w) n); reflexivity. }
      rewrite V. destruct (j =? k)%nat; [cbn; eauto|apply B].
    + exfalso. apply (HS k dt). rewrite in_app_iff. cbn. auto.
    + cbn [pstep]. destruct (ps_init (pw_srv w k)) eqn:R; [|cbn; exists w; auto].
      destruct (B k R) as (n & Bn). rewrite Bn.
      destruct I. pose proof (pi_bound0 k) as Bk. rewrite Bn in Bk. symmetry in Bk. apply pi_known_bound0 in Bk.
      eapply Permutation_in in Bk; [|eassumption]. apply in_robots in Bk; [|assumption]. destruct Bk as (r & F). rewrite F.
      assert (J : exists r', rapply r c = Ok r').
      { destruct c; cbn; eauto. unfold set_urdf_to_sot_doubles.
        enough (forallb (fun x => (0 <=? x)%Z && (x <? 2 ^ 32)%Z) u = true) as -> by eauto.
        apply forallb_forall. intros x Hx. specialize (HJ k u x). rewrite in_app_iff in HJ. cbn in HJ.
        specialize (HJ (or_intror (or_introl eq_refl)) Hx). apply andb_true_iff. split; [apply Z.leb_le|apply Z.ltb_lt]; lia. }
      destruct J as (r' & J). rewrite J. cbn. eexists. split; [reflexivity|]. exact B.
Qed.

(** [init_simple] with no robot (or several) throws, yet the server is marked as initialised: the
    next command dereferences a null pointer, and the range check does too. *)
Theorem init_simple_refuted : exists dt w m,
  pstep pw_start 0 (PInitSimple dt) = Ok (w, Some m) /\ ps_init (pw_srv w 0) = true /\
  (forall c, pstep w 0 (PRobot c) = UB) /\
  (forall p, get_parameter w 0 p = UB).
Proof.
  exists f1. do 2 eexists. split; [reflexivity|]. split; [reflexivity|]. split; [reflexivity|].
  intros p. reflexivity.
Qed.

(** The range check and the conversion of names do not test the initialisation. *)
Theorem read_before_init_refuted k id q name :
  isJointInRange pw_start k id q = UB /\ convertJointNameToJointId pw_start k name = UB.
Proof. split; reflexivity. Qed.

(** With exactly one robot known, the first [init_simple] of a server raises nothing, and the server is then bound to
    this robot. *)
Theorem init_simple_first h w k n dt : prun h = Ok w -> (forall d, ~ In (k, PInitSimple d) h) -> robots w = [n] ->
  fleb dt f0 = false ->
  exists w', pstep w k (PInitSimple dt) = Ok (w', None) /\ ps_init (pw_srv w' k) = true /\
    ps_robot (pw_srv w' k) = Some n /\ ps_dt (pw_srv w' k) = Some dt /\ forall j, j <> k -> pw_srv w' j = pw_srv w j.
Proof.
  intros E H R D.
  assert (G : ps_getter (pw_srv w k) = false).
  { clear R D. revert w E. induction h as [|[j c] h IH] using rev_ind; intros w E.
    - injection E as <-. reflexivity.
    - unfold prun in E. rewrite ofold_app in E. destruct (ofold _ h pw_start) as [w0| |] eqn:E0; cbn [bind] in E; try discriminate.
      cbn [ofold fst snd] in E.
      assert (G0 : ps_getter (pw_srv w0 k) = false).
      { apply IH; [|exact E0]. intros d I. apply (H d). rewrite in_app_iff. now left. }
      assert (V : forall m, pw_srv (if is_robot w0 m then w0 else fst (create_robot w0 m)) = pw_srv w0).
      { intros m. unfold is_robot, create_robot. destruct (mfind scmp (pw_reg w0) m); reflexivity. }
      destruct c as [d u m|d|c]; cbn [pstep] in E.
      + destruct (fleb d f0); cbn in E; [injection E as <-; exact G0|].
        destruct (mfind scmp _ m); cbn in E; try discriminate. injection E as <-. cbn. rewrite V.
        destruct (Nat.eqb_spec k j) as [->|]; cbn; exact G0.
      + destruct (fleb d f0); cbn in E; [injection E as <-; exact G0|].
        assert (j <> k) by (intros ->; apply (H d); rewrite in_app_iff; right; now left).
        destruct (robots w0) as [|a [|b r]]; cbn in E; [|destruct (ps_getter (pw_srv w0 j)); cbn in E|];
          injection E as <-; cbn; (destruct (Nat.eqb_spec k j); [congruence|exact G0]).
      + destruct (ps_init (pw_srv w0 j)); cbn in E; [|injection E as <-; exact G0].
        destruct (ps_robot (pw_srv w0 j)); cbn in E; try discriminate.
        destruct (mfind scmp _ _); cbn in E; try discriminate.
        destruct (rapply _ _); cbn in E; try discriminate. injection E as <-. exact G0. }
  cbn [pstep]. rewrite D, R, G. eexists. split; [reflexivity|]. cbn. rewrite Nat.eqb_refl. cbn. repeat split.
  intros j Hj. destruct (Nat.eqb_spec j k); [congruence|reflexivity].
Qed.

(** A second successful [init_simple] throws. *)
Theorem init_simple_twice_refuted : exists h w m,
  prun h = Ok w /\ ps_init (pw_srv w 1) = true /\ exists w', pstep w 1 (PInitSimple f1) = Ok (w', Some m).
Proof.
  exists [(0%nat, PInit f1 "a.urdf" "robot"); (1%nat, PInitSimple f1)]. do 2 eexists. split; [reflexivity|].
  split; [reflexivity|]. eexists. reflexivity.
Qed.

(** A time step that is not a number is accepted. *)
Theorem init_nan_refuted k urdf n : exists w, pstep pw_start k (PInit S754_nan urdf n) = Ok (w, None) /\
  ps_init (pw_srv w k) = true.
Proof.
  cbn. rewrite (proj2 (scmp_eq n n) eq_refl). eexists. split; [reflexivity|]. cbn. now rewrite Nat.eqb_refl.
Qed.

(** Names are converted to the last id given (modulo 2^32), and unknown names are reported. *)
Theorem joint_name_conversion h w k n name : prun h = Ok w -> sp_bound (sp_run h) k = Some n ->
  convertJointNameToJointId w k name =
    Ok (match last_of (sets_name name) (commands_of (sp_log (sp_run h)) n) with
        | Some i => if (i <? 0)%Z then None else Some (i mod 2 ^ 32)%Z
        | None => None end).
Proof.
  intros E B. pose proof (pw_inv_run h w E) as I. destruct I.
  assert (F : exists r, mfind scmp (pw_reg w) n = Some r).
  { apply in_robots; [assumption|]. eapply Permutation_in; [eassumption|]. eauto. }
  destruct F as (r & F). unfold convertJointNameToJointId, ps_view. rewrite pi_bound0, B, F.
  destruct (pi_robot0 n r F) as [A _]. apply (name_has_last_id _ _ name) in A. destruct A as [A _].
  change (get_id_from_name (clear_urdf r) name) with (get_id_from_name r name) in A. rewrite A.
  destruct (last_of _ _) as [i|]; reflexivity.
Qed.

(** The range check of a server, for numbers: between the last limits given to that robot by any
    server. *)
Theorem server_range_check h w k n i l u q : prun h = Ok w -> sp_bound (sp_run h) k = Some n ->
  last_of (sets_limits i) (commands_of (sp_log (sp_run h)) n) = Some (l, u) ->
  fnan l = false -> fnan u = false -> fnan q = false ->
  isJointInRange w k i q = Ok (fleb l q && fleb q u).
Proof.
  intros E B L Nl Nu Nq. pose proof (pw_inv_run h w E) as I. destruct I.
  assert (F : exists r, mfind scmp (pw_reg w) n = Some r).
  { apply in_robots; [assumption|]. eapply Permutation_in; [eassumption|]. eauto. }
  destruct F as (r & F). unfold isJointInRange, ps_view. rewrite pi_bound0, B, F.
  destruct (pi_robot0 n r F) as [A _]. f_equal.
  change (joint_in_range r i q) with (joint_in_range (clear_urdf r) i q).
  eapply range_check_partial; eassumption.
Qed.

Example servers_example : exists w,
  prun [(0%nat, PInit f1 "t.urdf" "talos"); (1%nat, PInit f1 "r.urdf" "romeo"); (2%nat, PInit f1 "t2.urdf" "talos");
        (3%nat, PRobot (RName "hip" 7)); (0%nat, PRobot (RName "hip" 1)); (1%nat, PRobot (RName "hip" 5));
        (2%nat, PRobot (RLimits 1 f0 f2))] = Ok w /\
  robots w = ["romeo"; "talos"] /\
  convertJointNameToJointId w 2 "hip" = Ok (Some 1%Z) /\ convertJointNameToJointId w 1 "hip" = Ok (Some 5%Z) /\
  isJointInRange w 0 1 f1 = Ok true /\ isJointInRange w 1 1 f1 = Ok false.
Proof. eexists. split; [reflexivity|]. vm_compute. auto. Qed.

Print Assumptions servers_refine.
Print Assumptions robots_registered.
Print Assumptions command_before_init.
Print Assumptions init_rejected.
Print Assumptions server_write.
Print Assumptions servers_defined_partial.
Print Assumptions init_simple_refuted.
Print Assumptions read_before_init_refuted.
Print Assumptions init_simple_twice_refuted.
Print Assumptions init_nan_refuted.
Print Assumptions joint_name_conversion.
Print Assumptions server_range_check.
Print Assumptions init_simple_first.
