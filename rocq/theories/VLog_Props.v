(** C122: the log of the viewer holds what was displayed. *)
From Coq Require Import String Ascii List Arith Lia ZArith Bool.
From Verif Require Import Base VLog_Model HistDump_Props.
Import ListNotations.
Local Open Scope string_scope.
Local Open Scope list_scope.

(** Specification: a log is cut in lines, and a line in fields at the tabulations. *)
Definition fields (s : string) : list string := pieces (ascii_of_nat 9) s.
Definition log_table (s : string) : list (list string) := map fields (lines s).
(** A text that can be a field. *)
Definition field (s : string) : Prop :=
  s <> "" /\ has (ascii_of_nat 9) s = false /\ has (ascii_of_nat 10) s = false.

(** The logs of earlier runs: what /tmp/view*.dat matches. *)
Definition old_log (p : string) : Prop :=
  exists r, p = append "/tmp/view" (append r ".dat") /\ has "/" r = false.

Section Log.
Context {num : Type}.
Variables (str : num -> string) (strt : Z -> string).
Hypothesis Hstr : forall x, field (str x).
Hypothesis Hstrt : forall t, field (strt t).

(** The names that can be logged. *)
Definition plain (c : @vcall num) : bool := negb (has "/" (u_name c)).
(** What the log of a name must hold. *)
Definition expected (n : string) (cs : list (@vcall num)) : list (list string) :=
  map (fun c => strt (u_time c) :: map str (u_state c)) (filter (fun c => String.eqb (u_name c) n) cs).
Definition file_of (n : string) : string := append "/tmp/view_" (append n ".dat").

Lemma occurs_has c s : occurs c s = has c s.
Proof. induction s as [|a r IH]; simpl; [|rewrite IH]; reflexivity. Qed.

Lemma content_store d p t p' : content (store d p t) p' = if String.eqb p p' then Some t else content d p'.
Proof.
  unfold content, store. cbn [find fst]. destruct (String.eqb_spec p p'); [reflexivity|].
  f_equal. induction d as [|[q x] d IH]; [reflexivity|]. cbn [filter find fst].
  destruct (String.eqb_spec q p); cbn [negb find fst].
  - subst q. destruct (String.eqb_spec p p'); [contradiction|]. exact IH.
  - destruct (String.eqb q p'); [reflexivity|exact IH].
Qed.
Lemma append_inj_l a b c : append a b = append a c -> b = c.
Proof. induction a as [|x a IH]; simpl; [auto|]. intros [= H]. auto. Qed.
Lemma append_length a b : String.length (append a b) = String.length a + String.length b.
Proof. induction a as [|x a IH]; simpl; [|rewrite IH]; reflexivity. Qed.
Lemma append_inj_r a b c : append a c = append b c -> a = b.
Proof.
  revert b; induction a as [|x a IH]; intros [|y b] H; auto.
  - exfalso. assert (L : String.length c = String.length (append (String y b) c)) by (rewrite <- H; reflexivity).
    rewrite append_length in L. simpl in L. lia.
  - exfalso. assert (L : String.length (append (String x a) c) = String.length c) by (rewrite H; reflexivity).
    rewrite append_length in L. simpl in L. lia.
  - simpl in H. injection H as -> H. f_equal. apply IH. exact H.
Qed.
Lemma path_inj a b : path a = path b -> a = b.
Proof. unfold path. intros H. apply append_inj_l in H. apply append_inj_r in H. exact H. Qed.

Lemma ends_app a e : ends_with e (append a e) = true.
Proof.
  induction a as [|x a IH].
  - destruct e; [reflexivity|]. cbn [append ends_with]. rewrite String.eqb_refl. reflexivity.
  - cbn [append ends_with]. rewrite IH, orb_true_r. reflexivity.
Qed.
Lemma substring_all s : substring 0 (String.length s) s = s.
Proof. induction s as [|a s IH]; simpl; [|rewrite IH]; reflexivity. Qed.
Lemma path_globbed n : has "/" n = false -> globbed (path n) = true.
Proof.
  intros H. unfold globbed, path. remember (append n ".dat") as r eqn:Er.
  change (append "/tmp/view_" r) with (append "/tmp/view" (String "_" r)).
  assert (P : String.prefix "/tmp/view" (append "/tmp/view" (String "_" r)) = true) by reflexivity.
  rewrite P.
  assert (S : substring 9 (String.length (append "/tmp/view" (String "_" r)) - 9) (append "/tmp/view" (String "_" r))
              = String "_" r).
  { change (substring 0 (String.length (String "_" r)) (String "_" r) = String "_" r). apply substring_all. }
  rewrite S. apply andb_true_iff. split.
  - subst r. change (String "_" (append n ".dat")) with (append (String "_" n) ".dat"). apply ends_app.
  - rewrite occurs_has. cbn [has]. subst r. rewrite has_app, H. reflexivity.
Qed.

Lemma prefix_split a p : String.prefix a p = true -> exists r, p = append a r.
Proof.
  revert p; induction a as [|x a IH]; intros p H; [exists p; reflexivity|].
  destruct p as [|y p]; [discriminate|]. cbn in H. destruct (ascii_dec x y) as [->|]; [|discriminate].
  destruct (IH p H) as (r & ->). exists r. reflexivity.
Qed.
Lemma ends_split e s : ends_with e s = true -> exists r, s = append r e.
Proof.
  induction s as [|x s IH]; cbn [ends_with]; intros H; apply orb_true_iff in H; destruct H as [H|H].
  - apply String.eqb_eq in H. subst e. exists "". reflexivity.
  - discriminate.
  - apply String.eqb_eq in H. exists "". auto.
  - destruct (IH H) as (r & ->). exists (String x r). reflexivity.
Qed.
Lemma globbed_iff p : globbed p = true <-> old_log p.
Proof.
  assert (B : forall r, globbed (append "/tmp/view" r) = ends_with ".dat" r && negb (occurs "/" r)).
  { intros r. unfold globbed.
    assert (P : String.prefix "/tmp/view" (append "/tmp/view" r) = true) by (destruct r; reflexivity). rewrite P.
    assert (S : substring 9 (String.length (append "/tmp/view" r) - 9) (append "/tmp/view" r) = r).
    { change (substring 0 (String.length r - 0) r = r). rewrite Nat.sub_0_r. apply substring_all. }
    rewrite S. reflexivity. }
  split.
  - intros H. assert (P : String.prefix "/tmp/view" p = true).
    { unfold globbed in H. destruct (String.prefix "/tmp/view" p); [reflexivity|discriminate]. }
    destruct (prefix_split _ _ P) as (r & ->). rewrite B in H. apply andb_true_iff in H. destruct H as [H1 H2].
    destruct (ends_split _ _ H1) as (q & ->). exists q. split; [reflexivity|].
    rewrite occurs_has, has_app in H2. destruct (has "/" q); [discriminate|reflexivity].
  - intros (q & -> & Hq). rewrite B, ends_app, occurs_has, has_app, Hq. reflexivity.
Qed.

Lemma line_fields t st : exists b, log_line str strt t st = append b (String (ascii_of_nat 10) "") /\
  has (ascii_of_nat 10) b = false /\ b <> "" /\ fields b = strt t :: map str st.
Proof.
  unfold log_line. exists (join_tab (strt t :: map str st)). split; [reflexivity|].
  assert (G : forall l x, field x -> Forall field l ->
    has (ascii_of_nat 10) (join_tab (x :: l)) = false /\ join_tab (x :: l) <> "" /\ fields (join_tab (x :: l)) = x :: l).
  { clear. induction l as [|y l IH]; intros x (X1 & X2 & X3) F.
    - cbn [join_tab]. split; [exact X3|]. split; [exact X1|]. apply pieces_one; assumption.
    - inversion F; subst. destruct (IH y) as (A & B & C); [assumption|assumption|].
      change (join_tab (x :: y :: l)) with (append x (String tab (join_tab (y :: l)))).
      split; [rewrite has_app, X3; exact A|]. split; [destruct x; [contradiction|discriminate]|].
      unfold fields. change tab with (ascii_of_nat 9). rewrite pieces_sep by assumption.
      f_equal. exact C. }
  apply G; [apply Hstrt|]. apply Forall_forall. intros x Hx. apply in_map_iff in Hx.
  destruct Hx as (y & <- & _). apply Hstr.
Qed.

(** A log is made of whole lines. *)
Definition whole (s : string) : Prop := s = "" \/ exists b, s = append b (String (ascii_of_nat 10) "").
Lemma cut_app c a b : cut c (append a (String c b)) = cut c a ++ cut c b.
Proof.
  induction a as [|x a IH]; cbn [append cut].
  - rewrite Ascii.eqb_refl. reflexivity.
  - destruct (Ascii.eqb x c); [cbn [app]; f_equal; exact IH|]. rewrite IH.
    destruct (cut c a) as [|w l] eqn:E; [|reflexivity].
    destruct a as [|y a]; cbn [cut] in E; [discriminate|].
    destruct (Ascii.eqb y c); [discriminate|]. destruct (cut c a); discriminate.
Qed.
Lemma lines_whole s b : whole s -> lines (append s b) = lines s ++ lines b.
Proof.
  intros [->|(a & ->)]; [reflexivity|]. rewrite app_assoc_s. cbn [append].
  unfold lines, pieces. rewrite !cut_app, !filter_app. f_equal. cbn. rewrite app_nil_r. reflexivity.
Qed.

Lemma not_ex_filter {A} (f : A -> bool) l : (forall x, In x l -> f x = false) -> filter f l = [].
Proof.
  induction l as [|x l IH]; intros H; [reflexivity|]. cbn [filter]. rewrite (H x) by (left; reflexivity).
  apply IH. intros y Hy. apply H. right. exact Hy.
Qed.

(** The state reached: what is open, what every log holds, what was sent and what is left of the old files. *)
Record good (d : disk) (sent : list update) (cs : list vcall) (s : @vlog num) : Prop := {
  g_open : forall n, In n (v_open s) <-> (has "/" n = false /\ exists c, In c cs /\ u_name c = n);
  g_sent : v_sent s = sent ++ map (fun c => (u_name c, u_state c)) (filter plain cs);
  g_file : forall n, In n (v_open s) -> exists t, content (v_disk s) (path n) = Some t /\ whole t /\
             log_table t = expected n cs;
  g_rest : forall p, (forall n, In n (v_open s) -> p <> path n) ->
             content (v_disk s) p = if globbed p then None else content d p }.

Lemma content_filter d p : content (filter (fun f => negb (globbed (fst f))) d) p
  = if globbed p then None else content d p.
Proof.
  unfold content. induction d as [|[q x] d IH]; [destruct (globbed p); reflexivity|].
  cbn [filter find fst]. destruct (String.eqb_spec q p) as [->|N].
  - destruct (globbed p) eqn:G; cbn [negb].
    + exact IH.
    + cbn [find fst]. rewrite String.eqb_refl. reflexivity.
  - destruct (globbed q); cbn [negb]; [exact IH|]. cbn [find fst].
    destruct (String.eqb_spec q p); [contradiction|]. exact IH.
Qed.

Lemma good_run d sent cs : good d sent cs (v_run str strt (v_init d sent) cs).
Proof.
  induction cs as [|c cs IH] using rev_ind.
  - constructor.
    + intros n. cbn. split; [intros []|]. intros (_ & c & [] & _).
    + cbn. rewrite app_nil_r. reflexivity.
    + intros n [].
    + intros p _. apply content_filter.
  - unfold v_run in *. rewrite fold_left_app. cbn [fold_left].
    set (s := fold_left _ cs _) in *. clearbody s. destruct IH as [Ho Hs Hf Hr].
    set (n := u_name c). set (t := u_time c). set (st := u_state c).
    assert (Pl : filter plain (cs ++ [c]) = filter plain cs ++ (if has "/" n then [] else [c])).
    { rewrite filter_app. cbn [filter]. unfold plain at 2. fold n. destruct (has "/" n); reflexivity. }
    assert (Ex : forall m, expected m (cs ++ [c]) = expected m cs ++
      (if String.eqb n m then [strt t :: map str st] else [])).
    { intros m. unfold expected. rewrite filter_app, map_app. cbn [filter]. fold n.
      destruct (String.eqb n m); reflexivity. }
    assert (Old : existsb (String.eqb n) (v_open s) = true <-> In n (v_open s)).
    { rewrite existsb_exists. split.
      - intros (y & Hy & E). apply String.eqb_eq in E. subst. exact Hy.
      - intros H. exists n. split; [exact H|apply String.eqb_refl]. }
    unfold v_update. destruct (existsb (String.eqb n) (v_open s)) eqn:Eo.
    + assert (Hin : In n (v_open s)) by (apply Old; reflexivity).
      destruct (Hf n Hin) as (x & Ex1 & Wx & Tx). rewrite Ex1. cbn [fst].
      assert (Hn : has "/" n = false) by (apply Ho; exact Hin).
      constructor; cbn [v_open v_sent v_disk].
      * intros m. rewrite (Ho m). split; intros (A & y & B & C); split; auto.
        -- exists y. split; [apply in_or_app; left; exact B|exact C].
        -- apply in_app_or in B. destruct B as [B|[<-|[]]]; [exists y; auto|].
           fold n in C. subst m. apply Ho in Hin. destruct Hin as (_ & z & Hz & Ez). exists z. auto.
      * rewrite Pl, Hn, map_app, Hs, app_assoc. reflexivity.
      * intros m Hm. rewrite content_store, Ex. destruct (String.eqb_spec (path n) (path m)) as [E|E].
        -- apply path_inj in E. subst m. rewrite String.eqb_refl. eexists. split; [reflexivity|].
           destruct (line_fields t st) as (b & Eb & B1 & B2 & B3). rewrite Eb. split.
           ++ right. exists (append x b). rewrite app_assoc_s. reflexivity.
           ++ unfold log_table. rewrite lines_whole, map_app by exact Wx. fold (log_table x). rewrite Tx. f_equal.
              unfold lines. rewrite pieces_sep by assumption. cbn. f_equal. exact B3.
        -- destruct (String.eqb_spec n m) as [->|N]; [congruence|]. rewrite app_nil_r. apply Hf. exact Hm.
      * intros p Hp. rewrite content_store. destruct (String.eqb_spec (path n) p) as [E|E].
        -- exfalso. apply (Hp n Hin). auto.
        -- apply Hr. exact Hp.
    + rewrite occurs_has. destruct (has "/" n) eqn:Hn.
      * cbn [fst]. constructor.
        -- intros m. rewrite (Ho m). split; intros (A & y & B & C); split; auto.
           ++ exists y. split; [apply in_or_app; left; exact B|exact C].
           ++ apply in_app_or in B. destruct B as [B|[<-|[]]]; [exists y; auto|]. fold n in C. congruence.
        -- rewrite Pl, app_nil_r. exact Hs.
        -- intros m Hm. rewrite Ex. destruct (String.eqb_spec n m) as [->|N].
           ++ exfalso. apply Ho in Hm. destruct Hm. congruence.
           ++ rewrite app_nil_r. apply Hf. exact Hm.
        -- exact Hr.
      * rewrite content_store, String.eqb_refl. cbn [fst].
        assert (Hnin : ~ In n (v_open s)) by (intros H; apply Old in H; discriminate).
        assert (Hnew : expected n cs = []).
        { unfold expected. replace (filter (fun c => String.eqb (u_name c) n) cs) with (@nil (@vcall num)); [reflexivity|].
          symmetry. apply not_ex_filter. intros y Hy. destruct (String.eqb_spec (u_name y) n) as [E|E]; [|reflexivity].
          exfalso. apply Hnin, Ho. split; [exact Hn|]. exists y. auto. }
        constructor; cbn [v_open v_sent v_disk].
        -- intros m. cbn [In]. rewrite (Ho m). split.
           ++ intros [<-|(A & y & B & C)].
              ** split; [exact Hn|]. exists c. split; [apply in_or_app; right; left; reflexivity|reflexivity].
              ** split; [exact A|]. exists y. split; [apply in_or_app; left; exact B|exact C].
           ++ intros (A & y & B & C). apply in_app_or in B. destruct B as [B|[<-|[]]]; [right|left; exact C].
              split; [exact A|]. exists y. auto.
        -- rewrite Pl, map_app, Hs, app_assoc. reflexivity.
        -- intros m Hm. rewrite !content_store, Ex. destruct (String.eqb_spec (path n) (path m)) as [E|E].
           ++ apply path_inj in E. subst m. rewrite String.eqb_refl, Hnew. eexists. split; [reflexivity|].
              destruct (line_fields t st) as (b & Eb & B1 & B2 & B3). rewrite Eb. split.
              ** right. exists b. reflexivity.
              ** unfold log_table, lines. cbn [append]. rewrite pieces_sep by assumption. cbn. f_equal. exact B3.
           ++ destruct (String.eqb_spec n m) as [->|N]; [congruence|]. rewrite app_nil_r. apply Hf.
              destruct Hm as [Hm|Hm]; [contradiction|exact Hm].
        -- intros p Hp. rewrite !content_store. destruct (String.eqb_spec (path n) p) as [E|E].
           ++ exfalso. apply (Hp n (or_introl eq_refl)). auto.
           ++ apply Hr. intros m Hm. apply Hp. right. exact Hm.
Qed.

(** After any updates the log of every name displayed holds one line for each of its updates, in order: the time and
    the configuration. *)
Theorem log_holds_updates : forall d sent cs n,
  has "/" n = false -> (exists c, In c cs /\ u_name c = n) ->
  exists t, content (v_disk (v_run str strt (v_init d sent) cs)) (file_of n) = Some t /\
    log_table t = expected n cs.
Proof.
  intros d sent cs n Hn Hc. destruct (good_run d sent cs) as [Ho _ Hf _].
  destruct (Hf n) as (t & E & _ & T); [apply Ho; auto|]. exists t. auto.
Qed.

(** Everything displayed is also sent to the viewer, in order, except the names with a slash. *)
Theorem log_forwards : forall d sent cs,
  v_sent (v_run str strt (v_init d sent) cs) =
  sent ++ map (fun c => (u_name c, u_state c)) (filter plain cs).
Proof. intros d sent cs. apply (good_run d sent cs). Qed.

(** The files of a previous run are removed, the other files of the disk are left as they were. *)
Theorem log_other_files : forall d sent cs p,
  (forall c, In c cs -> has "/" (u_name c) = false -> p <> file_of (u_name c)) ->
  let after := content (v_disk (v_run str strt (v_init d sent) cs)) p in
  (old_log p -> after = None) /\ (~ old_log p -> after = content d p).
Proof.
  intros d sent cs p Hp. cbv zeta. destruct (good_run d sent cs) as [Ho _ _ Hr]. rewrite Hr.
  - rewrite <- globbed_iff. destruct (globbed p); split; intros H; try reflexivity; [contradiction H; reflexivity|discriminate].
  - intros n Hn. apply Ho in Hn. destruct Hn as (A & c & B & <-). apply Hp; assumption.
Qed.

(** No file left by an earlier run can be taken for a log of this one. *)
Theorem log_fresh : forall d sent cs n, has "/" n = false -> (forall c, In c cs -> u_name c <> n) ->
  content (v_disk (v_run str strt (v_init d sent) cs)) (file_of n) = None.
Proof.
  intros d sent cs n Hn Hc. apply log_other_files.
  - intros c Hin _ E. apply (Hc c Hin). symmetry. apply path_inj. exact E.
  - apply globbed_iff. exact (path_globbed n Hn).
Qed.

(** Finding: with the loger in place an element whose name holds a slash is not displayed any more. *)
Theorem log_slash_refuted : forall d sent cs t n st,
  has "/" n = true ->
  let s := v_run str strt (v_init d sent) cs in
  v_update str strt t n st s = (s, Throw "FileNotFoundError").
Proof.
  intros d sent cs t n st Hn s. unfold v_update.
  destruct (existsb (String.eqb n) (v_open s)) eqn:E.
  - exfalso. apply existsb_exists in E. destruct E as (y & Hy & Ey). apply String.eqb_eq in Ey. subst y.
    apply (good_run d sent cs) in Hy. destruct Hy. congruence.
  - rewrite occurs_has, Hn. reflexivity.
Qed.
End Log.

Example log_case :
  let str (n : nat) := if Nat.even n then "0" else "1.5" in
  let strt (t : Z) := if (t <? 5)%Z then "3" else "7" in
  let s := v_run str strt (v_init [("/tmp/view_old.dat", "x"); ("/tmp/keep", "y")] [])
             [VCall 3 "robot" [0; 1]; VCall 4 "a/b" [1]; VCall 7 "robot" [1; 1]; VCall 8 "box" [2]] in
  (forall x, field (str x)) /\ (forall t, field (strt t)) /\
  option_map log_table (content (v_disk s) "/tmp/view_robot.dat") = Some [["3"; "0"; "1.5"]; ["7"; "1.5"; "1.5"]] /\
  content (v_disk s) "/tmp/view_old.dat" = None /\ content (v_disk s) "/tmp/keep" = Some "y" /\
  List.length (v_sent s) = 3.
Proof.
  cbv zeta. split; [intros x; unfold field; destruct (Nat.even x); repeat split; discriminate|].
  split; [intros t; unfold field; destruct (t <? 5)%Z; repeat split; discriminate|].
  vm_compute. repeat split; reflexivity.
Qed.

Print Assumptions log_holds_updates.
Print Assumptions log_forwards.
Print Assumptions log_other_files.
Print Assumptions log_fresh.
Print Assumptions log_slash_refuted.
