(** C141: the text of a robot (command displayRobotUtil). *)
From Coq Require Import String Ascii List Arith ZArith Bool Lia Sorting.Sorted.
From Verif Require Import Base SMap Float_Facts Robot_Model Robot_Props RefName_Model StackText_Model ForceText_Model ForceText_Props RobotText_Model.
Import ListNotations.
Local Open Scope string_scope.
Local Open Scope list_scope.

(** ** Specification *)
Definition cat (l : list string) : string := String.concat "" l.
(** The numbered pairs of the map of joints. *)
Definition numbered (u : list Z) : list (nat * Z) := combine (seq 0 (length u)) u.
(** A table of names shows each name once, with its last id, in alphabetical order. *)
Definition names_table (N : list (string * Z)) (last : string -> option Z) : Prop :=
  StronglySorted (fun a b => String.compare (fst a) (fst b) = Lt) N /\ forall n i, In (n, i) N <-> last n = Some i.
(** A table of ids shows each id at most once, by increasing id, with a name that had that id; every last id is there, with a name whose last id it is. *)
Definition ids_table (B : list (Z * string)) (last : string -> option Z) (given : string -> Z -> Prop) : Prop :=
  StronglySorted (fun a b => fst a < fst b)%Z B /\ (forall i n, In (i, n) B -> given n i) /\
  (forall n i, last n = Some i -> exists n', In (i, n') B /\ last n' = Some i).

Lemma u2s_out (pz : Z -> string) (pn : nat -> string) l : forall i os,
  u2s_text pz pn l i os = (os ++ cat (map (fun x => ("(" ++ pn (fst x) ++ " : " ++ pz (snd x) ++ ") ")%string) (combine (seq i (length l)) l)))%string.
Proof.
  assert (E : forall a b, cat (a :: b) = (a ++ cat b)%string).
  { intros a b. unfold cat. destruct b; cbn; [|reflexivity]. induction a; cbn; congruence. }
  induction l as [|x l IH]; intros i os; cbn [u2s_text length seq combine map]; [cbn; induction os; cbn; congruence|].
  rewrite IH, E, sassoc. reflexivity.
Qed.

Lemma name_tables h names ids : names_inv (name_pairs h) names ids ->
  names_table names (fun n => last_of (sets_name n) h) /\ ids_table ids (fun n => last_of (sets_name n) h) (fun n i => In (RName n i) h).
Proof.
  intros (S1 & S2 & A & B & C). split; [split; [exact S1|]|split; [apply sorted_z, S2|split]].
  - intros n i. rewrite <- (mfind_in _ _ scmp scmp_eq scmp_antisym _ n i S1), A, last_pairs. reflexivity.
  - intros i n H. apply (mfind_in _ _ Z.compare zcmp_eq zcmp_antisym _ i n S2) in H. apply C in H.
    unfold name_pairs in H. apply in_flat_map in H. destruct H as (c & Hc & Hin). destruct c; cbn in Hin; try contradiction.
    destruct Hin as [[= -> ->]|[]]. exact Hc.
  - intros n i H. rewrite <- last_pairs, <- A in H. destruct (B n i H) as (n' & X & Y & _). exists n'. split.
    + apply (mfind_in _ _ Z.compare zcmp_eq zcmp_antisym _ i n' S2), X.
    + rewrite <- last_pairs, <- A. exact Y.
Qed.
Lemma fname_tables h names ids : names_inv (fname_pairs h) names ids ->
  names_table names (fun n => last_of (sets_fname n) h) /\ ids_table ids (fun n => last_of (sets_fname n) h) (fun n i => In (RForceName n i) h).
Proof.
  intros (S1 & S2 & A & B & C). split; [split; [exact S1|]|split; [apply sorted_z, S2|split]].
  - intros n i. rewrite <- (mfind_in _ _ scmp scmp_eq scmp_antisym _ n i S1), A, last_fpairs. reflexivity.
  - intros i n H. apply (mfind_in _ _ Z.compare zcmp_eq zcmp_antisym _ i n S2) in H. apply C in H.
    unfold fname_pairs in H. apply in_flat_map in H. destruct H as (c & Hc & Hin). destruct c; cbn in Hin; try contradiction.
    destruct Hin as [[= -> ->]|[]]. exact Hc.
  - intros n i H. rewrite <- last_fpairs, <- A in H. destruct (B n i H) as (n' & X & Y & _). exists n'. split.
    + apply (mfind_in _ _ Z.compare zcmp_eq zcmp_antisym _ i n' S2), X.
    + rewrite <- last_fpairs, <- A. exact Y.
Qed.

Section Text.
Variable pz : Z -> string.
Variable pn : nat -> string.
Variable pv : list float -> string.
Variable px : ptree -> string.

Local Open Scope string_scope.
(** After any commands that name the four force sensors and give the joints, the text shows every value last set: force limits and names,
    the sole of the right foot, the frames of the feet and hands, the joints, their names and ids, then the parameters.
    Missing: a robot where one of these was never set (undefined), and the joint limits, the position of the force sensor and the joint of the
    inertial unit, which are not printed; see below. *)
Theorem robot_text_partial h r lh rh lf rf u :
  ofold rapply h ru_start = Ok r ->
  last_of (sets_fname "lh") h = Some lh -> last_of (sets_fname "rh") h = Some rh ->
  last_of (sets_fname "lf") h = Some lf -> last_of (sets_fname "rf") h = Some rf -> last_of sets_joints h = Some u ->
  exists (L : list (Z * flimits)) (FN N : list (string * Z)) (FB B : list (Z * string)),
    StronglySorted (fun a b => fst a < fst b)%Z L /\
    (forall i lo up, In (i, mkFL up lo) L <-> last_of (sets_flimits i) h = Some (lo, up)) /\
    names_table FN (fun n => last_of (sets_fname n) h) /\ ids_table FB (fun n => last_of (sets_fname n) h) (fun n i => In (RForceName n i) h) /\
    names_table N (fun n => last_of (sets_name n) h) /\ ids_table B (fun n => last_of (sets_name n) h) (fun n i => In (RName n i) h) /\
    robot_display pz pn pv px r = Ok (
      "Force Id to limits " ++ endl ++
      cat (map (fun x => "Lower limits:" ++ endl ++ pv (fl_lower (snd x)) ++ endl ++ "Upper Limits:" ++ endl ++ pv (fl_upper (snd x)) ++ endl) L) ++
      "Name to force id:" ++ endl ++ cat (map (fun x => "(" ++ fst x ++ "," ++ pz (snd x) ++ ") ") FN) ++ endl ++
      "Force id to Name:" ++ endl ++ cat (map (fun x => "(" ++ pz (fst x) ++ "," ++ snd x ++ ") ") FB) ++ endl ++
      "Index for force sensors:" ++ endl ++
      "Left Hand (" ++ pz lh ++ ") ,Right Hand (" ++ pz rh ++ ") ,Left Foot (" ++ pz lf ++ ") ,Right Foot (" ++ pz rf ++ ") " ++ endl ++
      "Right Foot Sole XYZ " ++ endl ++ pv (or_else (last_of sets_sole h) []) ++ endl ++
      "Left Foot Frame Name:" ++ or_else (last_of (sets_foot "Left") h) "" ++ endl ++
      "Right Foot Frame Name:" ++ or_else (last_of (sets_foot "Right") h) "" ++ endl ++
      "Left Hand Frame Name:" ++ or_else (last_of (sets_hand "Left") h) "" ++ endl ++
      "Right Hand Frame Name:" ++ or_else (last_of (sets_hand "Right") h) "" ++ endl ++
      "Nb of joints: " ++ pn (length u) ++ endl ++ "Urdf file name: " ++ ru_urdf r ++ endl ++
      "Map from urdf index to the Sot Index " ++ endl ++ cat (map (fun x => "(" ++ pn (fst x) ++ " : " ++ pz (snd x) ++ ") ") (numbered u)) ++ endl ++
      "Joint name to joint id:" ++ endl ++ cat (map (fun x => "(" ++ fst x ++ "," ++ pz (snd x) ++ ") ") N) ++ endl ++
      "Joint id to joint Name:" ++ endl ++ cat (map (fun x => "(" ++ pz (fst x) ++ "," ++ snd x ++ ") ") B) ++ endl ++ px (ru_tree r)).
Proof.
  intros E Hlh Hrh Hlf Hrf Hu. apply robot_inv_run in E. destruct E. destruct ri_joints as [J1 J2].
  destruct (name_tables _ _ _ ri_names) as (T1 & T2), (fname_tables _ _ _ ri_fnames) as (T3 & T4).
  exists (fu_limits (ru_force r)), (fu_name_id (ru_force r)), (ru_name_id r), (fu_id_name (ru_force r)), (ru_id_name r).
  split; [apply sorted_z, ri_flsorted|]. split.
  { intros i lo up. rewrite <- (mfind_in _ _ Z.compare zcmp_eq zcmp_antisym _ i _ ri_flsorted), ri_flimits.
    destruct (last_of (sets_flimits i) h) as [[l v]|]; split; intros X; try discriminate; injection X as <- <-; reflexivity. }
  do 4 (split; [assumption|]).
  unfold robot_display, force_display, foot_text, hand_text.
  rewrite ri_lh, ri_rh, ri_lf, ri_rf, Hlh, Hrh, Hlf, Hrf, J2, J1, Hu. cbn [bind index_text nb_text or_else].
  rewrite ri_sole, ri_lfoot, ri_rfoot, ri_lhand, ri_rhand. f_equal.
  rewrite !u2s_out, !emit_text, !sassoc. reflexivity.
Qed.
(** Finding: printing a robot is undefined exactly when a force sensor was not named or the joints were not given. *)
Theorem robot_text_undefined_refuted h r : ofold rapply h ru_start = Ok r ->
  (robot_display pz pn pv px r = UB <->
   last_of (sets_fname "lh") h = None \/ last_of (sets_fname "rh") h = None \/ last_of (sets_fname "lf") h = None \/
   last_of (sets_fname "rf") h = None \/ last_of sets_joints h = None).
Proof.
  intros E. apply robot_inv_run in E. destruct E. destruct ri_joints as [_ J]. unfold robot_display, force_display.
  rewrite ri_lh, ri_rh, ri_lf, ri_rf, J.
  destruct (last_of (sets_fname "lh") h), (last_of (sets_fname "rh") h), (last_of (sets_fname "lf") h), (last_of (sets_fname "rf") h), (last_of sets_joints h);
    cbn [bind index_text nb_text]; split; intros X; try reflexivity; try discriminate X; auto 10;
    repeat match type of X with _ \/ _ => destruct X as [X|X] end; discriminate X.
Qed.
(** Finding: the joint limits, the position of the force sensor and the joint of the inertial unit are not printed. *)
Definition unshown (c : rcmd) : Prop := match c with RLimits _ _ _ | RSensor _ | RImu _ => True | _ => False end.
Theorem robot_text_unshown_refuted r r' c : unshown c -> rapply r c = Ok r' -> robot_display pz pn pv px r' = robot_display pz pn pv px r.
Proof. intros U E. destruct c; try contradiction; cbn [rapply] in E; injection E as <-; reflexivity. Qed.
End Text.

Example robot_text_case :
  let h := [RForceName "lh" 0; RForceName "rh" 1; RForceName "lf" 2; RForceName "rf" 3; RJoints [1; 0]; RName "hip" 0; RName "knee" 1; RName "hip" 4;
            RFoot "Left" "lsole"; RHand "Right" "rpalm"; RLimits 1 f0 f1]%Z in
  last_of (sets_fname "rf") h = Some 3%Z /\ last_of sets_joints h = Some [1; 0]%Z /\ last_of (sets_name "hip") h = Some 4%Z /\
  match ofold rapply h ru_start with
  | Ok r => match robot_display (fun _ => "k") (fun _ => "n") (fun _ => "v") (fun _ => "x") r with Ok t => Nat.ltb 400 (String.length t) | _ => false end
  | _ => false
  end = true.
Proof. vm_compute. auto. Qed.
Example robot_text_undefined_case : exists r, ofold rapply [RForceName "lh" 0; RJoints [0]]%Z ru_start = Ok r /\
  robot_display (fun _ => "k") (fun _ => "n") (fun _ => "v") (fun _ => "x") r = UB.
Proof. eexists. split; reflexivity. Qed.

Print Assumptions robot_text_partial.
Print Assumptions robot_text_undefined_refuted.
Print Assumptions robot_text_unshown_refuted.
