(** C86: the list of mimic joints of a robot description. *)
From Coq Require Import String List Arith Lia Bool.
From Verif Require Import Base Robot_Model Mimic_Model.
Import ListNotations.
Local Open Scope string_scope.

(** ** Specification *)
(** No element or attribute of the tree has one of these names. *)
Fixpoint without (bad : list string) (t : ptree) : Prop :=
  match t with
  | PNode _ ch =>
      (fix all (l : list (string * ptree)) : Prop :=
         match l with [] => True | (k, s) :: r => ~ In k bad /\ without bad s /\ all r end) ch
  end.
Definition leaf (v : string) : ptree := PNode v [].

(** A joint of a robot description: its attributes first, the name among them, then its elements;
    an element <mimic> has attributes only, none called name; no other element contains a joint or
    a mimic. *)
Record joint_elem := mkJE {
  je_before : list (string * string); je_name : string; je_after : list (string * string);
  je_elems : list (string * ptree); je_text : string }.
Definition attributes (l : list (string * string)) : list (string * ptree) := map (fun a => (fst a, leaf (snd a))) l.
Definition joint_tree (j : joint_elem) : ptree :=
  PNode (je_text j)
    (("<xmlattr>", PNode "" (attributes (je_before j) ++ ("name", leaf (je_name j)) :: attributes (je_after j))) :: je_elems j).
Definition mimic_shape (t : ptree) : Prop :=
  exists d, t = PNode d [] \/
  exists d' l, t = PNode d [("<xmlattr>", PNode d' (attributes l))] /\ forall a, In a l -> fst a <> "name".
Definition elem_ok (e : string * ptree) : Prop :=
  (fst e = "mimic" /\ mimic_shape (snd e)) \/
  (~ In (fst e) ["mimic"; "joint"; "<xmlattr>"; "name"] /\ without ["mimic"; "joint"] (snd e)).
Definition joint_ok (j : joint_elem) : Prop :=
  (forall a, In a (je_before j ++ je_after j) -> ~ In (fst a) ["name"; "joint"; "mimic"; "<xmlattr>"]) /\
  Forall elem_ok (je_elems j).

Definition is_mimic_elem (e : string * ptree) : bool := fst e =? "mimic".
Definition is_mimic (j : joint_elem) : bool := existsb is_mimic_elem (je_elems j).

(** A robot description: joints, and other elements (links, transmissions, ...) that may mention
    joints but contain no mimic. *)
Inductive robot_elem := EJoint (j : joint_elem) | EOther (key : string) (t : ptree).
Definition elem_tree (e : robot_elem) : string * ptree :=
  match e with EJoint j => ("joint", joint_tree j) | EOther k t => (k, t) end.
Definition relem_ok (e : robot_elem) : Prop :=
  match e with EJoint j => joint_ok j | EOther k t => k <> "mimic" /\ without ["mimic"] t end.
Definition robot_tree (text : string) (l : list robot_elem) : ptree :=
  PNode "" [("robot", PNode text (map elem_tree l))].

(** At most one <mimic> per joint. *)
Definition single_mimic (j : joint_elem) : Prop :=
  (length (filter is_mimic_elem (je_elems j)) <= 1)%nat.
Definition mimic_names (l : list robot_elem) : list string :=
  flat_map (fun e => match e with EJoint j => if is_mimic j then [je_name j] else [] | EOther _ _ => [] end) l.

(** ** Proofs *)
Lemma ptree_ind' (P : ptree -> Prop) :
  (forall d ch, Forall (fun p => P (snd p)) ch -> P (PNode d ch)) -> forall t, P t.
Proof.
  intros H. fix IH 1. intros [d ch]. apply H. induction ch as [|[k s] ch IHc]; constructor; [apply IH|exact IHc].
Qed.

Definition walk (stage : nat) : list (string * ptree) -> string * list string -> string * list string :=
  fix walk (l : list (string * ptree)) (s : string * list string) {struct l} :=
    match l with
    | [] => s
    | (key, sub) :: r =>
        let s1 := if pushes stage key then (fst s, (snd s ++ [fst s])%list) else s in
        walk r (go_through sub (child_stage stage key) s1)
    end.

Lemma go_node d ch stage st : ch <> [] -> go_through (PNode d ch) stage st = walk stage ch st.
Proof. destruct ch; [congruence|reflexivity]. Qed.
Lemma walk_app stage l1 l2 s : walk stage (l1 ++ l2) s = walk stage l2 (walk stage l1 s).
Proof. revert s. induction l1 as [|[k t] l1 IH]; intros s; [reflexivity|]. cbn. apply IH. Qed.
Lemma walk_cons stage k t l s : walk stage ((k, t) :: l) s =
  walk stage l (go_through t (child_stage stage k) (if pushes stage k then (fst s, (snd s ++ [fst s])%list) else s)).
Proof. reflexivity. Qed.

Lemma neqb a b : a <> b -> (a =? b) = false.
Proof. apply String.eqb_neq. Qed.

(** Without mimic, the list does not change. *)
Lemma without_mimic t : without ["mimic"] t -> forall stage st, snd (go_through t stage st) = snd st.
Proof.
  induction t as [d ch IH] using ptree_ind'. intros W stage st. destruct ch as [|p ch].
  - cbn. destruct (stage =? 3)%nat; reflexivity.
  - rewrite go_node by discriminate. revert st. generalize dependent (p :: ch). clear p ch.
    induction l as [|[k t] l IHl]; intros HF W st; [reflexivity|]. inversion HF as [|? ? H1 H2]; subst.
    destruct W as (Wk & Wt & Wl). rewrite walk_cons. unfold pushes. rewrite neqb by (intros ->; apply Wk; cbn; auto). cbn [andb].
    rewrite IHl by assumption. apply H1, Wt.
Qed.

(** Without joint nor mimic, from stage 0, nothing changes. *)
Lemma without_joint t : without ["mimic"; "joint"] t -> forall st, go_through t 0 st = st.
Proof.
  induction t as [d ch IH] using ptree_ind'. intros W st. destruct ch as [|p ch]; [reflexivity|].
  rewrite go_node by discriminate. revert st. generalize dependent (p :: ch). clear p ch.
  induction l as [|[k t] l IHl]; intros HF W st; [reflexivity|]. inversion HF as [|? ? H1 H2]; subst.
  destruct W as (Wk & Wt & Wl). rewrite walk_cons. unfold pushes. rewrite andb_false_r.
  assert (E : child_stage 0 k = 0%nat).
  { unfold child_stage. rewrite (neqb k "joint") by (intros ->; apply Wk; cbn; auto).
    destruct (k =? "<xmlattr>"); [reflexivity|]. destruct (k =? "name"); [reflexivity|]. destruct (k =? "mimic"); reflexivity. }
  rewrite E, IHl; auto.
Qed.

(** Attributes at stage 2. *)
Lemma go_leaf v stage st : go_through (leaf v) stage st = if (stage =? 3)%nat then (v, snd st) else st.
Proof. reflexivity. Qed.

Lemma walk_attributes l st : (forall a, In a l -> fst a <> "name") -> walk 2 (attributes l) st = st.
Proof.
  revert st. induction l as [|[k v] l IH]; intros st H; [reflexivity|]. cbn [attributes map fst snd].
  fold (attributes l). rewrite walk_cons. unfold pushes. cbn [Nat.eqb]. rewrite andb_false_r, go_leaf.
  assert (child_stage 2 k <> 3%nat) as N.
  { unfold child_stage. cbn [Nat.eqb]. rewrite (neqb k "name") by (apply (H (k, v)); cbn; auto).
    destruct (k =? "joint"), (k =? "<xmlattr>"), (k =? "mimic"); discriminate. }
  apply Nat.eqb_neq in N. rewrite N. apply IH. intros a Ha. apply H. cbn; auto.
Qed.

Lemma mimic_quiet t st : mimic_shape t -> go_through t 1 st = st.
Proof.
  intros (d & [-> |(d' & l & -> & H)]); [reflexivity|]. rewrite go_node by discriminate. rewrite walk_cons.
  cbn [pushes String.eqb Ascii.eqb Bool.eqb andb child_stage Nat.eqb walk].
  destruct l as [|a l]; [reflexivity|]. rewrite go_node by (cbn; discriminate). now apply walk_attributes.
Qed.

Lemma elems_walk l n acc : Forall elem_ok l ->
  walk 1 l (n, acc) = (n, (acc ++ repeat n (length (filter is_mimic_elem l)))%list).
Proof.
  intros HF. revert acc. induction HF as [|[k t] l H HF IH]; intros acc; [cbn; now rewrite app_nil_r|].
  rewrite walk_cons. destruct H as [[E M]|[Nk W]]; cbn [fst snd] in *.
  - subst k. cbn [pushes String.eqb Ascii.eqb Bool.eqb andb child_stage Nat.eqb fst snd].
    rewrite mimic_quiet by exact M. rewrite IH. cbn [filter is_mimic_elem fst String.eqb Ascii.eqb Bool.eqb length repeat].
    rewrite <- app_assoc. reflexivity.
  - assert (child_stage 1 k = 0%nat /\ pushes 1 k = false) as [E1 E2].
    { unfold child_stage, pushes. rewrite !neqb by (intros ->; apply Nk; cbn; auto). auto. }
    rewrite E1, E2, without_joint by exact W. rewrite IH. cbn [filter]. unfold is_mimic_elem at 2. cbn [fst].
    rewrite (neqb k "mimic") by (intros ->; apply Nk; cbn; auto). reflexivity.
Qed.

Lemma joint_walk j st : joint_ok j -> go_through (joint_tree j) 1 st =
  (je_name j, (snd st ++ repeat (je_name j) (length (filter is_mimic_elem (je_elems j))))%list).
Proof.
  intros [HA HE]. unfold joint_tree. rewrite go_node by discriminate. rewrite walk_cons.
  cbn [pushes String.eqb Ascii.eqb Bool.eqb andb child_stage Nat.eqb].
  rewrite go_node by (destruct (attributes (je_before j)); discriminate).
  rewrite walk_app, walk_attributes, walk_cons.
  - cbn [pushes String.eqb Ascii.eqb Bool.eqb andb child_stage Nat.eqb]. rewrite go_leaf. cbn [Nat.eqb].
    rewrite walk_attributes; [apply elems_walk, HE|].
    intros a Ha E. apply (HA a); [rewrite in_app_iff; auto|]. rewrite E. cbn; auto.
  - intros a Ha E. apply (HA a); [rewrite in_app_iff; auto|]. rewrite E. cbn; auto.
Qed.

(** ** Theorem: the names of the joints that have a <mimic>, in the order of the description. *)
Theorem mimic_joints_found text l : l <> [] -> Forall relem_ok l ->
  (forall j, In (EJoint j) l -> single_mimic j) ->
  mimic_joints (robot_tree text l) = mimic_names l.
Proof.
  intros Hl HF HS. unfold mimic_joints, robot_tree. rewrite go_node by discriminate. rewrite walk_cons.
  cbn [pushes String.eqb Ascii.eqb Bool.eqb andb child_stage walk].
  rewrite go_node by (destruct l; [congruence|discriminate]). clear Hl.
  enough (G : forall cur acc, snd (walk 0 (map elem_tree l) (cur, acc)) = (acc ++ mimic_names l)%list) by apply G.
  induction HF as [|e l He HF IH]; intros cur acc; [cbn; now rewrite app_nil_r|].
  assert (IH' := IH (fun j Hj => HS j (or_intror Hj))). clear IH.
  cbn [map]. destruct e as [j|k t]; cbn [elem_tree mimic_names flat_map relem_ok] in *.
  - rewrite walk_cons. cbn [pushes String.eqb Ascii.eqb Bool.eqb andb child_stage].
    rewrite joint_walk by exact He. rewrite IH'. cbn [snd]. rewrite <- app_assoc. f_equal. f_equal.
    specialize (HS j (or_introl eq_refl)). unfold single_mimic in HS. unfold is_mimic.
    assert (X : existsb is_mimic_elem (je_elems j) =
                negb (length (filter is_mimic_elem (je_elems j)) =? 0)%nat).
    { clear. induction (je_elems j) as [|e l IH]; [reflexivity|]. cbn. destruct (is_mimic_elem e); [reflexivity|exact IH]. }
    rewrite X. destruct (length (filter _ (je_elems j))) as [|[|n]]; [reflexivity|reflexivity|lia].
  - destruct He as [Nk W]. rewrite walk_cons. unfold pushes. rewrite andb_false_r. cbn [app].
    pose proof (without_mimic t W (child_stage 0 k) (cur, acc)) as E. cbn [snd] in E.
    destruct (go_through t (child_stage 0 k) (cur, acc)) as [cur' acc']. cbn [snd] in E. subst acc'. apply IH'.
Qed.

(** A mimic joint without a name is reported under the name of the joint before it. *)
Theorem mimic_unnamed_refuted : exists t,
  t = PNode "" [("robot", PNode ""
    [("joint", PNode "" [("<xmlattr>", PNode "" [("name", leaf "hip")])]);
     ("joint", PNode "" [("<xmlattr>", PNode "" [("type", leaf "revolute")]); ("mimic", leaf "")])])] /\
  mimic_joints t = ["hip"].
Proof. eexists. split; reflexivity. Qed.

(** An empty name is a leaf too: a mimic joint with an empty name is reported with an empty name;
    and an attribute "name" of <mimic> itself replaces the name of the joint for a second <mimic>. *)
Theorem mimic_attribute_name_refuted : exists t,
  t = PNode "" [("robot", PNode ""
    [("joint", PNode "" [("<xmlattr>", PNode "" [("name", leaf "left")]);
                         ("mimic", PNode "" [("<xmlattr>", PNode "" [("name", leaf "other")])]); ("mimic", leaf "")])])] /\
  mimic_joints t = ["left"; "other"].
Proof. eexists. split; reflexivity. Qed.

Example mimic_example :
  let hip := mkJE [("type", "revolute")] "hip" [] [("parent", PNode "" [("<xmlattr>", PNode "" [("link", leaf "base")])])] "" in
  let finger := mkJE [] "finger" [("type", "revolute")]
    [("limit", leaf ""); ("mimic", PNode "" [("<xmlattr>", PNode "" [("joint", leaf "hip")])])] "" in
  let l := [EOther "link" (leaf ""); EJoint hip; EJoint finger;
            EOther "transmission" (PNode "" [("joint", PNode "" [("<xmlattr>", PNode "" [("name", leaf "hip")])])])] in
  Forall relem_ok l /\ (forall j, In (EJoint j) l -> single_mimic j) /\ mimic_joints (robot_tree "" l) = ["finger"].
Proof.
  cbv zeta. split; [|split; [|reflexivity]].
  - repeat apply Forall_cons; [| | | |constructor]; cbn.
    + repeat split; discriminate.
    + split; cbn.
      * intros a [<-|[]]. cbn. intuition discriminate.
      * apply Forall_cons; [|constructor]. right. cbn. intuition discriminate.
    + split; cbn.
      * intros a [<-|[]]. cbn. intuition discriminate.
      * apply Forall_cons; [|apply Forall_cons; [|constructor]].
        -- right. cbn. intuition discriminate.
        -- left. split; [reflexivity|]. exists "". right. exists "", [("joint", "hip")]. split; [reflexivity|].
           intros a [<-|[]]. discriminate.
    + cbn. intuition discriminate.
  - intros j [H|[H|[H|[H|[]]]]]; try discriminate; injection H as <-; unfold single_mimic; cbn; lia.
Qed.

Print Assumptions mimic_joints_found.
Print Assumptions mimic_unnamed_refuted.
Print Assumptions mimic_attribute_name_refuted.
