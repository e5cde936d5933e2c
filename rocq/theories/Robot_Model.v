(** RobotUtil, ForceUtil, the registry of robots (src/tools/robot-utils.cpp,
    include/sot/core/robot-utils.hh) and ParameterServer (src/tools/parameter-server.cpp,
    include/sot/core/parameter-server.hh).

    [std::map] is SMap; ids (Eigen::Index) are integers without overflow; the conversions of the
    double ids of the commands to Index are not modelled (commands take integers).  Joint limits
    are binary64. *)
From Coq Require Import String Ascii List Arith Lia ZArith Bool.
From Coq Require Import SpecFloat.
From Verif Require Import Base SMap Float_Facts.
Import ListNotations.
Local Open Scope string_scope.

Notation smap V := (list (string * V)).
Notation zmap V := (list (Z * V)).

(** robot-utils.hh:30-37 *)
Record jlimits := mkJL { jl_upper : float; jl_lower : float }.
Definition void_jlimits : jlimits := mkJL f0 f0.
Definition JointLimits (l u : float) : jlimits := mkJL u l.

(** robot-utils.hh:61-71; the void limits are six zeros. *)
Record flimits := mkFL { fl_upper : list float; fl_lower : list float }.
Definition void_flimits : flimits := mkFL (repeat f0 6) (repeat f0 6).

(** robot-utils.hh:73-79: the four ids of the extremities have no initial value. *)
Record forceutil := mkFU {
  fu_limits : zmap flimits; fu_name_id : smap Z; fu_id_name : zmap string;
  fu_lh : option Z; fu_rh : option Z; fu_lf : option Z; fu_rf : option Z }.
Definition fu_start : forceutil := mkFU [] [] [] None None None None.

(** robot-utils.cpp:171-175 and 250-254: every pair of the first map is written to the second. *)
Definition id_to_name_map (names : smap Z) (ids : zmap string) : zmap string :=
  fold_left (fun m p => mset Z.compare m (snd p) (fst p)) names ids.

(** robot-utils.cpp:133-145 set_name_to_force_id *)
Definition set_name_to_force_id (f : forceutil) (name : string) (id : Z) : forceutil :=
  let n := mset scmp (fu_name_id f) name id in
  let i := id_to_name_map n (fu_id_name f) in
  let lh := fu_lh f in let rh := fu_rh f in let lf := fu_lf f in let rf := fu_rf f in
  if name =? "rf" then mkFU (fu_limits f) n i lh rh lf (Some id)
  else if name =? "lf" then mkFU (fu_limits f) n i lh rh (Some id) rf
  else if name =? "lh" then mkFU (fu_limits f) n i (Some id) rh lf rf
  else if name =? "rh" then mkFU (fu_limits f) n i lh (Some id) lf rf
  else mkFU (fu_limits f) n i lh rh lf rf.

(** robot-utils.cpp:147-152 set_force_id_to_limits *)
Definition set_force_id_to_limits (f : forceutil) (id : Z) (lo up : list float) : forceutil :=
  mkFU (mset Z.compare (fu_limits f) id (mkFL up lo)) (fu_name_id f) (fu_id_name f)
    (fu_lh f) (fu_rh f) (fu_lf f) (fu_rf f).

(** robot-utils.cpp:154-159, 164-169, 181-195 *)
Definition force_id_from_name (f : forceutil) (name : string) : Z :=
  match mfind scmp (fu_name_id f) name with Some i => i | None => (-1)%Z end.
Definition force_name_from_id (f : forceutil) (id : Z) : string :=
  match mfind Z.compare (fu_id_name f) id with Some n => n | None => "Force name not found" end.
Definition force_limits_from_id (f : forceutil) (id : Z) : flimits :=
  match mfind Z.compare (fu_limits f) id with Some l => l | None => void_flimits end.

(** boost::property_tree: each node has a string and named children. *)
Inductive ptree := PNode (data : string) (children : list (string * ptree)).
Definition pempty : ptree := PNode "" [].

(** external: components of a path with separator '/' (boost string_path): a trailing separator
    does not start another component, the empty string has none. *)
Fixpoint pcomponents_aux (s cur : string) : list string :=
  match s with
  | EmptyString => [cur]
  | String c r =>
      if Ascii.eqb c "/" then cur :: match r with EmptyString => [] | _ => pcomponents_aux r "" end
      else pcomponents_aux r (cur ++ String c EmptyString)
  end.
Definition pcomponents (s : string) : list string :=
  match s with EmptyString => [] | _ => pcomponents_aux s "" end.

Fixpoint pchild (ch : list (string * ptree)) (k : string) : option ptree :=
  match ch with [] => None | (k', t) :: r => if k =? k' then Some t else pchild r k end.
Fixpoint pupd_child (ch : list (string * ptree)) (k : string) (f : ptree -> ptree) :=
  match ch with
  | [] => [(k, f pempty)]
  | (k', t) :: r => if k =? k' then (k', f t) :: r else (k', t) :: pupd_child r k f
  end.
(** external: basic_ptree::put and get_child. *)
Fixpoint pput (path : list string) (v : string) (t : ptree) : ptree :=
  match path, t with
  | [], PNode _ ch => PNode v ch
  | k :: r, PNode d ch => PNode d (pupd_child ch k (pput r v))
  end.
Fixpoint pget (path : list string) (t : ptree) : option string :=
  match path, t with
  | [], PNode d _ => Some d
  | k :: r, PNode _ ch => match pchild ch k with Some t' => pget r t' | None => None end
  end.

(** robot-utils.hh:138-185, 297-300.  [ru_nb]: the constructor (robot-utils.cpp:223) does not set
    the number of joints. *)
Record robot := mkRobot {
  ru_force : forceutil;
  ru_sole : list float; ru_sensor : list float;
  ru_lfoot : string; ru_rfoot : string; ru_lhand : string; ru_rhand : string;
  ru_u2s : list Z; ru_nb : option nat;
  ru_name_id : smap Z; ru_id_name : zmap string; ru_limits : zmap jlimits;
  ru_imu : string; ru_urdf : string; ru_tree : ptree }.
Definition ru_start : robot :=
  mkRobot fu_start [] [] "" "" "" "" [] None [] [] [] "" "" pempty.

Definition ru_with_force (r : robot) f := mkRobot f (ru_sole r) (ru_sensor r) (ru_lfoot r) (ru_rfoot r)
  (ru_lhand r) (ru_rhand r) (ru_u2s r) (ru_nb r) (ru_name_id r) (ru_id_name r) (ru_limits r) (ru_imu r)
  (ru_urdf r) (ru_tree r).
Definition ru_with_feet (r : robot) sole sensor lf rf lh rh := mkRobot (ru_force r) sole sensor lf rf lh rh
  (ru_u2s r) (ru_nb r) (ru_name_id r) (ru_id_name r) (ru_limits r) (ru_imu r) (ru_urdf r) (ru_tree r).
Definition ru_with_maps (r : robot) n i l := mkRobot (ru_force r) (ru_sole r) (ru_sensor r) (ru_lfoot r)
  (ru_rfoot r) (ru_lhand r) (ru_rhand r) (ru_u2s r) (ru_nb r) n i l (ru_imu r) (ru_urdf r) (ru_tree r).
Definition ru_with_joints (r : robot) u nb := mkRobot (ru_force r) (ru_sole r) (ru_sensor r) (ru_lfoot r)
  (ru_rfoot r) (ru_lhand r) (ru_rhand r) u nb (ru_name_id r) (ru_id_name r) (ru_limits r) (ru_imu r)
  (ru_urdf r) (ru_tree r).
Definition ru_with_misc (r : robot) imu urdf tree := mkRobot (ru_force r) (ru_sole r) (ru_sensor r)
  (ru_lfoot r) (ru_rfoot r) (ru_lhand r) (ru_rhand r) (ru_u2s r) (ru_nb r) (ru_name_id r) (ru_id_name r)
  (ru_limits r) imu urdf tree.

(** robot-utils.cpp:229-240 *)
Definition set_joint_limits_for_id (r : robot) (id : Z) (l u : float) : robot :=
  ru_with_maps r (ru_name_id r) (ru_id_name r) (mset Z.compare (ru_limits r) id (JointLimits l u)).
Definition get_joint_limits_from_id (r : robot) (id : Z) : jlimits :=
  match mfind Z.compare (ru_limits r) id with Some l => l | None => void_jlimits end.

(** robot-utils.cpp:244-266 *)
Definition set_name_to_id (r : robot) (name : string) (id : Z) : robot :=
  let n := mset scmp (ru_name_id r) name id in
  ru_with_maps r n (id_to_name_map n (ru_id_name r)) (ru_limits r).
Definition get_id_from_name (r : robot) (name : string) : Z :=
  match mfind scmp (ru_name_id r) name with Some i => i | None => (-1)%Z end.
Definition get_name_from_id (r : robot) (id : Z) : string :=
  match mfind Z.compare (ru_id_name r) id with Some n => n | None => "Joint name not found" end.

(** robot-utils.cpp:268-287: the vector of doubles is converted to unsigned ints (undefined out of
    range); the vector of indices is copied. *)
Definition set_urdf_to_sot (r : robot) (u : list Z) : robot :=
  ru_with_joints r u (Some (length u)).
Definition set_urdf_to_sot_doubles (r : robot) (u : list Z) : outcome robot :=
  if forallb (fun x => (0 <=? x)%Z && (x <? 2 ^ 32)%Z) u then Ok (set_urdf_to_sot r u) else UB.

Section Vec.
Context {A : Type}.
(** A coefficient of an Eigen vector by a signed index. *)
Definition zget (v : list A) (i : Z) : outcome A := if (i <? 0)%Z then UB else vget v (Z.to_nat i).
Definition zset (v : list A) (i : Z) (x : A) : outcome (list A) :=
  if (i <? 0)%Z then UB else vset v (Z.to_nat i) x.

(** robot-utils.cpp:289-301 joints_urdf_to_sot: returned value and new contents of the second
    argument.  An unset number of joints is an indeterminate value. *)
Definition joints_urdf_to_sot (r : robot) (q_urdf q_sot : list A) : outcome (bool * list A) :=
  match ru_nb r with
  | None => UB
  | Some O => Ok (false, q_sot)
  | Some n =>
      if (length q_urdf =? n)%nat && (length q_sot =? n)%nat then
        let* res := ofor_range 0 n (fun idx s =>
          let* x := vget q_urdf idx in
          let* j := vget (ru_u2s r) idx in
          zset s j x) q_sot in
        Ok (true, res)
      else UB
  end.

(** robot-utils.cpp:303-315 joints_sot_to_urdf *)
Definition joints_sot_to_urdf (r : robot) (q_sot q_urdf : list A) : outcome (bool * list A) :=
  match ru_nb r with
  | None => UB
  | Some n =>
      if (length q_urdf =? n)%nat && (length q_sot =? n)%nat then
        match n with
        | O => Ok (false, q_urdf)
        | _ =>
          let* res := ofor_range 0 n (fun idx u =>
            let* j := vget (ru_u2s r) idx in
            let* x := zget q_sot j in
            vset u idx x) q_urdf in
          Ok (true, res)
        end
      else UB
  end.
End Vec.

(* ------------------------------------------------------------------ *)
(** ** Registry and parameter servers *)

(** parameter-server.hh:128-140, parameter-server.cpp:55-62.  The shared pointer to a robot is the
    name under which it is registered: the registry never removes nor replaces a robot.
    [ps_getter]: the command getJointsUrdfToSot has been added. *)
Record pserver := mkPS { ps_robot : option string; ps_init : bool; ps_dt : option float; ps_getter : bool }.
Definition ps_start : pserver := mkPS None false None false.

Record pworld := mkPW { pw_reg : smap robot; pw_srv : nat -> pserver }.
Definition pw_start : pworld := mkPW [] (fun _ => ps_start).
Definition srv_set (w : pworld) (k : nat) (p : pserver) : pworld :=
  mkPW (pw_reg w) (fun j => if (j =? k)%nat then p else pw_srv w j).

(** robot-utils.cpp:505-544 getListOfRobots, isNameInRobotUtil, createRobotUtil.  The last returns
    a null pointer when the name exists. *)
Definition robots (w : pworld) : list string := map fst (pw_reg w).
Definition is_robot (w : pworld) (n : string) : bool :=
  match mfind scmp (pw_reg w) n with Some _ => true | None => false end.
Definition create_robot (w : pworld) (n : string) : pworld * option string :=
  match mfind scmp (pw_reg w) n with
  | None => (mkPW (mset scmp (pw_reg w) n ru_start) (pw_srv w), Some n)
  | Some _ => (w, None)
  end.

(** Commands of the server that write to the robot (parameter-server.cpp:265-376). *)
Inductive rcmd :=
| RName (name : string) (id : Z)
| RLimits (id : Z) (l u : float)
| RForceLimits (id : Z) (l u : list float)
| RForceName (name : string) (id : Z)
| RJoints (u : list Z)
| RSole (v : list float) | RSensor (v : list float)
| RFoot (side frame : string) | RHand (side frame : string)
| RImu (name : string)
| RParam (path value : string).

Definition rapply (r : robot) (c : rcmd) : outcome robot :=
  match c with
  | RName n i => Ok (set_name_to_id r n i)
  | RLimits i l u => Ok (set_joint_limits_for_id r i l u)
  | RForceLimits i l u => Ok (ru_with_force r (set_force_id_to_limits (ru_force r) i l u))
  | RForceName n i => Ok (ru_with_force r (set_name_to_force_id (ru_force r) n i))
  | RJoints u => set_urdf_to_sot_doubles r u
  | RSole v => Ok (ru_with_feet r v (ru_sensor r) (ru_lfoot r) (ru_rfoot r) (ru_lhand r) (ru_rhand r))
  | RSensor v => Ok (ru_with_feet r (ru_sole r) v (ru_lfoot r) (ru_rfoot r) (ru_lhand r) (ru_rhand r))
  | RFoot s f =>
      Ok (if s =? "Left" then ru_with_feet r (ru_sole r) (ru_sensor r) f (ru_rfoot r) (ru_lhand r) (ru_rhand r)
          else if s =? "Right" then ru_with_feet r (ru_sole r) (ru_sensor r) (ru_lfoot r) f (ru_lhand r) (ru_rhand r)
          else r)
  | RHand s f =>
      Ok (if s =? "Left" then ru_with_feet r (ru_sole r) (ru_sensor r) (ru_lfoot r) (ru_rfoot r) f (ru_rhand r)
          else if s =? "Right" then ru_with_feet r (ru_sole r) (ru_sensor r) (ru_lfoot r) (ru_rfoot r) (ru_lhand r) f
          else r)
  | RImu n => Ok (ru_with_misc r n (ru_urdf r) (ru_tree r))
  | RParam p v => Ok (ru_with_misc r (ru_imu r) (ru_urdf r) (pput (pcomponents p) v (ru_tree r)))
  end.

Inductive pcmd :=
| PInit (dt : float) (urdf robot : string)
| PInitSimple (dt : float)
| PRobot (c : rcmd).

(** One command on server [k]: the new world and, if an exception was thrown, its text. *)
Definition pstep (w : pworld) (k : nat) (c : pcmd) : outcome (pworld * option string) :=
  let p := pw_srv w k in
  match c with
  | PInit dt urdf name =>                       (* parameter-server.cpp:242-257 *)
      if fleb dt f0 then Ok (w, None)
      else
        let w1 := if is_robot w name then w else fst (create_robot w name) in
        match mfind scmp (pw_reg w1) name with
        | None => UB
        | Some r =>
            let reg := mset scmp (pw_reg w1) name (ru_with_misc r (ru_imu r) urdf (ru_tree r)) in
            Ok (srv_set (mkPW reg (pw_srv w1)) k (mkPS (Some name) true (Some dt) (ps_getter p)), None)
        end
  | PInitSimple dt =>                           (* parameter-server.cpp:207-240 *)
      if fleb dt f0 then Ok (w, None)
      else
        match robots w with
        | [name] =>
            if ps_getter p
            then Ok (srv_set w k (mkPS (Some name) true (Some dt) true),
                     Some "Command name getJointsUrdfToSot already registered")
            else Ok (srv_set w k (mkPS (Some name) true (Some dt) true), None)
        | _ => Ok (srv_set w k (mkPS (ps_robot p) true (Some dt) (ps_getter p)),
                   Some "No robot registered in the parameter server list")
        end
  | PRobot c =>                                 (* parameter-server.cpp:265-376 *)
      if ps_init p then
        match ps_robot p with
        | None => UB
        | Some name =>
            match mfind scmp (pw_reg w) name with
            | None => UB
            | Some r => let* r' := rapply r c in
                        Ok (mkPW (mset scmp (pw_reg w) name r') (pw_srv w), None)
            end
        end
      else Ok (w, None)
  end.

(** The robot a server writes to. *)
Definition ps_view (w : pworld) (k : nat) : option robot :=
  match ps_robot (pw_srv w k) with Some n => mfind scmp (pw_reg w) n | None => None end.

(** parameter-server.hh:112-121 and robot-utils.hh:266-283: the string read for a parameter. *)
Definition get_parameter (w : pworld) (k : nat) (path : string) : outcome string :=
  if ps_init (pw_srv w k) then
    match ps_view w k with
    | None => UB
    | Some r => match pget (pcomponents path) (ru_tree r) with
                | Some v => Ok v | None => Throw "Robot utils: parameter path is invalid" end
    end
  else Throw "Cannot get parameter before initialization".

(** parameter-server.cpp:383-398 convertJointNameToJointId: no check of the initialisation. *)
Definition convertJointNameToJointId (w : pworld) (k : nat) (name : string) : outcome (option Z) :=
  match ps_view w k with
  | None => UB
  | Some r => let j := get_id_from_name r name in
              Ok (if (j <? 0)%Z then None else Some (j mod 2 ^ 32)%Z)
  end.

(** parameter-server.cpp:400-418 isJointInRange *)
Definition joint_in_range (r : robot) (id : Z) (q : float) : bool :=
  let JL := get_joint_limits_from_id r id in
  if fltb q (jl_lower JL) then false
  else if fltb (jl_upper JL) q then false
  else true.
Definition isJointInRange (w : pworld) (k : nat) (id : Z) (q : float) : outcome bool :=
  match ps_view w k with None => UB | Some r => Ok (joint_in_range r id q) end.
