(** Properties C67 to C70: tools on quaternions, rotation matrices and trees of joints. *)
From Verif Require Import Maps MapsProofs Vec ToolModel ToolSpec ToolProofs ToolProofs2 ToolProofs3 ToolExamples.
Local Open Scope R_scope.

(** * C67: distance and interpolation of unit quaternions *)
Theorem C67_distance p q : unit_quat p -> unit_quat q -> qdistance p q = Ok (2 * acos (Rabs (qdot p q))).
Proof. exact (qdistance_unit p q). Qed.
Print Assumptions C67_distance.
Theorem C67_metric : exists d : quat -> quat -> R,
  (forall p q, unit_quat p -> unit_quat q -> qdistance p q = Ok (d p q) /\ 0 <= d p q <= PI /\ d p q = d q p /\
     (d p q = 0 <-> p = q \/ p = qopp q) /\ d p (qopp q) = d p q) /\
  (forall p q r, unit_quat p -> unit_quat q -> unit_quat r -> d p r <= d p q + d q r).
Proof. exact qdistance_metric. Qed.
Print Assumptions C67_metric.
Theorem C67_ends p q : unit_quat p -> unit_quat q ->
  interpolate p q 0 = Ok p /\ (interpolate p q 1 = Ok q \/ interpolate p q 1 = Ok (qopp q)).
Proof. exact (interpolate_ends p q). Qed.
Print Assumptions C67_ends.
Theorem C67_geodesic p q d : unit_quat p -> unit_quat q -> qdistance p q = Ok d -> 1/5000 < d ->
  exists f, (forall u, interpolate p q u = Ok (f u) /\ unit_quat (f u)) /\
    forall u v, 0 <= u <= 1 -> 0 <= v <= 1 -> qdistance (f u) (f v) = Ok (Rabs (u - v) * d).
Proof. exact (interpolate_geodesic p q d). Qed.
Print Assumptions C67_geodesic.
Theorem C67_close p q d u : unit_quat p -> unit_quat q -> qdistance p q = Ok d -> d <= 1/5000 -> 0 <= u <= 1 ->
  exists r, interpolate p q u = Ok r /\ 1 - 1 / 100000000 <= qdot r r <= 1.
Proof. exact (interpolate_close p q d u). Qed.
Print Assumptions C67_close.
Theorem C67_assertion p q : angleBetweenQuaternions p q = Throw <-> p <> q /\ 1001/1000 <= Rabs (qdot p q).
Proof. exact (angle_asserts p q). Qed.
Print Assumptions C67_assertion.
Example C67_half_turn : unit_quat qid /\ unit_quat qhalf /\ qdistance qid qhalf = Ok PI /\ 1/5000 < PI.
Proof. exact ex_quats. Qed.
Example C67_same_rotation : qdistance qid (qopp qid) = Ok 0 /\ interpolate qid (qopp qid) 1 = Ok qid.
Proof. exact ex_same. Qed.

(** * C70: rotation matrices.  The matrices returned are rotations only if the memory that is
    not written happens to be zero; never around x *)
Theorem C70_z t m : completes (GetZRotMatrix t) m ->
  (orthonormal m <-> m 0%nat 2%nat = 0 /\ m 1%nat 2%nat = 0 /\ m 2%nat 0%nat = 0 /\ m 2%nat 1%nat = 0).
Proof. exact (z_rotation t m). Qed.
Print Assumptions C70_z.
Theorem C70_y t m : completes (GetYRotMatrix t) m ->
  (orthonormal m <-> m 0%nat 1%nat = 0 /\ m 1%nat 0%nat = 0 /\ m 1%nat 2%nat = 0 /\ m 2%nat 1%nat = 0).
Proof. exact (y_rotation t m). Qed.
Print Assumptions C70_y.
(** ... and then they turn vectors by the angle, about z and y *)
Theorem C70_turns t m x y z :
  (completes (GetZRotMatrix t) m -> orthonormal m ->
   mat_vec m x y z = (x * cos t - y * sin t, x * sin t + y * cos t, z)) /\
  (completes (GetYRotMatrix t) m -> orthonormal m ->
   mat_vec m x y z = (x * cos t + z * sin t, y, z * cos t - x * sin t)).
Proof. exact (zy_turns t m x y z). Qed.
Print Assumptions C70_turns.
Theorem C70_x t m : completes (GetXRotMatrix t) m -> orthonormal m -> sin t = 0.
Proof. exact (x_rotation t m). Qed.
Print Assumptions C70_x.
Example C70_identity : completes (GetZRotMatrix 0) (fun i j => if (i =? j)%nat then 1 else 0) /\ orthonormal (fun i j => if (i =? j)%nat then 1 else 0).
Proof. exact ex_z. Qed.
Example C70_quarter : sin (PI / 2) <> 0.
Proof. exact ex_x. Qed.

(** * C68: locked joints *)
Theorem C68_locked {T} (c : list T) spared j x :
  x ∈ LockJointRec c spared j <-> exists j', reaches (fun j => jname j ∈ spared) j j' /\ x = lockOf c j'.
Proof. exact (lock_elem c spared j x). Qed.
Print Assumptions C68_locked.
Theorem C68_one_name {T} (c : list T) n j : LockJointRec1 c n j = LockJointRec c [n] j.
Proof. exact (lock_singleton c n j). Qed.
Print Assumptions C68_one_name.
Theorem C68_once {T} (c : list T) spared j : NoDup (names j) -> NoDup (LockJointRec c spared j).*1.
Proof. exact (locks_once c spared j). Qed.
Print Assumptions C68_once.
Theorem C68_top_down {T} (c : list T) spared j l1 x l2 : LockJointRec c spared j = (l1 ++ x :: l2)%list ->
  forall j', reaches (fun j => jname j ∈ spared) j j' -> x = lockOf c j' -> NoDup (names j) ->
  j' = j \/ exists p, reaches (fun j => jname j ∈ spared) j p /\ j' ∈ jkids p /\ lockOf c p ∈ l1.
Proof. exact (locks_top_down c spared j l1 x l2). Qed.
Print Assumptions C68_top_down.
Example C68_names : NoDup (names robot).
Proof. exact ex_names. Qed.
Example C68_right_leg_and_pelvis :
  LockJointRec1 conf11 "lhip" robot = [("pelvis", [0; 1; 2; 3; 4; 5; 6]); ("rhip", [9]); ("rankle", [10])]%string%nat.
Proof. exact ex_locks. Qed.

(** * C69: the obstacles of the collision tests *)
Theorem C69_add eff effJoint os disable j S p :
  p ∈ addLimbCollisionRec eff effJoint os disable j S <->
  p ∈ S \/ (p.2 ∈ os /\ exists j', reaches (excluded disable eff effJoint) j j' /\ jname j' = p.1).
Proof. exact (add_collisions eff effJoint os disable j S p). Qed.
Print Assumptions C69_add.
(** the whole body test: only the first limb of each kind counts *)
Theorem C69_body root rs p : p ∈ c_body (addLimbs root rs) <->
  exists r, first_of_kind rs r /\ p.2 ∈ r_obs r /\
    exists j, reaches (excluded (r_disable r) (r_eff r) (r_effJoint r)) root j /\ jname j = p.1.
Proof. exact (body_obstacles root rs p). Qed.
Print Assumptions C69_body.
Theorem C69_limb root rs id :
  (c_limb (addLimbs root rs) !! id = None <-> forall r, r ∈ rs -> r_id r <> id) /\
  (forall r l1 l2, rs = (l1 ++ r :: l2)%list -> r_id r = id -> (forall r', r' ∈ l1 -> r_id r' <> id) ->
     exists P, c_limb (addLimbs root rs) !! id = Some P /\
       forall p, p ∈ P <-> p.2 ∈ r_obs r /\
         exists j, reaches (excluded (r_disable r) (r_eff r) (r_effJoint r)) (r_joint r) j /\ jname j = p.1).
Proof. exact (limb_obstacles root rs id). Qed.
Print Assumptions C69_limb.
Theorem C69_remove_effector os j S p : NoDup (names j) ->
  p ∈ RemoveEffectorCollision os j S <->
  p ∈ S /\ ~ (p.2 ∈ os /\ exists j', reaches (fun j => (jname j, p.2) ∉ S) j j' /\ jname j' = p.1).
Proof. exact (remove_effector os j S p). Qed.
Print Assumptions C69_remove_effector.
Theorem C69_remove_all_but_one limb os j S p :
  p ∈ RemoveNonLimbCollisionRec1 limb os j S <->
  p ∈ S /\ ~ (p.2 ∈ os /\ exists j', reaches (fun j => jname j = limb) j j' /\ jbody j' = true /\ jname j' = p.1).
Proof. exact (remove_non_limb1 limb os j S p). Qed.
Print Assumptions C69_remove_all_but_one.
Theorem C69_remove_all_but keepers os j S p : NoDup (names j) -> NoDup os ->
  p ∈ RemoveNonLimbCollisionRec keepers os j S <->
  p ∈ S /\ ~ (exists j', walks (fun j => jname j ∈ keepers) (lacks os S) j j' /\ jname j' = p.1 /\ present_up_to S (jname j') os p.2).
Proof. exact (remove_non_limb keepers os j S p). Qed.
Print Assumptions C69_remove_all_but.
Theorem C69_remove_all_but_complete keepers os j S p : NoDup (names j) -> NoDup os ->
  (forall j' o, in_tree j j' -> o ∈ os -> (jname j', o) ∈ S) ->
  p ∈ RemoveNonLimbCollisionRec keepers os j S <->
  p ∈ S /\ ~ (p.2 ∈ os /\ exists j', reaches (fun j => jname j ∈ keepers) j j' /\ jname j' = p.1).
Proof. exact (remove_non_limb_complete keepers os j S p). Qed.
Print Assumptions C69_remove_all_but_complete.
Theorem C69_remove_all_but_stuck keepers os j S o : NoDup (names j) -> NoDup os -> o ∈ os -> (jname j, o) ∉ S ->
  forall p, p ∈ S -> p.1 <> jname j -> p ∈ RemoveNonLimbCollisionRec keepers os j S.
Proof. exact (remove_non_limb_stuck keepers os j S o). Qed.
Print Assumptions C69_remove_all_but_stuck.
Example C69_all j o : in_tree robot j -> o ∈ ["floor"; "wall"]%string -> (jname j, o) ∈ allPairs.
Proof. exact (ex_allPairs j o). Qed.
Example C69_effector : ("rankle", "floor")%string ∉ RemoveEffectorCollision ["floor"; "wall"]%string rhip allPairs /\
  ("rhip", "wall")%string ∉ RemoveEffectorCollision ["floor"; "wall"]%string rhip allPairs /\
  ("lankle", "wall")%string ∈ RemoveEffectorCollision ["floor"; "wall"]%string rhip allPairs.
Proof. exact ex_eff. Qed.
Example C69_stuck : ("pelvis", "floor")%string ∉ pelvisFree /\
  RemoveNonLimbCollisionRec ["lhip"]%string ["floor"; "wall"]%string robot pelvisFree = pelvisFree /\
  ("rhip", "floor")%string ∈ pelvisFree /\
  ("rhip", "floor")%string ∉ RemoveNonLimbCollisionRec1 "lhip"%string ["floor"; "wall"]%string robot pelvisFree.
Proof. exact ex_stuck. Qed.
Example C69_two_feet : ("rhip", "floor")%string ∈ c_body (addLimbs robot [leftReg; rightReg]) /\
  ("rhip", "wall")%string ∉ c_body (addLimbs robot [leftReg; rightReg]) /\
  ("rankle", "floor")%string ∉ c_body (addLimbs robot [leftReg; rightReg]) /\
  first_of_kind [leftReg; rightReg] leftReg.
Proof. exact ex_regs. Qed.
