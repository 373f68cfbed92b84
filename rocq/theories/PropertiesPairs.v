(** C173: the validation of a limb and that of the whole robot (rbprm-fullbody.cc, tools.hh). *)
From Coq Require Import Reals.
From Verif Require Import Maps Vec CombModel GenModel StateModel SampModel ToolModel ToolSpec ProjModel ProjSpec HoldRobot SafeSpec PairsSpec PairsProofs PairsProofs2 HoldExamples PairsExamples.
From Verif Require Import StateModel ToolSpec ProjModel.

(** C173.  Limbs registered one after the other.  If the whole robot is found free of collisions, and a
    limb is found free of them after it moved alone, then so is the whole robot, provided the registration
    of the limb tests the obstacles of the first registration (that alone decides what the validation of
    the whole robot tests) and its effector is on a last joint, or is tested. *)
Theorem C173_pairs B self apart rs l1 r l2 l P q q' :
  NoDup (names (tree (dev B))) -> obstacle_law (dev B) apart ->
  in_tree (tree (dev B)) (r_joint r) -> jname (r_joint r) = limbJoint l ->
  rs = l1 ++ r :: l2 -> (forall r', r' ∈ l1 -> r_id r' <> r_id r) ->
  (forall r', first_of_kind rs r' -> tests_as_much r r') ->
  c_limb (addLimbs (tree (dev B)) rs) !! r_id r = Some P ->
  elsewhere B l q q' ->
  tests self apart (c_body (addLimbs (tree (dev B)) rs)) q -> tests self apart P q' ->
  tests self apart (c_body (addLimbs (tree (dev B)) rs)) q'.
Proof. exact (pairs_transfer B self apart rs l1 r l2 l P q q'). Qed.
Print Assumptions C173_pairs.
(** so the validations of such a robot satisfy what C172 asks of them *)
Theorem C173_robot {Cand} (B : fullbody) (S : services (list R) vec3 mat3 Cand (sample R)) self apart rs :
  NoDup (names (tree (dev B))) -> obstacle_law (dev B) apart -> NoDup (map r_id rs) ->
  (forall r, r ∈ rs -> in_tree (tree (dev B)) (r_joint r)) ->
  (forall id l, limbsOf B !! id = Some l -> exists r, r ∈ rs /\ r_id r = id /\ jname (r_joint r) = limbJoint l) ->
  (forall r r', r ∈ rs -> first_of_kind rs r' -> tests_as_much r r') ->
  (forall q, wholeValid B q = true <-> tests self apart (c_body (addLimbs (tree (dev B)) rs)) q) ->
  (forall id P q, c_limb (addLimbs (tree (dev B)) rs) !! id = Some P -> (limbValid S id q = true <-> tests self apart P q)) ->
  forall id l q q', limbsOf B !! id = Some l -> elsewhere B l q q' ->
    wholeValid B q = true -> limbValid S id q' = true -> wholeValid B q' = true.
Proof. exact (registered_safe B S self apart rs). Qed.
Print Assumptions C173_robot.
Example C173_robot_case : (NoDup (names (tree (dev pbody))) /\ obstacle_law (dev pbody) papart /\ NoDup (map r_id pregs) /\
    (forall r, r ∈ pregs -> in_tree (tree (dev pbody)) (r_joint r)) /\
    (forall id l, limbsOf pbody !! id = Some l -> exists r, r ∈ pregs /\ r_id r = id /\ jname (r_joint r) = limbJoint l) /\
    (forall r r', r ∈ pregs -> first_of_kind pregs r' -> tests_as_much r r') /\
    (forall q, wholeValid pbody q = true <-> tests (fun _ => true) papart (c_body (addLimbs (tree (dev pbody)) pregs)) q) /\
    (forall id P q, c_limb (addLimbs (tree (dev pbody)) pregs) !! id = Some P -> (limbValid (psrv pbody plimbValid) id q = true <-> tests (fun _ => true) papart P q))) /\
  wholeValid pbody (repeat 0%R 11) = true /\ elsewhere pbody pr (repeat 0%R 11) plow /\
  wholeValid pbody plow = false /\ plimbValid "rf" plow = false /\ plimbValid "lf" plow = true.
Proof. exact (conj pcase plow_found). Qed.
(** The condition on effectors is needed: two limbs registered alike, with disableEffectorCollision, whose
    feet have toes.  The second foot may touch the floor for the validation of its limb, not for that of
    the robot. *)
Theorem C173_effector_refuted : NoDup (names (tree (dev tbody))) /\ obstacle_law (dev tbody) tapart /\
  (forall r, r ∈ tregs -> r_disable r = true /\ r_obs r = ["floor"%string] /\ in_tree ttree (r_joint r)) /\
  (forall q, wholeValid tbody q = true <-> tests (fun _ => true) tapart (c_body (addLimbs ttree tregs)) q) /\
  exists P q q', c_limb (addLimbs ttree tregs) !! "rf"%string = Some P /\ limbsOf tbody !! "rf"%string = Some pr /\ elsewhere tbody pr q q' /\
    wholeValid tbody q = true /\ tests (fun _ => true) tapart P q' /\ wholeValid tbody q' = false.
Proof. exact toes_refuted. Qed.
Print Assumptions C173_effector_refuted.
