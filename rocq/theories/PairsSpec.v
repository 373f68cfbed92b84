(** The pairs tested by the validations of a robot and of its limbs. *)
From Coq Require Import Reals.
From Verif Require Import Maps Vec StateModel SampModel ToolModel ToolSpec ProjModel ProjSpec HoldRobot.
From Verif Require Import StateModel ToolSpec ProjModel.

(** [self q]: the bodies of the robot do not collide with each other; [apart (j, o) q]: joint [j] does not
    collide with obstacle [o].  A validation tests all bodies against each other, and some pairs *)
Definition tests (self : list R -> bool) (apart : string * string -> list R -> bool) (P : pairs) (q : list R) : Prop :=
  self q = true /\ forall p, p ∈ P -> apart p q = true.
(** whether a joint collides with an obstacle depends on where the joint is, that is on the joints above it *)
Definition obstacle_law (r : robot) (apart : string * string -> list R -> bool) : Prop :=
  forall p q q', (forall j, above r p.1 j -> lockOf q j = lockOf q' j) -> apart p q = apart p q'.
(** the registration of a limb tests all the obstacles of [r']'s, and leaves out (for its effector) last
    joints only, which [r'] leaves out too *)
Definition tests_as_much (r r' : registration) : Prop :=
  (forall o, o ∈ r_obs r' -> o ∈ r_obs r) /\
  (r_disable r = false \/
   r_disable r' = true /\ forall j, in_tree (r_joint r) j -> jname j = r_eff r \/ jname j = r_effJoint r -> jkids j = []).
