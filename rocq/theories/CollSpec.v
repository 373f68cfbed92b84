(** Which limbs move between two states, and the joints of a robot with respect to them. *)
From Verif Require Import Maps Vec StateModel StateReal ToolModel ToolSpec CollModel.

Section moving.
Context {Cfg Rot Rob : Type} (root : jnt) (limbs : gmap string climb) (from to : State Cfg vec3 Rot Rob).
(** a limb whose contact is not held, within 1 cm, by both states *)
Definition moving (v : string) (l : climb) : Prop := limbs !! v = Some l /\ ~ kept_in_place from to v.
(** a joint that belongs to no limb that moves *)
Definition still_joint (j : jnt) : Prop :=
  ~ exists v l f, moving v l /\ in_tree root f /\ jname f = cl_joint l /\ in_tree f j.
(** a joint at or below the effector of a limb that moves and whose effector may touch *)
Definition touching_joint (j : jnt) : Prop :=
  exists v l e, moving v l /\ cl_disable l = true /\ in_tree root e /\ jname e = cl_eff l /\ in_tree e j.
(** the effectors that may touch are joints of their limbs *)
Definition effectors_in_limbs : Prop := forall v l, moving v l -> cl_disable l = true ->
  exists f e, in_tree root f /\ jname f = cl_joint l /\ in_tree f e /\ jname e = cl_eff l.
End moving.
