(** Contacts that hold: the effectors are where the contacts of the state say they are. *)
From Coq Require Import ZArith.
From Verif Require Import Maps StateModel StateSpec CombModel GenModel GenSpec.

Section spec.
Context {Cfg Pos Rot Cand Smp : Type}.
Notation St := (State Cfg Pos Rot Z).
Variable S : services Cfg Pos Rot Cand Smp.
(** [near e p r p' r']: the placement (p', r') of effector [e] is as good as (p, r) *)
Variable near : string -> Pos -> Rot -> Pos -> Rot -> Prop.

(** in configuration [c], the effector of [e] is where [s] records its contact *)
Definition effector_there (s : St) (c : Cfg) (e : string) : Prop :=
  forall p r, positions s !! e = Some p -> rotations s !! e = Some r -> near e p r (fkPos S e c) (fkRot S e c).
(** all contacts of [s] (of the limbs of the robot) are where its configuration puts the effectors *)
Definition held (s : St) : Prop := forall e, e ∈ limbNames S -> effector_there s (configuration s) e.

(** configurations that place all effectors, but that of [limb], at the same places *)
Definition same_others (limb : string) (c c' : Cfg) : Prop :=
  forall e, e ∈ limbNames S -> e <> limb -> fkPos S e c = fkPos S e c' /\ fkRot S e c = fkRot S e c'.

(** [only limb c c']: the configurations [c] and [c'] only differ by the joints of [limb] *)
Variable only : string -> Cfg -> Cfg -> Prop.
(** What is expected of the solver and of the robot: *)
Record kinematics : Prop := {
  (* an effector is near the placement it has *)
  ki_near : forall e p r, near e p r p r;
  (* a successful projection on a root configuration puts the effectors where the contacts are *)
  ki_root : forall conf cur c, projRoot S conf cur = (true, c) -> forall e, e ∈ limbNames S -> effector_there cur c e;
  (* creating a contact, without the postural task, only moves the limb it is created for *)
  ki_create : forall limb x c cur, limb ∈ limbNames S -> only limb (configuration cur) c ->
    only limb (configuration cur) (snd (ik S false limb x c cur));
  (* the other effectors do not depend on the joints of a limb *)
  ki_refl : forall limb c, only limb c c;
  ki_only : forall limb c c', limb ∈ limbNames S -> only limb c c' -> same_others limb c c';
  (* the samples of a limb only describe this limb *)
  ki_sample : forall limb smp c, limb ∈ limbNames S \/ limb ∈ nonContacting S -> smp ∈ samples S limb -> same_others limb c (loadS S smp c);
  (* the extra dofs do not move the robot *)
  ki_extra : forall c c' e, e ∈ limbNames S -> fkPos S e (copyExtra S c c') = fkPos S e c /\ fkRot S e (copyExtra S c c') = fkRot S e c
}.

(** the limbs of the robot: each once, distinct from the limbs without contact, in groups of their own *)
Record separate_limbs : Prop := {
  sl_nodup : NoDup (limbNames S);
  sl_contact : forall x, x ∈ limbNames S -> x ∉ nonContacting S;
  sl_groups : forall x, x ∈ limbNames S -> groupOf S x = [x]
}.
End spec.
