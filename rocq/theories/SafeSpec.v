(** Generated configurations stay valid: what the parts used have to do. *)
From Coq Require Import Reals ZArith.
From Verif Require Import Maps Vec CombModel GenModel StateModel StateSpec StateReal SampModel ToolModel ToolSpec ProjModel ProjSpec SeqModel SeqSpec HoldSpec HoldRobot.
From Verif Require Import StateModel ToolSpec ProjModel.

Section spec.
Context {Cfg Pos Rot Cand Smp : Type}.
Variable S : services Cfg Pos Rot Cand Smp.
(** [only limb c c']: the configurations only differ by the joints of [limb] *)
Variable only : string -> Cfg -> Cfg -> Prop.
Record safe_services : Prop := {
  sv_refl : forall limb c, only limb c c;
  sv_trans : forall limb a b c, only limb a b -> only limb b c -> only limb a c;
  (* creating a contact, without the postural task, only moves the limb it is created for *)
  sv_create : forall limb x c cur, limb ∈ limbNames S -> only limb (configuration cur) c ->
    only limb (configuration cur) (snd (ik S false limb x c cur));
  (* the samples of a limb describe this limb *)
  sv_sample : forall limb smp c, limb ∈ limbNames S -> smp ∈ GenModel.samples S limb -> only limb c (loadS S smp c);
  (* the validation of a limb finds what may have become wrong when the limb moved *)
  sv_valid : forall limb c c', limb ∈ limbNames S -> only limb c c' -> validate S c = true -> limbValid S limb c' = true -> validate S c' = true;
  (* the extra dofs do not matter *)
  sv_extra : forall c c', validate S (copyExtra S c c') = validate S c;
  (* the group of a limb is made of limbs *)
  sv_groups : forall x l ls, x ∈ limbNames S -> groupOf S x = l :: ls -> l ∈ limbNames S
}.
End spec.

(** The services of a robot, for the validation of whole configurations: the samples of a limb give no
    value to the other joints, and the validation of a limb is that of the robot as far as this limb goes *)
Record safe_robot {Cand} (B : fullbody) (S : services (list R) vec3 mat3 Cand (sample R)) : Prop := {
  sr_valid : forall c, validate S c = wholeValid B c;
  sr_samples : forall limb l smp j i, limbsOf B !! limb = Some l -> smp ∈ GenModel.samples S limb ->
    reaches (fun j => jname j = limbJoint l) (tree (dev B)) j -> entry_of j i -> ~ sets smp i;
  sr_limb : forall limb l q q', limbsOf B !! limb = Some l -> elsewhere B l q q' ->
    wholeValid B q = true -> limbValid S limb q' = true -> wholeValid B q' = true;
  sr_extra : forall c c', wholeValid B (copyExtra S c c') = wholeValid B c
}.
(** A generator that gives valid configurations, from a valid one *)
Definition keeps_valid (B : fullbody) (compute : nat -> PSt -> list R -> vec3 -> vec3 -> R -> creport) (good : PSt -> Prop) : Prop :=
  forall k prev c d a t, good prev -> wholeValid B (configuration prev) = true -> wholeValid B (configuration (crResult (compute k prev c d a t))) = true.
