(** The root of the robot along a generated sequence: specification. *)
From Coq Require Import Reals.
From Verif Require Import Maps CombModel GenModel GenSpec Vec StateModel StateSpec StateReal SampModel ToolModel ToolSpec ProjModel ProjSpec SeqModel SeqSpec HoldRobot StepRobot.
From Verif Require Import StateModel ToolSpec ProjModel.
Local Open Scope R_scope.

Section spec.
Variable B : fullbody.
(** The joints considered: those met from the root of the robot before a joint of [cut] *)
Variable cut : jnt -> Prop.
(** they have the first seven entries of a configuration: position and orientation of the robot *)
Definition root_joints : Prop := forall j i, reaches cut (tree (dev B)) j -> entry_of j i -> (i < 7)%nat.

(** a frame at the initial time, with the root of the first state *)
Definition at_start (start : PSt) (init : R) (f : sframe) : Prop :=
  fst f = init /\ same_base B cut (configuration start) (configuration (snd f)).
(** a frame with the root of configuration number [i] of the list; its time is that of this
    configuration when [o] is 1, and one step less when [o] is 0 *)
Definition at_config (configs : list (list R)) (step init : R) (o : nat) (f : sframe) : Prop :=
  exists i conf, (1 <= i)%nat /\ configs !! i = Some conf /\ fst f = init + (INR i - 1 + INR o) * step /\
    same_base B cut conf (configuration (snd f)).
(** the same for a path, sampled every [step] up to its end [t1] *)
Definition on_path (p : R -> list R) (t0 t1 step : R) (o : nat) (f : sframe) : Prop :=
  exists i, (1 <= i)%nat /\ fst f = t0 + (INR i - 1 + INR o) * step /\
    same_base B cut (p (Rmin (t0 + INR i * step) t1)) (configuration (snd f)).

(** A generator puts the root of the robot where the configuration given has it; when it repositions the
    contacts, it leaves the root where it was.  [good]: what it expects of the previous state *)
Definition rooted (compute : nat -> PSt -> list R -> vec3 -> vec3 -> R -> creport) (good : PSt -> Prop) : Prop :=
  forall k prev c d a t, good prev ->
    let r := compute k prev c d a t in
    same_base B cut (if crRepos r then configuration prev else c) (configuration (crResult r)).
End spec.

(** Services that give configurations of [n] entries when given such configurations *)
Record keeps_size {Cand} (S : services (list R) vec3 mat3 Cand (sample R)) (n : nat) : Prop := {
  ks_root : forall conf cur c, length conf = n -> projRoot S conf cur = (true, c) -> length c = n;
  ks_create : forall limb x c cur, length (configuration cur) = n -> length c = n -> length (snd (ik S false limb x c cur)) = n;
  ks_sample : forall limb smp c, smp ∈ GenModel.samples S limb -> length c = n -> length (loadS S smp c) = n;
  ks_extra : forall c c', length c = n -> length (copyExtra S c c') = n
}.
