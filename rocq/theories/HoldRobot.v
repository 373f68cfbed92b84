(** Contacts that hold, for a robot: what the services of the generator are made of. *)
From Coq Require Import Reals ZArith.
From Verif Require Import Maps Vec CombModel GenModel StateModel StateSpec StateReal SampModel ToolModel ToolSpec ProjModel ProjSpec SeqSpec HoldSpec.
From Verif Require Import StateModel.
Local Open Scope R_scope.

(** in the configuration of [s], every effector is within 0.1 mm (and 0.0001 rad) of its contact *)
Definition holds (B : fullbody) (s : PSt) : Prop := forall e, contact_held B (1 / 10000) s (configuration s) e.

(** [j] is on the way from the root to the joint named [n], this joint included *)
Definition above (r : robot) (n : string) (j : jnt) : Prop :=
  in_tree (tree r) j /\ exists k, in_tree j k /\ jname k = n.
(** the placement of a joint depends on the joints above it only *)
Definition chain_law (r : robot) : Prop := forall n q q',
  (forall j, above r n j -> lockOf q j = lockOf q' j) -> jpose r q n = jpose r q' n.
(** [q] and [q'] give the same values to the joints that are not joints of [l] *)
Definition elsewhere (B : fullbody) (l : plimb) (q q' : list R) : Prop :=
  forall j, reaches (fun j => jname j = limbJoint l) (tree (dev B)) j -> lockOf q' j = lockOf q j.
(** the entries of the configuration that a sample sets *)
Definition sets (x : sample R) (i : nat) : Prop := (startRank (content x) <= i < startRank (content x) + slength (content x))%nat.
(** the entries of the configuration that describe a joint *)
Definition entry_of (j : jnt) (i : nat) : Prop := let 'Jnt _ rank size _ _ := j in (rank <= i < rank + size)%nat.

Definition near_contact (B : fullbody) (e : string) (p : vec3) (r : mat3) (p' : vec3) (r' : mat3) : Prop :=
  forall l f, limbsOf B !! e = Some l -> frames (dev B) !! effName l = Some f ->
    dist3 p' p <= 1 / 10000 /\ (ltype l = _6_DOF -> is_rotation r -> angle_between r r' <= 1 / 10000).

Section services.
Context {Cand : Type}.
Variable solve : projector -> list R -> bool * list R.
Variable axis : vec3 -> vec3 -> vec3.
Variable B : fullbody.
(** the services of the generator are those of the robot [B] and of the solver [solve] *)
Record robot_services (S : services (list R) vec3 mat3 Cand (sample R)) : Prop := {
  (* the limbs, and their effectors *)
  rs_limbs : forall e, e ∈ limbNames S <-> is_Some (limbsOf B !! e);
  rs_frames : forall e l, limbsOf B !! e = Some l -> exists f, frames (dev B) !! effName l = Some f /\
    forall c, fkPos S e c = tra (fpose (dev B) c f) /\ fkRot S e c = rot (fpose (dev B) c f);
  (* an effector is not on another limb *)
  rs_apart : forall e le fe x l, limbsOf B !! e = Some le -> frames (dev B) !! effName le = Some fe -> limbsOf B !! x = Some l -> e <> x ->
    forall j, above (dev B) (fjoint fe) j -> jname j <> limbJoint l;
  (* projections are those of projection.cc *)
  rs_root : forall conf cur c, projRoot S conf cur = (true, c) -> exists s rep, alike s cur /\
    projectToRootConfiguration solve B conf s vzero = Ok rep /\ psuccess rep = true /\ configuration (presult rep) = c;
  (* a contact is created with the other limbs locked; a solver that fails leaves locked joints alone *)
  rs_create : forall limb l x q cur ok c, limbsOf B !! limb = Some l -> elsewhere B l (configuration cur) q ->
    ik S false limb x q cur = (ok, c) ->
    (ok = true -> exists devq smp n v1 v2 v3 s rep, elsewhere B l (configuration cur) devq /\ alike s cur /\
       projectSampleToObstacle solve B axis devq limb l smp n v1 v2 v3 (fun _ => true) q s = Ok rep /\
       psuccess rep = true /\ configuration (presult rep) = c) /\
    (ok = false -> elsewhere B l (configuration cur) c);
  (* samples are loaded as in sample.cc, and do not describe the joints above the effectors of other limbs *)
  rs_load : forall x c, loadS S x c = match Load (content x) c with Ok c' => c' | _ => c end;
  rs_samples : forall limb x e le fe, limb ∈ limbNames S \/ limb ∈ nonContacting S -> x ∈ GenModel.samples S limb ->
    limbsOf B !! e = Some le -> frames (dev B) !! effName le = Some fe -> e <> limb ->
    forall j i, above (dev B) (fjoint fe) j -> entry_of j i -> ~ sets x i;
  (* extra dofs describe no joint *)
  rs_extra : forall c c' j, in_tree (tree (dev B)) j -> lockOf (copyExtra S c c') j = lockOf c j
}.
End services.
