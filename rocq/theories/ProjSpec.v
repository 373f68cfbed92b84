(** Specification vocabulary of the projection properties: rotations, what a
    constraint means, and what is assumed of the numerical solver. *)
From Coq Require Import Reals.
From Verif Require Import SampModel.
From Verif Require Export ToolSpec ProjModel.
Local Open Scope R_scope.

Definition mdet (m : mat3) : R := vdot (row1 m) (vcross (row2 m) (row3 m)).
Definition is_rotation (m : mat3) : Prop := mmul (mtr m) m = mid /\ mdet m = 1.
(** angle of the rotation [m], in [0, pi] *)
Definition angle (m : mat3) : R := acos ((mtrace m - 1) / 2).
(** angle of the rotation that brings orientation [a] on orientation [b] *)
Definition angle_between (a b : mat3) : R := angle (mmul (mtr a) b).

(** the physical laws of a robot used below: joints and frames are placed by
    rotations, and the rotation vector has the angle as its norm *)
Record lawful_robot (r : robot) : Prop := {
  lr_joint : forall q j, is_rotation (rot (jpose r q j));
  lr_frame : forall n f, frames r !! n = Some f -> is_rotation (rot (placement f));
  lr_log : forall m, is_rotation m -> vnorm (log3 r m) = angle m
}.

(** the part of [v] selected by the mask *)
Definition masked (m : bool * bool * bool) (v : vec3) : vec3 :=
  let '(a, b, c) := m in
  V3 (if a : bool then vx v else 0) (if b : bool then vy v else 0) (if c : bool then vz v else 0).

(** meaning of a constraint at configuration [q], up to the threshold [th]
    (hpp-constraints: error of a position in the target frame, rotation vector of
    the orientation error; locked joints are solved exactly) *)
Definition satisfied (r : robot) (th : R) (q : list R) (c : cstr) : Prop :=
  match c with
  | CPos j loc g => vnorm (mapp (mtr (rot g)) (vsub (tra (se3mul (jpose r q j) loc)) (tra g))) <= th
  | COri j loc t m => vnorm (masked m (log3 r (mmul (mtr t) (mmul (rot (jpose r q j)) loc)))) <= th
  | CLock l => forall j, in_tree (tree r) j -> jname j = fst l -> lockOf q j = l
  | CCom t => dist3 (comOf r q) t <= th
  | CPost ref w => postErr r ref w q <= th
  end.

(** hpp-core's ConfigProjector::apply: on success every constraint holds up to the
    error threshold, except those of the last priority level when it is optional *)
Definition sound_solver (r : robot) (solve : projector -> list R -> bool * list R) : Prop :=
  forall p q q', solve p q = (true, q') ->
  forall c, c ∈ cs p \/ (lastOpt p = false /\ c ∈ cs1 p) -> satisfied r (thr p) q' c.

(** every contact of [s] is one of a limb of [B] with an effector frame, and has a
    rotation if the limb's contacts have six degrees of freedom *)
Definition known_contacts (B : fullbody) (s : PSt) : Prop :=
  forall e, is_Some (positions s !! e) -> exists l f, limbsOf B !! e = Some l /\ frames (dev B) !! effName l = Some f /\
    (ltype l = _6_DOF -> is_Some (rotations s !! e)).

(** at configuration [q], the effector of contact [e] is where [s] says, up to [th] *)
Definition contact_held (B : fullbody) (th : R) (s : PSt) (q : list R) (e : string) : Prop :=
  forall l f p, limbsOf B !! e = Some l -> frames (dev B) !! effName l = Some f -> positions s !! e = Some p ->
    dist3 (tra (fpose (dev B) q f)) p <= th /\
    (ltype l = _6_DOF -> forall r, rotations s !! e = Some r -> is_rotation r ->
       angle_between r (rot (fpose (dev B) q f)) <= th).

(** [s'] is [s] at another configuration; the robustness is not copied *)
Definition same_but_configuration (s s' : PSt) : Prop :=
  contacts s' = contacts s /\ normals s' = normals s /\ positions s' = positions s /\
  rotations s' = rotations s /\ order s' = order s /\ nbContacts s' = nbContacts s /\ stable s' = stable s.

(** [q'] is [q] after loading the samples of the list one after the other *)
Inductive loaded : list (sample R) -> list R -> list R -> Prop :=
| loaded_nil q : loaded [] q q
| loaded_cons x l q q1 q2 : Load (content x) q = Ok q1 -> loaded l q1 q2 -> loaded (x :: l) q q2.
(** limb [n] can be made collision free from [q]: it is so already, or one of its
    samples, loaded after the previous ones, makes it so *)
Definition can_be_freed (B : fullbody) (n : string) (q : list R) : Prop :=
  exists valid, limbValids B !! n = Some valid /\ (valid q = true \/
     exists l pre post q', limbsOf B !! n = Some l /\ lsamples l = (pre ++ post)%list /\ loaded pre q q' /\ valid q' = true).

(** the joint is the root of a limb *)
Definition limb_root (B : fullbody) (j : jnt) : Prop := exists n l, limbsOf B !! n = Some l /\ limbJoint l = jname j.

(** [q1] and [q2] give the same value to the joint *)
Definition same_joint (q1 q2 : list R) (j : jnt) : Prop := lockOf q1 j = lockOf q2 j.

(** error allowed when a contact is created: 1e-4, or 1e-3 with the postural task *)
Definition tol (B : fullbody) : R := if postural B then 1 / 1000 else 1 / 10000.

(** what the SVD of Eigen gives for opposite vectors: a unit vector orthogonal to the first *)
Definition sound_axis (axis : vec3 -> vec3 -> vec3) : Prop :=
  forall v0 v1, vnorm2 v0 = 1 -> vnorm2 v1 = 1 -> vnorm2 (axis v0 v1) = 1 /\ vdot (axis v0 v1) v0 = 0.
