(** Specification vocabulary of the reachability properties. *)
From Coq Require Import Reals.
From Verif Require Import SampModel.
From Verif Require Export StabSpec ReachModel.
Local Open Scope R_scope.

(** the point [p] seen from the frame [T] *)
Definition in_frame (T : se3) (p : vec3) : vec3 := mapp (mtr (rot T)) (vsub p (tra T)).
(** [p] is on the inner side of every plane (normal, point) carried by the frame *)
Definition inside (NV : list (vec3 * vec3)) (T : se3) (p : vec3) : Prop :=
  forall n v, (n, v) ∈ NV -> vdot n (vsub (in_frame T p) v) <= 0.

(** twice three times the signed volume of the tetrahedron a, b, c, p: negative or 0
    when [p] is on the inner side of the triangle *)
Definition volume (a b c p : vec3) : R := vdot (vcross (vsub b a) (vsub c a)) (vsub p a).
(** [p] is on the inner side of every triangle of the mesh *)
Definition inside_mesh (m : mesh) (p : vec3) : Prop :=
  forall i j k a b c, (i, j, k) ∈ faces m -> verts m !! i = Some a -> verts m !! j = Some b -> verts m !! k = Some c ->
    volume a b c p <= 0.
Definition mesh_ok (m : mesh) : Prop :=
  forall i j k, (i, j, k) ∈ faces m -> (i < length (verts m) /\ j < length (verts m) /\ k < length (verts m))%nat.
(** weighted sum of points *)
Fixpoint vcomb (ws : list R) (ps : list vec3) : vec3 :=
  match ws, ps with w :: ws', p :: ps' => vadd (vscale w p) (vcomb ws' ps') | _, _ => vzero end.
(** [p] is a convex combination of the points *)
Definition in_hull (ps : list vec3) (p : vec3) : Prop :=
  exists ws, length ws = length ps /\ Forall (fun w => 0 <= w) ws /\ fold_right Rplus 0 ws = 1 /\ p = vcomb ws ps.

(** [x] satisfies every inequality *)
Definition feasible (Ab : list (vec3 * R)) (x : vec3) : Prop := forall a b, (a, b) ∈ Ab -> vdot a x <= b.

(** [x] is within the kinematic range of every limb in contact at state [s] *)
Definition within_reach (B : rbody) (s : PSt) (x : vec3) : Prop :=
  forall e l, contacts s !! e = Some true -> rlimbs B !! e = Some l ->
    inside (rkin l) (reffpose l (configuration s)) x.
(** every limb flagged in contact is a limb of the robot, placed by a rotation *)
Definition known_limbs (B : rbody) (s : PSt) : Prop :=
  forall e, contacts s !! e = Some true -> is_Some (rlimbs B !! e).
Definition lawful_body (B : rbody) : Prop :=
  forall e l q, rlimbs B !! e = Some l -> is_rotation (rot (reffpose l q)).

(** the wrench that balances gravity and the acceleration [acc] of a robot of mass [m]
    whose centre of mass is at [x]: force m (g - acc) applied at x *)
Definition gi_wrench (m : R) (g acc x : vec3) : row6 :=
  R6 (vscale m (vsub g acc)) (vcross x (vscale m (vsub g acc))).
(** the library's wrench polytope of the contacts, with rows scaled to length 1 *)
Definition balanced_at (lib : eqlib) (m : R) (k : contactSet) (acc x : vec3) : Prop :=
  forall i r hi, fst (snd (polytope lib k)) !! i = Some r -> snd (snd (polytope lib k)) !! i = Some hi ->
    dot6 r (gi_wrench m (gravity lib) acc x) <= norm6 r * hi.
Definition nonzero_rows (lib : eqlib) (k : contactSet) : Prop :=
  forall r, r ∈ fst (snd (polytope lib k)) -> norm6 r <> 0.

(** hpp-bezier-com-traj's quadratic program, for the cost 1/2 |x|^2 - c.x: a success gives
    a feasible point of least cost; and it succeeds whenever there is a feasible point *)
Definition cost (Hg : mat3 * vec3) (x : vec3) : R := / 2 * vdot x (mapp (fst Hg) x) + vdot (snd Hg) x.
Definition sound_qp (qp : list (vec3 * R) -> mat3 * vec3 -> vec3 -> bool * vec3) : Prop :=
  forall Ab c x, let Hg := (ProjModel.mid, vopp c) in qp Ab Hg c = (true, x) ->
    feasible Ab x /\ forall y, feasible Ab y -> cost Hg x <= cost Hg y.
Definition complete_qp (qp : list (vec3 * R) -> mat3 * vec3 -> vec3 -> bool * vec3) : Prop :=
  forall Ab c, (exists y, feasible Ab y) -> fst (qp Ab (ProjModel.mid, vopp c) c) = true.

(** the limbs that are new in, or moved to, the second state; and those it lost or moved *)
Definition made (prev next : PSt) (e : string) : Prop := new_or_moved prev next e.
Definition lost (prev next : PSt) (e : string) : Prop := new_or_moved next prev e.

Definition varies (prev next : PSt) (e : string) : Prop := made prev next e \/ lost prev next e.
(** the contact of exactly one limb changes: it is removed, added, or moved *)
Definition only (prev next : PSt) (e : string) : Prop := forall e', varies prev next e' <-> e' = e.
Definition only_broken (prev next : PSt) (e : string) : Prop :=
  only prev next e /\ is_Some (positions prev !! e) /\ positions next !! e = None.
Definition only_created (prev next : PSt) (e : string) : Prop :=
  only prev next e /\ positions prev !! e = None /\ is_Some (positions next !! e).
Definition only_moved (prev next : PSt) (e : string) : Prop :=
  only prev next e /\ is_Some (positions prev !! e) /\ is_Some (positions next !! e).
Definition none_varies (prev next : PSt) : Prop := forall e, ~ varies prev next e.
Definition several_vary (prev next : PSt) : Prop := exists e e', e <> e' /\ varies prev next e /\ varies prev next e'.

(** a limb in contact in both states has its effector at the same place in both *)
Definition same_placement (B : rbody) (s1 s2 : PSt) : Prop :=
  forall e l, contacts s1 !! e = Some true -> contacts s2 !! e = Some true -> rlimbs B !! e = Some l ->
    reffpose l (configuration s1) = reffpose l (configuration s2).
(** the flags agree with the recorded positions *)
Definition flags_ok (s : PSt) : Prop := forall e, contacts s !! e = Some true <-> is_Some (positions s !! e).

(** the point aimed at: the mean of the contact points (the limbs' offsets placed by the
    recorded rotations and positions) of state [s], at the mean height of the centres
    of mass of the two states *)
Definition placed_contact (B : rbody) (s : PSt) (e : string) (p : vec3) : Prop :=
  exists l r q, rlimbs B !! e = Some l /\ rotations s !! e = Some r /\ positions s !! e = Some q /\
    p = vadd (mapp r (roffset l)) q.
Definition aim (B : rbody) (prev next s : PSt) (c : vec3) : Prop :=
  exists ps, Forall2 (placed_contact B s) (skeys (positions s)) ps /\
    vx c = fold_right Rplus 0 (map vx ps) / INR (length ps) /\
    vy c = fold_right Rplus 0 (map vy ps) / INR (length ps) /\
    vz c = (vz (rcom B (configuration prev)) + vz (rcom B (configuration next))) / 2.

(** [s] is in balance at the point [x] under acceleration [acc], with the contact set
    the library is given (half sizes of the feet 5 cm) *)
Definition state_balanced (axis : vec3 -> vec3 -> vec3) (lib : eqlib) (B : rbody) (s : PSt) (acc x : vec3) : Prop :=
  exists k, computeContactConeForState axis lib B s = Ok (Some k) /\ fst (polytope lib k) = LP_OPTIMAL /\
    balanced_at lib (rmass B) k acc x.
(** the wrench polytopes computed have no zero row *)
Definition good_polytopes (lib : eqlib) : Prop := forall k, nonzero_rows lib k.

(** dynamic reachability: two different limbs make, or two different limbs lose, a contact *)
Definition several_made (prev next : PSt) : Prop := exists e e', e <> e' /\ made prev next e /\ made prev next e'.
Definition several_lost (prev next : PSt) : Prop := exists e e', e <> e' /\ lost prev next e /\ lost prev next e'.
Definition some_made (prev next : PSt) : Prop := exists e, made prev next e.
Definition some_lost (prev next : PSt) : Prop := exists e, lost prev next e.

(** the table of durations of the phases, in the order in which they are to be tried *)
Definition table : list (R * R * R) :=
  [(0.6, 1.2, 0.6); (1, 1.2, 1); (0.8, 0.7, 0.8); (0.3, 0.6, 0.3); (0.5, 0.6, 0.5); (0.6, 0.6, 0.6); (0.8, 0.6, 0.8);
   (0.3, 0.8, 0.3); (0.3, 0.7, 0.3); (0.6, 0.8, 0.6); (1, 0.7, 1); (1.5, 0.7, 1); (0.8, 0.8, 0.8); (1, 0.6, 1);
   (1.2, 0.6, 1.2); (1.5, 0.6, 1.5); (0.1, 0.2, 0.1); (0.2, 0.3, 0.2)].
(** the durations tried: those given if there is one per phase, otherwise the rows of the
    table, cut to the number of phases, without the last row *)
Definition tried (timings : list R) (phases : nat) : list (list R) :=
  if (length timings =? phases)%nat then [timings]
  else map (fun '(a, b, c) => if (phases =? 3)%nat then [a; b; c] else [a; b]) (firstn 17 table).

(** the paths of the successive phases follow each other from 0 to the total duration *)
Fixpoint contiguous (from : R) (ts : list R) (ps : list comPath) : Prop :=
  match ts, ps with
  | [], [] => True
  | t :: ts', p :: ps' => cpFrom p = from /\ cpTo p = from + t /\ contiguous (from + t) ts' ps'
  | _, _ => False
  end.

(** the three entries from index [i] *)
Definition vec_at (q : list R) (i : nat) : vec3 := V3 (nth i q 0) (nth (i + 1) q 0) (nth (i + 2) q 0).
(** [q'] is [q] with velocity [v] and acceleration [a] at index [i] *)
Definition with_velocity (q : list R) (i : nat) (v a : vec3) (q' : list R) : Prop :=
  length q' = length q /\ vec_at q' i = v /\ vec_at q' (i + 3) = a /\ forall j, ~ (i <= j < i + 6)%nat -> q' !! j = q !! j.

(** the state between the two: the previous one without the first lost contact *)
Definition state_between (prev next mid : PSt) : Prop :=
  (forall e, lost prev next e -> (forall e', lost prev next e' -> e' = e) -> mid = snd (RemoveContact e prev)) /\
  (~ some_lost prev next -> mid = prev).

(** the phases given to the optimiser: ranges of the centre of mass and contact sets *)
Definition phase_of (axis : vec3 -> vec3 -> vec3) (lib : eqlib) (B : rbody) (s : PSt) (ph : phase) : Prop :=
  (forall x, feasible (phKin ph) x <-> within_reach B s x) /\
  computeContactConeForState axis lib B s = Ok (Some (phCone ph)).

(** a complete state: the oldest contact of the queue is recorded, every recorded contact is of
    a known limb and has a normal and a rotation, and every flagged limb is known *)
Definition complete_state (B : rbody) (s : PSt) : Prop :=
  (exists f rest, order s = f :: rest /\ is_Some (positions s !! f)) /\
  (forall e, is_Some (positions s !! e) -> is_Some (rlimbs B !! e) /\ is_Some (normals s !! e) /\ is_Some (rotations s !! e)) /\
  known_limbs B s.
(** the balance library accepts the contact sets and gives polytopes with rows *)
Definition working_lib (lib : eqlib) : Prop :=
  forall k, setNew lib k = true /\ fst (polytope lib k) = LP_OPTIMAL /\ fst (snd (polytope lib k)) <> [] /\
    length (snd (snd (polytope lib k))) = length (fst (snd (polytope lib k))).
