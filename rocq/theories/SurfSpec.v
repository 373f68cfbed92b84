(** Vocabulary for the contact surface of a range of motion and an obstacle. *)
From Verif Require Import NodeModel ProjModel GeomModel GeomSpec SurfModel.
Local Open Scope R_scope.

(** [p] is, in space, a convex combination of the points of [l] *)
Definition in_hull3 (l : list vec3) (p : vec3) : Prop :=
  exists ws, length ws = length l /\ Forall (fun w => 0 <= w) ws /\ weighted (fun _ => 1) ws l = 1 /\
    weighted vx ws l = vx p /\ weighted vy ws l = vy p /\ weighted vz ws l = vz p.

(** the points of a mesh placed at [T] *)
Definition points_of (T : se3) (m : mesh) : list vec3 := map (se3act T) (verts m).
(** the triangle [(i, j, k)] of a mesh placed at [T] has the corners a, b and c *)
Definition corners (T : se3) (m : mesh) (t : nat * nat * nat) (a b c : vec3) : Prop :=
  let '(i, j, k) := t in
  exists u v w, nth_error (verts m) i = Some u /\ nth_error (verts m) j = Some v /\ nth_error (verts m) k = Some w /\
    a = se3act T u /\ b = se3act T v /\ c = se3act T w.
Definition well_formed (m : mesh) : Prop := forall i j k, (i, j, k) ∈ tris m ->
  (i < length (verts m))%nat /\ (j < length (verts m))%nat /\ (k < length (verts m))%nat.
(** s and e are the ends of a side of a triangle of the placed mesh *)
Definition side_of (T : se3) (m : mesh) (s e : vec3) : Prop :=
  exists t a b c, t ∈ tris m /\ corners T m t a b c /\ ((s, e) = (a, b) \/ (s, e) = (b, c) \/ (s, e) = (c, a)).

(** the plane of the obstacle: through the first corner of its first triangle, with the unit
    normal of that triangle *)
Definition support (T : se3) (m : mesh) (n a : vec3) : Prop :=
  exists t ts b c k, tris m = t :: ts /\ corners T m t a b c /\ 0 < k /\
    vcross (vsub b a) (vsub c a) = vscale k n /\ vnorm2 n = 1.

(** where the sides of the range of motion cross that plane *)
Definition crossing (T : se3) (m : mesh) (n a p : vec3) : Prop :=
  exists s e, side_of T m s e /\ on_segment s e p /\ in_plane n a p.
(** no side runs along the plane: it is inclined, or away from it *)
Definition transversal (T : se3) (m : mesh) (n a : vec3) : Prop := forall s e, side_of T m s e ->
  1 / 100000 <= Rabs (vdot n (vsub e s)) \/ 1 / 100000 <= Rabs (vdot n (vsub s a)).
Definition three_points (l : list vec3) : Prop :=
  exists a b c, a ∈ l /\ b ∈ l /\ c ∈ l /\ a <> b /\ b <> c /\ a <> c.

(** the rotation of a quaternion w + u (Rodrigues) *)
Definition rotated (w : R) (u v : vec3) : vec3 :=
  vadd v (vadd (vscale (2 * w) (vcross u v)) (vscale 2 (vcross u (vcross u v)))).
(** the reference of the effector, given in the frame of the root, at the configuration [q]:
    position (3) and quaternion (x, y, z, w) of the root first *)
Definition reference_at (q : list R) (ref r : vec3) : Prop :=
  exists x y z qx qy qz qw rest, q = x :: y :: z :: qx :: qy :: qz :: qw :: rest /\
    qx * qx + qy * qy + qz * qz + qw * qw = 1 /\
    r = vadd (V3 x y z) (rotated qw (V3 qx qy qz) ref).
