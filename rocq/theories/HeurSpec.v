(** Specification vocabulary for the heuristics. *)
From Verif Require Import Maps Vec GeomModel GeomSpec HeurModel.
Local Open Scope R_scope.

(** no half plane contains the points of [h] without containing those of [l]: the convex hull of
    [h] contains [l] *)
Definition enclosed_by (h l : list vec3) : Prop :=
  forall a b c, (forall q, q ∈ h -> a * vx q + b * vy q <= c) -> forall p, p ∈ l -> a * vx p + b * vy p <= c.
(** two points the code takes for equal *)
Definition near (a b : vec3) : Prop := Rabs (vx a - vx b) < 1 / 1000000000 /\ Rabs (vy a - vy b) < 1 / 1000000000.
(** the tolerance confuses nothing: near points are equal, and a point near the one at distance 1
    along the x axis is exactly level with it *)
Definition no_confusion (l : list vec3) : Prop := forall p q, p ∈ l -> q ∈ l ->
  (near p q -> same_xy p q) /\
  (near (V3 (vx p + 1) (vy p) 0) q -> vy q = vy p) /\ (near (V3 (vx p - 1) (vy p) 0) q -> vy q = vy p).
(** a planar point is the average of some points *)
Definition sum_of (f : vec3 -> R) (l : list vec3) : R := fold_right (fun p s => f p + s) 0 l.
Definition average (f : vec3 -> R) (l : list vec3) : R := sum_of f l / INR (length l).
Definition planar_dist (p q : vec3) : R := sqrt ((vx p - vx q) * (vx p - vx q) + (vy p - vy q) * (vy p - vy q)).
(** [p] is followed by [q] when the list is closed into a cycle *)
Definition followed {A} (l : list A) (p q : A) : Prop := exists l1 l2, l ++ take 1 l = l1 ++ p :: q :: l2.
(** [m] is the length of the longest side of the polygon *)
Definition longest_side (l : list vec3) (m : R) : Prop :=
  (exists p q, followed l p q /\ planar_dist p q = m) /\ (forall p q, followed l p q -> planar_dist p q <= m).
(** the vertices, taken in their cyclic order, are cut exactly at the sides longer than [d] *)
Definition clusters (d : R) (polygon : list vec3) (groups : list (list vec3)) : Prop :=
  (exists l1 l2, polygon = l1 ++ l2 /\ concat groups = l2 ++ l1) /\
  (forall g, g ∈ groups -> g <> []) /\
  (forall g l1 p q l2, g ∈ groups -> g = l1 ++ p :: q :: l2 -> planar_dist p q <= d) /\
  (forall g g' l1 p q l2, followed groups g g' -> g = l1 ++ [p] -> g' = q :: l2 -> d < planar_dist p q).
(** the average of the averages of the groups *)
Definition average_of_averages (groups : list (list vec3)) (c : vec3) : Prop :=
  vx c = fold_right (fun g s => average vx g + s) 0 groups / INR (length groups) /\
  vy c = fold_right (fun g s => average vy g + s) 0 groups / INR (length groups).
(** the least power of 1.5 that brings [w s] above [b] *)
Definition least_power (w s b : R) (k : nat) : Prop :=
  Rabs b < Rabs (w * (15 / 10) ^ k * s) /\ forall j, (j < k)%nat -> Rabs (w * (15 / 10) ^ j * s) <= Rabs b.
(** J J^T for a matrix with three rows, given by its columns *)
Definition gram (cols : list vec3) (m : vec3 * vec3 * vec3) : Prop :=
  m = (V3 (sum_of (fun c => vx c * vx c) cols) (sum_of (fun c => vx c * vy c) cols) (sum_of (fun c => vx c * vz c) cols),
       V3 (sum_of (fun c => vy c * vx c) cols) (sum_of (fun c => vy c * vy c) cols) (sum_of (fun c => vy c * vz c) cols),
       V3 (sum_of (fun c => vz c * vx c) cols) (sum_of (fun c => vz c * vy c) cols) (sum_of (fun c => vz c * vz c) cols)).
(** the contacts at most 25 cm above the lowest one *)
Definition grounded (contacts : gmap string vec3) (p : vec3) : Prop :=
  (exists k, contacts !! k = Some p) /\ (forall k q, contacts !! k = Some q -> vz p - vz q <= 25 / 100).
(** no half plane contains the points satisfying [P] without containing [c] *)
Definition amid (P : vec3 -> Prop) (c : vec3) : Prop := forall a b k, (forall p, P p -> a * vx p + b * vy p <= k) -> a * vx c + b * vy c <= k.

(** the point whose coordinates in a frame are those of [p]: the frame has the matrix of rows
    [ro] and the origin [tr] *)
Definition in_world (ro : vec3 * vec3 * vec3) (tr p q : vec3) : Prop :=
  let '(r1, r2, r3) := ro in
  vx q = vx r1 * vx p + vy r1 * vy p + vz r1 * vz p + vx tr /\
  vy q = vx r2 * vx p + vy r2 * vy p + vz r2 * vz p + vy tr /\
  vz q = vx r3 * vx p + vy r3 * vy p + vz r3 * vz p + vz tr.
(** the contacts of [m], with [q] for [name] if there was none for it *)
Definition with_contact (m m' : gmap string vec3) (name : string) (q : vec3) : Prop :=
  forall k c, m' !! k = Some c <-> m !! k = Some c \/ m !! k = None /\ k = name /\ c = q.
(** [a] is the angle of two planar vectors *)
Definition planar_angle (x1 y1 x2 y2 a : R) : Prop :=
  0 <= a <= PI /\ x1 * x2 + y1 * y2 = sqrt (x1 * x1 + y1 * y1) * sqrt (x2 * x2 + y2 * y2) * cos a.
