(** Specification vocabulary for the support polygon. *)
From Verif Require Import Maps Vec GeomModel GeomSpec SupModel.
Local Open Scope R_scope.

(** points one above the other are equal *)
Definition flat (l : list vec3) : Prop := forall a b, a ∈ l -> b ∈ l -> same_xy a b -> a = b.
(** the point is in the convex hull of [l], neither on its right-hand boundary nor at its top *)
Definition in_half_open_hull (l : list vec3) (P : vec3) : Prop :=
  in_hull l P /\ (exists q, in_hull l q /\ vy q = vy P /\ vx P < vx q) /\ (exists q, q ∈ l /\ vy P < vy q).
(** the point is strictly inside: beyond it, in every direction, there is a point of [l] *)
Definition strictly_inside (l : list vec3) (P : vec3) : Prop :=
  forall a b, (a <> 0 \/ b <> 0) -> exists q, q ∈ l /\ a * vx P + b * vy P < a * vx q + b * vy q.
(** [q] is a corner of one of the rectangles *)
Definition corner_of (support : list vec3) (xs ys : list R) (q : vec3) : Prop :=
  exists i p x y, support !! i = Some p /\ xs !! i = Some x /\ ys !! i = Some y /\
    (vx q = vx p + x \/ vx q = vx p - x) /\ (vy q = vy p + y \/ vy q = vy p - y) /\ vz q = vz p.
