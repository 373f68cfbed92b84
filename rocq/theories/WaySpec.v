(** Specification of the way points of the end effector. *)
From Coq Require Import Reals ZArith.
From Verif Require Import Maps Vec.
Local Open Scope R_scope.

(** the instants at which the path from [t0] to [t1] is read: steps of 1/31, the last one twice as long *)
Definition way_time (t0 t1 : R) (i : nat) : R := if (i =? 30)%nat then t1 else t0 + INR i * ((t1 - t0) / 31).
(** seen from [a], the point [p] is in the direction of [z], up to four roundings of the cosine *)
Definition towards (a z p : vec3) : Prop :=
  p <> a /\ (1 - 4 / 2 ^ 52) * (vnorm (vsub p a) * vnorm (vsub z a)) <= vdot (vsub p a) (vsub z a).
(** the path is a straight line, as far as the points that are read tell *)
Definition straight (at_time : R -> vec3) (t0 t1 : R) : Prop :=
  forall i, (1 <= i <= 29)%nat -> towards (at_time t0) (at_time t1) (at_time (way_time t0 t1 i)).
(** it stays within 2 cm of the height it starts at *)
Definition level (at_time : R -> vec3) (t0 t1 : R) : Prop :=
  forall i, (1 <= i <= 30)%nat -> Rabs (vz (at_time (way_time t0 t1 i)) - vz (at_time t0)) < 2 / 100.
(** 3 cm for a motion of less than 10 cm, 7 cm otherwise *)
Definition lift (d h : R) : Prop := (d < 1 / 10 /\ h = 3 / 100) \/ (1 / 10 <= d /\ h = 7 / 100).
(** the points that are read, raised by a ramp up to [h] in the middle and down again *)
Definition raised (at_time : R -> vec3) (t0 t1 h : R) (w : list (R * vec3)) : Prop :=
  length w = 31%nat /\
  forall i, (i <= 30)%nat -> w !! i = Some (INR i, vadd (at_time (way_time t0 t1 i)) (V3 0 0 (INR (Nat.min i (30 - i)) / 15 * h))).
(** start, middle and end; the middle is [h] higher, and [h] away along x and along y as well *)
Definition bridge (a z : vec3) (h : R) (w : list (R * vec3)) : Prop :=
  w = [(0, a); (1, vadd (vscale (/ 2) (vadd a z)) (V3 h h h)); (2, z)].
Definition increasing_times (w : list (R * vec3)) : Prop :=
  forall i j a b, (i < j)%nat -> w !! i = Some a -> w !! j = Some b -> fst a < fst b.
(** a curve that passes through its way points *)
Definition interpolates {K} (value : K -> R -> vec3) (cubic : list (R * vec3) -> K) : Prop :=
  forall w t p, increasing_times w -> (t, p) ∈ w -> value (cubic w) t = p.
