(** Specification vocabulary for the point of a triangle nearest to a point. *)
From Verif Require Import Maps Vec GeomModel GeomSpec.
Local Open Scope R_scope.

(** the nearest point of a triangle *)
Definition nearest (t : triangle3) (src p : vec3) : Prop :=
  in_triangle3 t p /\ forall q, in_triangle3 t q -> dist3 src p <= dist3 src q.
(** the three corners are not aligned *)
Definition non_degenerate (t : triangle3) : Prop := vcross (vsub t.1.2 t.1.1) (vsub t.2 t.1.1) <> vzero.
(** the points in the wedge beyond corner t1: outside of the side t0 t1, on the far side of the
    line through t1 and t2, and not beyond t1 t2's normal at t1: [u], [v] are the coordinates
    of the projection of the point on the triangle's plane in the frame (t0, t1 - t0, t2 - t0) *)
Definition beyond_t1 (t : triangle3) (src : vec3) : Prop :=
  let e0 := vsub t.1.2 t.1.1 in
  let e1 := vsub t.2 t.1.1 in
  exists u v, vdot (vsub src (vadd t.1.1 (vadd (vscale u e0) (vscale v e1)))) e0 = 0 /\
              vdot (vsub src (vadd t.1.1 (vadd (vscale u e0) (vscale v e1)))) e1 = 0 /\
    1 <= u + v /\ 0 <= u /\ v < 0 /\
    vdot (vsub src t.1.2) (vsub t.2 t.1.2) <= 0.
