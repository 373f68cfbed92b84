(** Specification vocabulary for the friction cone of a jump. *)
From Verif Require Import Vec.
Local Open Scope R_scope.

(** Coulomb: the force [d] on a surface of normal [n] (a unit vector) does not slip: its
    tangential part is at most [mu] times its normal part *)
Definition noSlip (mu : R) (n d : vec3) : Prop :=
  0 <= vdot d n /\ vnorm (vsub d (vscale (vdot d n) n)) <= mu * vdot d n.
(** the unit direction of elevation [beta] in the vertical plane of heading [theta] *)
Definition launch (theta beta : R) : vec3 := V3 (cos beta * cos theta) (cos beta * sin theta) (sin beta).
(** the orthogonal projection of [n] on this plane has elevation [eta] *)
Definition elevation (theta : R) (n : vec3) (eta : R) : Prop :=
  exists r, 0 <= r /\ vx n * cos theta + vy n * sin theta = r * cos eta /\ vz n = r * sin eta.
(** the vertical direction is on the surface of the cone, up or down *)
Definition grazesVertical (mu : R) (n : vec3) : Prop := vx n * vx n + vy n * vy n = mu * mu * (vz n * vz n).
(** it is not within 1e-6 of it *)
Definition clearOfVertical (mu : R) (n : vec3) : Prop :=
  1 / 1000000 <= Rabs (vx n * vx n + vy n * vy n - mu * mu * (vz n * vz n)).
