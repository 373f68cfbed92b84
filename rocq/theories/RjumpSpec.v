(** Specification vocabulary for the random jumps. *)
From Verif Require Import Maps Vec ParaModel ParaSpec.
Local Open Scope R_scope.

(** [cx, cy] is the horizontal direction from [q1] to [q2] *)
Definition heading (q1 q2 : config) (cx cy : R) : Prop :=
  hdist q1 q2 * cx = qi q2 0 - qi q1 0 /\ hdist q1 q2 * cy = qi q2 1 - qi q1 1 /\ cx * cx + cy * cy = 1.
(** the velocity of speed [v] and elevation [alpha] in that direction *)
Definition launch (cx cy alpha v : R) : vec3 := V3 (v * cos alpha * cx) (v * cos alpha * cy) (v * sin alpha).

(** [p] is the jump of three seconds launched from [q1] with that velocity: its ends, its
    length, and the height its coefficients give at each abscissa.  The landing point is
    taken on the line through the origin *)
Definition three_seconds (g : R) (q1 q2 : config) (cx cy alpha v : R) (p : ppath) : Prop :=
  let w := launch cx cy alpha v in
  let land := fall g (qpos q1) w 3 in
  let c := p_coefs p in
  p_init p = q1 /\ length (p_end p) = length q2 /\ (forall i, (3 <= i)%nat -> qi (p_end p) i = qi q2 i) /\
  qi (p_end p) 0 * cx + qi (p_end p) 1 * cy = vx land * cx + vy land * cy /\
  qi (p_end p) 1 * cx - qi (p_end p) 0 * cy = 0 /\ qi (p_end p) 2 = vz land /\
  p_len p = 3 * (v * cos alpha) /\
  cos (k_theta c) = cx /\ sin (k_theta c) = cy /\ k_alpha c = alpha /\ k_xdot c = v * cos alpha /\
  (forall t, let f := fall g (qpos q1) w t in let x := vx f * cx + vy f * cy in
     k0 c * x * x + k1 c * x + k2 c = vz f).

(** the flight rises, and reaches its highest point, which is above [zmax], not farther than
    the horizontal distance [dist] *)
Definition too_high_before (g : R) (q1 : config) (cx cy alpha v zmax dist : R) : Prop :=
  let t := v * sin alpha / g in
  0 <= t /\ v * cos alpha * t <= dist /\ zmax < vz (fall g (qpos q1) (launch cx cy alpha v) t).
