(** Specification vocabulary for the parabolic jumps. *)
From Verif Require Import Maps Vec ParaModel.
Local Open Scope R_scope.

(** free fall: position and velocity at time [t], launched from [p] with velocity [v] *)
Definition fall (g : R) (p v : vec3) (t : R) : vec3 :=
  vadd (vadd p (vscale t v)) (V3 0 0 (- (g * (t * t) / 2))).
Definition fallVelocity (g : R) (v : vec3) (t : R) : vec3 := vadd v (V3 0 0 (- (g * t))).

(** the flight launched with speed [v] at elevation [alpha] covers the horizontal distance
    [X] and the height [Z] in time [T] *)
Definition flight (g X Z alpha v T : R) : Prop :=
  0 < T /\ 0 <= v /\ v * cos alpha * T = X /\ v * sin alpha * T - g * (T * T) / 2 = Z.

(** positions that are not above one another *)
Definition apart (q1 q2 : config) : Prop := qi q1 0 <> qi q2 0 \/ qi q1 1 <> qi q2 1.
Definition hdist (q1 q2 : config) : R :=
  sqrt ((qi q2 0 - qi q1 0) * (qi q2 0 - qi q1 0) + (qi q2 1 - qi q1 1) * (qi q2 1 - qi q1 1)).

(** what interpolate does with the entries that form a vector space (the position of the
    root, the extra entries), and its symmetry *)
Definition lawful (d : device) : Prop :=
  (3 + ecs d <= csize d)%nat /\
  (forall q1 q2 u, length q1 = csize d -> length q2 = csize d -> length (interp d q1 q2 u) = csize d) /\
  (forall q1 q2 u i, length q1 = csize d -> length q2 = csize d -> (i < 3 \/ csize d - ecs d <= i < csize d)%nat ->
     qi (interp d q1 q2 u) i = (1 - u) * qi q1 i + u * qi q2 i) /\
  (forall q1 q2 u, length q1 = csize d -> length q2 = csize d -> interp d q2 q1 u = interp d q1 q2 (1 - u)).

(** a path between two positions that are not in the same plane x = constant, with the
    direction and the horizontal distance of its ends *)
Definition jump_path (d : device) (p : ppath) : Prop :=
  length (p_init p) = csize d /\ length (p_end p) = csize d /\ qi (p_init p) 0 <> qi (p_end p) 0 /\ 0 < p_len p /\
  p_len p * cos (k_theta (p_coefs p)) = qi (p_end p) 0 - qi (p_init p) 0 /\
  p_len p * sin (k_theta (p_coefs p)) = qi (p_end p) 1 - qi (p_init p) 1.
(** the point at [u] of the segment from [a] to [b] *)
Definition between (a b : vec3) (u : R) : vec3 := vadd (vscale (1 - u) a) (vscale u b).
