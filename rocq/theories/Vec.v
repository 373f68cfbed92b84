(** Vectors of R^3 and R^2 (Eigen / fcl::Vec3f over exact reals). *)
From Coq Require Export Reals Lra.
Local Open Scope R_scope.

Record vec3 := V3 { vx : R; vy : R; vz : R }.
Definition vadd (a b : vec3) := V3 (vx a + vx b) (vy a + vy b) (vz a + vz b).
Definition vsub (a b : vec3) := V3 (vx a - vx b) (vy a - vy b) (vz a - vz b).
Definition vscale (k : R) (a : vec3) := V3 (k * vx a) (k * vy a) (k * vz a).
Definition vopp (a : vec3) := V3 (- vx a) (- vy a) (- vz a).
Definition vdot (a b : vec3) : R := vx a * vx b + vy a * vy b + vz a * vz b.
Definition vcross (a b : vec3) : vec3 :=
  V3 (vy a * vz b - vz a * vy b) (vz a * vx b - vx a * vz b) (vx a * vy b - vy a * vx b).
Definition vzero : vec3 := V3 0 0 0.
(** Eigen [squaredNorm()] and [norm()] *)
Definition vnorm2 (a : vec3) : R := vdot a a.
Definition vnorm (a : vec3) : R := sqrt (vnorm2 a).
Definition dist3 (a b : vec3) : R := vnorm (vsub a b).

(** comparisons of doubles as booleans *)
Definition Rltb (a b : R) : bool := if Rlt_dec a b then true else false.
Definition Rleb (a b : R) : bool := if Rle_dec a b then true else false.
Definition Reqb (a b : R) : bool := if Req_EM_T a b then true else false.
