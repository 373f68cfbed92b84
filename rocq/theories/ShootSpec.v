(** Specification vocabulary for the shooter. *)
From Verif Require Import Maps Vec GeomModel GeomSpec ShootModel.
Local Open Scope R_scope.

(** sum of the first [i] numbers, and of all *)
Fixpoint sum_first (i : nat) (l : list R) : R :=
  match i, l with
  | S i', a :: l' => a + sum_first i' l'
  | _, _ => 0
  end.
Definition total (l : list R) : R := sum_first (length l) l.
(** half the length of the cross product of two sides *)
Definition parallelogram_half (t : triangle3) : R := vnorm (vcross (vsub t.1.2 t.1.1) (vsub t.2 t.1.1)) / 2.
Definition within (b : bounds) (v : vec3) : Prop :=
  vx (lo b) <= vx v <= vx (hi b) /\ vy (lo b) <= vy v <= vy (hi b) /\ vz (lo b) <= vz v <= vz (hi b).
Definition proper (b : bounds) : Prop := vx (lo b) <= vx (hi b) /\ vy (lo b) <= vy (hi b) /\ vz (lo b) <= vz (hi b).
(** random numbers are in their ranges *)
Record random_ok {W : Type} (unit01 : W -> R * W) (randMod : nat -> W -> nat * W) : Prop := {
  ro_unit : forall w, 0 <= (unit01 w).1 <= 1;
  ro_mod : forall n w, (0 < n)%nat -> ((randMod n w).1 < n)%nat
}.
(** a trunk collision comes with a contact *)
Definition reports_ok {C} (validate : conf C -> vreport) : Prop :=
  forall q, accepted (validate q) = false -> trunkInCollision (validate q) = true -> is_Some (firstContact (validate q)).
(** rotation by an angle about an axis: unit quaternion *)
Definition unit_quat (q : quat) : Prop := qx q * qx q + qy q * qy q + qz q * qz q + qw q * qw q = 1.
Definition between (a b x : R) : Prop := (a <= b -> a <= x <= b) /\ (b <= a -> b <= x <= a).
(** the rotation of the quaternion: the imaginary part of q v q* *)
Definition qrotate (q : quat) (v : vec3) : vec3 :=
  let '(Q4 x y z w) := q in
  V3 ((w * w + x * x - y * y - z * z) * vx v + 2 * (x * y - w * z) * vy v + 2 * (x * z + w * y) * vz v)
     (2 * (x * y + w * z) * vx v + (w * w - x * x + y * y - z * z) * vy v + 2 * (y * z - w * x) * vz v)
     (2 * (x * z - w * y) * vx v + 2 * (y * z + w * x) * vy v + (w * w - x * x - y * y + z * z) * vz v).
(** rotations about the axes *)
Definition about_z (a : R) (v : vec3) : vec3 := V3 (cos a * vx v - sin a * vy v) (sin a * vx v + cos a * vy v) (vz v).
Definition about_y (a : R) (v : vec3) : vec3 := V3 (cos a * vx v + sin a * vz v) (vy v) (cos a * vz v - sin a * vx v).
Definition about_x (a : R) (v : vec3) : vec3 := V3 (vx v) (cos a * vy v - sin a * vz v) (sin a * vy v + cos a * vz v).
(** the orientation is a yaw, pitch, roll within the limits given to BoundSO3 (if any) *)
Definition within_limits (euler : list R) (q : quat) : Prop :=
  match euler with
  | [] => True
  | z0 :: z1 :: y0 :: y1 :: x0 :: x1 :: _ =>
    unit_quat q /\ exists z y x, between z0 z1 z /\ between y0 y1 y /\ between x0 x1 x /\
      forall v, qrotate q v = about_z z (about_y y (about_x x v))
  | _ => False
  end.
(** what BoundSO3 documents: six numbers, or never called *)
Definition limits_ok (euler : list R) : Prop := euler = [] \/ length euler = 6%nat.
(** the areas of the shooter's triangles *)
Definition areas_of (s : shooter) : list R := map (fun t : vec3 * triangle3 => parallelogram_half t.2) (triangles s).
