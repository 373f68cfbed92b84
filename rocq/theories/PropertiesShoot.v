(** Properties C43-C45, C56, C57: the shooter. *)
From Verif Require Import Maps MapsProofs Vec VecProofs GeomModel GeomSpec ShootModel ShootSpec ShootProofs ShootExamples.
Local Open Scope R_scope.

(** C43: cumulated shares of the area; triangle i exactly on its sub-interval *)
Theorem C43_weights objs s : InitWeightedTriangles objs = Ok s -> 0 < total (areas_of s) ->
  exists ws, weights s = Some ws /\ length ws = length (triangles s) /\
    (forall i w, ws !! i = Some w -> w = sum_first (S i) (areas_of s) / total (areas_of s)) /\
    (forall i j v w, (i <= j)%nat -> ws !! i = Some v -> ws !! j = Some w -> v <= w) /\
    (forall w, ws !! (length ws - 1)%nat = Some w -> w = 1).
Proof. exact (init_weights objs s). Qed.
Print Assumptions C43_weights.
Theorem C43_choice objs s r : InitWeightedTriangles objs = Ok s -> 0 < total (areas_of s) -> 0 <= r <= 1 ->
  forall i, weightedIndex s r = Ok i <->
    r * total (areas_of s) <= sum_first (S i) (areas_of s) /\ (i = 0%nat \/ sum_first i (areas_of s) < r * total (areas_of s)).
Proof. exact (init_choice objs s r). Qed.
Print Assumptions C43_choice.
Theorem C43_choice_exists objs s r : InitWeightedTriangles objs = Ok s -> 0 < total (areas_of s) -> 0 <= r <= 1 ->
  exists i, weightedIndex s r = Ok i /\ (i < length (triangles s))%nat.
Proof. exact (init_choice_exists objs s r). Qed.
Print Assumptions C43_choice_exists.
(** triangles without area: the last one, whatever the random number *)
Theorem C43_zero_area objs s r : InitWeightedTriangles objs = Ok s -> total (areas_of s) = 0 -> triangles s <> [] ->
  weightedIndex s r = Ok (length (triangles s) - 1)%nat.
Proof. exact (init_zero_area objs s r). Qed.
Print Assumptions C43_zero_area.
(** a number above all the cumulated shares (rounded below 1 with doubles): the last triangle *)
Theorem C43_beyond objs s r : InitWeightedTriangles objs = Ok s -> 0 < total (areas_of s) -> 1 < r ->
  weightedIndex s r = Ok (length (triangles s) - 1)%nat.
Proof. exact (init_beyond objs s r). Qed.
Print Assumptions C43_beyond.
Example C43_beyond_case : weightedIndex floorShooter 2 = Ok 1%nat.
Proof. exact ex_beyond. Qed.
Example C43_example : InitWeightedTriangles [floor] = Ok floorShooter /\ weights floorShooter = Some [1 / 4; 1] /\
  weightedIndex floorShooter (1 / 4) = Ok 0%nat /\ weightedIndex floorShooter (1 / 3) = Ok 1%nat.
Proof. split; [exact ex_init|]. split; [exact ex_weights|]. exact ex_choice. Qed.

(** C44 *)
Theorem C44_point_in_triangle r1 r2 t : 0 <= r1 <= 1 -> 0 <= r2 <= 1 -> in_triangle3 t (pointInTriangle r1 r2 t).
Proof. exact (point_in_triangle r1 r2 t). Qed.
Print Assumptions C44_point_in_triangle.
Theorem C44_every_point t p : in_triangle3 t p -> exists r1 r2, 0 <= r1 <= 1 /\ 0 <= r2 <= 1 /\ pointInTriangle r1 r2 t = p.
Proof. exact (every_point_drawn t p). Qed.
Print Assumptions C44_every_point.
Theorem C44_config_at_point {W C} (unit01 : W -> R * W) randMod (uniform : W -> conf C * W) bnds euler p w :
  random_ok unit01 randMod -> limits_ok euler -> proper bnds ->
  exists q w', randConfigAtPos unit01 uniform bnds euler p w = Ok (q, w') /\
    within bnds (trans q) /\ (within bnds p -> trans q = p) /\ rest q = rest (uniform w).1 /\
    (forall v, within bnds v -> Rabs (vx p - vx (trans q)) <= Rabs (vx p - vx v) /\ Rabs (vy p - vy (trans q)) <= Rabs (vy p - vy v) /\
       Rabs (vz p - vz (trans q)) <= Rabs (vz p - vz v)) /\
    within_limits euler (orientation q) /\ (euler = [] -> orientation q = orientation (uniform w).1).
Proof. exact (config_at_point unit01 randMod uniform bnds euler p w). Qed.
Print Assumptions C44_config_at_point.
Theorem C44_translated {C} bnds (q : conf C) t : proper bnds -> within bnds (trans (Translate bnds q t)) /\
  orientation (Translate bnds q t) = orientation q /\ rest (Translate bnds q t) = rest q /\
  (within bnds (vadd (trans q) t) -> trans (Translate bnds q t) = vadd (trans q) t) /\
  (let p := vadd (trans q) t in let p' := trans (Translate bnds q t) in
   forall v, within bnds v -> Rabs (vx p - vx p') <= Rabs (vx p - vx v) /\ Rabs (vy p - vy p') <= Rabs (vy p - vy v) /\ Rabs (vz p - vz p') <= Rabs (vz p - vz v)).
Proof. exact (translated bnds q t). Qed.
Example C44_example : proper box /\ limits_ok yaw /\ within box (V3 1 2 3) /\
  in_triangle3 small (pointInTriangle (1 / 4) (1 / 2) small) /\
  trans (Translate box (mkConf (V3 9 0 0) (Q4 0 0 0 1) tt) (V3 5 1 0)) = V3 10 1 0.
Proof.
  split; [exact (proj2 ex_limits)|]. split; [exact (proj1 ex_limits)|]. split; [unfold within; cbn; lra|].
  split; [apply C44_point_in_triangle; lra|].
  destruct (C44_translated box (mkConf (V3 9 0 0) (Q4 0 0 0 1) tt) (V3 5 1 0) (proj2 ex_limits)) as ([Hx [Hy Hz]] & _ & _ & _ & Hn).
  destruct (Hn (V3 10 1 0)) as (H1 & H2 & H3); [unfold within; cbn; lra|].
  destruct (trans (Translate box _ _)) as [x y z]. cbn in *. revert H1 H2 H3. unfold Rabs. repeat destruct (Rcase_abs _); intros; f_equal; lra.
Qed.
Print Assumptions C44_translated.

(** C45: termination, number of validations, found means validated *)
Theorem C45_shoot {W C} (unit01 : W -> R * W) randMod (uniform : W -> conf C * W) validate bnds euler ratio shootLimit dis objs s w :
  random_ok unit01 randMod -> limits_ok euler -> proper bnds -> reports_ok validate ->
  InitWeightedTriangles objs = Ok s -> triangles s <> [] ->
  exists found q w' n, impl_shoot unit01 randMod uniform validate bnds euler ratio shootLimit dis s w = Ok (found, q, w', n) /\
    (n <= shootLimit * (2 * dis + 1))%nat /\ (found = true -> accepted (validate q) = true) /\
    ((0 < shootLimit)%nat -> within bnds (trans q) /\ within_limits euler (orientation q)).
Proof. exact (shoot_ok unit01 randMod uniform validate bnds euler ratio shootLimit dis objs s w). Qed.
Print Assumptions C45_shoot.
(** a validator that accepts every position within bounds: the first configuration, on a triangle *)
Theorem C45_accepting {W C} (unit01 : W -> R * W) randMod (uniform : W -> conf C * W) validate bnds euler ratio shootLimit dis objs s w :
  random_ok unit01 randMod -> limits_ok euler -> proper bnds -> (forall q, within bnds (trans q) -> accepted (validate q) = true) ->
  InitWeightedTriangles objs = Ok s -> triangles s <> [] -> (0 < shootLimit)%nat -> (0 < dis)%nat ->
  exists q w' n t p, impl_shoot unit01 randMod uniform validate bnds euler ratio shootLimit dis s w = Ok (true, q, w', 1%nat) /\
    (n, t) ∈ triangles s /\ in_triangle3 t p /\ (within bnds p -> trans q = p).
Proof. exact (shoot_accepting unit01 randMod uniform validate bnds euler ratio shootLimit dis objs s w). Qed.
Print Assumptions C45_accepting.
(** giving up means at least one validation per try *)
Theorem C45_gives_up {W C} (unit01 : W -> R * W) randMod (uniform : W -> conf C * W) validate bnds euler ratio shootLimit dis s w q w' n :
  (0 < dis)%nat -> impl_shoot unit01 randMod uniform validate bnds euler ratio shootLimit dis s w = Ok (false, q, w', n) -> (shootLimit <= n)%nat.
Proof. exact (shoot_gives_up unit01 randMod uniform validate bnds euler ratio shootLimit dis s w q w' n). Qed.
Print Assumptions C45_gives_up.
Theorem C45_no_triangles_undefined {W C} (unit01 : W -> R * W) randMod (uniform : W -> conf C * W) validate bnds euler ratio shootLimit dis w :
  (0 < shootLimit)%nat -> exists s, InitWeightedTriangles [] = Ok s /\
  impl_shoot unit01 randMod uniform validate bnds euler ratio shootLimit dis s w = Ub.
Proof. intros H. exists (mkShooter [] (weightsOf [])). split; [reflexivity|]. exact (shoot_no_triangles unit01 randMod uniform validate bnds euler ratio shootLimit dis w H). Qed.
Print Assumptions C45_no_triangles_undefined.
Example C45_example : random_ok half first /\ limits_ok yaw /\ proper box /\ reports_ok lifted /\
  exists q w', impl_shoot half first uni lifted box yaw (3 / 10) 1 5 floorShooter 0%nat = Ok (true, q, w', 2%nat) /\ vz (trans q) = 3 / 100.
Proof. split; [exact ex_random|]. split; [exact (proj1 ex_limits)|]. split; [exact (proj2 ex_limits)|]. split; [exact ex_reports|exact ex_found]. Qed.

(** C56: the orientation drawn is a unit quaternion turning by yaw, pitch and roll within the limits *)
Theorem C56_orientation {W C} (unit01 : W -> R * W) randMod z0 z1 y0 y1 x0 x1 (q : conf C) w : random_ok unit01 randMod ->
  exists q' w', SampleRotation unit01 [z0; z1; y0; y1; x0; x1] q w = Ok (q', w') /\ trans q' = trans q /\ rest q' = rest q /\
    unit_quat (orientation q') /\
    exists z y x, between z0 z1 z /\ between y0 y1 y /\ between x0 x1 x /\
      forall v, qrotate (orientation q') v = about_z z (about_y y (about_x x v)).
Proof.
  intros H. destruct (SampleRotation_ok unit01 randMod [z0; z1; y0; y1; x0; x1] H (or_intror eq_refl) q w) as (q' & w' & H1 & H2 & H3 & [H4 H5] & _).
  exists q', w'. auto.
Qed.
Print Assumptions C56_orientation.
Theorem C56_no_limits {W C} (unit01 : W -> R * W) (q : conf C) w : SampleRotation unit01 [] q w = Ok (q, w).
Proof. reflexivity. Qed.
(** the size of the limits is only asserted *)
Theorem C56_short_limits_undefined {W C} (unit01 : W -> R * W) euler (q : conf C) w : (0 < length euler < 6)%nat ->
  SampleRotation unit01 euler q w = Ub.
Proof. exact (short_limits unit01 euler q w). Qed.
Print Assumptions C56_short_limits_undefined.
Example C56_example : random_ok half first.
Proof. exact ex_random. Qed.

(** C57: the surfaces used *)
Theorem C57_surfaces {O} (aff : gmap string (list O)) (filters : gmap string (list string)) :
  exists ts, NoDup ts /\ (forall t, t ∈ ts <-> exists r types, filters !! r = Some types /\ t ∈ types) /\
    getUsedSurfaces aff filters = concat (map (fun t => default [] (aff !! t)) ts).
Proof. exact (used_surfaces aff filters). Qed.
Print Assumptions C57_surfaces.
Theorem C57_triangles objs : (forall o, o ∈ objs -> is_Some (mesh o)) -> exists s, InitWeightedTriangles objs = Ok s /\
  (forall n t, (n, t) ∈ triangles s <-> exists o ts t0, o ∈ objs /\ mesh o = Some ts /\ t0 ∈ ts /\
     t = (place o t0.1.1, place o t0.1.2, place o t0.2) /\ n = TriangleNormal t).
Proof. exact (init_triangles' objs). Qed.
Print Assumptions C57_triangles.
Theorem C57_not_a_mesh_undefined objs o : o ∈ objs -> mesh o = None -> InitWeightedTriangles objs = Ub.
Proof. exact (init_not_mesh objs o). Qed.
Print Assumptions C57_not_a_mesh_undefined.
Example C57_example : getUsedSurfaces affs filt = [1; 2; 3]%nat /\ InitWeightedTriangles [floor] = Ok floorShooter.
Proof. split; [exact ex_used|exact ex_init]. Qed.
