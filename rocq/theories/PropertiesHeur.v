(** Theorems about the heuristics (C46, C47, C58-C62). *)
From Verif Require Import Maps Vec GeomModel GeomSpec HeurModel HeurSpec HeurProofs HeurProofs2 HeurProofs3 HeurProofs4 HeurProofs5 HeurProofs6 HeurExamples.
Local Open Scope R_scope.

(** C46 *)
Theorem C46_ground_contacts : forall contacts threshold, contacts <> ∅ ->
  exists kept kmin cmin, removeNonGroundContacts contacts threshold = Ok kept /\
    contacts !! kmin = Some cmin /\ (forall k c, contacts !! k = Some c -> vz cmin <= vz c) /\
    (forall k c, kept !! k = Some c <-> contacts !! k = Some c /\ vz c - vz cmin <= Rabs threshold).
Proof. exact ground_contacts. Qed.
Example C46_case : exists kept, removeNonGroundContacts (<["lf" := V3 0 1 0]> (<["rf" := V3 0 (-1) (1 / 10)]> {["rh" := V3 1 0 1]})) (2 / 10) = Ok kept /\
  kept !! "lf" = Some (V3 0 1 0) /\ kept !! "rf" = Some (V3 0 (-1) (1 / 10)) /\ kept !! "rh" = None.
Proof.
  set (m := <["lf" := V3 0 1 0]> (<["rf" := V3 0 (-1) (1 / 10)]> {["rh" := V3 1 0 1]})).
  assert (Hne : m <> ∅) by apply insert_non_empty.
  assert (E1 : m !! "lf" = Some (V3 0 1 0)) by done. assert (E2 : m !! "rf" = Some (V3 0 (-1) (1 / 10))) by done. assert (E3 : m !! "rh" = Some (V3 1 0 1)) by done.
  assert (Hall : forall k c, m !! k = Some c -> c = V3 0 1 0 \/ c = V3 0 (-1) (1 / 10) \/ c = V3 1 0 1).
  { intros k c H. unfold m in H. apply lookup_insert_Some in H as [[_ <-]|[_ H]]; [auto|].
    apply lookup_insert_Some in H as [[_ <-]|[_ H]]; [auto|]. apply lookup_singleton_Some in H as [_ <-]. auto. }
  destruct (C46_ground_contacts m (2 / 10) Hne) as (kept & k & c & Hk & Hm & Hmin & Hkept). exists kept. split; [exact Hk|].
  assert (Hz : vz c = 0). { pose proof (Hmin _ _ E1) as H. cbn in H. destruct (Hall _ _ Hm) as [->|[->| ->]]; cbn in *; lra. }
  assert (Habs : Rabs (2 / 10) = 2 / 10) by (apply Rabs_right; lra).
  split_and!.
  - apply Hkept. split; [exact E1|]. rewrite Hz, Habs. cbn. lra.
  - apply Hkept. split; [exact E2|]. rewrite Hz, Habs. cbn. lra.
  - destruct (kept !! "rh") as [c'|] eqn:E; [|done]. apply Hkept in E as [E4 E5]. rewrite E3 in E4. injection E4 as <-.
    rewrite Hz, Habs in E5. cbn in E5. lra.
Qed.
Theorem C46_empty_map : forall threshold, removeNonGroundContacts ∅ threshold = Ub.
Proof. exact ground_contacts_empty. Qed.
(** C47 *)
Theorem C47_copy_kept : forall {T P} (z : hparam T P), let c := copyParam z in
  contactPositions c = contactPositions z /\ comPosition c = comPosition z /\ comSpeed c = comSpeed z /\ comAcceleration c = comAcceleration z /\
  sampleLimbName c = sampleLimbName z /\ tfWorldRoot c = tfWorldRoot z /\ comPath c = None.
Proof. exact @copy_param. Qed.
Theorem C47_copy_dynamic : forall {P} fuel s (z : hparam ((vec3 * vec3 * vec3) * vec3) P) rnd d n,
  dynamicHeuristic fuel s (copyParam z) = dynamicHeuristic fuel s z /\
  DynamicWalkHeuristic rnd s d n (copyParam z) = DynamicWalkHeuristic rnd s d n z.
Proof. exact @copy_dynamic. Qed.
Theorem C47_copy_fixed_step : forall {T P} at_ act t s (z : hparam T P), fixedStepHeuristic at_ act t s (copyParam z) = Ok (staticValue s).
Proof. exact @fixed_step_copy. Qed.
Theorem C47_assign : forall {T P} (self z : hparam T P), let c := assignParam self z in
  contactPositions c = contactPositions z /\ comPosition c = comPosition z /\ comSpeed c = comSpeed z /\ comAcceleration c = comAcceleration z /\
  sampleLimbName c = sampleLimbName z /\ tfWorldRoot c = tfWorldRoot z /\
  comPath c = comPath self /\ currentPathId c = currentPathId self /\ limbReferenceOffset c = limbReferenceOffset self.
Proof. exact @assign_param. Qed.
Example C47_case : exists z : hparam unit unit, comPath z = Some tt /\ comPath (copyParam z) = None /\
  contactPositions (copyParam z) !! "lf" = Some (V3 1 2 3) /\ comPath (assignParam z z) = Some tt.
Proof.
  exists (mkHP {["lf" := V3 1 2 3]} (V3 0 0 0) (V3 0 0 0) (V3 0 0 0) "lf" tt (Some tt) (Some 1) (Some (V3 0 0 0))). done.
Qed.
(** C58 *)
Theorem C58_support_polygon : forall contacts,
  computeSupportPolygon contacts = map (fun kv : string * vec3 => V3 (vx kv.2) (vy kv.2) 0) (sitems contacts).
Proof. exact support_polygon. Qed.
(** the projection on a plane is on the plane, along its normal *)
Theorem C58_projection : forall p a b c d, a * a + b * b + c * c <> 0 -> let q := orthogonalProjection p a b c d in
  a * vx q + b * vy q + c * vz q + d = 0 /\ exists k, vsub p q = vscale k (V3 a b c).
Proof. exact orthogonal_projection. Qed.
Example C58_projection_case : 0 * 0 + 0 * 0 + 1 * 1 <> 0 /\ orthogonalProjection (V3 1 2 3) 0 0 1 (-1) = V3 1 2 1.
Proof. split; [lra|]. unfold orthogonalProjection. cbn [vx vy vz]. f_equal; field. Qed.
(** the angle computed is that of the directions of the two points, when they are not at the
    center; it is 0 for points taken for equal *)
Theorem C58_angle : forall center e1 e2 a, computeAngle center e1 e2 = Some a ->
  near e1 e2 /\ a = 0 \/ planar_angle (vx e1 - vx center) (vy e1 - vy center) (vx e2 - vx center) (vy e2 - vy center) a.
Proof. exact angle_value. Qed.
Theorem C58_angle_undefined : forall center e1 e2, computeAngle center e1 e2 = None <->
  ~ near e1 e2 /\ (same_xy e1 center \/ same_xy e2 center).
Proof. exact angle_defined. Qed.
Example C58_angle_case : exists a, computeAngle (V3 0 0 0) (V3 1 0 0) (V3 0 1 0) = Some a /\ ~ near (V3 1 0 0) (V3 0 1 0).
Proof.
  assert (Hn : ~ near (V3 1 0 0) (V3 0 1 0)).
  { intros [H _]. cbn [vx] in H. unfold Rabs in H. destruct (Rcase_abs _) in H; lra. }
  destruct (computeAngle (V3 0 0 0) (V3 1 0 0) (V3 0 1 0)) as [a|] eqn:E; [exists a; split; [reflexivity|exact Hn]|].
  apply C58_angle_undefined in E as [_ [[H _]|[_ H]]]; cbn in H; lra.
Qed.
Theorem C58_hull_points : forall l, exists h, convexHull2D l = Ok h /\ (forall p, p ∈ h -> p ∈ l) /\
  (forall i j p q, (i < j)%nat -> h !! i = Some p -> h !! j = Some q -> ~ near p q) /\ (l <> [] -> h <> []) /\
  (l <> [] -> exists p, p ∈ h /\ forall q, q ∈ l -> vx p <= vx q) /\
  (l <> [] -> exists p r, p ∈ h /\ r ∈ l /\ near p r /\ forall q, q ∈ l -> vx q <= vx r).
Proof. exact hull_any. Qed.
Theorem C58_hull_encloses : forall l h, no_confusion l -> convexHull2D l = Ok h -> enclosed_by h l.
Proof. exact hull_encloses. Qed.
Example C58_witness : no_confusion square.
Proof. exact square_clear. Qed.
Theorem C58_tight_points_refuted : exists l, forall h, convexHull2D l = Ok h -> ~ enclosed_by h l.
Proof. exists tight. exact tight_lost. Qed.
(** C59 *)
Theorem C59_small : forall fuel, weightedCentroidConvex2D fuel [] = Throw /\ (forall p, weightedCentroidConvex2D fuel [p] = Ok (Some p)) /\
  (forall p q, weightedCentroidConvex2D fuel [p; q] = Ok (Some (V3 ((vx p + vx q) / 2) ((vy p + vy q) / 2) 0))).
Proof. exact centroid_small. Qed.
Theorem C59_average_of_groups : forall p l fuel, (2 <= length l)%nat -> (length l < fuel)%nat -> (exists q, q ∈ l /\ ~ same_xy p q) ->
  exists m c groups, weightedCentroidConvex2D fuel (p :: l) = Ok (Some c) /\ longest_side (p :: l) m /\
    clusters (m / 10) (p :: l) groups /\ average_of_averages groups c /\ vz c = 0.
Proof. exact centroid_many. Qed.
Theorem C59_equal_points_never_end : forall p l fuel, (2 <= length l)%nat -> (forall q, q ∈ l -> same_xy p q) ->
  weightedCentroidConvex2D fuel (p :: l) = Ok None.
Proof. exact centroid_stuck. Qed.
Theorem C59_inside : forall polygon fuel, (length polygon <= fuel)%nat -> polygon <> [] ->
  (forall i j p q, (i < j)%nat -> polygon !! i = Some p -> polygon !! j = Some q -> ~ near p q) ->
  exists c, weightedCentroidConvex2D fuel polygon = Ok (Some c) /\ enclosed_by polygon [c].
Proof. exact centroid_inside. Qed.
Example C59_case : exists m c groups, weightedCentroidConvex2D 3 [V3 0 0 0; V3 4 0 0; V3 0 4 0] = Ok (Some c) /\
  longest_side [V3 0 0 0; V3 4 0 0; V3 0 4 0] m /\ clusters (m / 10) [V3 0 0 0; V3 4 0 0; V3 0 4 0] groups /\ average_of_averages groups c /\
  enclosed_by [V3 0 0 0; V3 4 0 0; V3 0 4 0] [c].
Proof.
  destruct (C59_average_of_groups (V3 0 0 0) [V3 4 0 0; V3 0 4 0] 3) as (m & c & g & E & Hl & Hc & Ha & _);
    [cbn; lia|cbn; lia|exists (V3 4 0 0); split; [set_solver|intros [H _]; cbn in H; lra]|].
  exists m, c, g. split_and!; try done.
  destruct (C59_inside [V3 0 0 0; V3 4 0 0; V3 0 4 0] 3) as (c' & E' & H'); [cbn; lia|done| |rewrite E in E'; injection E' as <-; exact H'].
  intros i j p q Hij Hp Hq [Hx Hy]. apply Rabs_def2 in Hx, Hy.
  destruct i as [|[|[|i]]], j as [|[|[|j]]]; try lia; cbn in Hp, Hq; try done; injection Hp as <-; injection Hq as <-; cbn in Hx, Hy; lra.
Qed.
(** C60 *)
Theorem C60_value : forall {P} (s : hsample) (z : hparam ((vec3 * vec3 * vec3) * vec3) P),
  exists N i c eff contacts, in_world (tfWorldRoot z).1 (tfWorldRoot z).2 (effectorPosition s) eff /\
    with_contact (contactPositions z) contacts (sampleLimbName z) eff /\ amid (grounded contacts) c /\
    (forall fuel, (N <= fuel)%nat -> interest fuel z = Some i) /\
    forall fuel, (N <= fuel)%nat -> dynamicHeuristic fuel s z = Ok (Some (- planar_dist i c)).
Proof. exact @dynamic_value. Qed.
Theorem C60_never_positive : forall {P} (s : hsample) (z : hparam ((vec3 * vec3 * vec3) * vec3) P) fuel v,
  dynamicHeuristic fuel s z = Ok (Some v) -> v <= 0.
Proof. exact @dynamic_sign. Qed.
Theorem C60_interest : forall {T P} (z : hparam T P), let w2 := vz (comPosition z) / (- (980665 / 100000)) in
  exists N kx ky, (forall fuel, (N <= fuel)%nat -> interest fuel z =
      Some (V3 (vx (comPosition z) + -100 * w2 * (15 / 10) ^ kx * vx (comSpeed z) + w2 * vx (comAcceleration z))
               (vy (comPosition z) + -100 * w2 * (15 / 10) ^ ky * vy (comSpeed z) + w2 * vy (comAcceleration z)) 0)) /\
    (vx (comSpeed z) <> 0 -> w2 * vx (comAcceleration z) <> 0 -> least_power (-100 * w2) (vx (comSpeed z)) (w2 * vx (comAcceleration z)) kx) /\
    (vx (comSpeed z) = 0 \/ w2 * vx (comAcceleration z) = 0 -> kx = 0%nat) /\
    (vy (comSpeed z) <> 0 -> w2 * vx (comAcceleration z) <> 0 -> least_power (-100 * w2) (vy (comSpeed z)) (w2 * vy (comAcceleration z)) ky) /\
    (vy (comSpeed z) = 0 \/ w2 * vx (comAcceleration z) = 0 -> ky = 0%nat).
Proof. exact @interest_defined. Qed.
Example C60_witness_x : least_power (-100 * (1 / gravity)) 1 (1 / gravity * 1000) 6.
Proof. exact alongX_power. Qed.
(** along y alone, the acceleration is not dominated *)
Theorem C60_y_axis_refuted : exists z : hparam ((vec3 * vec3 * vec3) * vec3) unit, forall fuel, let w2 := 1 / gravity in
  interest fuel z = Some (V3 0 (-100 * w2 + w2 * 1000) 0) /\ Rabs (-100 * w2 * 1) < Rabs (w2 * 1000).
Proof. exists alongY. exact alongY_interest. Qed.
(** C61 *)
Theorem C61_manipulability : forall r1 r2 s1 s2 n1 n2, 0 <= r1 <= 1 -> 0 <= r2 <= 1 -> 0 <= staticValue s1 ->
  (vz n2 < 7 / 10 -> ManipulabilityHeuristic r2 s2 n2 = -1) /\
  (7 / 10 <= vz n1 -> vz n2 < 7 / 10 -> ManipulabilityHeuristic r2 s2 n2 < ManipulabilityHeuristic r1 s1 n1) /\
  (7 / 10 <= vz n1 -> vz n1 = vz n2 -> staticValue s2 + 2 / 1000000000 < staticValue s1 ->
     ManipulabilityHeuristic r2 s2 n2 < ManipulabilityHeuristic r1 s1 n1).
Proof. exact manipulability_order. Qed.
Theorem C61_efort : forall s cols d n, gram cols (jacobianBlock s) ->
  EFORTHeuristic s d n = sum_of (fun c => vdot d c * vdot d c) cols * vz n /\
  EFORTNormalHeuristic s d n = sum_of (fun c => vdot d c * vdot d c) cols * vdot d n /\
  0 <= sum_of (fun c => vdot d c * vdot d c) cols.
Proof. exact efort_value. Qed.
Theorem C61_forward : forall r1 r2 s1 s2 d n, 0 <= r1 <= 1 -> 0 <= r2 <= 1 ->
  let foot s := effectorPositionInLimbFrame s in
  let merit s := 10 * staticValue s * vz n + (vx d * vx (foot s) + vy d * vy (foot s)) + vz (foot s) * vz (foot s) in
  merit s2 + 1 / 100 < merit s1 -> ForwardHeuristic r2 s2 d n < ForwardHeuristic r1 s1 d n.
Proof. exact forward_order. Qed.
Theorem C61_backward : forall r1 r2 s1 s2 d n, 0 <= r1 <= 1 -> 0 <= r2 <= 1 ->
  let merit s := 100 * staticValue s * vz n - vdot d (effectorPosition s) in
  merit s2 + 1 / 100 < merit s1 -> BackwardHeuristic r2 s2 d n < BackwardHeuristic r1 s1 d n.
Proof. exact backward_order. Qed.
Theorem C61_fixed_step : forall {T P} at_ act t (s1 s2 : hsample) (z : hparam T P) path t0 off,
  comPath z = Some path -> currentPathId z = Some t0 -> limbReferenceOffset z = Some off -> staticValue s1 = staticValue s2 ->
  forall v1 v2, fixedStepHeuristic at_ act t s1 z = Ok v1 -> fixedStepHeuristic at_ act t s2 z = Ok v2 ->
  let target := act (at_ path (t0 + t)) off in
  (v1 <= v2 <-> vnorm2 (vsub (act (tfWorldRoot z) (effectorPosition s2)) target) <= vnorm2 (vsub (act (tfWorldRoot z) (effectorPosition s1)) target)).
Proof. exact @fixed_step_best. Qed.
Theorem C61_dynamic_walk : forall {P} rnd s dx dy n (z : hparam ((vec3 * vec3 * vec3) * vec3) P),
  dx * dx + dy * dy = 1 -> n = V3 0 0 1 ->
  let foot := mulMat (tfWorldRoot z).1 (effectorPositionInLimbFrame s) in
  let ahead := dx * vx foot + dy * vy foot in
  let left := dx * vy foot - dy * vx foot in
  let left_limb := 0 < vy (effectorPosition s) - vy (effectorPositionInLimbFrame s) in
  let base := 100 * staticValue s + vx (comAcceleration z) * vx foot + vy (comAcceleration z) * vy foot + rnd in
  ((left_limb /\ 0 <= left) \/ (~ left_limb /\ left < 0) \/ (~ left_limb /\ left = 0 /\ 0 <= ahead) ->
     DynamicWalkHeuristic rnd s (V3 dx dy 0) n z = base + 100 * ahead) /\
  ((left_limb /\ left < 0) \/ (~ left_limb /\ 0 < left) \/ (~ left_limb /\ left = 0 /\ ahead < 0) ->
     DynamicWalkHeuristic rnd s (V3 dx dy 0) n z = base - 10 * ahead).
Proof. exact @dynamic_walk_level. Qed.
Theorem C61_dynamic_walk_still : forall {P} rnd s d n (z : hparam ((vec3 * vec3 * vec3) * vec3) P), d = V3 0 0 0 ->
  DynamicWalkHeuristic rnd s d n z = 100 * staticValue s + vx (comAcceleration z) * vx (effectorPositionInLimbFrame s)
    + vy (comAcceleration z) * vy (effectorPositionInLimbFrame s) + vz (effectorPositionInLimbFrame s) + rnd.
Proof. exact @dynamic_walk_null. Qed.
(** two samples: the first reaches 10 cm further ahead *)
Example C61_case : let s1 := mkHS 1 (V3 0 1 (-1)) (V3 (2 / 10) 0 (-1)) 0 (V3 1 0 0, V3 0 0 0, V3 0 0 0) in
  let s2 := mkHS 1 (V3 (-1 / 10) 1 (-1)) (V3 (1 / 10) 0 (-1)) 0 (V3 1 0 0, V3 0 0 0, V3 0 0 0) in
  let d := V3 1 0 0 in let up := V3 0 0 1 in
  ForwardHeuristic 1 s2 d up < ForwardHeuristic 0 s1 d up /\ BackwardHeuristic 1 s1 d up < BackwardHeuristic 0 s2 d up /\
  ManipulabilityHeuristic 1 s1 d < ManipulabilityHeuristic 0 s2 up /\
  gram [V3 1 0 0] (jacobianBlock s1) /\ EFORTHeuristic s1 d up = 1.
Proof.
  cbv zeta. split_and!.
  - apply C61_forward; [lra|lra|]. cbn. lra.
  - apply C61_backward; [lra|lra|]. unfold vdot. cbn. lra.
  - refine (proj1 (proj2 (C61_manipulability 0 1 _ _ (V3 0 0 1) (V3 1 0 0) _ _ _)) _ _); cbn; lra.
  - unfold gram, sum_of. cbn. f_equal; [f_equal|]; f_equal; ring.
  - match goal with |- EFORTHeuristic ?s _ _ = _ => destruct (C61_efort s [V3 1 0 0] (V3 1 0 0) (V3 0 0 1)) as [-> _] end;
      [unfold gram, sum_of; cbn; f_equal; [f_equal|]; f_equal; ring|]. unfold sum_of, vdot. cbn. ring.
Qed.
(** a step of the fixed step heuristics: the sample at the target is the better one *)
Example C61_fixed_step_case : let at_ (_ : unit) (t : R) := V3 t 0 0 in
  let z := mkHP ∅ (V3 0 0 0) (V3 0 0 0) (V3 0 0 0) "lf" (V3 0 0 0) (Some tt) (Some 1) (Some (V3 0 0 0)) in
  let s x := mkHS 1 (V3 x 0 0) (V3 0 0 0) 0 (V3 0 0 0, V3 0 0 0, V3 0 0 0) in
  exists v1 v2, fixedStepHeuristic at_ vadd 1 (s 1) z = Ok v1 /\ fixedStepHeuristic at_ vadd 1 (s 2) z = Ok v2 /\ v1 <= v2.
Proof.
  intros at_ z s. eexists _, _. split; [reflexivity|]. split; [reflexivity|].
  pose proof (C61_fixed_step at_ vadd 1 (s 1) (s 2) z tt 1 (V3 0 0 0) eq_refl eq_refl eq_refl eq_refl _ _ eq_refl eq_refl) as H.
  apply H. unfold s, z, at_, vnorm2, vdot, vsub, vadd. cbn. lra.
Qed.
(** a left foot ahead *)
Example C61_dynamic_walk_case : let s := mkHS 1 (V3 1 1 0) (V3 1 0 0) 0 (V3 0 0 0, V3 0 0 0, V3 0 0 0) in
  let z := mkHP (P := unit) ∅ (V3 0 0 0) (V3 0 0 0) (V3 0 0 0) "lf" ((V3 1 0 0, V3 0 1 0, V3 0 0 1), V3 0 0 0) None None None in
  DynamicWalkHeuristic 0 s (V3 1 0 0) (V3 0 0 1) z = 200.
Proof.
  cbv zeta. rewrite (proj1 (C61_dynamic_walk 0 _ 1 0 (V3 0 0 1) _ ltac:(lra) eq_refl)); unfold mulMat, vdot; cbn; [ring|]. left. lra.
Qed.
(** C62 *)
Theorem C62_registry : forall {H} (m : gmap string H) name f,
  (m !! name = None -> AddHeuristic m name f = (true, <[name := f]> m)) /\
  (forall g, m !! name = Some g -> AddHeuristic m name f = (false, m)).
Proof. exact @add_heuristic. Qed.
Example C62_case : AddHeuristic {["random" := 1%nat]} "random" 2%nat = (false, {["random" := 1%nat]}) /\
  (AddHeuristic {["random" := 1%nat]} "static" 2%nat).1 = true.
Proof. split; [apply (C62_registry {["random" := 1%nat]} "random" 2%nat) with (g := 1%nat)|]; done. Qed.
Print Assumptions C46_ground_contacts.
Print Assumptions C58_hull_encloses.
Print Assumptions C59_average_of_groups.
Print Assumptions C60_value.
Print Assumptions C61_dynamic_walk.
