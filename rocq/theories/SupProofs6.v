(** The distance between a point and a segment (support.cc). *)
From Coq Require Import Reals Lra.
From Verif Require Import Maps MapsProofs Vec VecProofs GeomModel GeomSpec SupModel SupSpec.
Local Open Scope R_scope.

Lemma pn_pos x y : 0 <= planarNorm x y.
Proof. apply sqrt_pos. Qed.
Lemma pn_le x y x' y' : x * x + y * y <= x' * x' + y' * y' -> planarNorm x y <= planarNorm x' y'.
Proof. intros H. by apply sqrt_le_1_alt. Qed.
Lemma pn_lt x y x' y' : planarNorm x y < planarNorm x' y' <-> x * x + y * y < x' * x' + y' * y'.
Proof.
  split; intros H.
  - apply Rnot_le_lt. intros H'. apply pn_le in H'. lra.
  - apply sqrt_lt_1_alt. split; [|done]. pose proof (Rle_0_sqr x). pose proof (Rle_0_sqr y). unfold Rsqr in *. lra.
Qed.

(** the point of the segment at [s] *)
Definition seg_point (A B : vec3) (s : R) : vec3 := vadd A (vscale s (vsub B A)).
(** the distance to the nearest point of the segment, seen from above *)
Definition segment_distance (A B P : vec3) (d : R) : Prop :=
  (exists s, 0 <= s <= 1 /\ d = planarNorm (vx P - vx (seg_point A B s)) (vy P - vy (seg_point A B s))) /\
  forall s, 0 <= s <= 1 -> d <= planarNorm (vx P - vx (seg_point A B s)) (vy P - vy (seg_point A B s)).
Lemma ends_reached (A B P : vec3) :
  exists s, 0 <= s <= 1 /\ Rmin (planarNorm (vx P - vx A) (vy P - vy A)) (planarNorm (vx P - vx B) (vy P - vy B)) =
    planarNorm (vx P - vx (seg_point A B s)) (vy P - vy (seg_point A B s)).
Proof.
  unfold seg_point, vadd, vscale, vsub. cbn. unfold Rmin. destruct (Rle_dec _ _).
  - exists 0. split; [lra|]. f_equal; ring.
  - exists 1. split; [lra|]. f_equal; ring.
Qed.
(** the distance computed is that to a point of the segment *)
Lemma distance_reached A B P : exists s, 0 <= s <= 1 /\
  DistancePointSegment P A B = planarNorm (vx P - vx (seg_point A B s)) (vy P - vy (seg_point A B s)).
Proof.
  unfold DistancePointSegment. destruct (Reqb (vx A) (vx B) || Reqb (vy A) (vy B)) eqn:Ee; [apply ends_reached|].
  apply orb_false_iff in Ee as [Hx%Reqb_false Hy%Reqb_false].
  set (ux := vx B - vx A). set (uy := vy B - vy A).
  assert (Hux : ux <> 0) by (unfold ux; lra). assert (Huy : uy <> 0) by (unfold uy; lra).
  assert (Hu : 0 < ux * ux + uy * uy) by (pose proof (Rsqr_pos_lt _ Hux); pose proof (Rsqr_pos_lt _ Huy); unfold Rsqr in *; lra).
  set (a := (vy A - vy B) / (vx A - vx B)). set (b := vy B - a * vx B). set (c := - (1 / a)). set (d := vy P - vx P * c).
  set (X := (d - b) / (c - a)). clearbody X. set (Y := a * X + b). set (k := (X - vx A) / ux).
  assert (Ea : a = uy / ux) by (unfold a, uy, ux; field; split; lra).
  assert (EX : X - vx A = k * ux) by (unfold k; field; done).
  assert (EY : Y - vy A = k * uy).
  { unfold Y, b. replace (a * X + (vy B - a * vx B) - vy A) with (a * (X - vx A) + (uy - a * ux)) by (unfold ux, uy; ring).
    rewrite EX, Ea. field. done. }
  rewrite EX, EY.
  destruct (Rltb 0 (k * ux * ux + k * uy * uy) && Rltb (planarNorm (k * ux) (k * uy)) (planarNorm ux uy)) eqn:Ek; [|apply ends_reached].
  apply andb_true_iff in Ek as [K1%Rltb_true K2%Rltb_true]. rewrite pn_lt in K2.
  assert (K0 : 0 < k) by (apply (Rmult_lt_reg_r (ux * ux + uy * uy)); lra).
  assert (K3 : k < 1).
  { apply Rnot_le_lt. intros H. assert (1 <= k * k) by nra.
    assert (1 * (ux * ux + uy * uy) <= k * k * (ux * ux + uy * uy)) by (apply Rmult_le_compat_r; lra). lra. }
  exists k. split; [lra|]. unfold seg_point, vadd, vscale, vsub. cbn. fold ux uy. rewrite <- EX, <- EY. f_equal; ring.
Qed.
(** along an axis only the extremities are considered *)
Lemma distance_axis A B P : vx A = vx B \/ vy A = vy B ->
  DistancePointSegment P A B = Rmin (planarNorm (vx P - vx A) (vy P - vy A)) (planarNorm (vx P - vx B) (vy P - vy B)).
Proof.
  intros H. unfold DistancePointSegment. replace (Reqb (vx A) (vx B) || Reqb (vy A) (vy B)) with true; [done|].
  symmetry. apply orb_true_iff. destruct H as [H|H]; [left|right]; by apply Reqb_true.
Qed.
Lemma distance_axis_wrong : exists A B P, segment_distance A B P 0 /\ DistancePointSegment P A B = 1.
Proof.
  exists (V3 0 0 0), (V3 2 0 0), (V3 1 0 0). split.
  - split; [|intros; apply pn_pos]. exists (1/2). split; [lra|]. unfold planarNorm, seg_point, vadd, vscale, vsub. cbn.
    match goal with |- 0 = sqrt ?x => replace x with 0 by field end. by rewrite sqrt_0.
  - rewrite distance_axis by (right; reflexivity). unfold planarNorm. cbn.
    match goal with |- Rmin (sqrt ?x) (sqrt ?y) = 1 => replace x with 1 by ring; replace y with 1 by ring end.
    rewrite sqrt_1. apply Rmin_left. lra.
Qed.
(** the foot of the perpendicular is computed with the wrong sign *)
Lemma distance_wrong : exists A B P, vx A <> vx B /\ vy A <> vy B /\ segment_distance A B P 0 /\ DistancePointSegment P A B = sqrt 2.
Proof.
  exists (V3 1 1 0), (V3 3 3 0), (V3 2 2 0). split; [cbn; lra|]. split; [cbn; lra|]. split.
  - split; [|intros; apply pn_pos]. exists (1/2). split; [lra|]. unfold planarNorm, seg_point, vadd, vscale, vsub. cbn.
    match goal with |- 0 = sqrt ?x => replace x with 0 by field end. by rewrite sqrt_0.
  - unfold DistancePointSegment. cbn.
    assert (Reqb 1 3 = false) as -> by (apply Reqb_false; lra). cbn [orb].
    match goal with |- context [Rltb 0 ?x] => assert (Rltb 0 x = false) as -> by (apply Rltb_false; replace x with (-12) by field; lra) end. cbn [andb].
    unfold planarNorm. match goal with |- Rmin (sqrt ?x) (sqrt ?y) = _ => replace x with 2 by ring; replace y with 2 by ring end.
    apply Rmin_left. lra.
Qed.
Lemma segment_sound A B P : InPolygon [A; B] P = true ->
  exists s, 0 <= s <= 1 /\ let Q := vadd A (vscale s (vsub B A)) in
    sqrt ((vx P - vx Q) * (vx P - vx Q) + (vy P - vy Q) * (vy P - vy Q)) < 1 / 1000.
Proof.
  cbn [InPolygon]. intros H%Rltb_true. destruct (distance_reached A B P) as (s & Hs & E).
  exists s. split; [done|]. rewrite E in H. exact H.
Qed.
Lemma segment_ends A B P : vx A = vx B \/ vy A = vy B ->
  InPolygon [A; B] P = true <-> sqrt ((vx P - vx A) * (vx P - vx A) + (vy P - vy A) * (vy P - vy A)) < 1 / 1000 \/
    sqrt ((vx P - vx B) * (vx P - vx B) + (vy P - vy B) * (vy P - vy B)) < 1 / 1000.
Proof.
  intros H. cbn [InPolygon]. rewrite Rltb_true, (distance_axis _ _ _ H). unfold planarNorm.
  split.
  - unfold Rmin. destruct (Rle_dec _ _); tauto.
  - intros [H1|H1]; (eapply Rle_lt_trans; [|exact H1]); [apply Rmin_l|apply Rmin_r].
Qed.
Lemma diagonal_apart : DistancePointSegment (V3 2 2 0) (V3 1 1 0) (V3 3 3 0) = sqrt 2.
Proof.
  unfold DistancePointSegment. cbn.
  assert (Reqb 1 3 = false) as -> by (apply Reqb_false; lra). cbn [orb].
  match goal with |- context [Rltb 0 ?x] => assert (Rltb 0 x = false) as -> by (apply Rltb_false; replace x with (-12) by field; lra) end. cbn [andb].
  unfold planarNorm. match goal with |- Rmin (sqrt ?x) (sqrt ?y) = _ => replace x with 2 by ring; replace y with 2 by ring end.
  apply Rmin_left. lra.
Qed.
Lemma axis_apart : DistancePointSegment (V3 1 0 0) (V3 0 0 0) (V3 2 0 0) = 1.
Proof.
  rewrite distance_axis by (right; reflexivity). unfold planarNorm. cbn.
  match goal with |- Rmin (sqrt ?x) (sqrt ?y) = 1 => replace x with 1 by ring; replace y with 1 by ring end.
  rewrite sqrt_1. apply Rmin_left. lra.
Qed.
Lemma segment_incomplete :
  (exists A B P, (exists s, 0 <= s <= 1 /\ P = vadd A (vscale s (vsub B A))) /\ vy A = vy B /\ InPolygon [A; B] P = false) /\
  (exists A B P, (exists s, 0 <= s <= 1 /\ P = vadd A (vscale s (vsub B A))) /\ vx A <> vx B /\ vy A <> vy B /\ InPolygon [A; B] P = false).
Proof.
  split.
  - exists (V3 0 0 0), (V3 2 0 0), (V3 1 0 0). split; [|split].
    + exists (1/2). split; [lra|]. unfold vadd, vscale, vsub. cbn. f_equal; field.
    + reflexivity.
    + cbn [InPolygon]. rewrite axis_apart. apply Rltb_false. lra.
  - exists (V3 1 1 0), (V3 3 3 0), (V3 2 2 0). split; [|split; [|split]].
    + exists (1/2). split; [lra|]. unfold vadd, vscale, vsub. cbn. f_equal; field.
    + cbn. lra.
    + cbn. lra.
    + cbn [InPolygon]. rewrite diagonal_apart. apply Rltb_false.
      assert (1 <= sqrt 2) by (rewrite <- sqrt_1 at 1; apply sqrt_le_1_alt; lra). lra.
Qed.
Lemma segment_case : InPolygon [V3 0 0 0; V3 2 0 0] (V3 0 0 5) = true /\ exists A B P, vx A <> vx B /\ vy A <> vy B /\ InPolygon [A; B] P = true.
Proof.
  assert (Z0 : sqrt 0 < 1 / 1000) by (rewrite sqrt_0; lra).
  split.
  - apply segment_ends; [right; reflexivity|]. left. cbn.
    match goal with |- sqrt ?x < _ => replace x with 0 by ring end. done.
  - exists (V3 0 0 0), (V3 1 (-1) 0), (V3 0 0 0). split; [cbn; lra|]. split; [cbn; lra|].
    cbn [InPolygon]. apply Rltb_true. unfold DistancePointSegment. cbn.
    assert (Reqb 0 1 = false) as -> by (apply Reqb_false; lra).
    assert (Reqb 0 (-1) = false) as -> by (apply Reqb_false; lra). cbn [orb].
    match goal with |- context [Rltb 0 ?x] => assert (Rltb 0 x = false) as -> by (apply Rltb_false; replace x with 0 by field; lra) end. cbn [andb].
    eapply Rle_lt_trans; [apply Rmin_l|]. unfold planarNorm. match goal with |- sqrt ?x < _ => replace x with 0 by ring end. done.
Qed.
