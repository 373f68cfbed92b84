(** Proofs for the friction cone of a jump. *)
From Coq Require Import Lia Psatz.
From Verif Require Import Maps Vec ParaModel ParaSpec ParaProofs FricModel FricSpec.
Local Open Scope R_scope.

(** * the cone in a plane *)
Lemma launch_unit theta beta : vnorm2 (launch theta beta) = 1.
Proof.
  unfold vnorm2, vdot, launch; cbn. pose proof (sin2_cos2 theta) as A. pose proof (sin2_cos2 beta) as C. unfold Rsqr in *.
  replace (cos beta * cos theta * (cos beta * cos theta) + cos beta * sin theta * (cos beta * sin theta) + sin beta * sin beta)
    with (cos beta * cos beta * (sin theta * sin theta + cos theta * cos theta) + sin beta * sin beta) by ring.
  rewrite A. lra.
Qed.
Lemma noSlip_char mu n d : 0 <= mu -> vnorm2 n = 1 -> vnorm2 d = 1 ->
  noSlip mu n d <-> 0 <= vdot d n /\ 1 <= (1 + mu * mu) * (vdot d n * vdot d n).
Proof.
  intros Hmu Hn Hd. unfold noSlip. set (S := vdot d n).
  assert (E : vnorm2 (vsub d (vscale S n)) = 1 - S * S).
  { unfold vnorm2, vdot, vsub, vscale in *; cbn in *. destruct d as [a b c], n as [x y z]; cbn in *. subst S; cbn in *. unfold vdot; cbn. set (S := a * x + b * y + c * z).
    replace ((a - S * x) * (a - S * x) + (b - S * y) * (b - S * y) + (c - S * z) * (c - S * z))
      with ((a * a + b * b + c * c) - 2 * S * (a * x + b * y + c * z) + S * S * (x * x + y * y + z * z)) by ring.
    rewrite Hn, Hd. fold S. ring. }
  unfold vnorm. rewrite E. assert (P : 0 <= 1 - S * S).
  { rewrite <- E. unfold vnorm2, vdot. nra. }
  split; intros [H0 H1]; (split; [exact H0|]).
  - assert (Q : sqrt (1 - S * S) * sqrt (1 - S * S) <= mu * S * (mu * S)).
    { apply Rmult_le_compat; auto using sqrt_pos. }
    rewrite sqrt_sqrt in Q by exact P. nra.
  - rewrite <- (sqrt_square (mu * S)) by (apply Rmult_le_pos; auto). apply sqrt_le_1_alt. nra.
Qed.
Lemma dot_launch theta beta n r eta : vx n * cos theta + vy n * sin theta = r * cos eta -> vz n = r * sin eta ->
  vdot (launch theta beta) n = r * cos (beta - eta).
Proof.
  intros H1 H2. unfold vdot, launch; cbn. rewrite cos_minus, H2.
  replace (cos beta * cos theta * vx n + cos beta * sin theta * vy n) with (cos beta * (vx n * cos theta + vy n * sin theta)) by ring.
  rewrite H1. ring.
Qed.
Lemma radius theta n r eta : vx n * cos theta + vy n * sin theta = r * cos eta -> vz n = r * sin eta ->
  r * r = (vx n * cos theta + vy n * sin theta) * (vx n * cos theta + vy n * sin theta) + vz n * vz n.
Proof. intros -> ->. pose proof (sin2_cos2 eta) as A. unfold Rsqr in A. nra. Qed.
Lemma radius_le theta n : vnorm2 n = 1 ->
  (vx n * cos theta + vy n * sin theta) * (vx n * cos theta + vy n * sin theta) + vz n * vz n <= 1.
Proof.
  intros Hn. unfold vnorm2, vdot in Hn. pose proof (sin2_cos2 theta) as A. unfold Rsqr in A.
  set (c := cos theta) in *. set (s := sin theta) in *. set (x := vx n) in *. set (y := vy n) in *.
  assert (0 <= (x * s - y * c) * (x * s - y * c)) by apply Rle_0_sqr.
  assert ((x * c + y * s) * (x * c + y * s) + (x * s - y * c) * (x * s - y * c) = (x * x + y * y) * (s * s + c * c)) by ring.
  rewrite A in *. lra.
Qed.

(** the half angle *)
Definition half (q : R) : R := 1 / 2 * acos (2 / q - 1).
Lemma half_cos q : 1 <= q -> cos (half q) * cos (half q) = / q /\ 0 <= cos (half q) /\ 0 <= half q <= PI / 2.
Proof.
  intros Hq. unfold half.
  assert (B : -1 <= 2 / q - 1 <= 1).
  { assert (0 < / q) by (apply Rinv_0_lt_compat; lra). assert (/ q <= 1) by (rewrite <- Rinv_1; apply Rinv_le_contravar; lra). unfold Rdiv; lra. }
  pose proof (acos_bound (2 / q - 1)) as C. pose proof PI_RGT_0.
  set (d := 1 / 2 * acos (2 / q - 1)) in *. assert (D : 0 <= d <= PI / 2) by (unfold d; lra).
  assert (E : cos (2 * d) = 2 / q - 1).
  { replace (2 * d) with (acos (2 / q - 1)) by (unfold d; lra). apply cos_acos; exact B. }
  assert (P : 0 <= cos d) by (apply cos_ge_0; lra).
  rewrite cos_2a_cos in E. split; [|split; auto]. unfold Rdiv in E. lra.
Qed.
Lemma half_in q x : 1 <= q -> Rabs x <= PI -> (0 <= cos x /\ 1 <= q * (cos x * cos x)) <-> Rabs x <= half q.
Proof.
  intros Hq Hx. destruct (half_cos q Hq) as (E & P & B). pose proof PI_RGT_0.
  assert (cx : cos x = cos (Rabs x)) by (unfold Rabs; destruct (Rcase_abs x); [rewrite cos_neg; auto|auto]).
  rewrite cx. set (y := Rabs x) in *. assert (0 <= y) by apply Rabs_pos.
  assert (Iq : q * / q = 1) by (apply Rinv_r; lra).
  split.
  - intros [H1 H2]. destruct (Rle_lt_dec y (half q)) as [|Hlt]; [auto|exfalso].
    assert (cos y < cos (half q)) by (apply cos_decreasing_1; lra).
    assert (cos y * cos y < cos (half q) * cos (half q)) by (apply Rmult_le_0_lt_compat; auto).
    rewrite E in *. assert (q * (cos y * cos y) < q * / q) by (apply Rmult_lt_compat_l; lra). lra.
  - intros Hle. assert (cos (half q) <= cos y).
    { destruct Hle as [Hlt | ->]; [|lra]. apply Rlt_le, cos_decreasing_1; lra. }
    split; [lra|]. assert (cos (half q) * cos (half q) <= cos y * cos y) by (apply Rmult_le_compat; auto).
    rewrite E in *. assert (q * / q <= q * (cos y * cos y)) by (apply Rmult_le_compat_l; lra). lra.
Qed.
Lemma half_phi mu q : 0 <= mu -> 1 <= q -> q <= 1 + mu * mu -> half q <= atan mu.
Proof.
  intros Hmu Hq Hle. destruct (half_cos q Hq) as (E & P & B).
  destruct (Rle_lt_dec (half q) (atan mu)) as [|Hlt]; [auto|exfalso].
  pose proof (atan_bound mu). assert (0 <= atan mu).
  { destruct Hmu as [Hmu | <-]; [rewrite <- atan_0; apply Rlt_le, atan_increasing; auto|rewrite atan_0; lra]. }
  pose proof PI_RGT_0.
  assert (L : cos (half q) < cos (atan mu)) by (apply cos_decreasing_1; lra).
  assert (C : cos (atan mu) * cos (atan mu) = / (1 + mu * mu)).
  { rewrite cos_atan. unfold Rsqr, Rdiv. assert (0 < 1 + mu * mu) by nra.
    rewrite Rmult_1_l, <- Rinv_mult_distr, sqrt_sqrt by (try apply Rgt_not_eq, sqrt_lt_R0; lra). reflexivity. }
  assert (cos (half q) * cos (half q) < cos (atan mu) * cos (atan mu)) by (apply Rmult_le_0_lt_compat; auto).
  rewrite E, C in *. assert (/ (1 + mu * mu) <= / q) by (apply Rinv_le_contravar; lra). lra.
Qed.

(** * the values computed *)
(** two slopes [k1], [k2] of the plane on the cone: [s], [a]: squared length and product with
    the normal of the horizontal direction, [w]: vertical component of the normal *)
Lemma two_slopes c a w s k1 k2 e d D : 0 < c -> 0 < s -> D = 1 - c * (w * w) -> D <> 0 -> d * d = c * (a * a + w * w * s) - s ->
  k1 = (c * w * a + d) / D -> k2 = (c * w * a - d) / D -> e = (if Rlt_dec D 0 then -1 else 1) -> s <= c * (a * a + w * w * s) ->
  e * (s + k1 * k2) / sqrt ((s + k1 * k1) * (s + k2 * k2)) = 2 / (c * (a * a + w * w * s) / s) - 1.
Proof.
  intros Hc Hs HD D0 Hd H1 H2 He Hq.
  set (Q := a * a + w * w * s) in *.
  assert (Qp : 0 < Q). { destruct (Rle_lt_dec Q 0) as [HQ|]; [exfalso; assert (c * Q <= 0) by nra; lra|auto]. }
  assert (S1 : s + k1 * k1 = c * ((a + w * k1) * (a + w * k1))).
  { assert (k1 * D = c * w * a + d) by (rewrite H1; field; auto).
    assert (T : (s + k1 * k1 - c * ((a + w * k1) * (a + w * k1))) * D = 0).
    { replace ((s + k1 * k1 - c * ((a + w * k1) * (a + w * k1))) * D) with
        (s * D + k1 * (k1 * D) * (1 - c * (w * w)) - c * a * a * D - 2 * c * a * w * (k1 * D)) by ring.
      rewrite <- HD. replace (k1 * (k1 * D) * D) with ((k1 * D) * (k1 * D)) by ring. rewrite H.
      replace (s * D + (c * w * a + d) * (c * w * a + d) - c * a * a * D - 2 * c * a * w * (c * w * a + d))
        with (s * D + d * d - c * a * a * (c * (w * w)) - c * a * a * D) by ring.
      rewrite Hd, HD. unfold Q. ring. }
    apply Rmult_integral in T. destruct T as [T|T]; [lra|contradiction]. }
  assert (S2 : s + k2 * k2 = c * ((a + w * k2) * (a + w * k2))).
  { assert (k2 * D = c * w * a - d) by (rewrite H2; field; auto).
    assert (T : (s + k2 * k2 - c * ((a + w * k2) * (a + w * k2))) * D = 0).
    { replace ((s + k2 * k2 - c * ((a + w * k2) * (a + w * k2))) * D) with
        (s * D + k2 * (k2 * D) * (1 - c * (w * w)) - c * a * a * D - 2 * c * a * w * (k2 * D)) by ring.
      rewrite <- HD. replace (k2 * (k2 * D) * D) with ((k2 * D) * (k2 * D)) by ring. rewrite H.
      replace (s * D + (c * w * a - d) * (c * w * a - d) - c * a * a * D - 2 * c * a * w * (c * w * a - d))
        with (s * D + d * d - c * a * a * (c * (w * w)) - c * a * a * D) by ring.
      rewrite Hd, HD. unfold Q. ring. }
    apply Rmult_integral in T. destruct T as [T|T]; [lra|contradiction]. }
  assert (N : s + k1 * k2 = (2 * s - c * Q) / D).
  { rewrite H1, H2. apply (Rmult_eq_reg_r (D * D)); [|nra].
    replace ((s + (c * w * a + d) / D * ((c * w * a - d) / D)) * (D * D)) with (s * D * D + (c * w * a * (c * w * a) - d * d)) by (field; auto).
    replace ((2 * s - c * Q) / D * (D * D)) with ((2 * s - c * Q) * D) by (field; auto).
    rewrite Hd. fold Q. rewrite HD. unfold Q. ring. }
  assert (M : (a + w * k1) * (a + w * k2) = Q / D).
  { rewrite H1, H2. apply (Rmult_eq_reg_r (D * D)); [|nra].
    replace ((a + w * ((c * w * a + d) / D)) * (a + w * ((c * w * a - d) / D)) * (D * D))
      with ((a * D + w * (c * w * a)) * (a * D + w * (c * w * a)) - w * w * (d * d)) by (field; auto).
    replace (Q / D * (D * D)) with (Q * D) by (field; auto). rewrite Hd, HD. unfold Q. ring. }
  rewrite S1, S2.
  replace (c * ((a + w * k1) * (a + w * k1)) * (c * ((a + w * k2) * (a + w * k2))))
    with ((c * ((a + w * k1) * (a + w * k2))) * (c * ((a + w * k1) * (a + w * k2)))) by ring.
  rewrite M, N, He.
  destruct (Rlt_dec D 0) as [Hn|Hn].
  - replace (c * (Q / D) * (c * (Q / D))) with ((c * (Q / - D)) * (c * (Q / - D))) by (field; lra).
    rewrite sqrt_square. { field. split; [lra|split; [lra|lra]]. }
    apply Rmult_le_pos; [lra|]. apply Rlt_le, Rdiv_lt_0_compat; lra.
  - rewrite sqrt_square. { field. split; [lra|split; [lra|lra]]. }
    apply Rmult_le_pos; [lra|]. apply Rlt_le, Rdiv_lt_0_compat; lra.
Qed.
(** the cone contains a vertical line *)
Lemma one_slope c a w s H : 0 < c -> 0 < s -> c * (w * w) = 1 -> a <> 0 -> H = (s - c * (a * a)) / (2 * c * Rabs w * Rabs a) ->
  H / sqrt (s + H * H) = 2 / (c * (a * a + w * w * s) / s) - 1.
Proof.
  intros Hc Hs Hw Ha HH.
  assert (w0 : w <> 0) by (intros ->; rewrite !Rmult_0_r in Hw; lra).
  assert (Wp : 0 < Rabs w) by (apply Rabs_pos_lt; auto). assert (Ap : 0 < Rabs a) by (apply Rabs_pos_lt; auto).
  assert (WW : Rabs w * Rabs w = w * w) by (rewrite <- Rabs_mult; apply Rabs_pos_eq; nra).
  assert (AA : Rabs a * Rabs a = a * a) by (rewrite <- Rabs_mult; apply Rabs_pos_eq; nra).
  set (X := Rabs w) in *. set (Y := Rabs a) in *.
  assert (P : 0 < 2 * c * X * Y) by (repeat apply Rmult_lt_0_compat; lra).
  assert (T : s + H * H = ((s + c * (a * a)) / (2 * c * X * Y)) * ((s + c * (a * a)) / (2 * c * X * Y))).
  { rewrite HH. apply (Rmult_eq_reg_r ((2 * c * X * Y) * (2 * c * X * Y))); [|nra].
    replace ((s + c * (a * a)) / (2 * c * X * Y) * ((s + c * (a * a)) / (2 * c * X * Y)) * (2 * c * X * Y * (2 * c * X * Y)))
      with ((s + c * (a * a)) * (s + c * (a * a))) by (field; lra).
    replace ((s + (s - c * (a * a)) / (2 * c * X * Y) * ((s - c * (a * a)) / (2 * c * X * Y))) * (2 * c * X * Y * (2 * c * X * Y)))
      with (s * (4 * c * (c * (X * X)) * (Y * Y)) + (s - c * (a * a)) * (s - c * (a * a))) by (field; lra).
    rewrite WW, AA, Hw. ring. }
  assert (Q : 0 < s + c * (a * a)) by (assert (0 <= c * (a * a)) by (apply Rmult_le_pos; nra); lra).
  rewrite T, sqrt_square by (apply Rlt_le, Rdiv_lt_0_compat; lra).
  replace (c * (a * a + w * w * s)) with (c * (a * a) + c * (w * w) * s) by ring. rewrite Hw, HH. field. repeat split; lra.
Qed.

(** * the sign: a cone that contains a vertical line inside is never taken for another *)
Lemma sign_right mu n theta : 0 <= mu -> vnorm2 n = 1 -> vx n * vx n + vy n * vy n - vz n * vz n * mu * mu < 0 ->
  nonVertical (PI / 2 - atan2 (vz n) (vx n * cos theta + vy n * sin theta)) (atan mu) = false.
Proof.
  intros Hmu Hn HD. unfold vnorm2, vdot in Hn.
  set (w := vz n) in *. set (m := vx n * cos theta + vy n * sin theta).
  assert (Hw : 1 < (1 + mu * mu) * (w * w)) by nra.
  assert (w0 : w <> 0) by (intros E; rewrite E in Hw; lra).
  pose proof (radius_le theta n) as Hr. unfold vnorm2, vdot in Hr. specialize (Hr Hn). fold m w in Hr.
  destruct (atan2_spec w m (or_intror w0)) as [_ Hs].
  set (A := atan2 w m) in *. set (psi := PI / 2 - A). set (r := sqrt (m * m + w * w)) in *.
  assert (rp : 0 < m * m + w * w) by nra.
  assert (rr : r * r = m * m + w * w) by (unfold r; apply sqrt_sqrt; lra).
  assert (Cp : cos psi = sin A) by (unfold psi; rewrite cos_shift; reflexivity).
  assert (sw : r * r * (sin A * sin A) = w * w) by (replace (r * r * (sin A * sin A)) with ((r * sin A) * (r * sin A)) by ring; rewrite Hs; ring).
  assert (C2 : cos (atan mu) * cos (atan mu) * (1 + mu * mu) = 1).
  { rewrite cos_atan. unfold Rsqr, Rdiv. assert (0 < 1 + mu * mu) by nra.
    rewrite Rmult_1_l, <- Rinv_mult_distr, sqrt_sqrt by (try apply Rgt_not_eq, sqrt_lt_R0; lra). apply Rinv_l; lra. }
  assert (Big : cos (atan mu) * cos (atan mu) < cos psi * cos psi).
  { rewrite Cp. assert (w * w <= sin A * sin A).
    { rewrite <- sw. assert (0 <= sin A * sin A) by apply Rle_0_sqr. rewrite rr. nra. }
    assert (cos (atan mu) * cos (atan mu) < w * w); [|lra].
    apply (Rmult_lt_reg_r (1 + mu * mu)); [nra|]. lra. }
  pose proof (atan_bound mu) as Bd. assert (P0 : 0 <= atan mu).
  { destruct Hmu as [Hmu | <-]; [rewrite <- atan_0; apply Rlt_le, atan_increasing; auto|rewrite atan_0; lra]. }
  pose proof PI_RGT_0 as HPI. set (phi := atan mu) in *.
  assert (Cph : 0 <= cos phi) by (apply cos_ge_0; lra).
  assert (Out : forall x, 0 <= x <= cos phi -> x * x <= cos phi * cos phi) by (intros x Hx; apply Rmult_le_compat; lra).
  unfold nonVertical. apply orb_false_iff; split; [apply orb_false_iff; split|]; apply andb_false_iff.
  - destruct (Rltb psi (- phi)) eqn:E1; [right|left; reflexivity]. apply Rltb_true in E1.
    destruct (Rleb (- PI / 2) psi) eqn:E2; [exfalso|reflexivity]. apply Rleb_true in E2.
    assert (cos psi <= cos phi).
    { rewrite <- (cos_neg psi). apply Rlt_le, cos_decreasing_1; lra. }
    assert (0 <= cos psi) by (apply cos_ge_0; lra). specialize (Out (cos psi)). lra.
  - destruct (Rltb phi psi) eqn:E1; [right|left; reflexivity]. apply Rltb_true in E1.
    destruct (Rltb psi (PI - phi)) eqn:E2; [exfalso|reflexivity]. apply Rltb_true in E2.
    assert (cos psi < cos phi) by (apply cos_decreasing_1; lra).
    assert (cos (PI - phi) < cos psi) by (apply cos_decreasing_1; lra).
    rewrite Rtrigo_facts.cos_pi_minus in *.
    destruct (Rle_lt_dec 0 (cos psi)).
    + specialize (Out (cos psi)). lra.
    + specialize (Out (- cos psi)). nra.
  - destruct (Rltb (PI + phi) psi) eqn:E1; [right|left; reflexivity]. apply Rltb_true in E1.
    destruct (Rleb psi (3 * PI / 2)) eqn:E2; [exfalso|reflexivity]. apply Rleb_true in E2.
    set (x := psi - PI). assert (Ex : cos psi = - cos x).
    { replace psi with (x + PI) by (unfold x; ring). rewrite neg_cos. reflexivity. }
    assert (cos x <= cos phi) by (apply Rlt_le, cos_decreasing_1; unfold x; lra).
    assert (0 <= cos x) by (apply cos_ge_0; unfold x; lra).
    specialize (Out (cos x)). rewrite Ex in Big. nra.
Qed.
(** * what is answered *)
Definition along (theta : R) (n : vec3) : R := vx n * cos theta + vy n * sin theta.
Definition spread (mu theta : R) (n : vec3) : R := (1 + mu * mu) * (along theta n * along theta n + vz n * vz n).
Lemma spread_le mu theta n : vnorm2 n = 1 -> spread mu theta n <= 1 + mu * mu.
Proof.
  intros Hn. pose proof (radius_le theta n Hn). unfold spread, along. assert (0 <= mu * mu) by nra.
  assert ((1 + mu * mu) * ((vx n * cos theta + vy n * sin theta) * (vx n * cos theta + vy n * sin theta) + vz n * vz n) <= (1 + mu * mu) * 1) by (apply Rmult_le_compat_l; lra). lra.
Qed.
Lemma answered mu theta n q : 0 <= mu -> vnorm2 n = 1 -> q = spread mu theta n -> 1 <= q ->
  checked (atan mu) (1 / 2 * acos (2 / q - 1)) = Ok (Some (half q)).
Proof.
  intros Hmu Hn Eq Hq. pose proof (spread_le mu theta n Hn) as Hl. rewrite <- Eq in Hl.
  pose proof (half_phi mu q Hmu Hq Hl) as Hp. unfold checked. fold (half q).
  replace (Rleb (half q) (atan mu + 1 / 100000)) with true; [reflexivity|]. symmetry. apply Rleb_true. lra.
Qed.
Lemma cone_of mu theta n eta beta : 0 <= mu -> vnorm2 n = 1 -> elevation theta n eta ->
  0 <= mu -> noSlip mu n (launch theta beta) <->
  exists r, 0 <= r /\ (1 + mu * mu) * (r * r) = spread mu theta n /\ 0 <= r * cos (beta - eta) /\ 1 <= spread mu theta n * (cos (beta - eta) * cos (beta - eta)).
Proof.
  intros Hmu Hn (r & R0 & R1 & R2) _.
  rewrite (noSlip_char mu n (launch theta beta) Hmu Hn (launch_unit theta beta)).
  rewrite (dot_launch theta beta n r eta R1 R2).
  assert (E : (1 + mu * mu) * (r * r) = spread mu theta n) by (rewrite (radius theta n r eta R1 R2); reflexivity).
  split.
  - intros [A1 A2]. exists r. split; [auto|]. split; [auto|]. split; [auto|]. rewrite <- E. lra.
  - intros (r' & P0 & P1 & P2 & P3). assert (r' = r).
    { assert (r' * r' = r * r). { apply (Rmult_eq_reg_l (1 + mu * mu)); [lra|nra]. } nra. }
    subst r'. split; [auto|]. rewrite <- E in P3. lra.
Qed.
Lemma cone_half mu theta n eta beta : 0 <= mu -> vnorm2 n = 1 -> elevation theta n eta -> 1 <= spread mu theta n ->
  Rabs (beta - eta) <= PI -> (noSlip mu n (launch theta beta) <-> Rabs (beta - eta) <= half (spread mu theta n)).
Proof.
  intros Hmu Hn He Hq Hx. rewrite <- (half_in _ _ Hq Hx). rewrite (cone_of mu theta n eta beta Hmu Hn He Hmu).
  split.
  - intros (r & P0 & P1 & P2 & P3). split; [|exact P3]. assert (r <> 0) by (intros ->; lra). nra.
  - intros [A1 A2]. destruct He as (r & R0 & R1 & R2). exists r. split; [auto|]. split; [rewrite (radius theta n r eta R1 R2); reflexivity|].
    split; [nra|exact A2].
Qed.
Lemma cos_zero theta : - PI <= theta <= PI -> cos theta = 0 -> theta = PI / 2 \/ theta = - PI / 2.
Proof.
  intros B H. pose proof PI_RGT_0.
  destruct (Rle_lt_dec theta 0).
  - right. rewrite <- cos_neg in H. assert (- theta = PI / 2); [|lra]. apply cos_inj; try lra. rewrite cos_PI2. auto.
  - left. apply cos_inj; try lra. rewrite cos_PI2. auto.
Qed.
Lemma def_true theta : - PI <= theta <= PI -> cos theta <> 0 -> negb (Reqb theta (PI / 2)) && negb (Reqb theta (- PI / 2)) = true.
Proof.
  intros B H. apply andb_true_iff; split; apply negb_true_iff; destruct (Reqb _ _) eqn:E; auto; apply Reqb_true in E; subst; exfalso; apply H.
  - apply cos_PI2.
  - replace (- PI / 2) with (- (PI / 2)) by lra. rewrite cos_neg. apply cos_PI2.
Qed.
Lemma def_false theta : - PI <= theta <= PI -> cos theta = 0 -> negb (Reqb theta (PI / 2)) && negb (Reqb theta (- PI / 2)) = false /\ sin theta * sin theta = 1.
Proof.
  intros B H. split.
  - destruct (cos_zero theta B H) as [-> | ->].
    + replace (Reqb (PI / 2) (PI / 2)) with true by (symmetry; apply Reqb_true; auto). reflexivity.
    + replace (Reqb (- PI / 2) (- PI / 2)) with true by (symmetry; apply Reqb_true; auto). rewrite andb_false_r. reflexivity.
  - pose proof (sin2_cos2 theta) as A. unfold Rsqr in A. rewrite H in A. lra.
Qed.
Lemma near_true d : d = 0 -> Rltb (- (1 / 1000000)) d && Rltb d (1 / 1000000) = true.
Proof. intros ->. apply andb_true_iff; split; apply Rltb_true; lra. Qed.
Lemma near_false d : 1 / 1000000 <= Rabs d -> Rltb (- (1 / 1000000)) d && Rltb d (1 / 1000000) = false.
Proof.
  intros H. apply andb_false_iff. destruct (Rltb (- (1 / 1000000)) d) eqn:E1; [right|left; reflexivity].
  destruct (Rltb d (1 / 1000000)) eqn:E2; [exfalso|reflexivity]. apply Rltb_true in E1, E2.
  unfold Rabs in H; destruct (Rcase_abs d); lra.
Qed.
Lemma eps_right mu n theta D : 0 <= mu -> vnorm2 n = 1 -> D = vx n * vx n + vy n * vy n - vz n * vz n * mu * mu -> 
  (if negb (nonVertical (PI / 2 - atan2 (vz n) (vx n * cos theta + vy n * sin theta)) (atan mu)) && Rltb D 0 then -1 else 1) =
  (if Rlt_dec D 0 then -1 else 1).
Proof.
  intros Hmu Hn ->. destruct (Rlt_dec _ _) as [H|H].
  - rewrite (sign_right mu n theta Hmu Hn H). replace (Rltb _ 0) with true by (symmetry; apply Rltb_true; auto). reflexivity.
  - replace (Rltb _ 0) with false; [rewrite andb_false_r; reflexivity|]. symmetry. destruct (Rltb _ _) eqn:E; auto. apply Rltb_true in E. lra.
Qed.
Lemma slope_facts mu n theta : cos theta <> 0 ->
  1 + tan theta * tan theta = / (cos theta * cos theta) /\ 0 < cos theta * cos theta /\
  along theta n = cos theta * (vx n + vy n * tan theta) /\
  spread mu theta n = (1 + mu * mu) * ((vx n + vy n * tan theta) * (vx n + vy n * tan theta) + vz n * vz n * (1 + tan theta * tan theta)) / (1 + tan theta * tan theta).
Proof.
  intros H. pose proof (sin2_cos2 theta) as A. unfold Rsqr in A.
  assert (C : 0 < cos theta * cos theta) by nra.
  assert (T : 1 + tan theta * tan theta = / (cos theta * cos theta)).
  { unfold tan. apply (Rmult_eq_reg_r (cos theta * cos theta)); [|lra]. rewrite Rinv_l by lra.
    replace ((1 + sin theta / cos theta * (sin theta / cos theta)) * (cos theta * cos theta)) with (cos theta * cos theta + sin theta * sin theta) by (field; auto). lra. }
  assert (L : along theta n = cos theta * (vx n + vy n * tan theta)) by (unfold along, tan; field; auto).
  split; [auto|]. split; [auto|]. split; [auto|]. unfold spread. rewrite L, T. field. auto.
Qed.
Lemma graze_run mu n theta : 0 <= mu -> vnorm2 n = 1 -> - PI <= theta <= PI -> grazesVertical mu n -> along theta n <> 0 ->
  fiveth_constraint mu n theta = Ok (Some (half (spread mu theta n))) /\ 1 <= spread mu theta n.
Proof.
  intros Hmu Hn Ht Hg Ha. unfold grazesVertical in Hg. pose proof Hn as Hn'. unfold vnorm2, vdot in Hn'.
  assert (Hw : (1 + mu * mu) * (vz n * vz n) = 1) by lra.
  assert (Q1 : 1 <= spread mu theta n). { unfold spread. assert (0 <= (1 + mu * mu) * (along theta n * along theta n)) by (apply Rmult_le_pos; nra). lra. }
  split; [|exact Q1]. unfold fiveth_constraint. cbv zeta.
  rewrite near_true by lra.
  destruct (Req_EM_T (cos theta) 0) as [C0|C0].
  - destruct (def_false theta Ht C0) as [-> S2].
    assert (A2 : along theta n = vy n * sin theta) by (unfold along; rewrite C0; ring).
    assert (V0 : vy n <> 0) by (intros E; apply Ha; rewrite A2, E; ring).
    replace (Reqb (vy n) 0) with false by (symmetry; destruct (Reqb (vy n) 0) eqn:E; auto; apply Reqb_true in E; contradiction). cbn [negb].
    rewrite (one_slope (1 + mu * mu) (vy n) (vz n) 1); auto; try lra; [|nra|].
    + assert (Eq : (1 + mu * mu) * (vy n * vy n + vz n * vz n * 1) / 1 = spread mu theta n).
      { unfold spread. rewrite A2. replace (vy n * sin theta * (vy n * sin theta)) with (vy n * vy n * (sin theta * sin theta)) by ring. rewrite S2. field. }
      rewrite Eq. apply (answered mu theta n); auto.
    + f_equal; [ring|ring].
  - rewrite (def_true theta Ht C0). destruct (slope_facts mu n theta C0) as (T & C2 & L & Eq).
    set (t := tan theta) in *. assert (A0 : vx n + vy n * t <> 0) by (intros E; apply Ha; rewrite L, E; ring).
    replace (Reqb (vx n + vy n * t) 0) with false by (symmetry; destruct (Reqb (vx n + vy n * t) 0) eqn:E; auto; apply Reqb_true in E; contradiction). cbn [negb].
    rewrite (one_slope (1 + mu * mu) (vx n + vy n * t) (vz n) (1 + t * t)); auto; try nra.
    + rewrite <- Eq. apply (answered mu theta n); auto.
    + f_equal.
      replace (1 + t * t - (1 + mu * mu) * ((vx n + vy n * t) * (vx n + vy n * t)))
        with ((1 + t * t) * (vx n * vx n + vy n * vy n + vz n * vz n) - (1 + mu * mu) * ((vx n + vy n * t) * (vx n + vy n * t))) by (rewrite Hn'; ring).
      ring.
Qed.
Lemma tangent_run mu n theta : 0 <= mu -> vnorm2 n = 1 -> - PI <= theta <= PI -> grazesVertical mu n -> along theta n = 0 ->
  spread mu theta n = 1 /\ (cos theta <> 0 -> fiveth_constraint mu n theta = Ok (Some (PI / 4))) /\ (cos theta = 0 -> fiveth_constraint mu n theta = Ok None).
Proof.
  intros Hmu Hn Ht Hg Ha. unfold grazesVertical in Hg. pose proof Hn as Hn'. unfold vnorm2, vdot in Hn'.
  split. { unfold spread. rewrite Ha. lra. }
  unfold fiveth_constraint. cbv zeta. rewrite near_true by lra. split; intros C0.
  - rewrite (def_true theta Ht C0). destruct (slope_facts mu n theta C0) as (T & C2 & L & Eq).
    assert (A0 : vx n + vy n * tan theta = 0). { rewrite Ha in L. symmetry in L. apply Rmult_integral in L. destruct L; [contradiction|auto]. }
    replace (Reqb (vx n + vy n * tan theta) 0) with true by (symmetry; apply Reqb_true; auto). reflexivity.
  - destruct (def_false theta Ht C0) as [-> S2].
    assert (A2 : vy n * sin theta = 0) by (unfold along in Ha; rewrite C0 in Ha; lra).
    assert (V0 : vy n = 0) by (apply Rmult_integral in A2; destruct A2 as [|E]; [auto|rewrite E in S2; lra]).
    rewrite V0. replace (Reqb 0 0) with true by (symmetry; apply Reqb_true; auto). reflexivity.
Qed.
(** the margin below which the intersection is given up *)
Definition margin (theta : R) : R := if Req_EM_T (cos theta) 0 then 5 / 100 else 5 / 100 * (cos theta * cos theta).
Lemma clear_run mu n theta : 0 <= mu -> vnorm2 n = 1 -> - PI <= theta <= PI -> clearOfVertical mu n ->
  (spread mu theta n - 1 < margin theta -> fiveth_constraint mu n theta = Ok None) /\
  (margin theta <= spread mu theta n - 1 -> fiveth_constraint mu n theta = Ok (Some (half (spread mu theta n))) /\ 1 <= spread mu theta n).
Proof.
  intros Hmu Hn Ht Hc. unfold clearOfVertical in Hc. pose proof Hn as Hn'. unfold vnorm2, vdot in Hn'.
  unfold fiveth_constraint. cbv zeta.
  set (D := vx n * vx n + vy n * vy n - vz n * vz n * mu * mu).
  assert (ED : D = 1 - (1 + mu * mu) * (vz n * vz n)) by (unfold D; lra).
  replace (vx n * vx n + vy n * vy n - mu * mu * (vz n * vz n)) with D in Hc by (unfold D; ring).
  rewrite near_false by exact Hc.
  rewrite (eps_right mu n theta D Hmu Hn eq_refl).
  assert (D0 : D <> 0) by (intros E; rewrite E, Rabs_R0 in Hc; lra).
  assert (cp : 0 < 1 + mu * mu) by nra.
  unfold margin. destruct (Req_EM_T (cos theta) 0) as [C0|C0].
  - destruct (def_false theta Ht C0) as [-> S2].
    assert (A2 : along theta n = vy n * sin theta) by (unfold along; rewrite C0; ring).
    assert (Eq : spread mu theta n = (1 + mu * mu) * (vy n * vy n + vz n * vz n * 1)).
    { unfold spread. rewrite A2. replace (vy n * sin theta * (vy n * sin theta)) with (vy n * vy n * (sin theta * sin theta)) by ring. rewrite S2. ring. }
    set (d := - vx n * vx n + (vy n * vy n + vz n * vz n) * (mu * mu)).
    assert (Ed : d = spread mu theta n - 1) by (rewrite Eq; unfold d; lra).
    split; intros Hm.
    + destruct (Rltb d 0) eqn:E1; [reflexivity|]. replace (Rltb d (5 / 100)) with true; [reflexivity|]. symmetry. apply Rltb_true. lra.
    + replace (Rltb d 0) with false by (symmetry; apply Rltb_false; lra). replace (Rltb d (5 / 100)) with false by (symmetry; apply Rltb_false; lra).
      split; [|lra].
      assert (Sd : sqrt d * sqrt d = (1 + mu * mu) * (vy n * vy n + vz n * vz n * 1) - 1) by (rewrite sqrt_sqrt by lra; lra).
      assert (V := two_slopes (1 + mu * mu) (vy n) (vz n) 1 _ _ _ (sqrt d) D cp Rlt_0_1 ED D0 Sd eq_refl eq_refl eq_refl).
      replace ((1 + mu * mu) * vy n * vz n) with ((1 + mu * mu) * vz n * vy n) by ring.
      rewrite V by lra. replace ((1 + mu * mu) * (vy n * vy n + vz n * vz n * 1) / 1) with (spread mu theta n) by (rewrite Eq; field).
      apply (answered mu theta n); auto; lra.
  - rewrite (def_true theta Ht C0). destruct (slope_facts mu n theta C0) as (T & C2 & L & Eq).
    set (t := tan theta) in *. set (a := vx n + vy n * t) in *.
    assert (sp : 0 < 1 + t * t) by nra.
    set (d := (vx n * vx n + vz n * vz n) * mu * mu - vy n * vy n - vx n * vx n * t * t + (vy n * vy n + vz n * vz n) * mu * mu * t * t + 2 * (1 + mu * mu) * vx n * vy n * t).
    assert (Ed : d = (1 + mu * mu) * (a * a + vz n * vz n * (1 + t * t)) - (1 + t * t)).
    { replace ((1 + mu * mu) * (a * a + vz n * vz n * (1 + t * t)) - (1 + t * t))
        with ((1 + mu * mu) * (a * a + vz n * vz n * (1 + t * t)) - (1 + t * t) * (vx n * vx n + vy n * vy n + vz n * vz n)) by (rewrite Hn'; ring).
      unfold d, a. ring. }
    assert (Es : spread mu theta n - 1 = d * (cos theta * cos theta)).
    { rewrite Eq. replace (d * (cos theta * cos theta)) with (d / (1 + t * t)) by (rewrite T; field; auto). rewrite Ed. field. lra. }
    rewrite Es.
    split; intros Hm.
    + apply Rmult_lt_reg_r in Hm; [|lra]. destruct (Rltb d 0) eqn:E1; [reflexivity|]. replace (Rltb d (5 / 100)) with true; [reflexivity|]. symmetry. apply Rltb_true. lra.
    + apply Rmult_le_reg_r in Hm; [|lra].
      replace (Rltb d 0) with false by (symmetry; apply Rltb_false; lra). replace (Rltb d (5 / 100)) with false by (symmetry; apply Rltb_false; lra).
      assert (P : 1 <= spread mu theta n). { assert (0 <= d * (cos theta * cos theta)) by (apply Rmult_le_pos; lra). lra. }
      split; [|exact P].
      assert (Sd : sqrt d * sqrt d = (1 + mu * mu) * (a * a + vz n * vz n * (1 + t * t)) - (1 + t * t)) by (rewrite sqrt_sqrt by lra; lra).
      assert (V := two_slopes (1 + mu * mu) a (vz n) (1 + t * t) _ _ _ (sqrt d) D cp sp ED D0 Sd eq_refl eq_refl eq_refl).
      replace (sqrt d + vx n * vz n + vx n * vz n * mu * mu + vy n * vz n * t + vy n * vz n * mu * mu * t) with ((1 + mu * mu) * vz n * a + sqrt d) by (unfold a; ring).
      replace (- sqrt d + vx n * vz n + vx n * vz n * mu * mu + vy n * vz n * t + vy n * vz n * mu * mu * t) with ((1 + mu * mu) * vz n * a - sqrt d) by (unfold a; ring).
      rewrite V by lra. rewrite <- Eq.
      apply (answered mu theta n); auto; lra.
Qed.

(** * the theorems *)
Lemma fric_cone mu n theta delta : 0 <= mu -> vnorm2 n = 1 -> - PI <= theta <= PI ->
  clearOfVertical mu n \/ (grazesVertical mu n /\ vx n * cos theta + vy n * sin theta <> 0) ->
  fiveth_constraint mu n theta = Ok (Some delta) ->
  0 <= delta <= atan mu /\
  forall eta beta, elevation theta n eta -> Rabs (beta - eta) <= PI ->
    (noSlip mu n (launch theta beta) <-> Rabs (beta - eta) <= delta).
Proof.
  intros Hmu Hn Ht Hc E.
  assert (H : delta = half (spread mu theta n) /\ 1 <= spread mu theta n).
  { destruct Hc as [Hc|[Hg Ha]].
    - destruct (clear_run mu n theta Hmu Hn Ht Hc) as [H1 H2].
      destruct (Rlt_le_dec (spread mu theta n - 1) (margin theta)) as [Hl|Hl].
      + rewrite (H1 Hl) in E. discriminate.
      + destruct (H2 Hl) as [H3 H4]. rewrite H3 in E. injection E as <-. auto.
    - destruct (graze_run mu n theta Hmu Hn Ht Hg Ha) as [H3 H4]. rewrite H3 in E. injection E as <-. auto. }
  destruct H as [-> Hq]. split.
  - destruct (half_cos _ Hq) as (_ & _ & B). split; [lra|]. apply half_phi; auto using spread_le.
  - intros eta beta He Hx. apply cone_half; auto.
Qed.
Lemma refuse_iff mu n theta eta : 0 <= mu -> vnorm2 n = 1 -> - PI <= theta <= PI -> clearOfVertical mu n -> elevation theta n eta ->
  fiveth_constraint mu n theta = Ok None <->
  (forall beta, noSlip mu n (launch theta beta) -> sin (beta - eta) * sin (beta - eta) < margin theta * (cos (beta - eta) * cos (beta - eta))).
Proof.
  intros Hmu Hn Ht Hc He. destruct (clear_run mu n theta Hmu Hn Ht Hc) as [H1 H2].
  assert (M0 : 0 < margin theta). { unfold margin. destruct (Req_EM_T (cos theta) 0); [lra|]. nra. }
  split.
  - intros E beta Hb. destruct (Rlt_le_dec (spread mu theta n - 1) (margin theta)) as [Hl|Hl].
    2: { destruct (H2 Hl) as [H3 _]. rewrite H3 in E. discriminate. }
    apply (cone_of mu theta n eta beta Hmu Hn He Hmu) in Hb. destruct Hb as (r & P0 & P1 & P2 & P3).
    pose proof (sin2_cos2 (beta - eta)) as A. unfold Rsqr in A.
    set (cc := cos (beta - eta) * cos (beta - eta)) in *. assert (C0 : 0 <= cc) by (unfold cc; nra).
    assert (cc <> 0) by (intros Z; rewrite Z in P3; lra).
    assert ((spread mu theta n - 1) * cc < margin theta * cc) by (apply Rmult_lt_compat_r; lra). lra.
  - intros H. destruct (Rlt_le_dec (spread mu theta n - 1) (margin theta)) as [Hl|Hl]; [auto|exfalso].
    destruct (H2 Hl) as [_ Hq]. destruct (half_cos _ Hq) as (Ec & Pc & B). pose proof PI_RGT_0.
    set (h := half (spread mu theta n)) in *.
    assert (Hb : noSlip mu n (launch theta (eta + h))).
    { apply (cone_half mu theta n eta (eta + h)); auto; replace (eta + h - eta) with h by ring; rewrite Rabs_pos_eq by lra; fold h; lra. }
    specialize (H _ Hb). replace (eta + h - eta) with h in H by ring.
    pose proof (sin2_cos2 h) as A. unfold Rsqr in A.
    assert (Q0 : 0 < / spread mu theta n) by (apply Rinv_0_lt_compat; lra).
    assert (Es : sin h * sin h = (spread mu theta n - 1) * / spread mu theta n).
    { replace ((spread mu theta n - 1) * / spread mu theta n) with (1 - / spread mu theta n) by (field; lra). lra. }
    rewrite Es, Ec in H. apply Rmult_lt_reg_r in H; lra.
Qed.
Lemma fric_refused mu n theta eta : 0 <= mu -> vnorm2 n = 1 -> - PI <= theta <= PI -> clearOfVertical mu n -> elevation theta n eta ->
  (cos theta <> 0 -> (fiveth_constraint mu n theta = Ok None <->
    forall beta, noSlip mu n (launch theta beta) ->
      sin (beta - eta) * sin (beta - eta) < 1 / 20 * (cos theta * cos theta) * (cos (beta - eta) * cos (beta - eta)))) /\
  (cos theta = 0 -> (fiveth_constraint mu n theta = Ok None <->
    forall beta, noSlip mu n (launch theta beta) ->
      sin (beta - eta) * sin (beta - eta) < 1 / 20 * (cos (beta - eta) * cos (beta - eta)))).
Proof.
  intros Hmu Hn Ht Hc He. pose proof (refuse_iff mu n theta eta Hmu Hn Ht Hc He) as H. unfold margin in H.
  destruct (Req_EM_T (cos theta) 0) as [C0|C0]; (split; intros C; [try contradiction|try contradiction]).
  - rewrite H. replace (1 / 20) with (5 / 100) by lra. reflexivity.
  - rewrite H. replace (1 / 20) with (5 / 100) by lra. reflexivity.
Qed.
Lemma fric_tangent mu n theta : 0 <= mu -> vnorm2 n = 1 -> - PI <= theta <= PI ->
  grazesVertical mu n -> vx n * cos theta + vy n * sin theta = 0 ->
  (forall eta beta, elevation theta n eta -> Rabs (beta - eta) <= PI ->
     (noSlip mu n (launch theta beta) <-> beta = eta)) /\
  (cos theta <> 0 -> fiveth_constraint mu n theta = Ok (Some (PI / 4))) /\
  (cos theta = 0 -> fiveth_constraint mu n theta = Ok None).
Proof.
  intros Hmu Hn Ht Hg Ha. destruct (tangent_run mu n theta Hmu Hn Ht Hg Ha) as (Hq & H1 & H2).
  split; [|split; auto]. intros eta beta He Hx.
  rewrite (cone_half mu theta n eta beta Hmu Hn He) by (try exact Hx; rewrite Hq; lra).
  rewrite Hq. assert (Z : half 1 = 0). { unfold half. replace (2 / 1 - 1) with 1 by lra. rewrite acos_1. lra. }
  rewrite Z. split.
  - intros H. pose proof (Rabs_pos (beta - eta)). assert (E : Rabs (beta - eta) = 0) by lra.
    destruct (Req_dec (beta - eta) 0) as [|N]; [lra|]. apply Rabs_no_R0 in N. contradiction.
  - intros ->. rewrite Rminus_eq_0, Rabs_R0. lra.
Qed.
Lemma fric_total mu n theta : 0 <= mu -> vnorm2 n = 1 -> - PI <= theta <= PI ->
  clearOfVertical mu n \/ grazesVertical mu n -> exists o, fiveth_constraint mu n theta = Ok o.
Proof.
  intros Hmu Hn Ht [Hc|Hg].
  - destruct (clear_run mu n theta Hmu Hn Ht Hc) as [H1 H2].
    destruct (Rlt_le_dec (spread mu theta n - 1) (margin theta)) as [Hl|Hl]; [eauto|]. destruct (H2 Hl) as [H3 _]. eauto.
  - destruct (Req_EM_T (along theta n) 0) as [Ha|Ha].
    + destruct (tangent_run mu n theta Hmu Hn Ht Hg Ha) as (Hq & H1 & H2). destruct (Req_EM_T (cos theta) 0); eauto.
    + destruct (graze_run mu n theta Hmu Hn Ht Hg Ha) as [H3 _]. eauto.
Qed.
