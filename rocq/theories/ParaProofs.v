(** Proofs about the constraints of the steering method. *)
From Verif Require Import Maps Vec ParaModel ParaSpec.
From Coq Require Import Psatz.
Local Open Scope R_scope.

Lemma Rltb_true a b : Rltb a b = true <-> a < b.
Proof. unfold Rltb. destruct (Rlt_dec a b); split; intros; auto; try discriminate; contradiction. Qed.
Lemma Rltb_false a b : Rltb a b = false <-> b <= a.
Proof. unfold Rltb. destruct (Rlt_dec a b); split; intros; auto; try discriminate; lra. Qed.
Lemma Rleb_true a b : Rleb a b = true <-> a <= b.
Proof. unfold Rleb. destruct (Rle_dec a b); split; intros; auto; try discriminate; contradiction. Qed.
Lemma Rleb_false a b : Rleb a b = false <-> b < a.
Proof. unfold Rleb. destruct (Rle_dec a b); split; intros; auto; try discriminate; lra. Qed.
Lemma Reqb_true a b : Reqb a b = true <-> a = b.
Proof. unfold Reqb. destruct (Req_EM_T a b); split; intros; auto; try discriminate; contradiction. Qed.
Lemma Reqb_false a b : Reqb a b = false <-> a <> b.
Proof. unfold Reqb. destruct (Req_EM_T a b); split; intros; auto; try discriminate; contradiction. Qed.

Ltac rpos := repeat (apply Rdiv_lt_0_compat || apply Rmult_lt_0_compat); try assumption; try lra.

(** * atan2 *)
Lemma sq_pos_or x y : x <> 0 \/ y <> 0 -> 0 < x * x + y * y.
Proof. intros [H|H]; nra. Qed.

Lemma cos_atan_x y x : 0 < x -> sqrt (x * x + y * y) * cos (atan (y / x)) = x /\ sqrt (x * x + y * y) * sin (atan (y / x)) = y.
Proof.
  intros Hx. rewrite cos_atan, sin_atan.
  assert (E : sqrt (1 + (y / x)²) = sqrt (x * x + y * y) / x).
  { replace (1 + (y/x)²) with ((x * x + y * y) / (x * x)) by (unfold Rsqr; field; lra).
    rewrite sqrt_div by nra. rewrite sqrt_square by lra. reflexivity. }
  rewrite E. assert (0 < sqrt (x * x + y * y)) by (apply sqrt_lt_R0; nra).
  split; field; lra.
Qed.

Lemma atan2_spec y x : x <> 0 \/ y <> 0 ->
  sqrt (x * x + y * y) * cos (atan2 y x) = x /\ sqrt (x * x + y * y) * sin (atan2 y x) = y.
Proof.
  intros H. unfold atan2.
  destruct (Rltb 0 x) eqn:E1; [apply Rltb_true in E1; apply cos_atan_x; auto|apply Rltb_false in E1].
  destruct (Rltb x 0) eqn:E2.
  - apply Rltb_true in E2.
    destruct (cos_atan_x (- y) (- x)) as [Hc Hs]; [lra|].
    replace (- x * - x + - y * - y) with (x * x + y * y) in * by ring.
    replace (- y / - x) with (y / x) in * by (field; lra).
    destruct (Rleb 0 y) eqn:E3.
    + rewrite neg_cos, neg_sin. lra.
    + replace (atan (y / x) - PI) with (- (- atan (y/x) + PI)) by ring.
      rewrite cos_neg, sin_neg, neg_cos, neg_sin, cos_neg, sin_neg. lra.
  - apply Rltb_false in E2. assert (x = 0) as -> by lra. destruct H as [H|H]; [lra|].
    replace (0 * 0 + y * y) with (y * y) by ring.
    destruct (Rltb 0 y) eqn:E3.
    + apply Rltb_true in E3. rewrite sqrt_square, cos_PI2, sin_PI2 by lra. lra.
    + apply Rltb_false in E3. assert (y < 0) by lra.
      destruct (Rltb y 0) eqn:E4; [|apply Rltb_false in E4; lra].
      replace (y * y) with ((- y) * (- y)) by ring. rewrite sqrt_square by lra.
      rewrite cos_neg, sin_neg, cos_PI2, sin_PI2. lra.
Qed.

(** * tangents *)
Lemma cos_pos_in a : - PI / 2 < a < PI / 2 -> 0 < cos a.
Proof. intros H. apply cos_gt_0; lra. Qed.
Lemma tan_cos a : cos a <> 0 -> cos a * tan a = sin a.
Proof. intros H. unfold tan. field; auto. Qed.
Lemma one_tan2 a : cos a <> 0 -> cos a * cos a * (1 + tan a * tan a) = 1.
Proof. intros H. unfold tan. pose proof (sin2_cos2 a) as S. unfold Rsqr in S. transitivity (cos a * cos a + sin a * sin a); [field; auto|lra]. Qed.
Lemma tan_mono a b : - PI / 2 < a < PI / 2 -> - PI / 2 < b < PI / 2 -> (a <= b <-> tan a <= tan b).
Proof.
  intros Ha Hb. split; intros H.
  - destruct (Req_dec a b) as [->|]; [lra|]. apply Rlt_le, tan_increasing; lra.
  - destruct (Rle_dec a b) as [|N]; auto. exfalso.
    assert (tan b < tan a) by (apply tan_increasing; lra). lra.
Qed.
Lemma atan_le a t : - PI / 2 < a < PI / 2 -> (a <= atan t <-> tan a <= t).
Proof. intros Ha. rewrite (tan_mono a (atan t)) by (pose proof (atan_bound t); lra). rewrite tan_atan. reflexivity. Qed.
Lemma le_atan a t : - PI / 2 < a < PI / 2 -> (atan t <= a <-> t <= tan a).
Proof. intros Ha. rewrite (tan_mono (atan t) a) by (pose proof (atan_bound t); lra). rewrite tan_atan. reflexivity. Qed.

(** * quadratics *)
Lemma quad_neg A B C t : 0 < A -> B * B - 4 * A * C < 0 -> 0 < A * t * t + B * t + C.
Proof. intros HA Hd. assert (4 * A * (A * t * t + B * t + C) = (2 * A * t + B) * (2 * A * t + B) - (B * B - 4 * A * C)) as E by ring.
  apply (Rmult_lt_reg_l (4 * A)); [lra|]. rewrite Rmult_0_r, E. pose proof (Rle_0_sqr (2 * A * t + B)) as S. unfold Rsqr in S. lra. Qed.
Lemma quad_roots A B C t : 0 < A -> 0 <= B * B - 4 * A * C ->
  let D := sqrt (B * B - 4 * A * C) in
  (1/2 * (- B - D) / A <= t <= 1/2 * (- B + D) / A <-> A * t * t + B * t + C <= 0).
Proof.
  intros HA Hd D. assert (HD : D * D = B * B - 4 * A * C) by (apply sqrt_sqrt; auto).
  assert (0 <= D) by apply sqrt_pos.
  assert (E : 4 * A * (A * t * t + B * t + C) = (2 * A * t + B - D) * (2 * A * t + B + D)) by nra.
  assert (E1 : 1/2 * (- B - D) / A <= t <-> 0 <= 2 * A * t + B + D).
  { split; intros H1.
    - apply (Rmult_le_compat_r (2 * A)) in H1; [|lra]. replace (1/2 * (- B - D) / A * (2 * A)) with (- B - D) in H1 by (field; lra). lra.
    - apply (Rmult_le_reg_r (2 * A)); [lra|]. replace (1/2 * (- B - D) / A * (2 * A)) with (- B - D) by (field; lra). lra. }
  assert (E2 : t <= 1/2 * (- B + D) / A <-> 2 * A * t + B - D <= 0).
  { split; intros H1.
    - apply (Rmult_le_compat_r (2 * A)) in H1; [|lra]. replace (1/2 * (- B + D) / A * (2 * A)) with (- B + D) in H1 by (field; lra). lra.
    - apply (Rmult_le_reg_r (2 * A)); [lra|]. replace (1/2 * (- B + D) / A * (2 * A)) with (- B + D) by (field; lra). lra. }
  rewrite E1, E2. split.
  - intros [Ha Hb]. assert (4 * A * (A * t * t + B * t + C) <= 0) by nra. nra.
  - intros Hq. assert ((2 * A * t + B - D) * (2 * A * t + B + D) <= 0) by nra. split; nra.
Qed.

(** * flights *)
(** the launch speed of the flight with slope [t] *)
Lemma flight_speed g X Z a v T : 0 < g -> 0 < X -> - PI / 2 < a < PI / 2 -> flight g X Z a v T ->
  0 < v /\ 2 * (X * tan a - Z) * (v * cos a * (v * cos a)) = g * X * X /\ T = X / (v * cos a) /\ 0 < X * tan a - Z.
Proof.
  intros Hg HX Ha (HT & Hv & E1 & E2). pose proof (cos_pos_in a Ha) as Hc.
  assert (0 < v) by (destruct Hv as [|<-]; [auto|rewrite !Rmult_0_l in E1; lra]).
  set (w := v * cos a) in *. assert (0 < w) by (apply Rmult_lt_0_compat; auto).
  assert (ET : T = X / w) by (rewrite <- E1; field; lra).
  assert (Es : v * sin a = w * tan a) by (unfold w; rewrite Rmult_assoc, tan_cos by lra; reflexivity).
  assert (EZ : X * tan a - Z = g * (T * T) / 2) by (rewrite <- E2, Es, <- E1; field).
  repeat split; auto.
  - rewrite EZ. rewrite <- E1. field.
  - rewrite EZ. assert (0 < T * T) by nra. nra.
Qed.
Lemma flight_exists g X Z a : 0 < g -> 0 < X -> - PI / 2 < a < PI / 2 -> 0 < X * tan a - Z ->
  let w := sqrt (g * X * X / (2 * (X * tan a - Z))) in
  0 < w /\ w * w = g * X * X / (2 * (X * tan a - Z)) /\ flight g X Z a (w / cos a) (X / w).
Proof.
  intros Hg HX Ha Hd w. pose proof (cos_pos_in a Ha) as Hc.
  assert (0 < g * X * X / (2 * (X * tan a - Z))) by rpos.
  assert (0 < w) by (apply sqrt_lt_R0; auto).
  assert (Hw : w * w = g * X * X / (2 * (X * tan a - Z))) by (apply sqrt_sqrt; lra).
  repeat split; auto.
  - apply Rdiv_lt_0_compat; lra.
  - apply Rlt_le, Rdiv_lt_0_compat; lra.
  - field; lra.
  - replace (w / cos a * sin a * (X / w)) with (X * tan a) by (unfold tan; field; lra).
    replace (X / w * (X / w)) with (X * X / (w * w)) by (field; lra). rewrite Hw. field. nra.
Qed.

Section constraints.
Context (s : steering) (X Z : R) (Hg : 0 < s_g s) (HX : 0 < X).

(** speed at launch *)
Lemma launch_quad a : - PI / 2 < a < PI / 2 -> 0 <= s_V0max s ->
  (exists v T, flight (s_g s) X Z a v T /\ v <= s_V0max s) <->
  s_g s * X * X * tan a * tan a + - 2 * X * s_V0max s * s_V0max s * tan a + (s_g s * X * X + 2 * Z * s_V0max s * s_V0max s) <= 0.
Proof.
  intros Ha HV. pose proof (cos_pos_in a Ha) as Hc. pose proof (one_tan2 a ltac:(lra)) as H1. set (t := tan a) in *.
  set (V := s_V0max s) in *. set (g := s_g s) in *.
  assert (EQ : g * X * X * t * t + - 2 * X * V * V * t + (g * X * X + 2 * Z * V * V) = g * X * X * (1 + t * t) - 2 * (X * t - Z) * (V * V)) by ring.
  rewrite EQ. split.
  - intros (v & T & Hf & Hv). destruct (flight_speed _ _ _ _ _ _ Hg HX Ha Hf) as (Hv0 & E & _ & Hd). fold g in Hf; fold t g in E, Hd.
    assert (E' : g * X * X * (1 + t * t) = 2 * (X * t - Z) * (v * v)).
    { rewrite <- E. transitivity (2 * (X * t - Z) * (v * v) * (cos a * cos a * (1 + t * t))); [ring|rewrite H1; ring]. }
    rewrite E'. assert (v * v <= V * V) by nra. nra.
  - intros Hq. assert (0 < g * X * X * (1 + t * t)) by (assert (0 < g * X * X) by rpos; nra).
    assert (Hd : 0 < X * t - Z) by nra.
    destruct (flight_exists g X Z a Hg HX Ha Hd) as (Hw & Ew & Hf). fold t in Hw, Ew, Hf.
    set (w := sqrt (g * X * X / (2 * (X * t - Z)))) in *.
    exists (w / cos a), (X / w). split; auto.
    assert (Hle : w / cos a * (w / cos a) <= V * V).
    { apply (Rmult_le_reg_l (2 * (X * t - Z))); [lra|].
      assert (w / cos a * (w / cos a) = w * w * (1 + t * t)).
      { transitivity (w * w / (cos a * cos a) * (cos a * cos a * (1 + t * t))); [rewrite H1; field; lra|field; lra]. }
      rewrite H0, Ew. replace (2 * (X * t - Z) * (g * X * X / (2 * (X * t - Z)) * (1 + t * t))) with (g * X * X * (1 + t * t)) by (field; lra). lra. }
    assert (0 < w / cos a) by (apply Rdiv_lt_0_compat; lra). nra.
Qed.

(** speed at impact *)
Definition impactSpeed2 (a v T : R) : R := v * cos a * (v * cos a) + (v * sin a - s_g s * T) * (v * sin a - s_g s * T).
Lemma impact_quad a : - PI / 2 < a < PI / 2 ->
  (exists v T, flight (s_g s) X Z a v T /\ impactSpeed2 a v T <= s_Vimpmax s * s_Vimpmax s) <->
  s_g s * X * X * tan a * tan a + (- 2 * X * s_Vimpmax s * s_Vimpmax s - 4 * X * Z * s_g s) * tan a
    + (s_g s * X * X + 2 * Z * s_Vimpmax s * s_Vimpmax s + 4 * s_g s * Z * Z) <= 0.
Proof.
  intros Ha. pose proof (cos_pos_in a Ha) as Hc. unfold impactSpeed2. set (W := s_Vimpmax s) in *. set (g := s_g s) in *. set (t := tan a) in *.
  assert (EQ : g * X * X * t * t + (- 2 * X * W * W - 4 * X * Z * g) * t + (g * X * X + 2 * Z * W * W + 4 * g * Z * Z)
               = g * (X * X + (2 * Z - X * t) * (2 * Z - X * t)) - 2 * (X * t - Z) * (W * W)) by ring.
  rewrite EQ.
  assert (key : forall v T, flight g X Z a v T ->
    2 * (X * t - Z) * (v * cos a * (v * cos a) + (v * sin a - g * T) * (v * sin a - g * T)) = g * (X * X + (2 * Z - X * t) * (2 * Z - X * t))).
  { intros v T Hf. destruct (flight_speed _ _ _ _ _ _ Hg HX Ha Hf) as (Hv & E & ET & Hd). fold t in E, Hd. destruct Hf as (HT & _ & E1 & E2).
    set (w := v * cos a) in *. assert (0 < w) by (unfold w; rpos).
    assert (Es : v * sin a = w * t) by (unfold w, t; rewrite Rmult_assoc, tan_cos by lra; reflexivity).
    rewrite Es in *. assert (Ew : w * w = g * X * X / (2 * (X * t - Z))) by (rewrite <- E; field; lra).
    assert (EgT : g * T = 2 * (X * t - Z) * w / X).
    { rewrite ET. apply (Rmult_eq_reg_r w); [|lra]. replace (2 * (X * t - Z) * w / X * w) with (2 * (X * t - Z) * (w * w) / X) by (field; lra).
      rewrite Ew. field. repeat split; lra. }
    rewrite EgT. replace (w * t - 2 * (X * t - Z) * w / X) with (w * ((2 * Z - X * t) / X)) by (field; lra).
    replace (2 * (X * t - Z) * (w * w + w * ((2 * Z - X * t) / X) * (w * ((2 * Z - X * t) / X))))
      with (2 * (X * t - Z) * (w * w) * (1 + (2 * Z - X * t) / X * ((2 * Z - X * t) / X))) by ring.
    rewrite Ew. field. repeat split; lra. }
  split.
  - intros (v & T & Hf & Hv). pose proof (key v T Hf) as K.
    destruct (flight_speed _ _ _ _ _ _ Hg HX Ha Hf) as (_ & _ & _ & Hd). fold t in Hd. rewrite <- K. nra.
  - intros Hq. assert (0 < g * (X * X + (2 * Z - X * t) * (2 * Z - X * t))).
    { apply Rmult_lt_0_compat; auto. pose proof (Rle_0_sqr (2 * Z - X * t)) as S. unfold Rsqr in S. assert (0 < X * X) by rpos. lra. }
    assert (Hd : 0 < X * t - Z) by nra.
    destruct (flight_exists g X Z a Hg HX Ha Hd) as (Hw & Ew & Hf). fold t in Hw, Ew, Hf.
    eexists _, _. split; [exact Hf|]. pose proof (key _ _ Hf) as K. nra.
Qed.

Lemma second_none : second_constraint s X Z = None -> 0 <= s_V0max s ->
  forall a v T, - PI / 2 < a < PI / 2 -> flight (s_g s) X Z a v T -> s_V0max s < v.
Proof.
  unfold second_constraint. destruct (Rltb _ 0) eqn:E; [apply Rltb_true in E|destruct (Rltb 0 X); discriminate].
  intros _ HV a v T Ha Hf. apply Rnot_le_lt. intros Hv.
  assert (H : exists v T, flight (s_g s) X Z a v T /\ v <= s_V0max s) by eauto.
  apply launch_quad in H; auto. apply quad_neg with (t := tan a) in E; [|rpos]. lra.
Qed.
Lemma second_some p m : second_constraint s X Z = Some (p, m) -> 0 <= s_V0max s ->
  forall a, - PI / 2 < a < PI / 2 -> (m <= a <= p <-> exists v T, flight (s_g s) X Z a v T /\ v <= s_V0max s).
Proof.
  unfold second_constraint. destruct (Rltb _ 0) eqn:E; [discriminate|]. apply Rltb_false in E.
  assert (Rltb 0 X = true) as -> by (apply Rltb_true; auto).
  intros H HV a Ha. injection H as <- <-. rewrite le_atan, atan_le by auto.
  rewrite (launch_quad a Ha HV). rewrite quad_roots by (auto; rpos). reflexivity.
Qed.
Lemma second_range p m : second_constraint s X Z = Some (p, m) -> - PI / 2 < p < PI / 2 /\ - PI / 2 < m < PI / 2.
Proof.
  unfold second_constraint. destruct (Rltb _ 0) eqn:E; [discriminate|].
  assert (Rltb 0 X = true) as -> by (apply Rltb_true; auto).
  intros H. injection H as <- <-. split; apply atan_bound.
Qed.
Lemma sixth_none : sixth_constraint s X Z = None ->
  forall a v T, - PI / 2 < a < PI / 2 -> flight (s_g s) X Z a v T -> s_Vimpmax s * s_Vimpmax s < impactSpeed2 a v T.
Proof.
  unfold sixth_constraint. destruct (Rltb _ 0) eqn:E; [apply Rltb_true in E|destruct (Rltb 0 X); discriminate].
  intros _ a v T Ha Hf. apply Rnot_le_lt. intros Hv.
  assert (H : exists v T, flight (s_g s) X Z a v T /\ impactSpeed2 a v T <= s_Vimpmax s * s_Vimpmax s) by eauto.
  apply impact_quad in H; auto. apply quad_neg with (t := tan a) in E; [|rpos]. lra.
Qed.
Lemma sixth_some p m : sixth_constraint s X Z = Some (p, m) ->
  forall a, - PI / 2 < a < PI / 2 -> (m <= a <= p <-> exists v T, flight (s_g s) X Z a v T /\ impactSpeed2 a v T <= s_Vimpmax s * s_Vimpmax s).
Proof.
  unfold sixth_constraint. destruct (Rltb _ 0) eqn:E; [discriminate|]. apply Rltb_false in E.
  assert (Rltb 0 X = true) as -> by (apply Rltb_true; auto).
  intros H a Ha. injection H as <- <-. rewrite le_atan, atan_le by auto.
  rewrite (impact_quad a Ha). rewrite quad_roots by (auto; rpos). reflexivity.
Qed.
Lemma sixth_range p m : sixth_constraint s X Z = Some (p, m) -> - PI / 2 < p < PI / 2 /\ - PI / 2 < m < PI / 2.
Proof.
  unfold sixth_constraint. destruct (Rltb _ 0) eqn:E; [discriminate|].
  assert (Rltb 0 X = true) as -> by (apply Rltb_true; auto).
  intros H. injection H as <- <-. split; apply atan_bound.
Qed.
End constraints.

(** there is one flight for each elevation *)
Lemma flight_unique g X Z a v T v' T' : 0 < g -> 0 < X -> - PI / 2 < a < PI / 2 ->
  flight g X Z a v T -> flight g X Z a v' T' -> v = v' /\ T = T'.
Proof.
  intros Hg HX Ha H H'. pose proof (cos_pos_in a Ha).
  destruct (flight_speed _ _ _ _ _ _ Hg HX Ha H) as (Hv & E & -> & Hd).
  destruct (flight_speed _ _ _ _ _ _ Hg HX Ha H') as (Hv' & E' & -> & _).
  assert (Heq : v = v').
  { assert (v * cos a * (v * cos a) = v' * cos a * (v' * cos a)) by (apply (Rmult_eq_reg_l (2 * (X * tan a - Z))); lra).
    assert (0 < v * cos a) by rpos. assert (0 < v' * cos a) by rpos.
    assert (v * cos a = v' * cos a) by nra. nra. }
  subst. auto.
Qed.
