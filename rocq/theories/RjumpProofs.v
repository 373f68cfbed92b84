(** Proofs about the random jumps. *)
From Verif Require Import Maps Vec ParaModel ParaSpec ParaProofs ParaProofs2 ParaProofs3 ParaProofs4 ParaProofs5 RjumpModel RjumpSpec.
Local Open Scope R_scope.

Lemma draw_bounds validate s raw0 rawimp m r1 r2 q1 q2 :
  0 <= r1 <= 1 -> 0 <= r2 <= 1 -> 0 <= s_V0max s ->
  let r := compute_random_3D_path validate s raw0 rawimp m r1 r2 q1 q2 in
  let lo := Rmax 0 (a_minus m) in let mid := (lo + a_plus m) / 2 in
  Rmin lo mid <= d_alpha r <= Rmax lo mid /\ 0 <= d_speed r <= s_V0max s /\ d_angles r = Angles (a_plus m) lo.
Proof.
  intros H1 H2 HV r lo mid.
  assert (E : d_angles r = Angles (a_plus m) lo /\ d_alpha r = r1 * ((a_plus m - lo) / 2) + lo /\ d_speed r = r2 * s_V0max s).
  { unfold r, compute_random_3D_path. destruct computeCoefficients as [[c ?] ?]. cbn [d_angles d_alpha d_speed].
    unfold lo, Rmax. destruct m as [ap am]; cbn [a_plus a_minus].
    destruct (Rltb am 0) eqn:E; cbn [a_plus a_minus]; [apply Rltb_true in E|apply Rltb_false in E].
    - destruct (Rle_dec 0 am); [lra|]. auto.
    - destruct (Rle_dec 0 am); [auto|lra]. }
  destruct E as (E1 & E2 & E3). split; [|split; [|exact E1]].
  - rewrite E2. replace mid with ((a_plus m - lo) / 2 + lo) by (unfold mid; field). set (h := (a_plus m - lo) / 2).
    unfold Rmin, Rmax. destruct (Rle_dec lo (h + lo)); destruct (Rle_dec lo (h + lo)); try lra; split; nra.
  - rewrite E3. split; [apply Rmult_le_pos; lra|]. rewrite <- (Rmult_1_l (s_V0max s)) at 2. apply Rmult_le_compat_r; lra.
Qed.

Section jump.
Context (validate : ppath -> bool) (s : steering) (raw0 rawimp : vec3) (m : angles) (r1 r2 : R) (q1 q2 : config).
Context (Hg : 0 < s_g s) (Hap : apart q1 q2) (Hlen : (3 <= length q2)%nat).
Let r := compute_random_3D_path validate s raw0 rawimp m r1 r2 q1 q2.

Lemma random_jump : - PI / 2 < d_alpha r < PI / 2 -> 0 < d_speed r ->
  exists cx cy p, heading q1 q2 cx cy /\ three_seconds (s_g s) q1 q2 cx cy (d_alpha r) (d_speed r) p /\
    p_V0 p = raw0 /\ p_Vimp p = rawimp /\ p_roms0 p = [] /\ p_roms1 p = [] /\
    (d_path r = Some p \/ d_path r = None) /\
    (d_path r = Some p <-> validate p = true /\ ~ too_high_before (s_g s) q1 cx cy (d_alpha r) (d_speed r) (s_zmax s) (hdist q1 q2)).
Proof.
  unfold r, compute_random_3D_path.
  set (theta := atan2 (qi q2 1 - qi q1 1) (qi q2 0 - qi q1 0)).
  set (m' := if Rltb (a_minus m) 0 then _ else m). set (alpha := r1 * _ + _). set (v := r2 * _).
  set (x0 := cos theta * qi q1 0 + sin theta * qi q1 1).
  destruct (direction q1 q2 Hap) as (Hh & Hc & Hs & _ & Himp). fold theta in Hc, Hs, Himp. fold x0 in Himp. rewrite Himp.
  set (f := randomTarget (s_g s) theta q1 alpha v).
  pose proof (sin2cos2 theta) as SC.
  assert (EX : (vx f - qi q1 0) * cos theta + (vy f - qi q1 1) * sin theta = 3 * (v * cos alpha)).
  { unfold f, randomTarget. cbn [vx vy]. fold x0.
    transitivity ((v * cos alpha * 3 + x0) * (sin theta * sin theta + cos theta * cos theta) - (cos theta * qi q1 0 + sin theta * qi q1 1)); [ring|].
    rewrite SC. fold x0. ring. }
  rewrite EX.
  assert (EZ : vz f - qi q1 2 = 3 * (v * sin alpha) - 9/2 * s_g s) by (unfold f, randomTarget; cbn [vz]; field). rewrite EZ.
  destruct computeCoefficients as [[c v0] vimp] eqn:EC. cbn [d_alpha d_speed d_path].
  intros Ha Hv. pose proof (cos_pos_in alpha Ha) as Hca.
  assert (Hw : 0 < v * cos alpha) by (apply Rmult_lt_0_compat; auto).
  assert (Hd : 3 * (v * cos alpha) * tan alpha - (3 * (v * sin alpha) - 9 / 2 * s_g s) = 9/2 * s_g s).
  { transitivity (3 * v * (cos alpha * tan alpha) - (3 * (v * sin alpha) - 9 / 2 * s_g s)); [ring|]. rewrite tan_cos by lra. ring. }
  destruct (coefs_spec s alpha theta (3 * (v * cos alpha)) (3 * (v * sin alpha) - 9 / 2 * s_g s) x0 (qi q1 2) Hg ltac:(lra) Ha ltac:(rewrite Hd; lra) c v0 vimp EC)
    as (Kw & Kww & Kt & Ka & Kx & _ & _ & _ & Kf & K0).
  assert (Kv : k_xdot c = v * cos alpha).
  { rewrite Hd in Kww. assert (E : k_xdot c * k_xdot c = (v * cos alpha) * (v * cos alpha)) by (rewrite Kww; field; lra).
    apply Rsqr_inj; [lra|lra|exact E]. }
  set (pp := PPath _ _ _ _ _ _ _ _). exists (cos theta), (sin theta), pp.
  assert (L0 : forall a b e, length (<[2%nat := a]> (<[1%nat := b]> (<[0%nat := e]> q2))) = length q2) by (intros; by rewrite !insert_length).
  assert (Q0 : qi (p_end pp) 0 = vx f).
  { unfold pp. cbn [p_end]. rewrite !qi_insert_ne by lia. apply qi_insert_eq. lia. }
  assert (Q1 : qi (p_end pp) 1 = vy f).
  { unfold pp. cbn [p_end]. rewrite !qi_insert_ne by lia. apply qi_insert_eq. rewrite insert_length. lia. }
  assert (Q2 : qi (p_end pp) 2 = vz f).
  { unfold pp. cbn [p_end]. apply qi_insert_eq. rewrite !insert_length. lia. }
  assert (Fx : forall t, vx (fall (s_g s) (qpos q1) (launch (cos theta) (sin theta) alpha v) t) * cos theta
                       + vy (fall (s_g s) (qpos q1) (launch (cos theta) (sin theta) alpha v) t) * sin theta = x0 + v * cos alpha * t).
  { intros t. unfold fall, vadd, vscale, launch, qpos. cbn [vx vy vz].
    transitivity (x0 + v * cos alpha * t * (sin theta * sin theta + cos theta * cos theta)); [unfold x0; ring|rewrite SC; ring]. }
  assert (Fz : forall t, vz (fall (s_g s) (qpos q1) (launch (cos theta) (sin theta) alpha v) t) = qi q1 2 + v * sin alpha * t - s_g s * (t * t) / 2).
  { intros t. unfold fall, vadd, vscale, launch, qpos. cbn [vx vy vz]. field. }
  assert (Kf' : forall t, k0 c * (x0 + v * cos alpha * t) * (x0 + v * cos alpha * t) + k1 c * (x0 + v * cos alpha * t) + k2 c
                        = qi q1 2 + v * sin alpha * t - s_g s * (t * t) / 2).
  { intros t. pose proof (Kf t) as E. rewrite Kv in E. rewrite E. replace (v * cos alpha * tan alpha) with (v * (cos alpha * tan alpha)) by ring. rewrite tan_cos by lra. reflexivity. }
  split; [|split].
  - unfold heading. repeat split; auto. rewrite Rplus_comm. exact SC.
  - unfold three_seconds. cbv zeta. rewrite Q0, Q1, Q2. change (p_coefs pp) with c.
    split; [reflexivity|]. split; [apply L0|]. split.
    { intros i Hi. unfold pp. cbn [p_end]. rewrite !qi_insert_ne by lia. reflexivity. }
    split. { rewrite Fx. unfold x0. lra. }
    split. { unfold f, randomTarget. cbn [vx vy]. ring. }
    split. { rewrite Fz. lra. }
    split. { unfold pp. cbn [p_len]. unfold p_computeLength. rewrite Kt. unfold pp in Q0, Q1. cbn [p_end] in Q0, Q1. rewrite Q0, Q1. exact EX. }
    rewrite Kt. repeat (split; [auto; fail|]). intros t. rewrite Fx, Fz. apply Kf'.
  - repeat (split; [reflexivity|]). split.
    { destruct (negb _ || negb _); auto. }
    set (h := maxHeightRespected s c x0 (x0 + hdist q1 q2)).
    assert (HH : h = true <-> ~ too_high_before (s_g s) q1 (cos theta) (sin theta) alpha v (s_zmax s) (hdist q1 q2)).
    { unfold h, maxHeightRespected, too_high_before. cbv zeta. rewrite Fz.
      assert (Xm : - (1/2) * k1 c / k0 c = x0 + v * cos alpha * (v * sin alpha / s_g s)).
      { pose proof (Kf' 0) as E0. pose proof (Kf' 1) as E1. pose proof (Kf' (-1)) as E2.
        set (w := v * cos alpha) in *. set (u := v * sin alpha) in *.
        assert (A : k0 c * (w * w) = - s_g s / 2) by lra.
        assert (B : (2 * k0 c * x0 + k1 c) * w = u) by lra.
        assert (W : k0 c <> 0) by lra.
        apply (Rmult_eq_reg_l (k0 c * w)); [|intros E; apply Rmult_integral in E; lra].
        transitivity (- (1/2) * (k1 c * w)); [field; lra|].
        transitivity (k0 c * w * x0 + k0 c * (w * w) * (u / s_g s)); [|ring]. rewrite A.
        transitivity (k0 c * w * x0 - u / 2); [lra|field; lra]. }
      rewrite Xm. rewrite (Kf' (v * sin alpha / s_g s)).
      set (T := v * sin alpha / s_g s). rewrite negb_true_iff.
      assert (WT : 0 <= T <-> 0 <= v * cos alpha * T).
      { split; intros; [apply Rmult_le_pos; lra|]. apply Rnot_lt_le. intros Hlt. nra. }
      split.
      - intros E (A & B & C). apply not_true_iff_false in E. apply E. rewrite !andb_true_iff, !Rleb_true, Rltb_true.
        apply WT in A. repeat split; lra.
      - intros N. apply not_true_iff_false. rewrite !andb_true_iff, !Rleb_true, Rltb_true. intros ((A & B) & C). apply N.
        split; [apply WT; lra|]. split; lra. }
    rewrite <- HH. destruct (validate pp), h; cbn; split; intros; try tauto; try discriminate; try destruct_and?; try discriminate; auto.
Qed.
End jump.

(** * a case: ten metres per second at forty-five degrees towards a point one metre away,
    under a ceiling of ten centimetres that the flight passes beyond the point *)
Definition lowsteer : steering := Steer (981/100) 10 10 (1/1000) 6 (1/10).
Definition rq0 : config := [0; 0; 0; 0; 0; 0; 0; 0; 0].
Definition rq1 : config := [1; 0; 0; 0; 0; 0; 0; 0; 0].
Definition rang : angles := Angles (PI/4) (PI/4).
Definition rdraw := compute_random_3D_path (fun _ => true) lowsteer vzero vzero rang 1 1 rq0 rq1.
Lemma rcase_apart : apart rq0 rq1.
Proof. left. cbn. lra. Qed.
Lemma rcase_dist : hdist rq0 rq1 = 1.
Proof. unfold hdist, rq0, rq1, qi. cbn [nth]. transitivity (sqrt 1); [f_equal; ring|apply sqrt_1]. Qed.
Lemma rcase_draw : d_alpha rdraw = PI / 4 /\ d_speed rdraw = 10.
Proof.
  unfold rdraw, compute_random_3D_path. destruct computeCoefficients as [[c ?] ?]. cbn [d_alpha d_speed].
  assert (E : Rltb (a_minus rang) 0 = false). { apply Rltb_false. cbn. pose proof PI_RGT_0. lra. }
  rewrite E. cbn. split; lra.
Qed.
(** the jump is accepted although it flies above the ceiling *)
Lemma rcase : - PI / 2 < d_alpha rdraw < PI / 2 /\ 0 < d_speed rdraw /\ (exists p, d_path rdraw = Some p) /\
  exists t, 0 <= t <= 3 /\ forall cx cy, s_zmax lowsteer < vz (fall (s_g lowsteer) (qpos rq0) (launch cx cy (d_alpha rdraw) (d_speed rdraw)) t).
Proof.
  destruct rcase_draw as [Ea Ev]. pose proof PI_RGT_0 as HP.
  assert (Ha : - PI / 2 < d_alpha rdraw < PI / 2) by lra. assert (Hv : 0 < d_speed rdraw) by lra.
  pose proof sqrt2_neq_0 as S0. assert (SS : sqrt 2 * sqrt 2 = 2) by (apply sqrt_sqrt; lra).
  assert (S1 : 1 < sqrt 2) by (rewrite <- sqrt_1; apply sqrt_lt_1; lra).
  assert (S2 : sqrt 2 < 2) by nra.
  assert (I : 1 / sqrt 2 = sqrt 2 / 2). { apply (Rmult_eq_reg_l (sqrt 2)); [|lra]. transitivity 1; [field; lra|]. transitivity (sqrt 2 * sqrt 2 / 2); [rewrite SS; field|field]. }
  split; [exact Ha|]. split; [exact Hv|]. split.
  - destruct (random_jump (fun _ => true) lowsteer vzero vzero rang 1 1 rq0 rq1 ltac:(cbn; lra) rcase_apart ltac:(cbn; lia) Ha Hv)
      as (cx & cy & p & _ & _ & _ & _ & _ & _ & _ & H). exists p. apply H. split; [reflexivity|].
    fold rdraw. rewrite Ea, Ev, rcase_dist. intros (_ & B & _). rewrite cos_PI4, sin_PI4 in B. cbn in B. rewrite I in B. nra.
  - exists (1/2). split; [lra|]. intros cx cy. rewrite Ea, Ev. unfold fall, launch, vadd, vscale, qpos. cbn. rewrite sin_PI4, I. lra.
Qed.
