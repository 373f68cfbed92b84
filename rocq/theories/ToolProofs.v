(** Proofs about quaternions and rotation matrices. *)
From Verif Require Import Maps Vec VecProofs ToolModel ToolSpec.
From Coq Require Import Lra Lia.
Local Open Scope R_scope.

Lemma quat_ext p q : qx p = qx q -> qy p = qy q -> qz p = qz q -> qw p = qw q -> p = q.
Proof. destruct p, q; simpl; intros; subst; done. Qed.
Lemma qdot_comm p q : qdot p q = qdot q p.
Proof. unfold qdot. ring. Qed.
Lemma qdot_nonneg q : 0 <= qdot q q.
Proof. unfold qdot. assert (H := fun x => Rle_0_sqr x). unfold Rsqr in H. pose proof (H (qx q)). pose proof (H (qy q)). pose proof (H (qz q)). pose proof (H (qw q)). lra. Qed.
Lemma qdot_zero q : qdot q q = 0 -> q = Q4 0 0 0 0.
Proof.
  unfold qdot. assert (H := fun x => Rle_0_sqr x). unfold Rsqr in H.
  pose proof (H (qx q)). pose proof (H (qy q)). pose proof (H (qz q)). pose proof (H (qw q)). intros Hz.
  apply quat_ext; cbn [qx qy qz qw]; apply Rsqr_0_uniq; unfold Rsqr; lra.
Qed.
Lemma qdot_lin a p b q r : qdot (qadd (qscale a p) (qscale b q)) r = a * qdot p r + b * qdot q r.
Proof. unfold qdot, qadd, qscale. simpl. ring. Qed.
Lemma qdot_lin_r a p b q r : qdot r (qadd (qscale a p) (qscale b q)) = a * qdot r p + b * qdot r q.
Proof. unfold qdot, qadd, qscale. simpl. ring. Qed.
Lemma cauchy p q : qdot p q * qdot p q <= qdot p p * qdot q q.
Proof.
  assert (H := fun x => Rle_0_sqr x). unfold Rsqr in H. unfold qdot.
  destruct p as [a b c d], q as [e f g h]; simpl.
  pose proof (H (a*f - b*e)). pose proof (H (a*g - c*e)). pose proof (H (a*h - d*e)).
  pose proof (H (b*g - c*f)). pose proof (H (b*h - d*f)). pose proof (H (c*h - d*g)).
  assert (E : (a*a+b*b+c*c+d*d)*(e*e+f*f+g*g+h*h) - (a*e+b*f+c*g+d*h)*(a*e+b*f+c*g+d*h) =
    (a*f-b*e)*(a*f-b*e) + (a*g-c*e)*(a*g-c*e) + (a*h-d*e)*(a*h-d*e) + (b*g-c*f)*(b*g-c*f) + (b*h-d*f)*(b*h-d*f) + (c*h-d*g)*(c*h-d*g)) by ring.
  lra.
Qed.
Lemma sq_le_1 x : x * x <= 1 -> -1 <= x <= 1.
Proof.
  intros H. split.
  - destruct (Rle_dec (-1) x); [done|]. assert (0 < (-1 - x) * (1 - x)) by (apply Rmult_lt_0_compat; lra). lra.
  - destruct (Rle_dec x 1); [done|]. assert (0 < (x - 1) * (x + 1)) by (apply Rmult_lt_0_compat; lra). lra.
Qed.
Lemma unit_dot p q : unit_quat p -> unit_quat q -> -1 <= qdot p q <= 1.
Proof. intros Hp Hq. apply sq_le_1. pose proof (cauchy p q) as H. rewrite Hp, Hq in H. lra. Qed.
Lemma unit_same p q : unit_quat p -> unit_quat q -> qdot p q = 1 -> p = q.
Proof.
  unfold unit_quat. intros Hp Hq H. assert (Hz : qdot (qadd (qscale 1 p) (qscale (-1) q)) (qadd (qscale 1 p) (qscale (-1) q)) = 0).
  { rewrite qdot_lin, !qdot_lin_r, (qdot_comm q p), Hp, Hq, H. ring. }
  apply qdot_zero in Hz. unfold qadd, qscale in Hz. injection Hz as H1 H2 H3 H4. apply quat_ext; lra.
Qed.
Lemma unit_opp p q : unit_quat p -> unit_quat q -> qdot p q = -1 -> p = qopp q.
Proof.
  intros Hp Hq H. apply unit_same; [done| |].
  - unfold unit_quat, qdot, qopp, qscale in *. simpl. lra.
  - unfold unit_quat, qdot, qopp, qscale in *. simpl. lra.
Qed.
Lemma acos_1 : acos 1 = 0.
Proof. rewrite <- cos_0. apply acos_cos. pose proof PI_RGT_0. lra. Qed.

(** the angle used, between 0 and a right angle *)
Definition theta12 (p q : quat) : R := acos (Rabs (qdot p q)).
Lemma theta_bound p q : unit_quat p -> unit_quat q -> 0 <= theta12 p q <= PI / 2 /\ cos (theta12 p q) = Rabs (qdot p q).
Proof.
  intros Hp Hq. pose proof (unit_dot p q Hp Hq) as Hd. unfold theta12.
  assert (Ha : 0 <= Rabs (qdot p q) <= 1) by (split; [apply Rabs_pos|apply Rabs_le; lra]).
  assert (Hc : cos (acos (Rabs (qdot p q))) = Rabs (qdot p q)) by (apply cos_acos; lra).
  split; [|done]. pose proof (acos_bound (Rabs (qdot p q))) as [H1 H2]. split; [done|].
  destruct (Rle_dec (acos (Rabs (qdot p q))) (PI / 2)) as [|Hn]; [done|]. exfalso.
  pose proof PI_RGT_0. assert (cos (acos (Rabs (qdot p q))) < 0) by (apply cos_lt_0; lra). lra.
Qed.
Lemma angle_unit p q : unit_quat p -> unit_quat q ->
  exists neg, angleBetweenQuaternions p q = Ok (acos (qdot p q), neg) /\ (neg = true <-> qdot p q < 0) /\
    (if neg then PI - acos (qdot p q) else acos (qdot p q)) = theta12 p q.
Proof.
  intros Hp Hq. pose proof (unit_dot p q Hp Hq) as Hd. unfold angleBetweenQuaternions, theta12.
  destruct (quat_eq_dec p q) as [<-|Hne].
  - exists false. rewrite Hp, Rabs_R1, acos_1. split; [done|]. split; [|done]. split; [done|lra].
  - unfold Rltb. destruct (Rlt_dec (Rabs (qdot p q)) (1001/1000)) as [|Hn].
    2:{ exfalso. apply Hn. apply Rle_lt_trans with 1; [apply Rabs_le; lra|lra]. }
    destruct (Rlt_dec (qdot p q) (-1)); [lra|]. destruct (Rlt_dec 1 (qdot p q)); [lra|].
    destruct (Rlt_dec (qdot p q) 0) as [Hlt|Hge].
    + exists true. split; [done|]. split; [done|]. rewrite Rabs_left by done. by rewrite acos_opp.
    + exists false. split; [done|]. split; [done|]. rewrite Rabs_right by lra. done.
Qed.

Theorem qdistance_unit p q : unit_quat p -> unit_quat q -> qdistance p q = Ok (2 * acos (Rabs (qdot p q))).
Proof.
  intros Hp Hq. unfold qdistance. destruct (angle_unit p q Hp Hq) as (neg & -> & _ & H). do 2 f_equal. exact H.
Qed.
Theorem qdistance_metric : exists d : quat -> quat -> R,
  (forall p q, unit_quat p -> unit_quat q -> qdistance p q = Ok (d p q) /\ 0 <= d p q <= PI /\ d p q = d q p /\
     (d p q = 0 <-> p = q \/ p = qopp q) /\ d p (qopp q) = d p q) /\
  (forall p q r, unit_quat p -> unit_quat q -> unit_quat r -> d p r <= d p q + d q r).
Proof.
  exists (fun p q => 2 * theta12 p q). split.
  - intros p q Hp Hq. destruct (theta_bound p q Hp Hq) as [Hb Hc]. split; [by apply qdistance_unit|].
    split; [lra|]. split; [unfold theta12; by rewrite qdot_comm|].
    assert (Habs : forall x, 0 <= x -> Rabs x = x) by (intros; apply Rabs_right; lra). split; [split|].
    + intros H. assert (Ht : theta12 p q = 0) by lra. rewrite Ht, cos_0 in Hc.
      destruct (Rle_dec 0 (qdot p q)) as [Hs|Hs].
      * left. apply unit_same; [done..|]. rewrite Hc. by rewrite Habs.
      * right. apply unit_opp; [done..|]. rewrite Rabs_left in Hc by lra. lra.
    + assert (Hone : theta12 p q = acos 1 -> 2 * theta12 p q = 0) by (intros ->; rewrite acos_1; ring).
      intros [->| ->]; apply Hone; unfold theta12.
      * rewrite Hq, Rabs_R1. done.
      * assert (E : qdot (qopp q) q = -1) by (unfold unit_quat, qdot, qopp, qscale in *; simpl; lra).
        rewrite E. rewrite Rabs_left by lra. by replace (- (-1)) with 1 by ring.
    + unfold theta12. do 2 f_equal. replace (qdot p (qopp q)) with (- qdot p q); [apply Rabs_Ropp|].
      unfold qdot, qopp, qscale. simpl. ring.
  - intros p q r Hp Hq Hr.
    destruct (theta_bound p q Hp Hq) as [Hb1 Hc1]. destruct (theta_bound q r Hq Hr) as [Hb2 Hc2].
    destruct (theta_bound p r Hp Hr) as [Hb3 Hc3].
    set (a := theta12 p q) in *. set (b := theta12 q r) in *. set (c := theta12 p r) in *.
    pose proof PI_RGT_0. destruct (Rle_dec c (a + b)) as [|Hn]; [lra|]. exfalso.
    assert (Hlt : cos c < cos (a + b)) by (apply cos_decreasing_1; lra).
    (* the Gram inequality *)
    set (P := qadd (qscale 1 p) (qscale (- qdot p q) q)). set (S := qadd (qscale 1 r) (qscale (- qdot q r) q)).
    pose proof (cauchy P S) as HG. unfold unit_quat in *.
    assert (E1 : qdot P P = 1 - qdot p q * qdot p q).
    { unfold P. rewrite qdot_lin, !qdot_lin_r, (qdot_comm q p), Hp, Hq. ring. }
    assert (E2 : qdot S S = 1 - qdot q r * qdot q r).
    { unfold S. rewrite qdot_lin, !qdot_lin_r, (qdot_comm r q), Hr, Hq. ring. }
    assert (E3 : qdot P S = qdot p r - qdot p q * qdot q r).
    { unfold P, S. rewrite qdot_lin, !qdot_lin_r, Hq. ring. }
    rewrite E1, E2, E3 in HG.
    assert (Hsa : 0 <= sin a) by (apply sin_ge_0; lra). assert (Hsb : 0 <= sin b) by (apply sin_ge_0; lra).
    assert (Ea : sin a * sin a = 1 - qdot p q * qdot p q).
    { pose proof (sin2_cos2 a) as H2. unfold Rsqr in H2. rewrite Hc1 in H2. rewrite <- Rabs_mult in H2.
      rewrite Rabs_right in H2; [lra|]. apply Rle_ge. apply Rle_0_sqr. }
    assert (Eb : sin b * sin b = 1 - qdot q r * qdot q r).
    { pose proof (sin2_cos2 b) as H2. unfold Rsqr in H2. rewrite Hc2 in H2. rewrite <- Rabs_mult in H2.
      rewrite Rabs_right in H2; [lra|]. apply Rle_ge. apply Rle_0_sqr. }
    rewrite <- Ea, <- Eb in HG.
    assert (HA : Rabs (qdot p r - qdot p q * qdot q r) <= sin a * sin b).
    { rewrite <- (Rabs_right (sin a * sin b)) by (apply Rle_ge, Rmult_le_pos; done). apply Rsqr_le_abs_0. unfold Rsqr. lra. }
    assert (HT : Rabs (qdot p q * qdot q r) <= Rabs (qdot p r) + Rabs (qdot p r - qdot p q * qdot q r)).
    { replace (qdot p q * qdot q r) with (qdot p r + - (qdot p r - qdot p q * qdot q r)) at 1 by ring.
      eapply Rle_trans; [apply Rabs_triang|]. rewrite Rabs_Ropp. lra. }
    rewrite Rabs_mult in HT. rewrite cos_plus, Hc1, Hc2 in Hlt. rewrite Hc3 in Hlt. lra.
Qed.

(** * Interpolation *)
Definition far (p q : quat) : Prop := 1/10000 < acos (Rabs (qdot p q)).
Lemma sin_pos_far p q : unit_quat p -> unit_quat q -> far p q -> 0 < sin (theta12 p q).
Proof.
  intros Hp Hq Hf. destruct (theta_bound p q Hp Hq) as [Hb _]. pose proof PI_RGT_0. unfold far in Hf. fold (theta12 p q) in Hf.
  apply sin_gt_0; lra.
Qed.
Lemma interpolate_far p q : unit_quat p -> unit_quat q -> far p q ->
  exists s, (s = 1 \/ s = -1) /\ s * qdot p q = cos (theta12 p q) /\
  forall u, interpolate p q u = Ok (qadd (qscale (sin ((1 - u) * theta12 p q) / sin (theta12 p q)) p)
                               (qscale (s * (sin (u * theta12 p q) / sin (theta12 p q))) q)).
Proof.
  intros Hp Hq Hf. unfold interpolate. destruct (angle_unit p q Hp Hq) as (neg & -> & Hneg & Ht). rewrite Ht.
  destruct (theta_bound p q Hp Hq) as [Hb Hc]. unfold far in Hf. fold (theta12 p q) in Hf.
  exists (if neg then -1 else 1). split; [destruct neg; [right|left]; done|]. split.
  - rewrite Hc. destruct neg.
    + assert (qdot p q < 0) by (by apply Hneg). rewrite Rabs_left by done. ring.
    + assert (~ qdot p q < 0) by (rewrite <- Hneg; done). rewrite Rabs_right by lra. ring.
  - intros u. unfold Rltb. rewrite (Rabs_right (theta12 p q)) by lra. destruct (Rlt_dec (1/10000) (theta12 p q)); [|lra].
    f_equal. unfold Rdiv. by rewrite Rmult_1_l.
Qed.
Lemma interpolate_near p q : unit_quat p -> unit_quat q -> ~ far p q ->
  exists s, (s = 1 \/ s = -1) /\ s * qdot p q = cos (theta12 p q) /\
  forall u, interpolate p q u = Ok (qadd (qscale (1 - u) p) (qscale (s * u) q)).
Proof.
  intros Hp Hq Hf. unfold interpolate. destruct (angle_unit p q Hp Hq) as (neg & -> & Hneg & Ht). rewrite Ht.
  destruct (theta_bound p q Hp Hq) as [Hb Hc]. unfold far in Hf. fold (theta12 p q) in Hf.
  exists (if neg then -1 else 1). split; [destruct neg; [right|left]; done|]. split.
  - rewrite Hc. destruct neg.
    + assert (qdot p q < 0) by (by apply Hneg). rewrite Rabs_left by done. ring.
    + assert (~ qdot p q < 0) by (rewrite <- Hneg; done). rewrite Rabs_right by lra. ring.
  - intros u. unfold Rltb. rewrite (Rabs_right (theta12 p q)) by lra. destruct (Rlt_dec (1/10000) (theta12 p q)); [lra|done].
Qed.
Theorem interpolate_ends p q : unit_quat p -> unit_quat q ->
  interpolate p q 0 = Ok p /\ (interpolate p q 1 = Ok q \/ interpolate p q 1 = Ok (qopp q)).
Proof.
  intros Hp Hq. destruct (Rlt_dec (1/10000) (acos (Rabs (qdot p q)))) as [Hf|Hf].
  - pose proof (sin_pos_far p q Hp Hq Hf) as Hs. split.
    + destruct (interpolate_far p q Hp Hq Hf) as (s & _ & _ & ->). f_equal.
      rewrite Rminus_0_r, Rmult_1_l, Rmult_0_l, sin_0. apply quat_ext; unfold qadd, qscale; simpl; field; lra.
    + destruct (interpolate_far p q Hp Hq Hf) as (s & Hs1 & _ & ->).
      replace (1 - 1) with 0 by ring. rewrite Rmult_0_l, sin_0, Rmult_1_l.
      destruct Hs1 as [->| ->]; [left|right]; f_equal; apply quat_ext; unfold qopp, qadd, qscale; simpl; field; lra.
  - split.
    + destruct (interpolate_near p q Hp Hq Hf) as (s & _ & _ & ->). f_equal. apply quat_ext; unfold qadd, qscale; simpl; ring.
    + destruct (interpolate_near p q Hp Hq Hf) as (s & Hs1 & _ & ->).
      destruct Hs1 as [->| ->]; [left|right]; f_equal; apply quat_ext; unfold qopp, qadd, qscale; simpl; ring.
Qed.
Lemma slerp_dot p q s u v t : unit_quat p -> unit_quat q -> (s = 1 \/ s = -1) -> s * qdot p q = cos t -> sin t <> 0 ->
  qdot (qadd (qscale (sin ((1 - u) * t) / sin t) p) (qscale (s * (sin (u * t) / sin t)) q))
       (qadd (qscale (sin ((1 - v) * t) / sin t) p) (qscale (s * (sin (v * t) / sin t)) q)) = cos ((u - v) * t).
Proof.
  unfold unit_quat. intros Hp Hq Hs Hc Hn. rewrite qdot_lin, !qdot_lin_r, (qdot_comm q p), Hp, Hq.
  assert (Hss : s * s = 1) by (destruct Hs as [->| ->]; ring).
  replace ((1 - u) * t) with (t - u * t) by ring. replace ((1 - v) * t) with (t - v * t) by ring.
  replace ((u - v) * t) with (u * t - v * t) by ring.
  rewrite !sin_minus, cos_minus.
  set (B := u * t). set (B' := v * t).
  pose proof (sin2_cos2 t) as H2. unfold Rsqr in H2.
  set (S := sin t) in *. set (C := cos t) in *.
  set (x := sin B). set (y := cos B). set (x' := sin B'). set (y' := cos B').
  transitivity (((S * y - C * x) * (S * y' - C * x') + s * s * (x * x') + (s * qdot p q) * ((S * y - C * x) * x' + x * (S * y' - C * x'))) / (S * S)).
  { field. done. }
  rewrite Hss, Hc. assert (HSC : C * C = 1 - S * S) by lra.
  replace ((S * y - C * x) * (S * y' - C * x') + 1 * (x * x') + C * ((S * y - C * x) * x' + x * (S * y' - C * x'))) with
    (S * S * (y * y') + x * x' * (1 - C * C)) by ring.
  rewrite HSC. field. done.
Qed.
Lemma far_distance p q d : unit_quat p -> unit_quat q -> qdistance p q = Ok d -> (1/5000 < d <-> far p q).
Proof.
  intros Hp Hq. rewrite qdistance_unit by done. intros Hd. injection Hd as <-. unfold far. lra.
Qed.
Theorem interpolate_geodesic p q d : unit_quat p -> unit_quat q -> qdistance p q = Ok d -> 1/5000 < d ->
  exists f, (forall u, interpolate p q u = Ok (f u) /\ unit_quat (f u)) /\
    forall u v, 0 <= u <= 1 -> 0 <= v <= 1 -> qdistance (f u) (f v) = Ok (Rabs (u - v) * d).
Proof.
  intros Hp Hq Hd Hf. apply (far_distance p q d) in Hf; [|done..]. destruct (theta_bound p q Hp Hq) as [Hb _]. pose proof (sin_pos_far p q Hp Hq Hf) as Hsin.
  rewrite qdistance_unit in Hd by done. injection Hd as <-. fold (theta12 p q).
  destruct (interpolate_far p q Hp Hq Hf) as (s & Hs & Hc & Hi).
  set (t := theta12 p q) in *.
  set (f := fun u => qadd (qscale (sin ((1 - u) * t) / sin t) p) (qscale (s * (sin (u * t) / sin t)) q)).
  assert (Hunit : forall u, unit_quat (f u)).
  { intros u. unfold unit_quat, f. rewrite slerp_dot; [|done..|lra]. replace ((u - u) * t) with 0 by ring. apply cos_0. }
  exists f. split.
  - intros u. split; [|done]. apply Hi.
  - intros u v Hu Hv. rewrite qdistance_unit by done. f_equal. unfold f. rewrite slerp_dot; [|done..|lra].
    assert (Habs : Rabs (cos ((u - v) * t)) = cos (Rabs (u - v) * t)).
    { assert (E : cos ((u - v) * t) = cos (Rabs (u - v) * t)).
      { unfold Rabs. destruct (Rcase_abs (u - v)); [|done]. rewrite <- cos_neg. f_equal. ring. }
      rewrite E. apply Rabs_right. apply Rle_ge. apply cos_ge_0.
      - assert (0 <= Rabs (u - v) * t) by (apply Rmult_le_pos; [apply Rabs_pos|lra]). pose proof PI_RGT_0. lra.
      - assert (Rabs (u - v) <= 1) by (apply Rabs_le; lra).
        assert (Rabs (u - v) * t <= 1 * t) by (apply Rmult_le_compat_r; lra). lra. }
    rewrite Habs, acos_cos; [ring|]. split.
    + apply Rmult_le_pos; [apply Rabs_pos|lra].
    + assert (Rabs (u - v) <= 1) by (apply Rabs_le; lra).
      assert (Rabs (u - v) * t <= 1 * t) by (apply Rmult_le_compat_r; lra). pose proof PI_RGT_0. lra.
Qed.

(** close quaternions: a straight line, at most 1e-8 shorter than a unit one *)
Lemma cos_close t : 0 <= t -> 1 - t * t / 2 <= cos t.
Proof.
  intros Ht. replace t with (2 * (t / 2)) at 3 by field. rewrite cos_2a_sin.
  assert (H : sin (t / 2) * sin (t / 2) <= t / 2 * (t / 2)); [|lra].
  destruct (Req_dec t 0) as [->|Hne]; [replace (0 / 2) with 0 by field; rewrite sin_0; lra|].
  assert (H1 : sin (t / 2) < t / 2) by (apply sin_lt_x; lra).
  destruct (Rle_dec 0 (sin (t / 2))) as [Hs|Hs].
  - apply Rmult_le_compat; lra.
  - assert (H2 : - (t / 2) < sin (t / 2)).
    { replace (t / 2) with (- (- (t / 2))) at 2 by ring. rewrite sin_neg.
      assert (Hb := SIN_bound (- (t / 2))).
      destruct (Rlt_dec (t / 2) 1) as [Hl|Hl].
      - exfalso. apply Hs. apply sin_ge_0; [lra|]. pose proof PI2_1. lra.
      - rewrite sin_neg in *. pose proof (SIN_bound (t / 2)). 
        destruct (Req_dec (t / 2) 1) as [E|E]; [|lra]. exfalso. apply Hs. rewrite E. apply sin_ge_0; [lra|]. pose proof PI2_1. lra. }
    assert (H3 : (- sin (t / 2)) * (- sin (t / 2)) <= t / 2 * (t / 2)) by (apply Rmult_le_compat; lra). lra.
Qed.
Theorem interpolate_close p q d u : unit_quat p -> unit_quat q -> qdistance p q = Ok d -> d <= 1/5000 -> 0 <= u <= 1 ->
  exists r, interpolate p q u = Ok r /\ 1 - 1 / 100000000 <= qdot r r <= 1.
Proof.
  intros Hp Hq Hd Hn Hu. assert (Hf : ~ far p q). { rewrite <- (far_distance p q d) by done. lra. }
  destruct (interpolate_near p q Hp Hq Hf) as (s & Hs & Hc & ->). eexists. split; [reflexivity|].
  unfold unit_quat in *. rewrite qdot_lin, !qdot_lin_r, (qdot_comm q p), Hp, Hq.
  assert (Hss : s * s = 1) by (destruct Hs as [->| ->]; ring).
  replace ((1 - u) * ((1 - u) * 1 + s * u * qdot p q) + s * u * ((1 - u) * qdot p q + s * u * 1)) with
    ((1 - u) * (1 - u) + 2 * u * (1 - u) * (s * qdot p q) + s * s * (u * u)) by ring.
  rewrite Hss, Hc. destruct (theta_bound p q Hp Hq) as [Hb _]. unfold far in Hf. fold (theta12 p q) in Hf.
  set (t := theta12 p q) in *. pose proof (cos_close t (proj1 Hb)) as Hcl. pose proof (COS_bound t) as [_ Hc1].
  assert (Htt : t * t <= 1/10000 * (1/10000)) by (apply Rmult_le_compat; lra).
  assert (Huu : 0 <= u * (1 - u)) by (apply Rmult_le_pos; lra).
  assert (Hu4 : u * (1 - u) <= 1/4). { assert (0 <= (2 * u - 1) * (2 * u - 1)) by apply Rle_0_sqr. lra. }
  assert (E : (1 - u) * (1 - u) + 2 * u * (1 - u) * cos t + 1 * (u * u) = 1 - 2 * (u * (1 - u) * (1 - cos t))) by ring.
  rewrite E. assert (H1 : 0 <= u * (1 - u) * (1 - cos t)) by (apply Rmult_le_pos; lra).
  assert (H2 : u * (1 - u) * (1 - cos t) <= 1/4 * (1 / 200000000)). { apply Rmult_le_compat; lra. }
  lra.
Qed.
(** without unit quaternions, the assertion *)
Theorem angle_asserts p q : angleBetweenQuaternions p q = Throw <-> p <> q /\ 1001/1000 <= Rabs (qdot p q).
Proof.
  unfold angleBetweenQuaternions, Rltb. destruct (quat_eq_dec p q) as [->|Hne]; [split; [done|tauto]|].
  destruct (Rlt_dec (Rabs (qdot p q)) (1001/1000)); split; try done; intros; try (split; [done|lra]); lra.
Qed.

(** * Rotation matrices *)
Lemma sq3_zero a b c : a * a + b * b + c * c = 0 -> a = 0 /\ b = 0 /\ c = 0.
Proof.
  intros H. pose proof (Rle_0_sqr a). pose proof (Rle_0_sqr b). pose proof (Rle_0_sqr c). unfold Rsqr in *.
  split_and!; apply Rsqr_0_uniq; unfold Rsqr; lra.
Qed.
Lemma sq2_zero a b : a * a + b * b = 0 -> a = 0 /\ b = 0.
Proof. intros H. destruct (sq3_zero a b 0) as (? & ? & _); [lra|done]. Qed.
Theorem z_rotation t m : completes (GetZRotMatrix t) m ->
  (orthonormal m <-> m 0%nat 2%nat = 0 /\ m 1%nat 2%nat = 0 /\ m 2%nat 0%nat = 0 /\ m 2%nat 1%nat = 0).
Proof.
  intros Hm. unfold orthonormal.
  pose proof (Hm 0%nat 0%nat _ eq_refl) as E00. pose proof (Hm 0%nat 1%nat _ eq_refl) as E01. pose proof (Hm 1%nat 0%nat _ eq_refl) as E10.
  pose proof (Hm 1%nat 1%nat _ eq_refl) as E11. pose proof (Hm 2%nat 2%nat _ eq_refl) as E22.
  pose proof (sin2_cos2 t) as H2. unfold Rsqr in H2. split.
  - intros Ho. pose proof (Ho 0 0 ltac:(lia) ltac:(lia))%nat as H00. pose proof (Ho 1 1 ltac:(lia) ltac:(lia))%nat as H11.
    pose proof (Ho 2 2 ltac:(lia) ltac:(lia))%nat as H22. simpl in H00, H11, H22. rewrite E00, E10 in H00. rewrite E01, E11 in H11. rewrite E22 in H22.
    destruct (sq2_zero (m 0 2) (m 1 2))%nat as [? ?]; [lra|].
    split_and!; [done|done| |]; apply Rsqr_0_uniq; unfold Rsqr; lra.
  - intros (Z1 & Z2 & Z3 & Z4) j k Hj Hk.
    destruct j as [|[|[|j]]]; [| | |lia]; (destruct k as [|[|[|k]]]; [| | |lia]); simpl; rewrite ?E00, ?E01, ?E10, ?E11, ?E22, ?Z1, ?Z2, ?Z3, ?Z4; lra.
Qed.
Theorem y_rotation t m : completes (GetYRotMatrix t) m ->
  (orthonormal m <-> m 0%nat 1%nat = 0 /\ m 1%nat 0%nat = 0 /\ m 1%nat 2%nat = 0 /\ m 2%nat 1%nat = 0).
Proof.
  intros Hm. unfold orthonormal.
  pose proof (Hm 0%nat 0%nat _ eq_refl) as E00. pose proof (Hm 0%nat 2%nat _ eq_refl) as E02. pose proof (Hm 2%nat 0%nat _ eq_refl) as E20.
  pose proof (Hm 1%nat 1%nat _ eq_refl) as E11. pose proof (Hm 2%nat 2%nat _ eq_refl) as E22.
  pose proof (sin2_cos2 t) as H2. unfold Rsqr in H2. split.
  - intros Ho. pose proof (Ho 0 0 ltac:(lia) ltac:(lia))%nat as H00. pose proof (Ho 1 1 ltac:(lia) ltac:(lia))%nat as H11.
    pose proof (Ho 2 2 ltac:(lia) ltac:(lia))%nat as H22. simpl in H00, H11, H22. rewrite E00, E20 in H00. rewrite E11 in H11. rewrite E02, E22 in H22.
    destruct (sq2_zero (m 0 1) (m 2 1))%nat as [? ?]; [lra|].
    split_and!; [done| | |done]; apply Rsqr_0_uniq; unfold Rsqr; lra.
  - intros (Z1 & Z2 & Z3 & Z4) j k Hj Hk.
    destruct j as [|[|[|j]]]; [| | |lia]; (destruct k as [|[|[|k]]]; [| | |lia]); simpl; rewrite ?E00, ?E02, ?E20, ?E11, ?E22, ?Z1, ?Z2, ?Z3, ?Z4; lra.
Qed.
(** around x: the sine is written at the wrong place; no content of the other entries makes a rotation *)
Lemma zy_turns t m x y z :
  (completes (GetZRotMatrix t) m -> orthonormal m ->
   mat_vec m x y z = (x * cos t - y * sin t, x * sin t + y * cos t, z)) /\
  (completes (GetYRotMatrix t) m -> orthonormal m ->
   mat_vec m x y z = (x * cos t + z * sin t, y, z * cos t - x * sin t)).
Proof.
  split; intros Hm Ho.
  - apply (z_rotation t m Hm) in Ho as (Z1 & Z2 & Z3 & Z4). unfold mat_vec. cbv zeta.
    rewrite (Hm 0%nat 0%nat _ eq_refl), (Hm 0%nat 1%nat _ eq_refl), (Hm 1%nat 0%nat _ eq_refl), (Hm 1%nat 1%nat _ eq_refl), (Hm 2%nat 2%nat _ eq_refl), Z1, Z2, Z3, Z4.
    apply (f_equal2 pair); [apply (f_equal2 pair)|]; ring.
  - apply (y_rotation t m Hm) in Ho as (Z1 & Z2 & Z3 & Z4). unfold mat_vec. cbv zeta.
    rewrite (Hm 0%nat 0%nat _ eq_refl), (Hm 0%nat 2%nat _ eq_refl), (Hm 1%nat 1%nat _ eq_refl), (Hm 2%nat 0%nat _ eq_refl), (Hm 2%nat 2%nat _ eq_refl), Z1, Z2, Z3, Z4.
    apply (f_equal2 pair); [apply (f_equal2 pair)|]; ring.
Qed.
Theorem x_rotation t m : completes (GetXRotMatrix t) m -> orthonormal m -> sin t = 0.
Proof.
  intros Hm Ho. pose proof (Ho 0 0 ltac:(lia) ltac:(lia))%nat as H00. simpl in H00.
  rewrite (Hm 0%nat 0%nat _ eq_refl), (Hm 2%nat 0%nat _ eq_refl) in H00.
  destruct (sq2_zero (m 1%nat 0%nat) (sin t)); [lra|done].
Qed.
