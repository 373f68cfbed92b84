From Coq Require Import Reals Lra Psatz.
From Verif Require Import Vec.
Local Open Scope R_scope.

Lemma Rltb_true a b : Rltb a b = true <-> a < b.
Proof. unfold Rltb. destruct (Rlt_dec a b); split; intros; try assumption; try reflexivity; try discriminate; contradiction. Qed.
Lemma Rltb_false a b : Rltb a b = false <-> b <= a.
Proof. unfold Rltb. destruct (Rlt_dec a b); split; intros; try lra; try reflexivity; try discriminate. Qed.
Lemma Rleb_true a b : Rleb a b = true <-> a <= b.
Proof. unfold Rleb. destruct (Rle_dec a b); split; intros; try assumption; try reflexivity; try discriminate; contradiction. Qed.
Lemma Rleb_false a b : Rleb a b = false <-> b < a.
Proof. unfold Rleb. destruct (Rle_dec a b); split; intros; try lra; try reflexivity; try discriminate. Qed.
Lemma Reqb_true a b : Reqb a b = true <-> a = b.
Proof. unfold Reqb. destruct (Req_EM_T a b); split; intros; try assumption; try reflexivity; try discriminate; contradiction. Qed.
Lemma Reqb_false a b : Reqb a b = false <-> a <> b.
Proof. unfold Reqb. destruct (Req_EM_T a b); split; intros; try assumption; try reflexivity; try discriminate; contradiction. Qed.

Lemma vec3_ext a b : vx a = vx b -> vy a = vy b -> vz a = vz b -> a = b.
Proof. destruct a, b; simpl; intros; subst; reflexivity. Qed.

Lemma vnorm2_nonneg a : 0 <= vnorm2 a.
Proof. unfold vnorm2, vdot. nra. Qed.

Lemma vnorm_nonneg a : 0 <= vnorm a.
Proof. apply sqrt_pos. Qed.

Lemma vnorm_sqr a : vnorm a * vnorm a = vnorm2 a.
Proof. apply sqrt_sqrt, vnorm2_nonneg. Qed.

Lemma vnorm2_zero a : vnorm2 a = 0 -> a = vzero.
Proof.
  unfold vnorm2, vdot. intros H. apply vec3_ext; simpl; nra.
Qed.

Lemma vnorm_zero a : vnorm a = 0 -> a = vzero.
Proof. intros H. apply vnorm2_zero. rewrite <- vnorm_sqr, H. ring. Qed.

Lemma vnorm_opp_sub a b : vnorm (vsub a b) = vnorm (vsub b a).
Proof. unfold vnorm, vnorm2, vdot, vsub. simpl. f_equal. ring. Qed.

Lemma dist3_sym a b : dist3 a b = dist3 b a.
Proof. apply vnorm_opp_sub. Qed.

Lemma dist3_refl a : dist3 a a = 0.
Proof. unfold dist3, vnorm, vnorm2, vdot, vsub. simpl. rewrite !Rminus_diag_eq by reflexivity.
  replace (0*0+0*0+0*0) with 0 by ring. apply sqrt_0. Qed.

(** Cauchy-Schwarz *)
Lemma cauchy_schwarz a b : vdot a b * vdot a b <= vnorm2 a * vnorm2 b.
Proof.
  unfold vnorm2, vdot.
  assert (H : 0 <= (vx a * vy b - vy a * vx b)^2 + (vx a * vz b - vz a * vx b)^2
                   + (vy a * vz b - vz a * vy b)^2).
  { assert (0 <= (vx a * vy b - vy a * vx b)^2) by apply pow2_ge_0.
    assert (0 <= (vx a * vz b - vz a * vx b)^2) by apply pow2_ge_0.
    assert (0 <= (vy a * vz b - vz a * vy b)^2) by apply pow2_ge_0. lra. }
  nra.
Qed.
Lemma vdot_le_norms a b : vdot a b <= vnorm a * vnorm b.
Proof.
  destruct (Rle_dec (vdot a b) 0) as [Hn|Hp].
  - apply Rle_trans with 0; [exact Hn|]. apply Rmult_le_pos; apply vnorm_nonneg.
  - apply Rnot_le_lt in Hp. apply Rsqr_incr_0_var.
    + unfold Rsqr. replace (vnorm a * vnorm b * (vnorm a * vnorm b))
        with ((vnorm a * vnorm a) * (vnorm b * vnorm b)) by ring.
      rewrite !vnorm_sqr. apply cauchy_schwarz.
    + apply Rmult_le_pos; apply vnorm_nonneg.
Qed.

Lemma vnorm_triangle a b : vnorm (vadd a b) <= vnorm a + vnorm b.
Proof.
  apply Rsqr_incr_0_var.
  - unfold Rsqr. rewrite vnorm_sqr.
    pose proof (vdot_le_norms a b) as H. pose proof (vnorm_sqr a). pose proof (vnorm_sqr b).
    assert (E : vnorm2 (vadd a b) = vnorm2 a + 2 * vdot a b + vnorm2 b).
    { unfold vnorm2, vdot, vadd. simpl. ring. }
    rewrite E. nra.
  - pose proof (vnorm_nonneg a). pose proof (vnorm_nonneg b). lra.
Qed.

Lemma dist3_triangle a b c : dist3 a c <= dist3 a b + dist3 b c.
Proof.
  unfold dist3. replace (vsub a c) with (vadd (vsub a b) (vsub b c)).
  - apply vnorm_triangle.
  - apply vec3_ext; simpl; ring.
Qed.
