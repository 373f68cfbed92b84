(** Proofs about the jumps the steering method returns. *)
From Verif Require Import Maps Vec ParaModel ParaSpec ParaProofs.
From Coq Require Import Psatz.
Local Open Scope R_scope.

Lemma sqr_pos x : 0 <= x * x.
Proof. exact (Rle_0_sqr x). Qed.
Lemma vec3_eq a b : vx a = vx b -> vy a = vy b -> vz a = vz b -> a = b.
Proof. destruct a, b; simpl; intros; subst; reflexivity. Qed.
Lemma vnorm_le v b : 0 <= b -> vnorm2 v <= b * b -> vnorm v <= b.
Proof. intros Hb H. unfold vnorm. rewrite <- (sqrt_square b) by auto. apply sqrt_le_1_alt; auto. Qed.
Lemma le_vnorm v b : vnorm v <= b -> vnorm2 v <= b * b.
Proof.
  intros H. unfold vnorm in H. assert (0 <= vnorm2 v) by (unfold vnorm2, vdot; pose proof (sqr_pos (vx v)); pose proof (sqr_pos (vy v)); pose proof (sqr_pos (vz v)); lra).
  rewrite <- (sqrt_sqrt (vnorm2 v)) by auto. pose proof (sqrt_pos (vnorm2 v)). apply Rmult_le_compat; auto.
Qed.
Lemma sin2cos2 a : sin a * sin a + cos a * cos a = 1.
Proof. exact (sin2_cos2 a). Qed.

(** * direction *)
Lemma direction q1 q2 : apart q1 q2 ->
  let X := qi q2 0 - qi q1 0 in let Y := qi q2 1 - qi q1 1 in let theta := atan2 Y X in
  0 < hdist q1 q2 /\ hdist q1 q2 * cos theta = X /\ hdist q1 q2 * sin theta = Y /\
  X * cos theta + Y * sin theta = hdist q1 q2 /\
  cos theta * qi q2 0 + sin theta * qi q2 1 = cos theta * qi q1 0 + sin theta * qi q1 1 + hdist q1 q2.
Proof.
  intros Hap X Y theta. assert (Hne : X <> 0 \/ Y <> 0) by (unfold X, Y; destruct Hap; [left|right]; lra).
  destruct (atan2_spec Y X Hne) as [Hc Hs]. fold theta in Hc, Hs.
  unfold hdist. fold X Y. set (r := sqrt (X * X + Y * Y)) in *.
  assert (Hr : 0 < r) by (apply sqrt_lt_R0; apply sq_pos_or; auto).
  assert (HX : X * cos theta + Y * sin theta = r).
  { rewrite <- Hc, <- Hs at 1. pose proof (sin2cos2 theta) as E. transitivity (r * (sin theta * sin theta + cos theta * cos theta)); [ring|rewrite E; ring]. }
  repeat split; auto. rewrite <- HX. unfold X, Y. ring.
Qed.

(** * the coefficients *)
Section coefs.
Context (s : steering) (a theta X Z x0 z0 : R).
Context (Hg : 0 < s_g s) (HX : 0 < X) (Ha : - PI / 2 < a < PI / 2) (Hd : 0 < X * tan a - Z).

Lemma coefs_spec c v0 vimp : computeCoefficients s a theta X Z x0 z0 = (c, v0, vimp) ->
  let w := k_xdot c in
  0 < w /\ w * w = s_g s * X * X / (2 * (X * tan a - Z)) /\
  k_theta c = theta /\ k_alpha c = a /\ k_x0 c = x0 /\
  flight (s_g s) X Z a (w / cos a) (X / w) /\
  v0 = V3 (w * cos theta) (w * sin theta) (w * tan a) /\
  vimp = fallVelocity (s_g s) v0 (X / w) /\
  (forall t, k0 c * (x0 + w * t) * (x0 + w * t) + k1 c * (x0 + w * t) + k2 c = z0 + w * tan a * t - s_g s * (t * t) / 2) /\
  k0 c < 0.
Proof.
  unfold computeCoefficients. intros H. injection H as <- <- <-. simpl.
  destruct (flight_exists (s_g s) X Z a Hg HX Ha Hd) as (Hw & Ew & Hf).
  set (w := sqrt (s_g s * X * X / (2 * (X * tan a - Z)))) in *.
  pose proof (cos_pos_in a Ha) as Hc.
  repeat split; auto; try apply Hf.
  - f_equal. pose proof (one_tan2 a ltac:(lra)) as H1.
    assert (E : sqrt (1 + tan a * tan a) = / cos a).
    { apply (Rmult_eq_reg_l (cos a)); [|lra]. rewrite Rinv_r by lra.
      rewrite <- (sqrt_square (cos a)) at 1 by lra. rewrite <- sqrt_mult by (pose proof (sqr_pos (cos a)); pose proof (sqr_pos (tan a)); lra).
      rewrite H1. apply sqrt_1. }
    rewrite E. unfold tan. field. lra.
  - unfold fallVelocity, vadd. simpl. f_equal; try ring.
    assert (E : sqrt (1 + tan a * tan a) = / cos a).
    { pose proof (one_tan2 a ltac:(lra)) as H1. apply (Rmult_eq_reg_l (cos a)); [|lra]. rewrite Rinv_r by lra.
      rewrite <- (sqrt_square (cos a)) at 1 by lra. rewrite <- sqrt_mult by (pose proof (sqr_pos (cos a)); pose proof (sqr_pos (tan a)); lra).
      rewrite H1. apply sqrt_1. }
    rewrite E. unfold tan. field. split; lra.
  - intros t. field. lra.
  - assert (0 < s_g s * (1 / (w * w))) by rpos. lra.
Qed.
End coefs.

(** height along a parabola, and the test of its maximum *)
Section height.
Context (s : steering) (c : coefs) (x0 x1 : R) (Hk : k0 c < 0) (H01 : x0 <= x1).
Let f x := k0 c * x * x + k1 c * x + k2 c.
Lemma f_apex x : f x = f (- (1/2) * k1 c / k0 c) + k0 c * (x - - (1/2) * k1 c / k0 c) * (x - - (1/2) * k1 c / k0 c).
Proof. unfold f. field. lra. Qed.
Lemma height_ok : maxHeightRespected s c x0 x1 = true -> forall x, x0 <= x <= x1 -> f x <= Rmax (s_zmax s) (Rmax (f x0) (f x1)).
Proof.
  unfold maxHeightRespected. set (xm := - (1/2) * k1 c / k0 c). intros H x Hx.
  apply negb_true_iff in H. apply andb_false_iff in H. destruct H as [H|H].
  - assert (f x <= Rmax (f x0) (f x1)); [|pose proof (Rmax_r (s_zmax s) (Rmax (f x0) (f x1))); lra].
    rewrite (f_apex x), (f_apex x0), (f_apex x1). fold xm. apply andb_false_iff in H. destruct H as [H|H]; apply Rleb_false in H.
    + (* apex on the left: decreasing *)
      apply Rle_trans with (f xm + k0 c * (x0 - xm) * (x0 - xm)); [|apply Rmax_l].
      assert (0 <= (x - xm) * (x - xm) - (x0 - xm) * (x0 - xm)) by nra. nra.
    + apply Rle_trans with (f xm + k0 c * (x1 - xm) * (x1 - xm)); [|apply Rmax_r].
      assert (0 <= (x - xm) * (x - xm) - (x1 - xm) * (x1 - xm)) by nra. nra.
  - apply Rltb_false in H. fold (f xm) in H. rewrite (f_apex x). fold xm.
    pose proof (sqr_pos (x - xm)). pose proof (Rmax_l (s_zmax s) (Rmax (f x0) (f x1))). nra.
Qed.
Lemma height_bad : maxHeightRespected s c x0 x1 = false -> exists x, x0 <= x <= x1 /\ s_zmax s < f x.
Proof.
  unfold maxHeightRespected. set (xm := - (1/2) * k1 c / k0 c). intros H.
  apply negb_false_iff in H. apply andb_true_iff in H. destruct H as [H H3]. apply andb_true_iff in H. destruct H as [H1 H2].
  apply Rleb_true in H1, H2. apply Rltb_true in H3. exists xm. auto.
Qed.
End height.

(** * the search *)
Section search.
Context (validate : ppath -> bool) (tryA : R -> ppath * bool) (inf sup : R).
Definition candidate (n : nat) : ppath := fst (tryA (dichotomy inf sup n)).
Definition cand_ok (n : nat) : bool := validate (candidate n) && snd (tryA (dichotomy inf sup n)).
Lemma search_spec k : forall n p good r g tried, search validate tryA inf sup k n p good = (r, g, tried) ->
  (length tried <= k)%nat /\ (forall j x, tried !! j = Some x -> x = candidate (n + j)) /\
  (g = true -> (good = true /\ r = p /\ tried = []) \/ (exists m, r = candidate m /\ cand_ok m = true /\ r ∈ tried)) /\
  (g = false -> good = false /\ length tried = k /\ forall j, (j < k)%nat -> cand_ok (n + j) = false).
Proof.
  induction k as [|k IH]; intros n p good r g tried H; simpl in H.
  - destruct good; injection H as <- <- <-; simpl; repeat split; auto; try (intros j x Hj; discriminate); try discriminate; try lia.
  - destruct good.
    + injection H as <- <- <-. simpl. repeat split; auto; try lia; try (intros j x Hj; discriminate); discriminate.
    + destruct (tryA (dichotomy inf sup n)) as [p' ok] eqn:Et.
      destruct (search validate tryA inf sup k (S n) p' (validate p' && ok)) as [[r' g'] tr'] eqn:Es.
      injection H as <- <- <-. destruct (IH _ _ _ _ _ _ Es) as (L & C & T & F).
      assert (Ep : candidate n = p') by (unfold candidate; rewrite Et; reflexivity).
      assert (Ek : cand_ok n = validate p' && ok) by (unfold cand_ok; rewrite Ep, Et; reflexivity).
      repeat split.
      * simpl; lia.
      * intros [|j] x Hj; simpl in Hj; [injection Hj as <-; rewrite Nat.add_0_r; auto|].
        apply C in Hj. rewrite Hj. f_equal. lia.
      * intros Hg. right. destruct (T Hg) as [(Hgood & -> & ->)|(m & Hm & Hok & Hin)].
        -- exists n. rewrite Ek. split; [auto|]. split; auto. set_solver.
        -- exists m. split; auto. split; auto. set_solver.
      * simpl. destruct (F H) as (_ & HL & _). lia.
      * intros j Hj. destruct (F H) as (Hb & _ & HF). destruct j as [|j].
        -- rewrite Nat.add_0_r, Ek. auto.
        -- replace (n + S j)%nat with (S n + j)%nat by lia. apply HF. lia.
Qed.
Lemma dichotomy_between n : inf <= sup -> inf <= dichotomy inf sup n <= sup.
Proof. intros H. unfold dichotomy. do 6 (destruct n as [|n]; [nra|]). nra. Qed.
End search.
