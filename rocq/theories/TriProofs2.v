(** The test of a point against the prism over a triangle, and the offset of the nearest point
    (projection.cc). *)
From Coq Require Import Reals Lra.
From Verif Require Import Maps MapsProofs Vec VecProofs GeomModel GeomSpec GeomProofs TriModel TriSpec TriProofs.
Local Open Scope R_scope.

Lemma norm2_pos n : n <> vzero -> 0 < vnorm2 n.
Proof.
  intros Hn. destruct n as [x y z]. unfold vnorm2, vdot. simpl.
  pose proof (Rle_0_sqr x). pose proof (Rle_0_sqr y). pose proof (Rle_0_sqr z). unfold Rsqr in *.
  destruct (Req_EM_T x 0) as [->|Hx]; [|pose proof (Rsqr_pos_lt x Hx); unfold Rsqr in *; lra].
  destruct (Req_EM_T y 0) as [->|Hy]; [|pose proof (Rsqr_pos_lt y Hy); unfold Rsqr in *; lra].
  destruct (Req_EM_T z 0) as [->|Hz]; [done|pose proof (Rsqr_pos_lt z Hz); unfold Rsqr in *; lra].
Qed.
(** the coordinates of a point of the plane with respect to the corners *)
Lemma plane_coordinates a b c q : let n := vcross (vsub b a) (vsub c a) in
  n <> vzero -> in_plane n a q -> exists u v w, u + v + w = 1 /\ q = vadd (vadd (vscale u a) (vscale v b)) (vscale w c).
Proof.
  intros n Hn Hp. pose proof (norm2_pos n Hn) as Hnn.
  set (A := vdot (vcross (vsub b q) (vsub c q)) n). set (B := vdot (vcross (vsub c q) (vsub a q)) n).
  set (C := vdot (vcross (vsub a q) (vsub b q)) n).
  assert (Hsum : A + B + C = vnorm2 n).
  { unfold A, B, C, vnorm2, n, vdot, vcross, vsub. simpl. ring. }
  exists (A / vnorm2 n), (B / vnorm2 n), (C / vnorm2 n). split.
  - rewrite <- Hsum. field. lra.
  - set (g := vdot n (vsub q a)). assert (Hg : g = 0) by exact Hp.
    assert (Hx : vnorm2 n * vx q = A * vx a + B * vx b + C * vx c + g * vx n).
    { unfold g, A, B, C, vnorm2, n, vdot, vcross, vsub. simpl. ring. }
    assert (Hy : vnorm2 n * vy q = A * vy a + B * vy b + C * vy c + g * vy n).
    { unfold g, A, B, C, vnorm2, n, vdot, vcross, vsub. simpl. ring. }
    assert (Hz : vnorm2 n * vz q = A * vz a + B * vz b + C * vz c + g * vz n).
    { unfold g, A, B, C, vnorm2, n, vdot, vcross, vsub. simpl. ring. }
    rewrite Hg in Hx, Hy, Hz. destruct q as [px py pz]. unfold vadd, vscale. simpl in *.
    f_equal; apply Rmult_eq_reg_l with (vnorm2 n); try lra.
    + rewrite Hx. field. lra.
    + rewrite Hy. field. lra.
    + rewrite Hz. field. lra.
Qed.
Lemma in_prism a b c u v w h : let n := vcross (vsub b a) (vsub c a) in
  n <> vzero -> u + v + w = 1 ->
  PointInTriangle (vadd (vadd (vadd (vscale u a) (vscale v b)) (vscale w c)) (vscale h n)) a b c = true <-> 0 <= u /\ 0 <= v /\ 0 <= w.
Proof.
  intros n Hn Hs. pose proof (norm2_pos n Hn) as Hnn.
  set (p := vadd _ _). unfold PointInTriangle, SameSide.
  assert (Hw : w = 1 - u - v) by lra.
  assert (E1 : vdot (vcross (vsub c b) (vsub p b)) (vcross (vsub c b) (vsub a b)) = u * vnorm2 n).
  { unfold p, n, vnorm2, vdot, vcross, vadd, vscale, vsub. simpl. rewrite Hw. ring. }
  assert (E2 : vdot (vcross (vsub c a) (vsub p a)) (vcross (vsub c a) (vsub b a)) = v * vnorm2 n).
  { unfold p, n, vnorm2, vdot, vcross, vadd, vscale, vsub. simpl. rewrite Hw. ring. }
  assert (E3 : vdot (vcross (vsub b a) (vsub p a)) (vcross (vsub b a) (vsub c a)) = w * vnorm2 n).
  { unfold p, n, vnorm2, vdot, vcross, vadd, vscale, vsub. simpl. rewrite Hw. ring. }
  cbv zeta. rewrite E1, E2, E3, !andb_true_iff, !Rleb_true.
  assert (X : forall x, 0 <= x * vnorm2 n <-> 0 <= x).
  { intros x. split; intros H.
    - apply Rnot_lt_le. intros Hx. assert (x * vnorm2 n < 0 * vnorm2 n) by (by apply Rmult_lt_compat_r). lra.
    - apply Rmult_le_pos; lra. }
  rewrite !X. tauto.
Qed.
(** accepted exactly when the projection on the plane is in the triangle *)
Lemma prism_exact a b c q h : let n := vcross (vsub b a) (vsub c a) in
  n <> vzero -> in_plane n a q -> (PointInTriangle (vadd q (vscale h n)) a b c = true <-> in_triangle3 (a, b, c) q).
Proof.
  intros n Hn Hq. split.
  - destruct (plane_coordinates a b c q Hn Hq) as (u & v & w & Hs & ->). intros H.
    apply (in_prism a b c u v w h Hn Hs) in H. exists u, v, w. tauto.
  - intros (u & v & w & Hu & Hv & Hw & Hs & E). cbn in E. rewrite E. apply (in_prism a b c u v w h Hn Hs). tauto.
Qed.

(** the nearest point pushed away from the source by epsilon *)
Lemma closest_offset src t0 t1 t2 eps : let p := closestPointInTriangle src t0 t1 t2 0 in
  (p = src -> closestPointInTriangle src t0 t1 t2 eps = p) /\
  (p <> src -> closestPointInTriangle src t0 t1 t2 eps = vadd p (vscale (eps / vnorm (vsub p src)) (vsub p src))).
Proof.
  unfold closestPointInTriangle. destruct (closestParams _ _ _ _ _) as [s t].
  set (r := vadd (vadd t0 (vscale s (vsub t1 t0))) (vscale t (vsub t2 t0))). clearbody r.
  assert (E : vadd r (vscale 0 (normalizedOrZero (vsub r src))) = r).
  { destruct r as [x y z]. unfold vadd, vscale. simpl. f_equal; ring. }
  cbv zeta. rewrite E. split.
  - intros ->. unfold normalizedOrZero. assert (vsub src src = vzero) as -> by (destruct src as [x y z]; unfold vsub, vzero; simpl; f_equal; ring).
    assert (Reqb (vnorm2 vzero) 0 = true) as -> by (apply Reqb_true; unfold vnorm2, vdot, vzero; simpl; ring).
    destruct src as [x y z]. unfold vadd, vscale, vzero. simpl. f_equal; ring.
  - intros H. assert (N : vsub r src <> vzero).
    { intros X. apply H. destruct r as [x y z], src as [x' y' z']. unfold vsub, vzero in X. simpl in X. injection X as X1 X2 X3. f_equal; lra. }
    apply norm2_pos in N. unfold normalizedOrZero. assert (Reqb (vnorm2 (vsub r src)) 0 = false) as -> by (apply Reqb_false; lra).
    set (d := vsub r src). unfold vadd, vscale, Rdiv. simpl. f_equal; ring.
Qed.
Lemma prism_case : let a := V3 0 0 0 in let b := V3 1 0 0 in let c := V3 0 1 0 in
  vcross (vsub b a) (vsub c a) <> vzero /\ PointInTriangle (V3 (1/4) (1/4) 5) a b c = true /\ PointInTriangle (V3 1 1 0) a b c = false /\
  closestPointInTriangle (V3 (1/4) (1/4) 2) a b c 1 = V3 (1/4) (1/4) (-1).
Proof.
  cbn zeta. split; [intros H; apply (f_equal vz) in H; cbn in H; lra|]. split; [|split].
  - unfold PointInTriangle, SameSide, vdot, vcross, vsub. cbn. rewrite !andb_true_iff, !Rleb_true. lra.
  - unfold PointInTriangle, SameSide, vdot, vcross, vsub. cbn. apply andb_false_iff. left. apply andb_false_iff. left. apply Rleb_false. lra.
  - assert (E : closestPointInTriangle (V3 (1/4) (1/4) 2) (V3 0 0 0) (V3 1 0 0) (V3 0 1 0) 0 = V3 (1/4) (1/4) 0).
    { unfold closestPointInTriangle, closestParams, vdot, vsub. cbn.
      repeat match goal with
      | |- context [Rltb ?x ?y] => first
         [ assert (Rltb x y = true) as -> by (apply Rltb_true; lra)
         | assert (Rltb x y = false) as -> by (apply Rltb_false; lra) ]
      end.
      unfold vadd, vscale. cbn. f_equal; field. }
    destruct (closest_offset (V3 (1/4) (1/4) 2) (V3 0 0 0) (V3 1 0 0) (V3 0 1 0) 1) as [_ H]. rewrite E in H. rewrite H.
    + assert (vnorm (vsub (V3 (1/4) (1/4) 0) (V3 (1/4) (1/4) 2)) = 2) as ->.
      { unfold vnorm, vnorm2, vdot, vsub. cbn. match goal with |- sqrt ?x = _ => replace x with (2 * 2) by field end. apply sqrt_square. lra. }
      unfold vadd, vscale, vsub. cbn. f_equal; field.
    + intros X. apply (f_equal vz) in X. cbn in X. lra.
Qed.
