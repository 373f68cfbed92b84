(** Planes, segments, triangles, centres; the other clipping functions. *)
From Verif Require Import Maps Vec VecProofs GeomModel GeomSpec GeomInt GeomProofs GeomProofs2 GeomProofs3 GeomProofs4 GeomProofs5.
Local Open Scope R_scope.

(** ** planes *)
Section plane.
Variables (n P0 : vec3).
Hypothesis Hunit : vnorm2 n = 1.

Lemma project_in_plane p : in_plane n P0 (projectPointOnPlane p n P0).
Proof.
  unfold in_plane, projectPointOnPlane. unfold vnorm2 in Hunit.
  set (d := vdot (vsub p P0) n).
  assert (H : vdot n (vsub (vsub p (vscale d n)) P0) = vdot (vsub p P0) n - d * vdot n n).
  { unfold vdot, vsub, vscale. simpl. ring. }
  rewrite H, Hunit. unfold d. ring.
Qed.
Lemma project_displacement p : exists d, vsub p (projectPointOnPlane p n P0) = vscale d n /\ Rabs d = distanceToPlane p n P0.
Proof.
  exists (vdot (vsub p P0) n). split; [|done]. unfold projectPointOnPlane, vsub, vscale. simpl. f_equal; ring.
Qed.
Lemma project_norm p : vnorm2 (vsub p (projectPointOnPlane p n P0)) = vdot (vsub p P0) n * vdot (vsub p P0) n.
Proof.
  unfold projectPointOnPlane. set (d := vdot (vsub p P0) n).
  assert (H : vnorm2 (vsub p (vsub p (vscale d n))) = d * d * vnorm2 n).
  { unfold vnorm2, vdot, vsub, vscale. simpl. ring. }
  rewrite H, Hunit. ring.
Qed.
Lemma project_distance p : dist3 p (projectPointOnPlane p n P0) = distanceToPlane p n P0.
Proof. unfold dist3, vnorm. rewrite project_norm. unfold distanceToPlane. apply sqrt_Rsqr_abs. Qed.
Lemma project_nearest p q : in_plane n P0 q -> dist3 p (projectPointOnPlane p n P0) <= dist3 p q.
Proof.
  intros Hq. unfold dist3, vnorm. apply sqrt_le_1_alt. rewrite project_norm.
  unfold in_plane in Hq.
  assert (Hd : vdot (vsub p P0) n = vdot (vsub p q) n).
  { unfold vdot, vsub in *. simpl in *. lra. }
  rewrite Hd. set (w := vsub p q).
  (* (w.n)^2 <= |w|^2 |n|^2 *)
  assert (H : vdot w n * vdot w n + vnorm2 (vcross w n) = vnorm2 w * vnorm2 n).
  { unfold vnorm2, vdot, vcross. simpl. ring. }
  rewrite Hunit, Rmult_1_r in H.
  assert (0 <= vnorm2 (vcross w n)); [|lra]. unfold vnorm2, vdot.
  pose proof (Rle_0_sqr (vx (vcross w n))). pose proof (Rle_0_sqr (vy (vcross w n))). pose proof (Rle_0_sqr (vz (vcross w n))).
  unfold Rsqr in *. lra.
Qed.
Lemma project_idempotent p : projectPointOnPlane (projectPointOnPlane p n P0) n P0 = projectPointOnPlane p n P0.
Proof.
  pose proof (project_in_plane p) as H. set (q := projectPointOnPlane p n P0) in *. unfold projectPointOnPlane.
  assert (Hz : vdot (vsub q P0) n = 0) by (unfold in_plane in H; unfold vdot in *; lra).
  rewrite Hz. unfold vsub, vscale. destruct q. simpl. f_equal; ring.
Qed.
End plane.

Lemma normalize_unit v : v <> vzero -> vnorm2 (normalize v) = 1.
Proof.
  intros Hv. unfold normalize.
  assert (Hpos : 0 < vnorm2 v).
  { destruct v as [x y z]. unfold vnorm2, vdot. simpl.
    pose proof (Rle_0_sqr x). pose proof (Rle_0_sqr y). pose proof (Rle_0_sqr z). unfold Rsqr in *.
    destruct (Req_EM_T x 0) as [->|Hx]; [|pose proof (Rsqr_pos_lt x Hx); unfold Rsqr in *; lra].
    destruct (Req_EM_T y 0) as [->|Hy]; [|pose proof (Rsqr_pos_lt y Hy); unfold Rsqr in *; lra].
    destruct (Req_EM_T z 0) as [->|Hz]; [done|pose proof (Rsqr_pos_lt z Hz); unfold Rsqr in *; lra]. }
  assert (Rltb 0 (vnorm2 v) = true) as -> by by apply Rltb_true.
  assert (H : vnorm2 (vscale (/ vnorm v) v) = / vnorm v * / vnorm v * vnorm2 v).
  { unfold vnorm2, vdot, vscale. simpl. ring. }
  rewrite H. assert (Hs : vnorm v * vnorm v = vnorm2 v) by (unfold vnorm; apply sqrt_sqrt; lra).
  assert (0 < vnorm v) by (unfold vnorm; by apply sqrt_lt_R0).
  rewrite <- Hs. field. lra.
Qed.
(** the plane of a triangle goes through its vertices *)
Lemma triangle_plane a b c : vcross (vsub b a) (vsub c a) <> vzero ->
  let '(n, P0) := computePlanEquation (a, b, c) in
  vnorm2 n = 1 /\ in_plane n P0 a /\ in_plane n P0 b /\ in_plane n P0 c.
Proof.
  intros Hv. cbn [computePlanEquation TriangleNormal fst]. split; [by apply normalize_unit|].
  unfold in_plane, normalize. destruct (Rltb 0 _); split_and!; unfold vdot, vscale, vcross, vsub; simpl; ring.
Qed.

(** ** segments and planes *)
Lemma segment_plane_on_segment s0 s1 pn p0 p : p ∈ intersectSegmentPlane s0 s1 pn p0 -> on_segment s0 s1 p.
Proof.
  unfold intersectSegmentPlane. set (d := vdot pn (vsub s1 s0)). set (n := - vdot pn (vsub s0 p0)).
  assert (H0 : on_segment s0 s1 s0). { exists 0. split; [lra|]. destruct s0. unfold vadd, vscale, vsub. simpl. f_equal; ring. }
  assert (H1 : on_segment s0 s1 s1). { exists 1. split; [lra|]. destruct s0, s1. unfold vadd, vscale, vsub. simpl. f_equal; ring. }
  destruct (Rltb (Rabs d) EPSILON).
  - destruct (Rltb (Rabs n) EPSILON); intros Hp; [|by apply elem_of_nil in Hp].
    apply elem_of_cons in Hp as [->|Hp]; [done|]. by apply elem_of_list_singleton in Hp as ->.
  - destruct (Rltb (n / d) 0) eqn:E1; cbn [orb]; [intros Hp; by apply elem_of_nil in Hp|].
    destruct (Rltb 1 (n / d)) eqn:E2; [intros Hp; by apply elem_of_nil in Hp|].
    apply Rltb_false in E1, E2. intros Hp. apply elem_of_list_singleton in Hp as ->. exists (n / d). done.
Qed.
Lemma segment_plane_near s0 s1 pn p0 p : p ∈ intersectSegmentPlane s0 s1 pn p0 ->
  Rabs (vdot pn (vsub p p0)) < 2 * EPSILON /\
  (EPSILON <= Rabs (vdot pn (vsub s1 s0)) -> in_plane pn p0 p).
Proof.
  unfold intersectSegmentPlane, in_plane. set (d := vdot pn (vsub s1 s0)). set (n := - vdot pn (vsub s0 p0)).
  assert (He : 0 < EPSILON) by (unfold EPSILON; lra).
  destruct (Rltb (Rabs d) EPSILON) eqn:E0.
  - apply Rltb_true in E0. destruct (Rltb (Rabs n) EPSILON) eqn:E1; intros Hp; [|by apply elem_of_nil in Hp].
    apply Rltb_true in E1. split; [|lra].
    assert (H0 : vdot pn (vsub s0 p0) = - n) by (unfold n; ring).
    assert (H1 : vdot pn (vsub s1 p0) = d - n) by (unfold n, d, vdot, vsub; simpl; ring).
    apply elem_of_cons in Hp as [->|Hp].
    + rewrite H0, Rabs_Ropp. lra.
    + apply elem_of_list_singleton in Hp as ->. rewrite H1. pose proof (Rabs_triang d (- n)) as Ht. rewrite Rabs_Ropp in Ht.
      unfold Rminus. lra.
  - apply Rltb_false in E0. assert (Hd : d <> 0) by (intros ->; rewrite Rabs_R0 in E0; lra).
    destruct (_ || _); intros Hp; [by apply elem_of_nil in Hp|]. apply elem_of_list_singleton in Hp as ->.
    assert (H : vdot pn (vsub (vadd s0 (vscale (n / d) (vsub s1 s0))) p0) = 0).
    { assert (Hk : forall k, vdot pn (vsub (vadd s0 (vscale k (vsub s1 s0))) p0) = - n + k * d)
        by (intros k; unfold n, d, vdot, vsub, vadd, vscale; simpl; ring).
      rewrite Hk. field. done. }
    rewrite H. rewrite Rabs_R0. split; [lra|done].
Qed.
Lemma segment_plane_complete s0 s1 pn p0 p : on_segment s0 s1 p -> in_plane pn p0 p -> intersectSegmentPlane s0 s1 pn p0 <> [].
Proof.
  intros (t & Ht & ->) Hp. unfold in_plane in Hp. unfold intersectSegmentPlane.
  set (d := vdot pn (vsub s1 s0)) in *. set (n := - vdot pn (vsub s0 p0)) in *.
  assert (Hn : n = t * d).
  { assert (Hz : vdot pn (vsub (vadd s0 (vscale t (vsub s1 s0))) p0) = - n + t * d) by (unfold n, d, vdot, vsub, vadd, vscale; simpl; ring). lra. }
  destruct (Rltb (Rabs d) EPSILON) eqn:E0.
  - apply Rltb_true in E0. assert (Rltb (Rabs n) EPSILON = true) as ->; [|done]. apply Rltb_true.
    rewrite Hn, Rabs_mult, (Rabs_pos_eq t) by lra. pose proof (Rabs_pos d).
    assert (t * Rabs d <= 1 * Rabs d) by (apply Rmult_le_compat_r; lra). lra.
  - apply Rltb_false in E0. assert (Hd : d <> 0).
    { intros H0. rewrite H0, Rabs_R0 in E0. unfold EPSILON in E0. lra. }
    assert (n / d = t) as -> by (rewrite Hn; field; done).
    assert (Rltb t 0 = false) as -> by (apply Rltb_false; lra).
    assert (Rltb 1 t = false) as -> by (apply Rltb_false; lra). done.
Qed.

(** ** a point in a triangle *)
Lemma insideTriangle_complete a b c p : in_triangle3 (a, b, c) p -> insideTriangle a b c p = true.
Proof.
  intros (u & v & w & Hu & Hv & Hw & Hs & ->). cbn [fst snd]. unfold insideTriangle.
  set (n := vcross (vsub b a) (vsub c a)).
  set (p := vadd (vadd (vscale u a) (vscale v b)) (vscale w c)).
  assert (Hu' : u = 1 - v - w) by lra.
  assert (Hn : 0 <= vdot n n).
  { unfold vdot. pose proof (Rle_0_sqr (vx n)). pose proof (Rle_0_sqr (vy n)). pose proof (Rle_0_sqr (vz n)). unfold Rsqr in *. lra. }
  assert (H1 : vdot (vcross (vsub b p) (vsub c p)) n = u * vdot n n).
  { rewrite Hu'. unfold p, n, vdot, vcross, vsub, vadd, vscale. simpl. rewrite Hu'. ring. }
  assert (H2 : vdot (vcross (vsub c p) (vsub a p)) n = v * vdot n n).
  { unfold p, n, vdot, vcross, vsub, vadd, vscale. simpl. rewrite Hu'. ring. }
  assert (H3 : vdot (vcross (vsub a p) (vsub b p)) n = w * vdot n n).
  { unfold p, n, vdot, vcross, vsub, vadd, vscale. simpl. rewrite Hu'. ring. }
  rewrite H1, H2, H3. assert (He : 0 < EPSILON) by (unfold EPSILON; lra).
  assert (forall x, 0 <= x -> Rltb (x * vdot n n) (- EPSILON) = false) as Hpos.
  { intros x Hx. apply Rltb_false. assert (0 <= x * vdot n n) by (by apply Rmult_le_pos). lra. }
  by rewrite !Hpos.
Qed.
(** conversely, for points of the plane: barycentric coordinates not below -EPSILON / |n|^2 *)
Lemma insideTriangle_sound a b c p : let n := vcross (vsub b a) (vsub c a) in
  n <> vzero -> in_plane n a p -> insideTriangle a b c p = true ->
  exists u v w, u + v + w = 1 /\ p = vadd (vadd (vscale u a) (vscale v b)) (vscale w c) /\
    - EPSILON / vnorm2 n <= u /\ - EPSILON / vnorm2 n <= v /\ - EPSILON / vnorm2 n <= w.
Proof.
  intros n Hn Hp Hin.
  assert (Hnn : 0 < vnorm2 n).
  { destruct n as [x y z]. unfold vnorm2, vdot. simpl.
    pose proof (Rle_0_sqr x). pose proof (Rle_0_sqr y). pose proof (Rle_0_sqr z). unfold Rsqr in *.
    destruct (Req_EM_T x 0) as [->|Hx]; [|pose proof (Rsqr_pos_lt x Hx); unfold Rsqr in *; lra].
    destruct (Req_EM_T y 0) as [->|Hy]; [|pose proof (Rsqr_pos_lt y Hy); unfold Rsqr in *; lra].
    destruct (Req_EM_T z 0) as [->|Hz]; [done|pose proof (Rsqr_pos_lt z Hz); unfold Rsqr in *; lra]. }
  set (A := vdot (vcross (vsub b p) (vsub c p)) n). set (B := vdot (vcross (vsub c p) (vsub a p)) n).
  set (C := vdot (vcross (vsub a p) (vsub b p)) n).
  assert (HABC : - EPSILON <= A /\ - EPSILON <= B /\ - EPSILON <= C).
  { unfold insideTriangle in Hin. fold n in Hin. fold A in Hin. fold B in Hin. fold C in Hin.
    destruct (Rltb A (- EPSILON)) eqn:E1; [done|]. destruct (Rltb B (- EPSILON)) eqn:E2; [done|].
    destruct (Rltb C (- EPSILON)) eqn:E3; [done|]. apply Rltb_false in E1, E2, E3. done. }
  assert (Hsum : A + B + C = vnorm2 n).
  { unfold A, B, C, vnorm2, n, vdot, vcross, vsub. simpl. ring. }
  assert (Hdiv : forall x, - EPSILON <= x -> - EPSILON / vnorm2 n <= x / vnorm2 n).
  { intros x Hx. unfold Rdiv. apply Rmult_le_compat_r; [|done]. apply Rlt_le. by apply Rinv_0_lt_compat. }
  exists (A / vnorm2 n), (B / vnorm2 n), (C / vnorm2 n). split_and!; try (apply Hdiv; tauto).
  - rewrite <- Hsum. field. lra.
  - (* |n|^2 p = A a + B b + C c, using that p is in the plane *)
    set (g := vdot n (vsub p a)). assert (Hg : g = 0) by exact Hp.
    assert (Hx : vnorm2 n * vx p = A * vx a + B * vx b + C * vx c + g * vx n).
    { unfold g, A, B, C, vnorm2, n, vdot, vcross, vsub. simpl. ring. }
    assert (Hy : vnorm2 n * vy p = A * vy a + B * vy b + C * vy c + g * vy n).
    { unfold g, A, B, C, vnorm2, n, vdot, vcross, vsub. simpl. ring. }
    assert (Hz : vnorm2 n * vz p = A * vz a + B * vz b + C * vz c + g * vz n).
    { unfold g, A, B, C, vnorm2, n, vdot, vcross, vsub. simpl. ring. }
    rewrite Hg in Hx, Hy, Hz. destruct p as [px py pz]. unfold vadd, vscale. simpl in *.
    f_equal; apply Rmult_eq_reg_l with (vnorm2 n); try lra.
    + rewrite Hx. field. lra.
    + rewrite Hy. field. lra.
    + rewrite Hz. field. lra.
Qed.

(** ** the centre *)
Lemma center_in_hull v vs c : vs <> [] -> center (v :: vs) = Ok (Some c) ->
  in_hull (v :: vs) c /\ (forall n P0, (forall p, p ∈ v :: vs -> in_plane n P0 p) -> in_plane n P0 c).
Proof.
  intros Hne H. unfold center in H.
  assert (Hl : removelast (v :: vs) = v :: removelast vs) by (destruct vs; done).
  rewrite Hl in H. cbn [length Nat.eqb] in H. injection H as <-.
  set (l := v :: removelast vs).
  assert (Hin : forall p, p ∈ l -> p ∈ v :: vs).
  { intros p Hp. unfold l in Hp. rewrite <- Hl in Hp. apply elem_of_list_In. apply elem_of_list_In in Hp.
    revert Hp. generalize (v :: vs). intros k. induction k as [|x k IH]; [done|]. destruct k as [|y k]; [done|].
    cbn [removelast]. intros [->|Hp]; [by left|]. right. by apply IH. }
  assert (Hk : 0 < INR (length l)) by (apply lt_0_INR; simpl; lia).
  assert (Hsum : forall (g : vec3 -> R) (x y z : R), (forall p, g p = x * vx p + y * vy p + z * vz p) ->
    forall l, g (vsum l) = fold_right Rplus 0 (map g l)).
  { intros g x y z Hg k. induction k as [|p k IH].
    - simpl. rewrite Hg. unfold vzero. simpl. lra.
    - cbn [vsum fold_right map]. rewrite <- IH. unfold vsum. rewrite !Hg. unfold vadd. simpl. lra. }
  assert (Hconst : forall (g : vec3 -> R) r k, (forall p, p ∈ k -> g p = r) -> fold_right Rplus 0 (map g k) = INR (length k) * r).
  { intros g r k. induction k as [|p k IH]; intros Hg; [simpl; lra|]. cbn [map fold_right length]. rewrite S_INR, IH, Hg; [lra|apply elem_of_cons; by left|].
    intros q Hq. apply Hg, elem_of_cons. by right. }
  split.
  - apply (in_hull_incl l); [intros q Hq; by apply in_hull_elem, Hin|].
    exists (replicate (length l) (/ INR (length l))).
    assert (Hw : forall g k r, weighted g (replicate (length k) r) k = r * fold_right Rplus 0 (map g k)).
    { intros g k r. induction k as [|p k IH]; [simpl; lra|]. cbn [length replicate weighted map fold_right]. rewrite IH. lra. }
    split_and!.
    + by rewrite replicate_length.
    + apply Forall_replicate. apply Rlt_le. by apply Rinv_0_lt_compat.
    + rewrite Hw, (Hconst _ 1) by done. field. lra.
    + rewrite Hw, <- (Hsum vx 1 0 0) by (intros; lra). unfold vscale. simpl. lra.
    + rewrite Hw, <- (Hsum vy 0 1 0) by (intros; lra). unfold vscale. simpl. lra.
  - intros n P0 Hpl. unfold in_plane.
    assert (Hd : vdot n (vsub (vscale (/ INR (length l)) (vsum l)) P0) = / INR (length l) * vdot n (vsum l) - vdot n P0).
    { unfold vdot, vsub, vscale. simpl. ring. }
    etransitivity; [exact Hd|]. rewrite (Hsum (vdot n) (vx n) (vy n) (vz n)) by done.
    rewrite (Hconst (vdot n) (vdot n P0)); [field; lra|].
    intros p Hp. specialize (Hpl p (Hin p Hp)). unfold in_plane, vdot, vsub in Hpl. simpl in Hpl. unfold vdot. lra.
Qed.

(** ** the area *)
Definition shoelace (l : list vec3) : R :=
  fold_right Rplus 0 (map (fun e : vec3 * vec3 => vx e.1 * vy e.2 - vx e.2 * vy e.1) (edges l)).
Lemma areaSum_ok l : forall prev cur,
  areaSum prev cur l = shoelace (prev :: cur :: l) - vx prev * vy cur +
    vx (List.last (cur :: l) vzero) * vy (List.last (removelast (prev :: cur :: l)) vzero).
Proof.
  induction l as [|next l IH]; intros prev cur.
  - unfold shoelace. simpl. ring.
  - cbn [areaSum]. rewrite IH.
    change (List.last (cur :: next :: l) vzero) with (List.last (next :: l) vzero).
    change (List.last (removelast (prev :: cur :: next :: l)) vzero) with (List.last (removelast (cur :: next :: l)) vzero).
    assert (Hs : shoelace (prev :: cur :: next :: l) = vx prev * vy cur - vx cur * vy prev + shoelace (cur :: next :: l)) by done.
    rewrite Hs. ring.
Qed.
Lemma area_shoelace v vs : area (v :: vs ++ [v]) = Rabs (shoelace (v :: vs ++ [v]) / 2).
Proof.
  destruct (vs ++ [v]) as [|p1 l] eqn:E; [by destruct vs|].
  unfold area. f_equal. f_equal. rewrite areaSum_ok.
  assert (Hl : List.last (v :: p1 :: l) vzero = v) by (rewrite <- E, app_comm_cons; apply last_last).
  change (List.last (v :: p1 :: l) vzero) with (List.last (p1 :: l) vzero) in Hl.
  change (List.last (v :: p1 :: l) vzero) with (List.last (p1 :: l) vzero).
  rewrite Hl. ring.
Qed.
