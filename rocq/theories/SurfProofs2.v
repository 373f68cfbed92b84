(** Proofs about the contact surface: the theorems. *)
From Verif Require Import VecProofs NodeModel ProjModel GeomModel GeomSpec GeomInt GeomProofs GeomProofs2 GeomProofs3 GeomProofs4 GeomProofs5 GeomProofs6 GeomProofs7 GeomExamples SurfModel SurfSpec SurfProofs.
Local Open Scope R_scope.

Lemma normal_of b a c k n : 0 < k -> vcross (vsub b a) (vsub c a) = vscale k n -> vnorm2 n = 1 ->
  TriangleNormal (a, b, c) = n.
Proof.
  intros Hk Hc Hn. unfold TriangleNormal. rewrite Hc.
  assert (Hv : vnorm2 (vscale k n) = k * k).
  { unfold vnorm2, vdot, vscale in *. cbn in *.
    replace (k * vx n * (k * vx n) + k * vy n * (k * vy n) + k * vz n * (k * vz n)) with (k * k * (vx n * vx n + vy n * vy n + vz n * vz n)) by ring.
    rewrite Hn. ring. }
  unfold normalize, vnorm. rewrite Hv.
  assert (Rltb 0 (k * k) = true) as -> by (apply Rltb_true; apply Rmult_lt_0_compat; lra).
  rewrite sqrt_square by lra. destruct n as [x y z]. unfold vscale. cbn. f_equal; field; lra.
Qed.
Lemma support_normal T m n a : support T m n a ->
  exists t ts b c, tris m = t :: ts /\ triPoints (verts (GetModel T m)) t = Ok (a, b, c) /\ TriangleNormal (a, b, c) = n /\
    corners T m t a b c /\ vcross (vsub b a) (vsub c a) <> vzero.
Proof.
  intros (t & ts & b & c & k & Ht & Hc & Hk & Hx & Hn). exists t, ts, b, c. split_and!; [done|by apply corners_triPoints|by eapply normal_of|done|].
  rewrite Hx. intros Hz. assert (vnorm2 (vscale k n) = 0) as Hv by (rewrite Hz; unfold vnorm2, vdot, vzero; cbn; ring).
  assert (vnorm2 (vscale k n) = k * k * vnorm2 n) as Hv' by (unfold vnorm2, vdot, vscale; cbn; ring).
  rewrite Hn in Hv'. assert (0 < k * k) by (apply Rmult_lt_0_compat; lra). lra.
Qed.
Lemma nbind_ok {A B} (o : outcome A) (f : A -> outcome B) b : nbind o f = Ok b -> exists a, o = Ok a /\ f a = Ok b.
Proof. destruct o; cbn; intros H; try done. eauto. Qed.

(** what is produced *)
Theorem surface_sound fuel Trom rom Tenv env n a pn out : support Tenv env n a ->
  computeIntersectionSurface fuel Trom rom Tenv env = Ok (Some (pn, out)) ->
  pn = n /\ (out = [] \/ exists v vs, out = v :: vs ++ [v]) /\
  exists S, (forall q, q ∈ S -> exists s e, side_of Trom rom s e /\ on_segment s e q /\ Rabs (vdot n (vsub q a)) < 2 * (1 / 100000)) /\
  forall p, p ∈ out -> in_hull3 S p /\ in_hull3 (points_of Trom rom) p /\ Rabs (vdot n (vsub p a)) < 2 * (1 / 100000) /\
    (general_position (points_of Tenv env) -> three_points (points_of Tenv env) -> in_hull (points_of Tenv env) p).
Proof.
  intros Hs H. destruct (support_normal _ _ _ _ Hs) as (t & ts & b & c & Ht & Htp & HN & Hc & Hx).
  unfold computeIntersectionSurface in H. cbn zeta in H. change (tris (GetModel Tenv env)) with (tris env) in H.
  change (tris (GetModel Trom rom)) with (tris rom) in H.
  apply nbind_ok in H as (r & Hr & H). rewrite Ht in H. apply nbind_ok in H as (t' & Ht' & H).
  rewrite Htp in Ht'. injection Ht' as <-. rewrite HN in H.
  unfold intersectPolygonePlane, computePlanEquation in H. rewrite HN in H. cbn [fst] in H.
  set (pts := planePoints r n a) in *.
  assert (Hpts : forall q, q ∈ pts -> exists s e, side_of Trom rom s e /\ on_segment s e q /\ Rabs (vdot n (vsub q a)) < 2 * (1 / 100000)).
  { intros q Hq. apply planePoints_in in Hq as (s & e & He & Hq). exists s, e. split; [by apply (mesh_edge_side _ _ _ _ _ Hr)|].
    split; [by apply (segment_plane_on_segment _ _ _ _ _ Hq)|]. by destruct (segment_plane_near _ _ _ _ _ Hq). }
  destruct pts as [|x pts'] eqn:Ep.
  { injection H as <- <-. split; [done|]. split; [by left|]. exists []. split; [intros q Hq; by apply elem_of_nil in Hq|]. intros p Hp. by apply elem_of_nil in Hp. }
  destruct (convexHull fuel (x :: pts')) as [plane|] eqn:Eh; [|done].
  destruct (convexHull_any _ _ _ Eh) as [Hin Hcl]. destruct (Hcl ltac:(done)) as (v & vs & Hv).
  assert (E0 : match plane with [] => Ok (Some (n, [])) | _ =>
      match convertBVH fuel (GetModel Tenv env) with
      | None => Ok None
      | Some hull => match compute3DIntersection fuel plane hull with Ok (Some inter) => Ok (Some (n, inter)) | Ok None => Ok None | Throw => Throw | Ub => Ub end
      end end = Ok (Some (pn, out))) by (rewrite Hv in *; exact H). clear H.
  rewrite Hv in E0 at 1. destruct (convertBVH fuel (GetModel Tenv env)) as [hull|] eqn:Ec; [|done].
  destruct (compute3DIntersection fuel plane hull) as [[inter|]| |] eqn:E3; try done. injection E0 as <- <-.
  unfold compute3DIntersection in E3. destruct (clipPolygon lineSect3D plane hull) as [[cl|]| |] eqn:Ecl; try done.
  destruct (convexHull fuel cl) as [inter'|] eqn:Eh2; [|done]. injection E3 as ->.
  destruct (convexHull_any _ _ _ Eh2) as [Hin2 Hcl2].
  split; [done|]. split.
  { destruct cl as [|y cl]; [left; by injection Eh2 as <-|right; by apply Hcl2]. }
  exists (x :: pts'). split; [done|]. intros p Hp. apply Hin2 in Hp.
  assert (Hed : clipEdges lineSect3D hull plane = Ok (Some cl)) by (unfold clipPolygon in Ecl; by destruct hull).
  assert (Hgen : forall P, convex_pred P -> (forall q, q ∈ x :: pts' -> P q) -> P p).
  { intros P HP HPq. apply (clipEdges_convex hull P plane cl HP Hed); [|done]. intros q Hq. apply HPq. by apply Hin. }
  split_and!.
  - apply Hgen; [apply in_hull3_convex|]. apply in_hull3_elem.
  - apply Hgen; [apply in_hull3_convex|]. intros q Hq. destruct (Hpts q Hq) as (s & e & Hse & (k & Hk & ->) & _).
    apply side_in in Hse as [H1 H2]. apply in_hull3_convex; [done|by apply in_hull3_elem|by apply in_hull3_elem].
  - apply (Hgen (fun p => Rabs (vdot n (vsub p a)) < 2 * (1 / 100000))); [apply near_convex|]. intros q Hq. by destruct (Hpts q Hq) as (s & e & _ & _ & ?).
  - intros Hg H3. change (convexHull fuel (points_of Tenv env) = Some hull) in Ec.
    destruct (convexHull_general _ fuel hull Hg H3 Ec) as (Hcv & Hsub & _).
    apply (in_hull_incl hull); [intros q Hq; by apply in_hull_elem, Hsub|].
    apply polygon_membership; [done|]. by apply (clipEdges_convex hull (in_hull3 (x :: pts')) plane cl (in_hull3_convex _) Hed (fun q Hq => in_hull3_elem _ _ (Hin q Hq))).
Qed.

Lemma gp_ext l l' : (forall p, p ∈ l <-> p ∈ l') -> general_position l -> general_position l'.
Proof. intros H [H1 H2]. split; [intros a b Ha Hb; apply H1; by apply H|]. intros a b c Ha Hb Hc. apply H2; by apply H. Qed.
Lemma three_ext l l' : (forall p, p ∈ l <-> p ∈ l') -> three_points l -> three_points l'.
Proof. intros H (a & b & c & Ha & Hb & Hc & H'). exists a, b, c. split_and!; try apply H; tauto. Qed.
Lemma hull_ext l l' p : (forall p, p ∈ l <-> p ∈ l') -> in_hull l p -> in_hull l' p.
Proof. intros H. apply in_hull_incl. intros q Hq. apply in_hull_elem. by apply H. Qed.

Lemma segment_plane_exact s e n a p : (1 / 100000 <= Rabs (vdot n (vsub e s)) \/ 1 / 100000 <= Rabs (vdot n (vsub s a))) ->
  p ∈ intersectSegmentPlane s e n a <-> on_segment s e p /\ in_plane n a p.
Proof.
  intros Ht. split.
  - intros Hp. split; [by apply (segment_plane_on_segment _ _ _ _ _ Hp)|]. destruct (segment_plane_near _ _ _ _ _ Hp) as [_ H].
    destruct (Rle_dec EPSILON (Rabs (vdot n (vsub e s)))) as [Hd|Hd]; [by apply H|]. exfalso.
    assert (Hd2 : 1 / 100000 <= Rabs (vdot n (vsub s a))) by (unfold EPSILON in *; destruct Ht; lra).
    unfold intersectSegmentPlane in Hp.
    assert (Rltb (Rabs (vdot n (vsub e s))) EPSILON = true) as E0 by (apply Rltb_true; lra). rewrite E0 in Hp.
    rewrite Rabs_Ropp in Hp. assert (Rltb (Rabs (vdot n (vsub s a))) EPSILON = false) as E1 by (apply Rltb_false; unfold EPSILON; lra).
    rewrite E1 in Hp. by apply elem_of_nil in Hp.
  - intros [(t & Ht' & ->) Hpl]. unfold in_plane in Hpl. unfold intersectSegmentPlane.
    set (d := vdot n (vsub e s)) in *. set (m := vdot n (vsub s a)) in *.
    assert (Hm : m = - t * d).
    { assert (Hz : vdot n (vsub (vadd s (vscale t (vsub e s))) a) = m + t * d) by (unfold m, d, vdot, vsub, vadd, vscale; cbn; ring). lra. }
    destruct (Rltb (Rabs d) EPSILON) eqn:E0.
    + exfalso. apply Rltb_true in E0. destruct Ht as [Ht|Ht]; [unfold EPSILON in *; lra|].
      rewrite Hm, Rabs_mult, Rabs_Ropp, (Rabs_pos_eq t) in Ht by lra. pose proof (Rabs_pos d).
      assert (t * Rabs d <= 1 * Rabs d) by (apply Rmult_le_compat_r; lra). unfold EPSILON in *. lra.
    + apply Rltb_false in E0. assert (Hd : d <> 0) by (intros Hd; rewrite Hd, Rabs_R0 in E0; unfold EPSILON in *; lra).
      assert (Hq : - m / d = t) by (rewrite Hm; field; done). rewrite Hq.
      assert (Rltb t 0 = false) as -> by (apply Rltb_false; lra). assert (Rltb 1 t = false) as -> by (apply Rltb_false; lra).
      apply elem_of_list_singleton. done.
Qed.
Lemma section_points Trom rom r n a p : allTriangles (verts (GetModel Trom rom)) (tris rom) = Ok r -> transversal Trom rom n a ->
  p ∈ planePoints r n a <-> crossing Trom rom n a p.
Proof.
  intros Hr Ht. rewrite planePoints_in. unfold crossing. split.
  - intros (s & e & He & Hp). apply (mesh_edge_side _ _ _ _ _ Hr) in He. exists s, e. split; [done|].
    by apply (segment_plane_exact s e n a p (Ht s e He)).
  - intros (s & e & He & Hp & Hpl). exists s, e. split; [by apply (mesh_edge_side _ _ _ _ _ Hr)|].
    by apply (segment_plane_exact s e n a p (Ht s e He)).
Qed.

(** when there is a surface *)
Theorem surface_found Trom rom Tenv env n a S : support Tenv env n a -> well_formed rom -> transversal Trom rom n a ->
  (forall p, p ∈ S <-> crossing Trom rom n a p) ->
  general_position S -> three_points S -> general_position (points_of Tenv env) -> three_points (points_of Tenv env) ->
  exists N, forall fuel, (N <= fuel)%nat ->
  ((exists q, in_hull S q /\ in_hull (points_of Tenv env) q) ->
     exists out, computeIntersectionSurface fuel Trom rom Tenv env = Ok (Some (n, out)) /\ out <> [] /\
       forall p, p ∈ out -> in_hull S p /\ in_hull (points_of Tenv env) p /\ in_plane n a p) /\
  ((forall q, ~ (in_hull S q /\ in_hull (points_of Tenv env) q)) ->
     computeIntersectionSurface fuel Trom rom Tenv env = Ok (Some (n, [])) \/
     computeIntersectionSurface fuel Trom rom Tenv env = Ub).
Proof.
  intros Hs Hw Htr HS HgS H3S HgE H3E. destruct (support_normal _ _ _ _ Hs) as (t & ts & b & c & Ht & Htp & HN & Hc & Hx).
  destruct (allTriangles_ok Trom rom (tris rom)) as [r Hr]; [exact Hw|].
  set (pts := planePoints r n a).
  assert (HP : forall p, p ∈ S <-> p ∈ pts) by (intros p; rewrite HS; unfold pts; by rewrite (section_points _ _ _ _ _ _ Hr Htr)).
  assert (Hne : pts <> []).
  { destruct H3S as (p & _ & _ & Hp & _). apply HP in Hp. intros E. rewrite E in Hp. by apply elem_of_nil in Hp. }
  destruct (hull_encloses pts (gp_ext _ _ HP HgS) (three_ext _ _ HP H3S)) as [N1 H1].
  destruct (hull_encloses (points_of Tenv env) HgE H3E) as [N2 H2].
  destruct (H1 N1 (le_n _)) as (plane & Hp1 & Hcv1 & Hsub1 & _ & Heq1).
  destruct (H2 N2 (le_n _)) as (hull & Hp2 & Hcv2 & Hsub2 & _ & Heq2).
  assert (Hdet : forall f1 f2 (l : list vec3) h1 h2, convexHull f1 l = Some h1 -> convexHull f2 l = Some h2 -> h1 = h2).
  { clear. intros f1 f2 l h1 h2. destruct l as [|p0 l]; cbn [convexHull]; [congruence|]. generalize (leftMostFrom p0 l) as h. generalize (@nil vec3) as res.
    revert f2. induction f1 as [|f1 IH]; intros f2 res h E1 E2; [done|]. destruct f2 as [|f2]; [done|]. cbn [hullLoop] in E1, E2.
    destruct (veqb _ _); [congruence|]. by eapply IH. }
  assert (Hclip : hull <> []) by (destruct Hcv2 as [(v & vs & -> & _) _]; done).
  assert (Hpne : plane <> []) by (destruct Hcv1 as [(v & vs & -> & _) _]; done).
  assert (Hstep : forall fuel, (N1 <= fuel)%nat -> (N2 <= fuel)%nat ->
     computeIntersectionSurface fuel Trom rom Tenv env =
       match compute3DIntersection fuel plane hull with Ok (Some inter) => Ok (Some (n, inter)) | Ok None => Ok None | Throw => Throw | Ub => Ub end).
  { intros fuel Hf1 Hf2. unfold computeIntersectionSurface. cbn zeta. change (tris (GetModel Tenv env)) with (tris env).
    change (tris (GetModel Trom rom)) with (tris rom). rewrite Hr. cbn [nbind]. rewrite Ht, Htp. cbn [nbind]. rewrite HN.
    unfold intersectPolygonePlane, computePlanEquation. rewrite HN. cbn [fst]. fold pts.
    destruct (H1 fuel Hf1) as (plane' & Hp1' & _). assert (plane' = plane) as -> by (by eapply Hdet).
    destruct (H2 fuel Hf2) as (hull' & Hp2' & _). assert (hull' = hull) as -> by (by eapply Hdet).
    destruct pts as [|x pts']; [done|]. rewrite Hp1'. unfold convertBVH. change (verts (GetModel Tenv env)) with (points_of Tenv env). rewrite Hp2'.
    destruct plane; done. }
  assert (Hcommon : forall p, in_hull plane p /\ inside_edges hull p <-> in_hull S p /\ in_hull (points_of Tenv env) p).
  { intros p. rewrite (polygon_membership hull p Hcv2), Heq2, Heq1. split; intros [Ha Hb]; (split; [|done]).
    - apply (hull_ext pts); [intros q; by rewrite HP|done].
    - by apply (hull_ext S). }
  destruct (compute3D_ok plane hull (convex_weakly _ Hcv1) Hclip) as [[N3 H3]|[H3 Hno]].
  - exists (N1 + N2 + N3)%nat. intros fuel Hf. destruct (H3 fuel ltac:(lia)) as (out & Ho & Hi & Hpl & Hemp).
    rewrite Hstep, Ho by lia. split.
    + intros (q & Hq). exists out. split; [done|]. split; [intros ->; by apply (proj1 Hemp eq_refl q), Hcommon|].
      intros p Hp. destruct (proj1 (Hcommon p) (Hi p Hp)) as [? ?]. split_and!; try done. apply Hpl; [done|].
      intros q' Hq'. apply Hsub1, HP, HS in Hq'. by destruct Hq' as (s & e & _ & _ & ?).
    + intros Hno. left. do 2 f_equal. f_equal. apply Hemp. intros p Hp. by apply (Hno p), Hcommon.
  - exists (N1 + N2)%nat. intros fuel Hf. rewrite Hstep, H3 by lia. split; [|by right].
    intros (q & Hq). exfalso. by apply (Hno q), Hcommon.
Qed.
(** no crossing: no surface *)
Theorem surface_none Trom rom Tenv env n a : support Tenv env n a -> well_formed rom -> transversal Trom rom n a ->
  (forall p, ~ crossing Trom rom n a p) -> forall fuel, computeIntersectionSurface fuel Trom rom Tenv env = Ok (Some (n, [])).
Proof.
  intros Hs Hw Htr Hno fuel. destruct (support_normal _ _ _ _ Hs) as (t & ts & b & c & Ht & Htp & HN & Hc & Hx).
  destruct (allTriangles_ok Trom rom (tris rom)) as [r Hr]; [exact Hw|].
  unfold computeIntersectionSurface. cbn zeta. change (tris (GetModel Tenv env)) with (tris env).
  change (tris (GetModel Trom rom)) with (tris rom). rewrite Hr. cbn [nbind]. rewrite Ht, Htp. cbn [nbind]. rewrite HN.
  unfold intersectPolygonePlane, computePlanEquation. rewrite HN. cbn [fst].
  destruct (planePoints r n a) as [|x pts] eqn:E; [done|]. exfalso. apply (Hno x), (section_points _ _ _ _ _ _ Hr Htr).
  rewrite E. apply elem_of_cons. by left.
Qed.

(** * The contact point *)
Lemma refPoint_ok q ref r : reference_at q ref r -> refPoint q ref = r.
Proof.
  intros (x & y & z & qx & qy & qz & qw & rest & -> & Hu & ->). unfold refPoint. cbn [nth].
  destruct ref as [u v w]. unfold se3act, mapp, quatMatrix, rotated, vadd, vscale, vcross, vdot. cbn. f_equal; ring.
Qed.
Lemma rotated_norm w u v : w * w + vnorm2 u = 1 -> vnorm2 (rotated w u v) = vnorm2 v.
Proof.
  destruct u as [a b c], v as [x y z]. unfold vnorm2, rotated, vadd, vscale, vcross, vdot. cbn. intros H.
  assert (Hw : w * w = 1 - (a * a + b * b + c * c)) by lra.
  match goal with |- ?l = ?r => replace l with (r + 4 * (w * w + (a * a + b * b + c * c) - 1) *
    ((b * z - c * y) * (b * z - c * y) + (c * x - a * z) * (c * x - a * z) + (a * y - b * x) * (a * y - b * x))) by ring end.
  rewrite Hw. ring.
Qed.
Lemma removelast_closed (v : vec3) vs : removelast (v :: vs ++ [v]) = v :: vs.
Proof. change (v :: vs ++ [v]) with ((v :: vs) ++ [v]). by rewrite removelast_last. Qed.
Lemma mean_in_hull3 v vs : in_hull3 (v :: vs) (vscale (/ INR (S (length vs))) (vsum (v :: vs))).
Proof.
  set (k := INR (S (length vs))). assert (Hk : 0 < k) by (apply lt_0_INR; lia).
  assert (Hgen : forall (f : vec3 -> R) l, weighted f (replicate (length l) (/ k)) l = / k * fold_right (fun p s => f p + s) 0 l).
  { intros f l. induction l as [|p l IH]; cbn [length replicate weighted fold_right]; [ring|]. rewrite IH. ring. }
  assert (H1 : forall l : list vec3, fold_right (fun (_ : vec3) s => 1 + s) 0 l = INR (length l)).
  { induction l as [|p l IH]; [done|]. cbn [fold_right length]. rewrite IH, S_INR. ring. }
  assert (Hs : forall (l : list vec3), vx (vsum l) = fold_right (fun p s => vx p + s) 0 l /\ vy (vsum l) = fold_right (fun p s => vy p + s) 0 l /\
     vz (vsum l) = fold_right (fun p s => vz p + s) 0 l).
  { induction l as [|p l (I1 & I2 & I3)]; [done|]. change (vsum (p :: l)) with (vadd p (vsum l)). cbn [vadd vx vy vz fold_right]. rewrite I1, I2, I3. done. }
  destruct (Hs (v :: vs)) as (S1 & S2 & S3).
  exists (replicate (length (v :: vs)) (/ k)). split_and!.
  - by rewrite replicate_length.
  - apply Forall_replicate. left. by apply Rinv_0_lt_compat.
  - rewrite Hgen, H1. change (length (v :: vs)) with (S (length vs)). fold k. field. lra.
  - rewrite Hgen, <- S1. done.
  - rewrite Hgen, <- S2. done.
  - rewrite Hgen, <- S3. done.
Qed.
Lemma center_mean v vs : center (v :: vs ++ [v]) = Ok (Some (vscale (/ INR (S (length vs))) (vsum (v :: vs)))).
Proof. unfold center. cbn zeta. rewrite removelast_closed. done. Qed.

Theorem contact_center fuel q Trom rom Tenv env n v vs :
  computeIntersectionSurface fuel Trom rom Tenv env = Ok (Some (n, v :: vs ++ [v])) ->
  exists c, centerOfRomIntersection fuel Trom rom Tenv env = Ok (Some (Guess n (Some c))) /\
    approximateContactPoint fuel vzero q Trom rom Tenv env = Ok (Some (Guess n (Some c))) /\
    vscale (INR (S (length vs))) c = vsum (v :: vs) /\ in_hull3 (v :: vs) c.
Proof.
  intros H. eexists. unfold centerOfRomIntersection, approximateContactPoint. rewrite H.
  assert (Reqb (vnorm vzero) 0 = true) as ->.
  { apply Reqb_true. unfold vnorm, vnorm2, vdot, vzero. cbn. replace (0 * 0 + 0 * 0 + 0 * 0) with 0 by ring. apply sqrt_0. }
  cbn [negb]. rewrite center_mean. cbn [nbind]. split; [done|]. split; [done|]. split; [|apply mean_in_hull3].
  assert (Hk : 0 < INR (S (length vs))) by (apply lt_0_INR; lia). destruct (vsum (v :: vs)) as [x y z]. unfold vscale. cbn [vx vy vz]. f_equal; field; lra.
Qed.
Lemma reference_nonzero ref : ref <> vzero -> Reqb (vnorm ref) 0 = false.
Proof.
  intros H. apply Reqb_false. intros E. apply H. unfold vnorm in E. apply sqrt_eq_0 in E; [|unfold vnorm2, vdot; nra].
  destruct ref as [x y z]. unfold vnorm2, vdot in E. cbn in E.
  assert (0 <= x * x /\ 0 <= y * y /\ 0 <= z * z) as (? & ? & ?) by (split_and!; apply Rle_0_sqr).
  assert (x * x = 0) by lra. assert (y * y = 0) by lra. assert (z * z = 0) by lra. unfold vzero. f_equal; nra.
Qed.
Lemma approx_step fuel ref q Trom rom Tenv env n v vs r : ref <> vzero -> reference_at q ref r ->
  computeIntersectionSurface fuel Trom rom Tenv env = Ok (Some (n, v :: vs ++ [v])) ->
  approximateContactPoint fuel ref q Trom rom Tenv env =
    nbind (projectPointInsidePlan (v :: vs ++ [v]) r n v) (fun x => Ok (Some (Guess n (match x with Some (_, p) => Some p | None => None end)))).
Proof.
  intros Hr Ha H. unfold approximateContactPoint. rewrite H, (reference_nonzero _ Hr), (refPoint_ok _ _ _ Ha). done.
Qed.
Lemma distance_step fuel ref q Trom rom Tenv env n v vs r : reference_at q ref r ->
  computeIntersectionSurface fuel Trom rom Tenv env = Ok (Some (n, v :: vs ++ [v])) ->
  surfaceDistance fuel ref q Trom rom Tenv env =
    nbind (projectPointInsidePlan (v :: vs ++ [v]) r n v) (fun x => Ok (Some (match x with Some (d, _) => Some d | None => None end))).
Proof.
  intros Ha H. unfold surfaceDistance. rewrite H, (refPoint_ok _ _ _ Ha). done.
Qed.
