(** Properties C35-C38 and C52-C55: the planar and spatial geometry. *)
From Verif Require Import Maps Vec VecProofs GeomModel GeomSpec.
From Verif Require GeomInt.
From Verif Require Import GeomProofs GeomProofs2 GeomProofs3 GeomProofs4 GeomProofs5 GeomProofs6 GeomProofs7 GeomProofs8 GeomExamples.
Local Open Scope R_scope.

(** C35: for every non-empty list: termination, closed, from a leftmost point, input points *)
Theorem C35_hull_terminates l : l <> [] ->
  exists n, forall fuel, (n <= fuel)%nat -> exists first m,
    convexHull fuel l = Some (first :: m ++ [first]) /\ first ∈ l /\ (forall p, p ∈ m -> p ∈ l) /\
    (forall p, p ∈ l -> vx first <= vx p).
Proof. exact (convexHull_terminates l). Qed.
Print Assumptions C35_hull_terminates.
(** in general position with three different points: a strictly convex clockwise polygon that
    has every point inside *)
Theorem C35_hull_encloses l : general_position l ->
  (exists a b c, a ∈ l /\ b ∈ l /\ c ∈ l /\ a <> b /\ b <> c /\ a <> c) ->
  exists n, forall fuel, (n <= fuel)%nat -> exists hull, convexHull fuel l = Some hull /\
    convex_polygon hull /\ (forall p, p ∈ hull -> p ∈ l) /\
    (forall a b p, (a, b) ∈ edges hull -> p ∈ l -> p <> a -> p <> b -> orient a b p < 0) /\
    (forall p, in_hull hull p <-> in_hull l p).
Proof. rewrite <- GeomInt.isLeft_is_orient. exact (hull_encloses l). Qed.
Print Assumptions C35_hull_encloses.
(** with aligned points the claim is false *)
Theorem C35_aligned_refuted :
  ~ forall l fuel hull, convexHull fuel l = Some hull -> forall a b, (a, b) ∈ edges hull -> right_of l a b.
Proof.
  rewrite <- GeomInt.isLeft_is_orient. intros H. destruct ex_row_lost as (H1 & H2 & H3).
  specialize (H _ _ _ (ex_row 0) _ _ H1 _ H2). apply (Rlt_irrefl 0). apply Rlt_le_trans with (1 := H3). exact H.
Qed.
Print Assumptions C35_aligned_refuted.
Example C35_example : general_position gp4 /\ (exists a b c, a ∈ gp4 /\ b ∈ gp4 /\ c ∈ gp4 /\ a <> b /\ b <> c /\ a <> c) /\
  convexHull 3 gp4 = Some [gpA; gpB; gpC; gpA] /\ length gp4 = 4%nat.
Proof. rewrite <- GeomInt.isLeft_is_orient. split; [exact ex_gp|]. split; [exact ex_gp_three|]. split; [exact (ex_gp_hull 0)|done]. Qed.

(** C36: on a closed clockwise convex polygon the test is membership *)
Theorem C36_containsHull_exact l p eps : convex_polygon l -> containsHull l p eps = true <-> in_hull l p.
Proof. rewrite <- GeomInt.isLeft_is_orient. exact (containsHull_ok l p eps). Qed.
Print Assumptions C36_containsHull_exact.
Theorem C36_contains l : general_position l ->
  (exists a b c, a ∈ l /\ b ∈ l /\ c ∈ l /\ a <> b /\ b <> c /\ a <> c) ->
  exists n, forall fuel p eps, (n <= fuel)%nat ->
  exists b, contains fuel l p eps = Some b /\ (b = true <-> in_hull l p).
Proof. rewrite <- GeomInt.isLeft_is_orient. exact (contains_ok l). Qed.
Print Assumptions C36_contains.
(** one point: the test compares the hull's first vertex with its last, which are the same *)
Theorem C36_one_point_always_inside a p eps fuel : 0 < eps -> (1 <= fuel)%nat -> contains fuel [a] p eps = Some true.
Proof. intros H Hf. exact (contains_one_point a p eps H fuel Hf). Qed.
Print Assumptions C36_one_point_always_inside.
(** two points: the whole line through them is inside *)
Theorem C36_two_points_whole_line a b p eps fuel : a <> b -> vx a <= vx b -> (2 <= fuel)%nat -> orient a b p = 0 ->
  contains fuel [a; b] p eps = Some true.
Proof. rewrite <- GeomInt.isLeft_is_orient. intros H Hx Hf. exact (contains_two_points a b p eps H fuel Hf Hx). Qed.
Print Assumptions C36_two_points_whole_line.
Theorem C36_contains_refuted :
  ~ forall l fuel p eps, 0 < eps -> contains fuel l p eps = Some true -> exists q, in_hull l q /\ (vx p - vx q) * (vx p - vx q) <= eps * eps.
Proof. exact contains_far_refuted. Qed.
Print Assumptions C36_contains_refuted.
(** the test on a hull given as one or two points: the distance to the point; the distance
    between the two points, wherever the point tested is *)
Theorem C36_containsHull_small a b p eps : let dist u v := sqrt ((vx u - vx v) * (vx u - vx v) + (vy u - vy v) * (vy u - vy v)) in
  containsHull [] p eps = false /\ (containsHull [a] p eps = true <-> dist p a < eps) /\
  (containsHull [a; b] p eps = true <-> dist b a < eps).
Proof. cbv zeta. split; [reflexivity|]. split; exact (VecProofs.Rltb_true _ _). Qed.
Print Assumptions C36_containsHull_small.
Example C36_small_case : containsHull [V3 0 0 0] (V3 3 4 0) 6 = true.
Proof.
  apply (C36_containsHull_small (V3 0 0 0) (V3 0 0 0) (V3 3 4 0) 6). cbn [vx vy].
  replace ((3 - 0) * (3 - 0) + (4 - 0) * (4 - 0)) with (5 * 5) by ring. rewrite sqrt_square; lra.
Qed.
Example C36_example : convex_polygon (square 0 0 2) /\ containsHull (square 0 0 2) (V3 1 1 7) 1 = true /\
  containsHull (square 0 0 2) (V3 3 1 0) 1 = false.
Proof. rewrite <- GeomInt.isLeft_is_orient. exact ex_square_contains. Qed.

(** C37: the clipping of a convex subject: exactly the common points; when it is undefined,
    nothing is common *)
Theorem C37_clip junk sub clip : weakly_convex sub -> clip <> [] ->
  (exists out, compute2DIntersection junk sub clip = Ok (Some out) /\ weakly_convex out /\
     forall p, in_hull out p <-> in_hull sub p /\ inside_edges clip p) \/
  (compute2DIntersection junk sub clip = Ub /\ forall p, ~ (in_hull sub p /\ inside_edges clip p)).
Proof. rewrite <- GeomInt.isLeft_is_orient. exact (clipPolygon_ok (sect2D junk) (sect2D_ok junk) sub clip). Qed.
Print Assumptions C37_clip.
(** a strictly convex clip polygon is the set of points inside its edges *)
Theorem C37_clip_region clip p : convex_polygon clip -> inside_edges clip p <-> in_hull clip p.
Proof. rewrite <- GeomInt.isLeft_is_orient. exact (polygon_membership clip p). Qed.
Print Assumptions C37_clip_region.
Theorem C37_inside_unchanged junk sub clip : sub <> [] -> clip <> [] -> (forall p, p ∈ sub -> inside_edges clip p) ->
  compute2DIntersection junk sub clip = Ok (Some sub).
Proof. rewrite <- GeomInt.isLeft_is_orient. exact (clipPolygon_unchanged (sect2D junk) sub clip). Qed.
Print Assumptions C37_inside_unchanged.
Theorem C37_clip_in_space sub clip : weakly_convex sub -> clip <> [] ->
  (exists n, forall fuel, (n <= fuel)%nat -> exists out, compute3DIntersection fuel sub clip = Ok (Some out) /\
     (forall p, p ∈ out -> in_hull sub p /\ inside_edges clip p) /\
     (forall p nn P0, p ∈ out -> (forall q, q ∈ sub -> in_plane nn P0 q) -> in_plane nn P0 p) /\
     (out = [] <-> forall p, ~ (in_hull sub p /\ inside_edges clip p))) \/
  ((forall fuel, compute3DIntersection fuel sub clip = Ub) /\ forall p, ~ (in_hull sub p /\ inside_edges clip p)).
Proof. rewrite <- GeomInt.isLeft_is_orient. exact (compute3D_ok sub clip). Qed.
Print Assumptions C37_clip_in_space.
(** the overload with iterators: points of both, but a subject inside the clip may shrink *)
Theorem C37_iterators_sound junk sub clip : sub <> [] -> (2 <= length clip)%nat ->
  exists out, compute2DIntersectionIter junk sub clip = Ok (Some out) /\
    forall p, p ∈ out -> in_hull sub p /\ inside_edges clip p.
Proof. rewrite <- GeomInt.isLeft_is_orient. exact (clipIter_sound junk sub clip). Qed.
Print Assumptions C37_iterators_sound.
Theorem C37_iterators_unchanged_refuted :
  ~ forall junk sub clip out, (forall p, p ∈ sub -> inside_edges clip p) ->
    compute2DIntersectionIter junk sub clip = Ok (Some out) -> forall p, in_hull sub p -> in_hull out p.
Proof.
  rewrite <- GeomInt.isLeft_is_orient. intros H. destruct ex_iter_inside as (H1 & H2 & H3).
  apply H3. exact (H 0 _ _ _ H1 (ex_iter 0) _ H2).
Qed.
Print Assumptions C37_iterators_unchanged_refuted.
Theorem C37_disjoint_refuted :
  ~ forall junk sub clip, convex_polygon sub -> convex_polygon clip -> compute2DIntersection junk sub clip <> Ub.
Proof.
  rewrite <- GeomInt.isLeft_is_orient. intros H.
  apply (H 0 (square 0 0 1) (square 3 0 1)); [apply square_convex; lra|apply square_convex; lra|apply ex_disjoint].
Qed.
Print Assumptions C37_disjoint_refuted.
Example C37_example junk : weakly_convex (square 0 0 2) /\
  exists out, compute2DIntersection junk (square 0 0 2) (square 1 1 2) = Ok (Some out) /\
  (forall p, in_hull out p <-> 1 <= vx p <= 2 /\ 1 <= vy p <= 2).
Proof. rewrite <- GeomInt.isLeft_is_orient. split; [apply convex_weakly, square_convex; lra|exact (ex_overlap junk)]. Qed.

(** C38: projection on a plane with a unit normal *)
Theorem C38_projection n P0 : vnorm2 n = 1 -> forall p,
  in_plane n P0 (projectPointOnPlane p n P0) /\
  (exists d, vsub p (projectPointOnPlane p n P0) = vscale d n /\ Rabs d = distanceToPlane p n P0) /\
  dist3 p (projectPointOnPlane p n P0) = distanceToPlane p n P0 /\
  (forall q, in_plane n P0 q -> dist3 p (projectPointOnPlane p n P0) <= dist3 p q) /\
  projectPointOnPlane (projectPointOnPlane p n P0) n P0 = projectPointOnPlane p n P0.
Proof. exact (projection_all n P0). Qed.
Print Assumptions C38_projection.
Theorem C38_in_plane_iff n P0 p : in_plane n P0 (projectPointOnPlane p n P0) <-> vnorm2 n = 1 \/ in_plane n P0 p.
Proof. exact (project_in_plane_iff n P0 p). Qed.
Print Assumptions C38_in_plane_iff.
Theorem C38_other_normals_refuted :
  ~ forall n P0 p, n <> vzero -> in_plane n P0 (projectPointOnPlane p n P0).
Proof. exact nonunit_refuted. Qed.
Print Assumptions C38_other_normals_refuted.
(** the normals the library computes are unit normals: the plane of a triangle *)
Theorem C38_triangle_plane a b c : vcross (vsub b a) (vsub c a) <> vzero ->
  let '(n, P0) := computePlanEquation (a, b, c) in
  vnorm2 n = 1 /\ in_plane n P0 a /\ in_plane n P0 b /\ in_plane n P0 c.
Proof. exact (triangle_plane a b c). Qed.
Print Assumptions C38_triangle_plane.
Example C38_example : vnorm2 (V3 0 0 1) = 1 /\ projectPointOnPlane (V3 1 2 5) (V3 0 0 1) (V3 0 0 1) = V3 1 2 1.
Proof. exact ex_unit. Qed.

(** projection of a list on the horizontal plane: in place, the height only *)
Theorem C38_flatten l : length (projectZ l) = length l /\
  forall i p, l !! i = Some p -> exists q, projectZ l !! i = Some q /\ vx q = vx p /\ vy q = vy p /\ vz q = 0.
Proof.
  unfold projectZ. split; [apply map_length|]. intros i p H. exists (V3 (vx p) (vy p) 0). split; [|done].
  transitivity ((fun p => V3 (vx p) (vy p) 0) <$> Some p); [|done]. rewrite <- H. apply list_lookup_fmap.
Qed.
Print Assumptions C38_flatten.
Example C38_flatten_case : projectZ [V3 1 2 3; V3 4 5 6] = [V3 1 2 0; V3 4 5 0].
Proof. reflexivity. Qed.

(** C52: segments, meshes and planes *)
Theorem C52_segment_plane s0 s1 pn p0 :
  (forall p, p ∈ intersectSegmentPlane s0 s1 pn p0 -> on_segment s0 s1 p /\ Rabs (vdot pn (vsub p p0)) < 2 * (1 / 100000) /\
     ((1 / 100000) <= Rabs (vdot pn (vsub s1 s0)) -> in_plane pn p0 p)) /\
  (forall p, on_segment s0 s1 p -> in_plane pn p0 p -> intersectSegmentPlane s0 s1 pn p0 <> []).
Proof. exact (segment_plane_all s0 s1 pn p0). Qed.
Print Assumptions C52_segment_plane.
Theorem C52_mesh_plane polygone a b c rest : vcross (vsub b a) (vsub c a) <> vzero ->
  exists n, forall fuel, (n <= fuel)%nat -> exists out, intersectPolygonePlane fuel polygone ((a, b, c) :: rest) = Ok (Some out) /\
    (forall p, p ∈ out -> exists s e, mesh_edge polygone s e /\ on_segment s e p /\
       let N := normalize (vcross (vsub b a) (vsub c a)) in
       vnorm2 N = 1 /\ distanceToPlane p N a < 2 * (1 / 100000)) /\
    (forall s e p, mesh_edge polygone s e -> on_segment s e p ->
       in_plane (normalize (vcross (vsub b a) (vsub c a))) a p -> out <> []) /\
    (out <> [] -> exists first m, out = first :: m ++ [first]).
Proof. exact (intersectPolygonePlane_ok polygone a b c rest). Qed.
Print Assumptions C52_mesh_plane.
Example C52_example : intersectSegmentPlane (V3 0 0 (-1)) (V3 2 0 1) (V3 0 0 1) vzero = [V3 1 0 0].
Proof. exact ex_segment. Qed.

(** C53: points and triangles, pairs of triangles *)
Theorem C53_inside_complete a b c p : in_triangle3 (a, b, c) p -> insideTriangle a b c p = true.
Proof. exact (insideTriangle_complete a b c p). Qed.
Print Assumptions C53_inside_complete.
Theorem C53_inside_sound a b c p : let n := vcross (vsub b a) (vsub c a) in
  n <> vzero -> in_plane n a p -> insideTriangle a b c p = true ->
  exists u v w, u + v + w = 1 /\ p = vadd (vadd (vscale u a) (vscale v b)) (vscale w c) /\
    - (1 / 100000) / vnorm2 n <= u /\ - (1 / 100000) / vnorm2 n <= v /\ - (1 / 100000) / vnorm2 n <= w.
Proof. exact (insideTriangle_sound a b c p). Qed.
Print Assumptions C53_inside_sound.
(** the tolerance grows as the triangle gets smaller *)
Theorem C53_tolerance_refuted :
  ~ forall (t : triangle3) p, insideTriangle t.1.1 t.1.2 t.2 p = true -> exists q, in_triangle3 t q /\ dist3 p q <= 1.
Proof. exact tolerance_refuted. Qed.
Print Assumptions C53_tolerance_refuted.
Theorem C53_triangles_sound tri tri2 res p : intersectTriangles tri tri2 = Ok res -> p ∈ res ->
  (exists s e, triangle_edge tri s e /\ on_segment s e p) /\
  in_plane (TriangleNormal tri2) (tri2.1.1) p /\ insideTriangle tri2.1.1 tri2.1.2 tri2.2 p = true.
Proof. exact (intersectTriangles_sound tri tri2 res p). Qed.
Print Assumptions C53_triangles_sound.
Theorem C53_triangles_complete a b c tri2 : 
  let d := fun v => vdot (TriangleNormal tri2) v - vdot (TriangleNormal tri2) tri2.1.1 in
  straddles (d a) (d b) (d c) ->
  exists res, intersectTriangles (a, b, c) tri2 = Ok res /\
    forall s e p, triangle_edge (a, b, c) s e -> on_segment s e p -> in_triangle3 tri2 p -> p ∈ res.
Proof. exact (intersectTriangles_complete a b c tri2). Qed.
Print Assumptions C53_triangles_complete.
Theorem C53_triangles_apart_undefined a b c tri2 : 
  (forall v, v ∈ [a; b; c] -> (1 / 100000) <= vdot (TriangleNormal tri2) v - vdot (TriangleNormal tri2) tri2.1.1) ->
  intersectTriangles (a, b, c) tri2 = Ub.
Proof. exact (intersectTriangles_apart a b c tri2). Qed.
Print Assumptions C53_triangles_apart_undefined.
Example C53_example : exists res, intersectTriangles (V3 1 1 (-1), V3 1 1 1, V3 2 1 1) groundT = Ok res /\ V3 1 1 0 ∈ res.
Proof. exact ex_triangles. Qed.

(** C54: projection into a polygon *)
Theorem C54_inside_is_projection plan point n P0 : vnorm2 n = 1 -> convex_polygon plan ->
  in_hull plan (projectPointOnPlane point n P0) ->
  projectPointInsidePlan plan point n P0 = Ok (Some (distanceToPlane point n P0, projectPointOnPlane point n P0)).
Proof. rewrite <- GeomInt.isLeft_is_orient. exact (projectInside_inside plan point n P0). Qed.
Print Assumptions C54_inside_is_projection.
Theorem C54_in_plane plan point n P0 : vnorm2 n = 1 -> convex_polygon plan ->
  (forall v, v ∈ plan -> in_plane n P0 v) ->
  exists d q, projectPointInsidePlan plan point n P0 = Ok (Some (d, q)) /\
    in_plane n P0 q /\ d = dist3 q point /\ distanceToPlane point n P0 <= d.
Proof. rewrite <- GeomInt.isLeft_is_orient. exact (projectInside_all plan point n P0). Qed.
Print Assumptions C54_in_plane.
(** a projection outside the polygon: of the crossings of the line from it to the centre
    with the lines of the edges, one nearest to the point *)
Theorem C54_nearest_crossing v vs point n P0 : let plan := v :: vs ++ [v] in convex_polygon plan ->
  ~ in_hull plan (projectPointOnPlane point n P0) ->
  exists c d q, projectPointInsidePlan plan point n P0 = Ok (Some (d, q)) /\
    vscale (INR (S (length vs))) c = vsum (v :: vs) /\ d = dist3 q point /\
    line_crossing plan (projectPointOnPlane point n P0) c q /\
    forall q', line_crossing plan (projectPointOnPlane point n P0) c q' -> d <= dist3 q' point.
Proof. rewrite <- GeomInt.isLeft_is_orient. exact (projectInside_crossing v vs point n P0). Qed.
Print Assumptions C54_nearest_crossing.
Theorem C54_result_in_polygon_refuted :
  ~ forall plan point n P0 d q, vnorm2 n = 1 -> convex_polygon plan -> (forall v, v ∈ plan -> in_plane n P0 v) ->
    projectPointInsidePlan plan point n P0 = Ok (Some (d, q)) -> in_hull plan q.
Proof. rewrite <- GeomInt.isLeft_is_orient. exact projectInside_refuted. Qed.
Print Assumptions C54_result_in_polygon_refuted.
Example C54_example : convex_polygon (square 0 0 1) /\ (forall v, v ∈ square 0 0 1 -> in_plane (V3 0 0 1) vzero v) /\
  exists d, projectPointInsidePlan (square 0 0 1) outP (V3 0 0 1) vzero = Ok (Some (d, V3 (3/2) 1 0)).
Proof. rewrite <- GeomInt.isLeft_is_orient. split; [apply square_convex; lra|]. split; [exact square_plane|exact ex_project]. Qed.

(** C55: centre and area *)
Theorem C55_center_of_closed v vs : vs <> [] -> exists c, center (v :: vs ++ [v]) = Ok (Some c) /\
  vscale (INR (S (length vs))) c = vsum (v :: vs) /\
  in_hull (v :: vs) c /\ (forall n P0, (forall p, p ∈ v :: vs -> in_plane n P0 p) -> in_plane n P0 c).
Proof. exact (center_closed v vs). Qed.
Print Assumptions C55_center_of_closed.
Theorem C55_area_of_convex v vs : convex_polygon (v :: vs ++ [v]) -> area (v :: vs ++ [v]) = fan_area v vs.
Proof. rewrite <- GeomInt.isLeft_is_orient. exact (area_fan v vs). Qed.
Print Assumptions C55_area_of_convex.
(** a polygon given by one point has no centre (0/0), and the planar centre reads out of bounds *)
Theorem C55_undefined : (forall a, center [a] = Ok None) /\ center [] = Ub /\ forall l n t, centerPlanar l n t = Ub.
Proof. done. Qed.
Print Assumptions C55_undefined.
Example C55_example : area (square 0 0 2) = 4.
Proof. exact ex_area. Qed.
