(** Property C34: the point of a triangle nearest to a point, where a sample's contact is put. *)
From Verif Require Import Maps MapsProofs Vec VecProofs GeomModel GeomSpec TriModel TriSpec TriProofs TriProofs2 TriExamples.
Local Open Scope R_scope.

Theorem C34_in_triangle src t0 t1 t2 : non_degenerate (t0, t1, t2) ->
  in_triangle3 (t0, t1, t2) (closestPointInTriangle src t0 t1 t2 0).
Proof. exact (closest_in_triangle src t0 t1 t2). Qed.
Print Assumptions C34_in_triangle.
Theorem C34_nearest src t0 t1 t2 : non_degenerate (t0, t1, t2) -> ~ beyond_t1 (t0, t1, t2) src ->
  nearest (t0, t1, t2) src (closestPointInTriangle src t0 t1 t2 0).
Proof. exact (closest_nearest src t0 t1 t2). Qed.
Print Assumptions C34_nearest.
(** beyond t1: along the side t0 t1, with the parameter that belongs to the side t0 t2 *)
Theorem C34_beyond_t1 src t0 t1 t2 : non_degenerate (t0, t1, t2) -> beyond_t1 (t0, t1, t2) src ->
  let along u := vadd t0 (vscale u (vsub t1 t0)) in
  let p1 := Rmin (Rmax (vdot (vsub src t0) (vsub t1 t0) / vdot (vsub t1 t0) (vsub t1 t0)) 0) 1 in
  let p2 := Rmin (Rmax (vdot (vsub src t0) (vsub t2 t0) / vdot (vsub t2 t0) (vsub t2 t0)) 0) 1 in
  closestPointInTriangle src t0 t1 t2 0 = along p2 /\ nearest (t0, t1, t2) src (along p1) /\
  (nearest (t0, t1, t2) src (closestPointInTriangle src t0 t1 t2 0) <-> p1 = p2).
Proof. exact (closest_fault src t0 t1 t2). Qed.
Print Assumptions C34_beyond_t1.
Theorem C34_nearest_everywhere_refuted :
  ~ forall src t0 t1 t2, non_degenerate (t0, t1, t2) -> nearest (t0, t1, t2) src (closestPointInTriangle src t0 t1 t2 0).
Proof. exact closest_refuted. Qed.
Print Assumptions C34_nearest_everywhere_refuted.
Theorem C34_contact_on_triangle rootT eff v1 v2 v3 : non_degenerate (v1, v2, v3) ->
  in_triangle3 (v1, v2, v3) (contactPosition rootT eff v1 v2 v3) /\
  (in_triangle3 (v1, v2, v3) (rootT eff) -> contactPosition rootT eff v1 v2 v3 = rootT eff).
Proof. intros H. split; [exact (closest_in_triangle (rootT eff) v1 v2 v3 H)|exact (closest_fixed (rootT eff) v1 v2 v3 H)]. Qed.
Print Assumptions C34_contact_on_triangle.
Example C34_example : non_degenerate (o0, o1, o2) /\ ~ beyond_t1 (o0, o1, o2) (V3 2 2 5) /\ beyond_t1 (o0, o1, o2) far /\
  closestPointInTriangle far o0 o1 o2 0 = o0 /\ nearest (o0, o1, o2) far o1.
Proof. split; [exact ex_nondeg|]. split; [exact ex_not_beyond|]. split; [exact ex_beyond|exact ex_wrong]. Qed.

(** the test of a point against the prism over the triangle: exact, at any height [h] *)
Theorem C34_point_in_prism a b c q h : let n := vcross (vsub b a) (vsub c a) in
  n <> vzero -> in_plane n a q -> (PointInTriangle (vadd q (vscale h n)) a b c = true <-> in_triangle3 (a, b, c) q).
Proof. exact (prism_exact a b c q h). Qed.
Print Assumptions C34_point_in_prism.
(** with an offset: the nearest point moved away from the source by [eps] *)
Theorem C34_offset src t0 t1 t2 eps : let p := closestPointInTriangle src t0 t1 t2 0 in
  (p = src -> closestPointInTriangle src t0 t1 t2 eps = p) /\
  (p <> src -> closestPointInTriangle src t0 t1 t2 eps = vadd p (vscale (eps / dist3 p src) (vsub p src))).
Proof. exact (closest_offset src t0 t1 t2 eps). Qed.
Print Assumptions C34_offset.
Example C34_prism_case : let a := V3 0 0 0 in let b := V3 1 0 0 in let c := V3 0 1 0 in
  vcross (vsub b a) (vsub c a) <> vzero /\ PointInTriangle (V3 (1/4) (1/4) 5) a b c = true /\ PointInTriangle (V3 1 1 0) a b c = false /\
  closestPointInTriangle (V3 (1/4) (1/4) 2) a b c 1 = V3 (1/4) (1/4) (-1).
Proof. exact prism_case. Qed.
