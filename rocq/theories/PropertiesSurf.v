(** C168: the contact surface of a range of motion with an obstacle, and the approximate
    contact point. *)
From Verif Require Import VecProofs NodeModel NodeSpec ProjModel GeomModel GeomSpec SurfModel SurfSpec SurfProofs2 SurfProofs3 SurfExamples.
Local Open Scope R_scope.

(** Every point of the surface found is a convex combination of points where sides of the
    range of motion meet the plane of the obstacle (within 2e-5), hence in the convex hull of
    the range of motion; it is within 2e-5 of that plane and, for an obstacle in general
    position, seen from above within its hull.  The normal returned is the obstacle's. *)
Theorem C168_sound fuel Trom rom Tenv env n a pn out : support Tenv env n a ->
  computeIntersectionSurface fuel Trom rom Tenv env = Ok (Some (pn, out)) ->
  pn = n /\ (out = [] \/ exists v vs, out = v :: vs ++ [v]) /\
  exists S, (forall q, q ∈ S -> exists s e, side_of Trom rom s e /\ on_segment s e q /\ Rabs (vdot n (vsub q a)) < 2 * (1 / 100000)) /\
  forall p, p ∈ out -> in_hull3 S p /\ in_hull3 (points_of Trom rom) p /\ Rabs (vdot n (vsub p a)) < 2 * (1 / 100000) /\
    (general_position (points_of Tenv env) -> three_points (points_of Tenv env) -> in_hull (points_of Tenv env) p).
Proof. rewrite <- GeomInt.isLeft_is_orient. exact (surface_sound fuel Trom rom Tenv env n a pn out). Qed.
Print Assumptions C168_sound.

(** In general position a surface is found exactly when the section of the range of motion by
    the plane and the obstacle have, seen from above, a point in common; if they have none the
    result is empty or the program reads out of bounds. *)
Theorem C168_found Trom rom Tenv env n a S : support Tenv env n a -> well_formed rom -> transversal Trom rom n a ->
  (forall p, p ∈ S <-> crossing Trom rom n a p) ->
  general_position S -> three_points S -> general_position (points_of Tenv env) -> three_points (points_of Tenv env) ->
  exists N, forall fuel, (N <= fuel)%nat ->
  ((exists q, in_hull S q /\ in_hull (points_of Tenv env) q) ->
     exists out, computeIntersectionSurface fuel Trom rom Tenv env = Ok (Some (n, out)) /\ out <> [] /\
       forall p, p ∈ out -> in_hull S p /\ in_hull (points_of Tenv env) p /\ in_plane n a p) /\
  ((forall q, ~ (in_hull S q /\ in_hull (points_of Tenv env) q)) ->
     computeIntersectionSurface fuel Trom rom Tenv env = Ok (Some (n, [])) \/
     computeIntersectionSurface fuel Trom rom Tenv env = Ub).
Proof. rewrite <- GeomInt.isLeft_is_orient. exact (surface_found Trom rom Tenv env n a S). Qed.
Print Assumptions C168_found.

(** A range of motion that does not meet the plane has no surface. *)
Theorem C168_none Trom rom Tenv env n a : support Tenv env n a -> well_formed rom -> transversal Trom rom n a ->
  (forall p, ~ crossing Trom rom n a p) -> forall fuel, computeIntersectionSurface fuel Trom rom Tenv env = Ok (Some (n, [])).
Proof. exact (surface_none Trom rom Tenv env n a). Qed.
Print Assumptions C168_none.

(** A section inside the obstacle is the surface: a clockwise convex polygon with the same
    hull. *)
Theorem C168_whole Trom rom Tenv env n a S : support Tenv env n a -> well_formed rom -> transversal Trom rom n a ->
  (forall p, p ∈ S <-> crossing Trom rom n a p) ->
  general_position S -> three_points S -> general_position (points_of Tenv env) -> three_points (points_of Tenv env) ->
  (forall p, p ∈ S -> in_hull (points_of Tenv env) p) ->
  exists N out, convex_polygon out /\ (forall p, p ∈ out -> p ∈ S) /\ (forall p, in_hull out p <-> in_hull S p) /\
    forall fuel, (N <= fuel)%nat -> computeIntersectionSurface fuel Trom rom Tenv env = Ok (Some (n, out)).
Proof. rewrite <- GeomInt.isLeft_is_orient. exact (surface_whole Trom rom Tenv env n a S). Qed.
Print Assumptions C168_whole.

(** Without a reference the contact point is the mean of the vertices of the surface. *)
Theorem C168_center fuel q Trom rom Tenv env n v vs :
  computeIntersectionSurface fuel Trom rom Tenv env = Ok (Some (n, v :: vs ++ [v])) ->
  exists c, centerOfRomIntersection fuel Trom rom Tenv env = Ok (Some (Guess n (Some c))) /\
    approximateContactPoint fuel vzero q Trom rom Tenv env = Ok (Some (Guess n (Some c))) /\
    vscale (INR (S (length vs))) c = vsum (v :: vs) /\ in_hull3 (v :: vs) c.
Proof. exact (contact_center fuel q Trom rom Tenv env n v vs). Qed.
Print Assumptions C168_center.

(** With a reference over (or under) the surface it is the point of the plane nearest to the
    reference carried by the root. *)
Theorem C168_reference_over fuel ref q Trom rom Tenv env n v vs r p : ref <> vzero -> reference_at q ref r ->
  computeIntersectionSurface fuel Trom rom Tenv env = Ok (Some (n, v :: vs ++ [v])) ->
  vnorm2 n = 1 -> convex_polygon (v :: vs ++ [v]) ->
  in_plane n v p -> (exists d, vsub r p = vscale d n) -> in_hull (v :: vs ++ [v]) p ->
  approximateContactPoint fuel ref q Trom rom Tenv env = Ok (Some (Guess n (Some p))) /\
  surfaceDistance fuel ref q Trom rom Tenv env = Ok (Some (Some (dist3 p r))) /\
  forall x, in_plane n v x -> dist3 r p <= dist3 r x.
Proof. rewrite <- GeomInt.isLeft_is_orient. exact (contact_inside fuel ref q Trom rom Tenv env n v vs r p). Qed.
Print Assumptions C168_reference_over.

(** With a reference beside the surface it is, among the points where the line from the
    projection of the reference to the mean of the vertices crosses the lines of the edges,
    one nearest to the reference. *)
Theorem C168_reference_beside fuel ref q Trom rom Tenv env n v vs r : ref <> vzero -> reference_at q ref r ->
  computeIntersectionSurface fuel Trom rom Tenv env = Ok (Some (n, v :: vs ++ [v])) ->
  convex_polygon (v :: vs ++ [v]) -> ~ in_hull (v :: vs ++ [v]) (vsub r (vscale (vdot (vsub r v) n) n)) ->
  exists c p, approximateContactPoint fuel ref q Trom rom Tenv env = Ok (Some (Guess n (Some p))) /\
    surfaceDistance fuel ref q Trom rom Tenv env = Ok (Some (Some (dist3 p r))) /\
    vscale (INR (S (length vs))) c = vsum (v :: vs) /\
    line_crossing (v :: vs ++ [v]) (vsub r (vscale (vdot (vsub r v) n) n)) c p /\
    forall p', line_crossing (v :: vs ++ [v]) (vsub r (vscale (vdot (vsub r v) n) n)) c p' -> dist3 p r <= dist3 p' r.
Proof. rewrite <- GeomInt.isLeft_is_orient. exact (contact_outside fuel ref q Trom rom Tenv env n v vs r). Qed.
Print Assumptions C168_reference_beside.

(** Among several surfaces the one chosen has the contact point nearest to the reference. *)
Theorem C168_nearest fuel (ref : string -> vec3) q (Trom : string -> se3) (rom : string -> mesh) cur l r name :
  ref name <> vzero -> reference_at q (ref name) r -> (1 < length l)%nat ->
  (forall s, s ∈ l -> exists g, surfaceDistance fuel (ref name) q (Trom name) (rom name) (fst s) (snd s) = Ok (Some g)) ->
  exists s, s ∈ l /\
  chooseBest (se3 * mesh) (fun k s => match surfaceDistance fuel (ref k) q (Trom k) (rom k) (fst s) (snd s) with Ok (Some d) => d | _ => None end)
    [(name, (cur, Some l))] = [(name, (s, Some l))] /\
  forall s' n' p', s' ∈ l -> approximateContactPoint fuel (ref name) q (Trom name) (rom name) (fst s') (snd s') = Ok (Some (Guess n' (Some p'))) ->
  exists n p, approximateContactPoint fuel (ref name) q (Trom name) (rom name) (fst s) (snd s) = Ok (Some (Guess n (Some p))) /\ dist3 p r <= dist3 p' r.
Proof. exact (nearest_surface fuel ref q Trom rom cur l r name). Qed.
Print Assumptions C168_nearest.

(** The position carried by the root keeps its distance to the root. *)
Theorem C168_rigid w u v : w * w + vnorm2 u = 1 -> vnorm2 (rotated w u v) = vnorm2 v.
Proof. exact (rotated_norm w u v). Qed.
Print Assumptions C168_rigid.

(** A range of motion that touches the plane in one point: the contact point is the projection
    of the reference on the plane, wherever that is. *)
Theorem C168_touching Trom rom Tenv env n a v : support Tenv env n a -> well_formed rom -> transversal Trom rom n a ->
  (forall p, crossing Trom rom n a p <-> p = v) ->
  general_position (points_of Tenv env) -> three_points (points_of Tenv env) -> in_hull (points_of Tenv env) v ->
  exists N, forall fuel, (N <= fuel)%nat -> computeIntersectionSurface fuel Trom rom Tenv env = Ok (Some (n, [v; v])) /\
  forall ref q r, ref <> vzero -> reference_at q ref r ->
    approximateContactPoint fuel ref q Trom rom Tenv env = Ok (Some (Guess n (Some (vsub r (vscale (vdot (vsub r v) n) n))))).
Proof.
  rewrite <- GeomInt.isLeft_is_orient. intros H1 H2 H3 H4 H5 H6 H7.
  destruct (surface_one Trom rom Tenv env n a v H1 H2 H3 H4 H5 H6 H7) as [N HN]. exists N. intros fuel Hf. split; [by apply HN|].
  intros ref q r Hr Ha. by apply contact_one; [| |apply HN].
Qed.
Print Assumptions C168_touching.
(** so the claim that the contact point is near the surface is false *)
Theorem C168_contact_near_surface_refuted : ~ forall fuel ref q Trom rom Tenv env n out p,
  computeIntersectionSurface fuel Trom rom Tenv env = Ok (Some (n, out)) ->
  approximateContactPoint fuel ref q Trom rom Tenv env = Ok (Some (Guess n (Some p))) ->
  exists x, in_hull3 out x /\ dist3 p x <= 1.
Proof. exact contact_near_surface_refuted. Qed.
Print Assumptions C168_contact_near_surface_refuted.
(** The surface is clipped as seen from above: on a wall it goes beyond the top. *)
Theorem C168_on_obstacle_refuted : ~ forall fuel Trom rom Tenv env n a out p, support Tenv env n a ->
  computeIntersectionSurface fuel Trom rom Tenv env = Ok (Some (n, out)) -> p ∈ out ->
  exists x, in_hull3 (points_of Tenv env) x /\ dist3 p x <= 1.
Proof. exact surface_on_obstacle_refuted. Qed.
Print Assumptions C168_on_obstacle_refuted.

Example C168_case : support (lift 5) ground (V3 0 0 1) (V3 (-6) (-6) 0) /\ well_formed tetra /\
  transversal (lift 3) tetra (V3 0 0 1) (V3 (-6) (-6) 0) /\
  (forall p, p ∈ [tA; tB; tC] <-> crossing (lift 3) tetra (V3 0 0 1) (V3 (-6) (-6) 0) p) /\
  (general_position [tA; tB; tC] /\ three_points [tA; tB; tC]) /\
  (general_position (points_of (lift 5) ground) /\ three_points (points_of (lift 5) ground)) /\
  (forall p, p ∈ [tA; tB; tC] -> in_hull (points_of (lift 5) ground) p).
Proof.
  rewrite <- GeomInt.isLeft_is_orient. split; [exact ground_support|]. split; [exact tetra_wf|]. split; [exact (tetra_transversal 3 (or_introl eq_refl))|].
  split; [exact tetra_crossing|]. split; [exact section_gp|]. split; [exact ground_gp|exact section_in].
Qed.
Example C168_contact_case : exists N, forall fuel, (N <= fuel)%nat ->
  approximateContactPoint fuel (V3 0 0 1) home7 (lift 3) tetra (lift 5) ground = Ok (Some (Guess (V3 0 0 1) (Some vzero))).
Proof. exact example_contact. Qed.
Example C168_reference_case : reference_at [0; 0; 1; 0; 0; 1; 0] (V3 2 3 4) (V3 (-2) (-3) 5).
Proof. exact rotation_case. Qed.
Example C168_choice_case : exists fuel, forall s, s ∈ [(lift 9, ground); (lift 5, ground)] ->
  exists g, surfaceDistance fuel (V3 0 0 1) home7 (lift 3) tetra (fst s) (snd s) = Ok (Some g).
Proof. exact choice_case. Qed.
Example C168_touching_case : exists N, forall fuel, (N <= fuel)%nat ->
  computeIntersectionSurface fuel (lift 4) tetra (lift 5) ground = Ok (Some (V3 0 0 1, [vzero; vzero])) /\
  approximateContactPoint fuel (V3 10 0 1) home7 (lift 4) tetra (lift 5) ground = Ok (Some (Guess (V3 0 0 1) (Some (V3 10 0 0)))).
Proof. exact touch_far. Qed.
