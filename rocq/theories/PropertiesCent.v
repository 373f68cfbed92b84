(** C167: the centroid of a polygon (algorithms.cc:86-103). *)
From Coq Require Import Reals Lra Lia.
From Verif Require Import Maps Vec VecProofs GeomModel GeomSpec GeomExamples CentModel CentSpec CentProofs.
Local Open Scope R_scope.

(** C167.  For a closed polygon (its first point repeated at the end): the area written is the sum of
    the signed areas of the triangles of a fan, and the centroid is the mean of their centres
    weighted by these areas; its height is 0 whatever the heights of the points.  Without area
    there is no centroid (division by 0). *)
Theorem C167_mean v vs : let ts := fan v vs in
  (total_area ts = 0 -> centroid (v :: vs ++ [v]) = Ok (0, None)) /\
  (total_area ts <> 0 -> exists c, centroid (v :: vs ++ [v]) = Ok (total_area ts, Some c) /\
     total_area ts * vx c = moment vx ts /\ total_area ts * vy c = moment vy ts /\ vz c = 0).
Proof. exact (centroid_fan v vs). Qed.
Print Assumptions C167_mean.
(** For a clockwise convex polygon, as convexHull returns them, the area written is the opposite of
    the area and the centroid is inside (seen from above). *)
Theorem C167_convex v vs : GeomSpec.convex_polygon (v :: vs ++ [v]) ->
  exists a c, centroid (v :: vs ++ [v]) = Ok (a, Some c) /\ a = - GeomSpec.fan_area v vs /\ a < 0 /\ in_hull (v :: vs ++ [v]) c.
Proof. exact (centroid_convex v vs). Qed.
Print Assumptions C167_convex.
(** In the other direction: the same centroid, the opposite area. *)
Theorem C167_reversed l a c : centroid l = Ok (a, c) -> centroid (rev l) = Ok (- a, c).
Proof. exact (centroid_rev l a c). Qed.
Print Assumptions C167_reversed.
(** without points the call is not defined; it is with one or more *)
Theorem C167_defined l : (exists r, centroid l = Ok r) <-> l <> [].
Proof.
  destruct l as [|p l]; [split; [intros [r [=]]|congruence]|]. split; [congruence|]. intros _.
  unfold centroid. destruct (centroidSums 0 0 0 (p :: l)) as [[a x] y]. eauto.
Qed.
Print Assumptions C167_defined.

(** a square of side 2 at height 5 *)
Definition sq5 : list vec3 := [V3 1 2 5; V3 1 4 5; V3 3 4 5; V3 3 2 5; V3 1 2 5].
Example C167_case : centroid sq5 = Ok (-4, Some (V3 2 3 0)) /\ centroid [V3 1 2 5] = Ok (0, None).
Proof.
  split.
  - unfold centroid, sq5. cbn. replace (_ / 2) with (-4) by field. rewrite (proj2 (Reqb_false (-4) 0)) by lra. do 3 f_equal. f_equal; field.
  - unfold centroid. cbn. replace (0 / 2) with 0 by field. by rewrite (proj2 (Reqb_true 0 0)).
Qed.
Example C167_convex_case : GeomSpec.convex_polygon (GeomExamples.square 1 2 2) /\ GeomExamples.square 1 2 2 = V3 1 2 0 :: [V3 1 (2 + 2) 0; V3 (1 + 2) (2 + 2) 0; V3 (1 + 2) 2 0] ++ [V3 1 2 0].
Proof. split; [rewrite <- GeomInt.isLeft_is_orient; apply square_convex; lra|reflexivity]. Qed.
