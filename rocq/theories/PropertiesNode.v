(** C109-C113: the dynamic constraints at a node and the kinodynamic steering. *)
From Coq Require Import Reals ZArith Lra Lia.
From Verif Require Import SampModel NodeExamples.
Local Open Scope R_scope.

(** C109.  An acceleration satisfies the linear problem of the node if and only if forces in
    the friction pyramids of the contact points of the ROMs give it to the robot. *)
Theorem C109_node_matrices approx roms rect sx sy m mu c tq :
  (forall r, r ∈ roms -> vnorm2 (snd (fst (approx r))) = 1) -> 0 <= mu ->
  exists x, fillNodeMatrices approx roms rect sx sy m mu c tq = Ok x /\
  exists k, contacts_of approx rect sx sy tq roms k /\ nPoints x = length k /\
  forall a, (exists f, lp_solution x a f) <-> exists Fs, Forall2 (in_pyramid mu) k Fs /\ newton_euler m c a k Fs.
Proof. exact (node_matrices approx roms rect sx sy m mu c tq). Qed.
Print Assumptions C109_node_matrices.

Example C109_case : (forall r, r ∈ ["foot"%string] -> vnorm2 (snd (fst (xapprox r))) = 1) /\
  exists x f, fillNodeMatrices xapprox ["foot"%string] false 0 0 2 (1 / 2) (V3 0 0 1) (V3 1 0 0) = Ok x /\ lp_solution x vzero f.
Proof. split; [exact xapprox_unit|exact xnode]. Qed.

(** C110.  The forces of these pyramids push and respect the friction coefficient. *)
Theorem C110_friction tq mu k F : 0 <= mu -> vnorm2 (cnormal k) = 1 -> tangents tq (cnormal k) (ctan1 k) (ctan2 k) ->
  in_pyramid mu k F -> in_cone mu (cnormal k) F.
Proof. exact (pyramid_in_cone tq mu k F). Qed.
Print Assumptions C110_friction.

(** The first axis of the root is turned by the root's quaternion: by the angle [th] about [u] for
    (cos (th/2), sin (th/2) u). *)
Theorem C110_root_axis u th : vnorm2 u = 1 ->
  let s := sin (th / 2) in
  quatX (cos (th / 2)) (s * vx u) (s * vy u) (s * vz u) =
  vadd (vadd (vscale (cos th) (V3 1 0 0)) (vscale (sin th) (vcross u (V3 1 0 0)))) (vscale ((1 - cos th) * vdot u (V3 1 0 0)) u).
Proof. exact (root_axis u th). Qed.
Print Assumptions C110_root_axis.
Example C110_case : tangents (V3 1 0 0) (V3 0 0 1) (tangent1 (V3 0 0 1) (V3 1 0 0)) (vcross (V3 0 0 1) (tangent1 (V3 0 0 1) (V3 1 0 0))).
Proof. apply tangent_ok. unfold vnorm2, vdot. cbn. ring. Qed.

(** C111.  For every ROM whose report has several surfaces, up to the first report without
    the list of its surfaces, the one designated is at the least distance of the
    reference. *)
Theorem C111_best_surface S inter reps : exists done done' rest, reps = (done ++ rest)%list /\
  chooseBest S inter reps = (done' ++ rest)%list /\
  Forall2 (fun r r' : string * (S * option (list S)) => fst r' = fst r /\ snd (snd r') = snd (snd r) /\
    exists l, snd (snd r) = Some l /\
    ((length l <= 1)%nat /\ fst (snd r') = fst (snd r) \/
     (1 < length l)%nat /\ best_surface (inter (fst r)) l (fst (snd r')))) done done' /\
  match rest with [] => True | r :: _ => snd (snd r) = None end.
Proof. exact (chooseBest_parts inter reps). Qed.
Print Assumptions C111_best_surface.

Example C111_case : chooseBest nat xinter [("foot"%string, (9%nat, Some [0; 1; 2; 3]%nat)); ("hand"%string, (8%nat, None))] =
  [("foot"%string, (2%nat, Some [0; 1; 2; 3]%nat)); ("hand"%string, (8%nat, None))].
Proof. cbn. rewrite (yRltb_t 2 5) by lra. rewrite (yRltb_f 3 2) by lra. reflexivity. Qed.

(** C112.  A path steered from a node either follows the direction found without bounds,
    admissible beyond the largest acceleration of the robot, or is computed with bounds on the
    acceleration admissible at the node in its direction, is not longer than 50, and is cut
    before the first change of acceleration that is not admissible. *)
Theorem C112_steer_from K klen kA1 kt0 kt1 ktv kacc kextract kino aMaxFixed aMaxFixedZ admissible findMax nodeq q2 (r : K) :
  (forall b p, kino b nodeq q2 = Some p -> durations_ok (kt0 p) (kt1 p) (ktv p)) ->
  steerFrom K klen kA1 kt0 kt1 ktv kacc kextract kino aMaxFixed aMaxFixedZ admissible findMax nodeq q2 = Some r ->
  exists p0, kino (V3 aMaxFixed aMaxFixed aMaxFixedZ) nodeq q2 = Some p0 /\
  let dir := vnormalize (kA1 p0) in
  (aMaxFixed < findMax dir /\ r = p0) \/
  (findMax dir <= aMaxFixed /\ exists b p, bounds_along (findMax dir) aMaxFixedZ dir b /\ kino b nodeq q2 = Some p /\
   klen p <= 50 /\ admissible (kacc p (1 / 10000)) = true /\
   let instant := instant (kt0 p) (kt1 p) (ktv p) (1 / 10000) in
   ((r = p /\ forall t, instant t -> t < klen p -> admissible (kacc p t) = true) \/
    (exists T, T < klen p - 1 / 10000 /\ r = kextract p 0 T /\
       (forall t, instant t -> t < T + 1 / 10000 -> admissible (kacc p t) = true) /\
       instant (T + 1 / 10000) /\ admissible (kacc p (T + 1 / 10000)) = false))).
Proof. exact (steerFrom_spec nodeq q2 r). Qed.
Print Assumptions C112_steer_from.

Example C112_case : durations_ok (yt0 1) (yt1 1) (ytv 1) /\ ysteer [0] [1] = Some (4 / 5).
Proof. split; [|exact yrun]. intros i Hi. unfold yt0, yt1, ytv. destruct i; lra. Qed.

(** C113.  The same for a path steered to a node: it is cut after the last change of
    acceleration that is not admissible. *)
Theorem C113_steer_to K klen kA1 kt0 kt1 ktv kacc kextract kino aMaxFixed aMaxFixedZ admissible findMax q1 nodeq (r : K) :
  (forall b p, kino b q1 nodeq = Some p -> durations_ok (kt0 p) (kt1 p) (ktv p)) ->
  steerTo K klen kA1 kt0 kt1 ktv kacc kextract kino aMaxFixed aMaxFixedZ admissible findMax q1 nodeq = Some r ->
  exists p0, kino (V3 aMaxFixed aMaxFixed aMaxFixedZ) q1 nodeq = Some p0 /\
  let dir := vnormalize (kA1 p0) in
  (aMaxFixed < findMax dir /\ r = p0) \/
  (findMax dir <= aMaxFixed /\ exists b p, bounds_along (findMax dir) aMaxFixedZ dir b /\ kino b q1 nodeq = Some p /\
   klen p <= 50 /\ admissible (kacc p (klen p - 1 / 10000)) = true /\
   let instant := instant (kt0 p) (kt1 p) (ktv p) (- (1 / 10000)) in
   ((r = p /\ forall t, instant t -> 0 < t -> admissible (kacc p t) = true) \/
    (exists T, 1 / 10000 < T /\ r = kextract p T (klen p) /\
       (forall t, instant t -> T - 1 / 10000 < t -> admissible (kacc p t) = true) /\
       instant (T - 1 / 10000) /\ admissible (kacc p (T - 1 / 10000)) = false))).
Proof. exact (steerTo_spec q1 nodeq r). Qed.
Print Assumptions C113_steer_to.

Example C113_case : durations_ok (yt0 1) (yt1 1) (ytv 1) /\ ysteerTo [0] [1] = Some (4 / 5).
Proof. split; [|exact yrun_to]. intros i Hi. unfold yt0, yt1, ytv. destruct i; lra. Qed.
