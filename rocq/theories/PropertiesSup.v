(** Property C48: the support polygon. *)
From Coq Require Import ZArith.
From Verif Require Import Maps Vec VecProofs GeomModel GeomSpec SupModel SupSpec SupProofs5 SupProofs6 SupExamples.
Local Open Scope R_scope.

(** rectangular contacts, no corner exactly above another at another height: the test ends and says
    whether the point is in the convex hull of the corners, the right-hand boundary and the top excepted *)
Theorem C48_support_test p support x xs y ys : 0 < x -> 0 < y ->
  (length support <= length xs)%nat -> (length support <= length ys)%nat ->
  (forall q q', corner_of (p :: support) (x :: xs) (y :: ys) q -> corner_of (p :: support) (x :: xs) (y :: ys) q' ->
     same_xy q q' -> q = q') ->
  forall cs, (forall q, q ∈ cs <-> corner_of (p :: support) (x :: xs) (y :: ys) q) ->
  exists test : vec3 -> bool,
    (forall fuel Q, (4 * length support + 5 <= fuel)%nat -> Contains fuel (p :: support) Q (x :: xs) (y :: ys) = Ok (Some (test Q))) /\
    (forall Q, test Q = true <-> in_half_open_hull cs Q) /\
    (forall Q, strictly_inside cs Q -> test Q = true) /\
    (forall Q, ~ in_hull cs Q -> test Q = false).
Proof. exact (Contains_ok p support x xs y ys). Qed.
Print Assumptions C48_support_test.
Theorem C48_no_contact fuel Q xs ys : Contains fuel [] Q xs ys = Ok (Some false).
Proof. exact (Contains_none fuel Q xs ys). Qed.
Print Assumptions C48_no_contact.
(** sizes missing: read out of range *)
Theorem C48_sizes_missing fuel support Q xs ys : (length xs < length support \/ length ys < length support)%nat ->
  Contains fuel support Q xs ys = Ub.
Proof. exact (Contains_short fuel support Q xs ys). Qed.
Print Assumptions C48_sizes_missing.
(** point contacts: one *)
Theorem C48_point_contact fuel p Q : (1 <= fuel)%nat ->
  exists b, Contains fuel [p] Q [0] [0] = Ok (Some b) /\
    (b = true <-> sqrt ((vx Q - vx p) * (vx Q - vx p) + (vy Q - vy p) * (vy Q - vy p)) < 1 / 1000).
Proof. exact (Contains_point fuel p Q). Qed.
Print Assumptions C48_point_contact.
(** two: never supported, not even on the segment *)
Theorem C48_two_points fuel A B Q : A <> B -> (2 <= fuel)%nat -> Contains fuel [A; B] Q [0; 0] [0; 0] = Ok (Some false).
Proof. exact (Contains_two_points fuel A B Q). Qed.
Print Assumptions C48_two_points.
(** three aligned, the leftmost listed last: no answer *)
Theorem C48_three_aligned_points A B C : orient A B C = 0 -> vx A < vx B -> vx A < vx C -> B <> C ->
  forall fuel Q, Contains fuel [B; C; A] Q [0; 0; 0] [0; 0; 0] = Ok None.
Proof. rewrite <- GeomInt.isLeft_orient. exact (Contains_three_points A B C). Qed.
Print Assumptions C48_three_aligned_points.
(** four, the first in the middle of the left side: a point strictly inside is rejected *)
Theorem C48_four_points : exists support xs ys Q, strictly_inside support Q /\ Contains 10 support Q xs ys = Ok (Some false).
Proof. exists [midPt; lowPt; topPt; farPt], zero4, zero4, lostCom. split; [exact ex_mid_inside|exact ex_mid]. Qed.
Print Assumptions C48_four_points.
Example C48_example : (forall q, q ∈ feetCorners <-> corner_of feet halfX halfY q) /\ strictly_inside feetCorners (V3 (1/4) 0 0) /\
  Contains 9 feet (V3 (1/4) 0 0) halfX halfY = Ok (Some true).
Proof. split; [exact ex_feet_corners|]. split; [exact ex_feet_inside|]. exact ex_feet. Qed.

(** a polygon reduced to a segment: what is accepted is within a millimetre of the segment, seen
    from above, but points of the segment are rejected *)
Theorem C48_segment_sound A B P : InPolygon [A; B] P = true ->
  exists s, 0 <= s <= 1 /\ let Q := vadd A (vscale s (vsub B A)) in
    sqrt ((vx P - vx Q) * (vx P - vx Q) + (vy P - vy Q) * (vy P - vy Q)) < 1 / 1000.
Proof. exact (segment_sound A B P). Qed.
Print Assumptions C48_segment_sound.
Theorem C48_segment_ends A B P : vx A = vx B \/ vy A = vy B ->
  InPolygon [A; B] P = true <-> sqrt ((vx P - vx A) * (vx P - vx A) + (vy P - vy A) * (vy P - vy A)) < 1 / 1000 \/
    sqrt ((vx P - vx B) * (vx P - vx B) + (vy P - vy B) * (vy P - vy B)) < 1 / 1000.
Proof. exact (segment_ends A B P). Qed.
Print Assumptions C48_segment_ends.
Theorem C48_segment_complete_refuted :
  (exists A B P, (exists s, 0 <= s <= 1 /\ P = vadd A (vscale s (vsub B A))) /\ vy A = vy B /\ InPolygon [A; B] P = false) /\
  (exists A B P, (exists s, 0 <= s <= 1 /\ P = vadd A (vscale s (vsub B A))) /\ vx A <> vx B /\ vy A <> vy B /\ InPolygon [A; B] P = false).
Proof. exact segment_incomplete. Qed.
Print Assumptions C48_segment_complete_refuted.
Example C48_segment_case : InPolygon [V3 0 0 0; V3 2 0 0] (V3 0 0 5) = true /\ exists A B P, vx A <> vx B /\ vy A <> vy B /\ InPolygon [A; B] P = true.
Proof. exact segment_case. Qed.
