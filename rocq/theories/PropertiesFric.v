(** Properties of the friction cone test of a jump. *)
From Verif Require Import Maps Vec FricModel FricSpec FricProofs FricExamples.
Local Open Scope R_scope.

(** C155 *)
Theorem C155_cone mu n theta delta : 0 <= mu -> vnorm2 n = 1 -> - PI <= theta <= PI ->
  clearOfVertical mu n \/ (grazesVertical mu n /\ vx n * cos theta + vy n * sin theta <> 0) ->
  fiveth_constraint mu n theta = Ok (Some delta) ->
  0 <= delta <= atan mu /\
  forall eta beta, elevation theta n eta -> Rabs (beta - eta) <= PI ->
    (noSlip mu n (launch theta beta) <-> Rabs (beta - eta) <= delta).
Proof. exact (fric_cone mu n theta delta). Qed.
Theorem C155_refused mu n theta eta : 0 <= mu -> vnorm2 n = 1 -> - PI <= theta <= PI -> clearOfVertical mu n -> elevation theta n eta ->
  (cos theta <> 0 -> (fiveth_constraint mu n theta = Ok None <->
    forall beta, noSlip mu n (launch theta beta) ->
      sin (beta - eta) * sin (beta - eta) < 1 / 20 * (cos theta * cos theta) * (cos (beta - eta) * cos (beta - eta)))) /\
  (cos theta = 0 -> (fiveth_constraint mu n theta = Ok None <->
    forall beta, noSlip mu n (launch theta beta) ->
      sin (beta - eta) * sin (beta - eta) < 1 / 20 * (cos (beta - eta) * cos (beta - eta)))).
Proof. exact (fric_refused mu n theta eta). Qed.
Theorem C155_tangent mu n theta : 0 <= mu -> vnorm2 n = 1 -> - PI <= theta <= PI ->
  grazesVertical mu n -> vx n * cos theta + vy n * sin theta = 0 ->
  (forall eta beta, elevation theta n eta -> Rabs (beta - eta) <= PI ->
     (noSlip mu n (launch theta beta) <-> beta = eta)) /\
  (cos theta <> 0 -> fiveth_constraint mu n theta = Ok (Some (PI / 4))) /\
  (cos theta = 0 -> fiveth_constraint mu n theta = Ok None).
Proof. exact (fric_tangent mu n theta). Qed.
Theorem C155_total mu n theta : 0 <= mu -> vnorm2 n = 1 -> - PI <= theta <= PI ->
  clearOfVertical mu n \/ grazesVertical mu n -> exists o, fiveth_constraint mu n theta = Ok o.
Proof. exact (fric_total mu n theta). Qed.

(** Level ground, friction 1: 45 degrees around the vertical. *)
Example C155_case_flat :
  vnorm2 flat = 1 /\ clearOfVertical 1 flat /\ elevation 0 flat (PI / 2) /\ fiveth_constraint 1 flat 0 = Ok (Some (PI / 4)).
Proof. exact (conj flat_unit (conj flat_clear (conj flat_elev flat_run))). Qed.
(** A slope whose cone touches the vertical, faced: an answer. *)
Example C155_case_faced :
  vnorm2 graze = 1 /\ grazesVertical (3 / 4) graze /\ vx graze * cos (PI / 2) + vy graze * sin (PI / 2) <> 0 /\
  exists delta, fiveth_constraint (3 / 4) graze (PI / 2) = Ok (Some delta).
Proof. exact (conj graze_unit (conj graze_grazes (conj graze_faced graze_faced_run))). Qed.
(** A steep wall seen sideways: refused, although it holds in one direction at least. *)
Example C155_case_refused :
  vnorm2 narrow = 1 /\ clearOfVertical 1 narrow /\ fiveth_constraint 1 narrow 0 = Ok None /\
  (exists eta, elevation 0 narrow eta) /\ forall eta, elevation 0 narrow eta -> noSlip 1 narrow (launch 0 eta).
Proof. exact (conj narrow_unit (conj narrow_clear (conj narrow_run (conj narrow_elev narrow_holds)))). Qed.
(** The grazing slope crossed on the level. *)
Example C155_case_tangent :
  vnorm2 graze = 1 /\ grazesVertical (3 / 4) graze /\ vx graze * cos 0 + vy graze * sin 0 = 0 /\ elevation 0 graze (PI / 2).
Proof. exact (conj graze_unit (conj graze_grazes (conj graze_along graze_elev))). Qed.

Print Assumptions C155_cone.
Print Assumptions C155_refused.
Print Assumptions C155_tangent.
Print Assumptions C155_total.
