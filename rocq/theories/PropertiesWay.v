(** Property C158: way points of the end effector. *)
From Coq Require Import Reals ZArith.
From Verif Require Import Maps Vec StateModel StateReal ProjModel EffModel WayModel WaySpec WayProofs SeqExamples WayExamples.
From Verif Require Import StateModel.
Local Open Scope R_scope.

(** C158: the way points are read along the path.  For a motion of more than 3 cm a straight path is
    replaced by its ends and a raised middle point, otherwise a level one gets a ramp; a path that
    ends where it started throws *)
Theorem C158_way_points at_time t0 t1 d isLine : exists h, lift d h /\
  match getWayPoints at_time t0 t1 d isLine with
  | Ok (w, b) =>
      at_time t0 <> at_time t1 /\
      ((straight at_time t0 t1 /\ 3 / 100 < d /\ b = true /\ bridge (at_time t0) (at_time t1) h w) \/
       (~ straight at_time t0 t1 /\ level at_time t0 t1 /\ 3 / 100 < d /\ b = true /\ raised at_time t0 t1 h w) \/
       (~ (straight at_time t0 t1 /\ 3 / 100 < d) /\ ~ (level at_time t0 t1 /\ 3 / 100 < d) /\ b = isLine /\ raised at_time t0 t1 0 w))
  | Throw => at_time t0 = at_time t1
  | Ub => False
  end.
Proof. exact (C158_lemma at_time t0 t1 d isLine). Qed.
Print Assumptions C158_way_points.
Example C158_line_case : exists w, getWayPoints wline 0 1 (1 / 2) false = Ok (w, true) /\ bridge (V3 0 0 0) (V3 1 0 0) (7 / 100) w.
Proof. exact ex_line. Qed.
Example C158_arc_case : exists w, getWayPoints warc 0 1 (1 / 20) false = Ok (w, true) /\ raised warc 0 1 (3 / 100) w.
Proof. exact ex_arc. Qed.
Example C158_closed_case : getWayPoints (fun _ => V3 0 0 0) 0 1 1 false = Throw.
Proof. exact ex_closed. Qed.

(** paths that are exactly straight are recognized *)
Theorem C158_exact_line at_time t0 t1 : at_time t0 <> at_time t1 ->
  (forall i, (1 <= i <= 29)%nat -> exists k, 0 < k /\ at_time (way_time t0 t1 i) = vadd (at_time t0) (vscale k (vsub (at_time t1) (at_time t0)))) ->
  straight at_time t0 t1.
Proof. exact (straight_on_line at_time t0 t1). Qed.
Print Assumptions C158_exact_line.
Example C158_straight_case : straight wline 0 1 /\ ~ straight warc 0 1.
Proof. split; [exact wline_straight|exact warc_not_straight]. Qed.

(** the spline starts and ends where the path does, at times 0 and 2 or 30; it needs a limb that makes
    a contact *)
Theorem C158_spline {K} (value : K -> R -> vec3) cubic at_time t0 t1 start next isLine : interpolates value cubic ->
  match splineFromEffectorTraj cubic at_time t0 t1 start next isLine with
  | Ok (c, b) => b = true /\ value c 0 = at_time t0 /\
      exists T, (T = 2 \/ T = 30) /\ value c T = at_time t1 /\ (T = 2 <-> straight at_time t0 t1 /\ 3 / 100 < effectorDistance start next)
  | Throw => at_time t0 = at_time t1
  | Ub => at_time t0 <> at_time t1 /\ contactCreations moved3 next start = []
  end.
Proof. exact (C158_spline_lemma value cubic at_time t0 t1 start next isLine). Qed.
Print Assumptions C158_spline.
Example C158_spline_case : interpolates wvalue (fun w => w) /\ exists c, splineFromEffectorTraj (fun w => w) wline 0 1 (snd h2) (snd h3) false = Ok (c, true).
Proof. split; [exact wvalue_ok|exact ex_spline]. Qed.
