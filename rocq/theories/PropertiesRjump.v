(** Property C165: the random jumps. *)
From Verif Require Import Maps Vec ParaModel ParaSpec RjumpModel RjumpSpec RjumpProofs.
Local Open Scope R_scope.

(** * C165: the angle and the speed drawn, the path, and what decides whether it is returned *)
Theorem C165_draw validate s raw0 rawimp m r1 r2 q1 q2 :
  0 <= r1 <= 1 -> 0 <= r2 <= 1 -> 0 <= s_V0max s ->
  let r := compute_random_3D_path validate s raw0 rawimp m r1 r2 q1 q2 in
  let lo := Rmax 0 (a_minus m) in let mid := (lo + a_plus m) / 2 in
  Rmin lo mid <= d_alpha r <= Rmax lo mid /\ 0 <= d_speed r <= s_V0max s /\ d_angles r = Angles (a_plus m) lo.
Proof. exact (draw_bounds validate s raw0 rawimp m r1 r2 q1 q2). Qed.
Print Assumptions C165_draw.
Theorem C165_jump validate s raw0 rawimp m r1 r2 q1 q2 :
  0 < s_g s -> apart q1 q2 -> (3 <= length q2)%nat ->
  let r := compute_random_3D_path validate s raw0 rawimp m r1 r2 q1 q2 in
  - PI / 2 < d_alpha r < PI / 2 -> 0 < d_speed r ->
  exists cx cy p, heading q1 q2 cx cy /\ three_seconds (s_g s) q1 q2 cx cy (d_alpha r) (d_speed r) p /\
    p_V0 p = raw0 /\ p_Vimp p = rawimp /\ p_roms0 p = [] /\ p_roms1 p = [] /\
    (d_path r = Some p \/ d_path r = None) /\
    (d_path r = Some p <-> validate p = true /\ ~ too_high_before (s_g s) q1 cx cy (d_alpha r) (d_speed r) (s_zmax s) (hdist q1 q2)).
Proof. exact (random_jump validate s raw0 rawimp m r1 r2 q1 q2). Qed.
Print Assumptions C165_jump.
Example C165_above_the_ceiling : 0 < s_g lowsteer /\ 0 <= s_V0max lowsteer /\ apart rq0 rq1 /\ (3 <= length rq1)%nat /\
  - PI / 2 < d_alpha rdraw < PI / 2 /\ 0 < d_speed rdraw /\ (exists p, d_path rdraw = Some p) /\
  exists t, 0 <= t <= 3 /\ forall cx cy, s_zmax lowsteer < vz (fall (s_g lowsteer) (qpos rq0) (launch cx cy (d_alpha rdraw) (d_speed rdraw)) t).
Proof. split; [cbn; lra|]. split; [cbn; lra|]. split; [exact rcase_apart|]. split; [cbn; lia|exact rcase]. Qed.
