(** Properties C71 to C77: parabolic jumps. *)
From Verif Require Import Maps Vec ParaModel ParaSpec ParaProofs ParaProofs2 ParaProofs3 ParaProofs4 ParaProofs5 ParaExamples.
Local Open Scope R_scope.

(** * C71: the intervals of launch angles are exactly those the speed limits allow *)
Theorem C71_launch_none s X Z : 0 < s_g s -> 0 < X -> second_constraint s X Z = None -> 0 <= s_V0max s ->
  forall a v T, - PI / 2 < a < PI / 2 -> flight (s_g s) X Z a v T -> s_V0max s < v.
Proof. exact (fun Hg HX => second_none s X Z Hg HX). Qed.
Print Assumptions C71_launch_none.
Theorem C71_launch_interval s X Z plus minus : 0 < s_g s -> 0 < X -> second_constraint s X Z = Some (plus, minus) -> 0 <= s_V0max s ->
  forall a, - PI / 2 < a < PI / 2 -> (minus <= a <= plus <-> exists v T, flight (s_g s) X Z a v T /\ v <= s_V0max s).
Proof. exact (fun Hg HX => second_some s X Z Hg HX plus minus). Qed.
Print Assumptions C71_launch_interval.
Theorem C71_impact_none s X Z : 0 < s_g s -> 0 < X -> sixth_constraint s X Z = None ->
  forall a v T, - PI / 2 < a < PI / 2 -> flight (s_g s) X Z a v T ->
  s_Vimpmax s * s_Vimpmax s < v * cos a * (v * cos a) + (v * sin a - s_g s * T) * (v * sin a - s_g s * T).
Proof. exact (fun Hg HX => sixth_none s X Z Hg HX). Qed.
Print Assumptions C71_impact_none.
Theorem C71_impact_interval s X Z plus minus : 0 < s_g s -> 0 < X -> sixth_constraint s X Z = Some (plus, minus) ->
  forall a, - PI / 2 < a < PI / 2 -> (minus <= a <= plus <-> exists v T, flight (s_g s) X Z a v T /\
    v * cos a * (v * cos a) + (v * sin a - s_g s * T) * (v * sin a - s_g s * T) <= s_Vimpmax s * s_Vimpmax s).
Proof. exact (fun Hg HX => sixth_some s X Z Hg HX plus minus). Qed.
Print Assumptions C71_impact_interval.
Example C71_parameters : 0 < s_g exsteer /\ 0 < s_Dalpha exsteer /\ 0 <= s_V0max exsteer /\ 0 <= s_Vimpmax exsteer /\ s_g exsteer = 981/100.
Proof. exact ex_params. Qed.

(** * C72: a jump that is returned is feasible *)
Theorem C72_feasible validate romNames d s q1 q2 t tried :
  0 < s_g s -> 0 < s_Dalpha s -> 0 <= s_V0max s -> 0 <= s_Vimpmax s -> apart q1 q2 ->
  compute_3D_path validate romNames d s q1 q2 = Ok (Some t, tried) ->
  let v := p_V0 (t_para t) in let T := t_len t in
  0 < T /\ fall (s_g s) (qpos q1) v T = qpos q2 /\ p_Vimp (t_para t) = fallVelocity (s_g s) v T /\
  vnorm v <= s_V0max s /\ vnorm (p_Vimp (t_para t)) <= s_Vimpmax s /\
  (forall u, 0 <= u <= T -> vz (fall (s_g s) (qpos q1) v u) <= Rmax (s_zmax s) (Rmax (qi q1 2) (qi q2 2))) /\
  validate (t_para t) = true /\ t_para t ∈ tried /\
  p_init (t_para t) = q1 /\ p_end (t_para t) = q2 /\ p_roms0 (t_para t) = romNames q1 /\ p_roms1 (t_para t) = romNames q2 /\
  (length tried <= S (s_nLimit s))%nat.
Proof.
  exact (fun Hg HD HV HW Hap Ht =>
    match jump_returned validate romNames d s Hg HD HV HW q1 q2 Hap t tried Ht with
    | conj A (conj B (conj C (conj D (conj E0 (conj F (conj G (conj H (conj I0 (conj J (conj K (conj L (conj M _)))))))))))) =>
      conj A (conj B (conj C (conj D (conj E0 (conj F (conj G (conj H (conj I0 (conj J (conj K (conj L M)))))))))))
    end).
Qed.
Print Assumptions C72_feasible.
Example C72_one_metre : apart exq0 exq1 /\ exists t tried, compute_3D_path accept noRoms exdev exsteer exq0 exq1 = Ok (Some t, tried).
Proof. split; [left; cbn; lra|exact ex_jump]. Qed.

(** * C73: what a refusal means *)
Theorem C73_impossible validate romNames d s q1 q2 :
  0 < s_g s -> 0 < s_Dalpha s -> 0 <= s_V0max s -> apart q1 q2 ->
  compute_3D_path validate romNames d s q1 q2 = Ok (None, []) ->
  forall v T, 0 < T -> fall (s_g s) (qpos q1) v T = qpos q2 -> vnorm v <= s_V0max s -> vnorm (fallVelocity (s_g s) v T) <= s_Vimpmax s ->
  atan (vz v / sqrt (vx v * vx v + vy v * vy v)) < atan ((qi q2 2 - qi q1 2) / hdist q1 q2) + s_Dalpha s \/
  exists u, 0 <= u <= T /\ s_zmax s < vz (fall (s_g s) (qpos q1) v u).
Proof. exact (fun Hg HD HV Hap => jump_impossible validate romNames d s Hg HD HV q1 q2 Hap). Qed.
Print Assumptions C73_impossible.
Theorem C73_all_tried validate romNames d s q1 q2 tried :
  0 < s_g s -> 0 < s_Dalpha s -> 0 <= s_V0max s -> 0 <= s_Vimpmax s -> apart q1 q2 ->
  tried <> [] -> compute_3D_path validate romNames d s q1 q2 = Ok (None, tried) ->
  length tried = S (s_nLimit s) /\
  forall p, p ∈ tried -> p_init p = q1 /\ p_end p = q2 /\ vnorm (p_V0 p) <= s_V0max s /\ vnorm (p_Vimp p) <= s_Vimpmax s /\
    (exists T, 0 < T /\ fall (s_g s) (qpos q1) (p_V0 p) T = qpos q2 /\
     (validate p = false \/ exists u, 0 <= u <= T /\ s_zmax s < vz (fall (s_g s) (qpos q1) (p_V0 p) u))).
Proof. exact (fun Hg HD HV HW Hap => jump_refused validate romNames d s Hg HD HV HW q1 q2 Hap tried). Qed.
Print Assumptions C73_all_tried.
Theorem C73_answers validate romNames d s q1 q2 : (indexEcs d + 6 <= length q1)%nat -> (indexEcs d + 3 <= length q2)%nat ->
  exists o tried, compute_3D_path validate romNames d s q1 q2 = Ok (o, tried).
Proof. exact (compute_total validate romNames d s q1 q2). Qed.
Print Assumptions C73_answers.
Example C73_too_far : apart exq0 exfar /\ compute_3D_path accept noRoms exdev exsteer exq0 exfar = Ok (None, []).
Proof. exact ex_far. Qed.
Example C73_colliding : exists tried, tried <> [] /\ compute_3D_path refuse noRoms exdev exsteer exq0 exq1 = Ok (None, tried).
Proof. exact ex_refused. Qed.

(** * C74: the configurations of a jump: the velocities are those of the free fall, the
    positions those of the straight segment, below it *)
Theorem C74_inside validate romNames d s q1 q2 t tried u :
  0 < s_g s -> 0 < s_Dalpha s -> 0 <= s_V0max s -> 0 <= s_Vimpmax s -> lawful d ->
  length q1 = csize d -> length q2 = csize d -> qi q1 0 <> qi q2 0 ->
  compute_3D_path validate romNames d s q1 q2 = Ok (Some t, tried) -> 0 < u < t_len t -> s_g s = 981 / 100 ->
  let q := t_compute d t u in let v := fallVelocity (s_g s) (p_V0 (t_para t)) u in let i := indexEcs d in
  qpos q = between (qpos q1) (qpos q2) (u / t_len t) /\
  vx (fall (s_g s) (qpos q1) (p_V0 (t_para t)) u) = qi q 0 /\ vy (fall (s_g s) (qpos q1) (p_V0 (t_para t)) u) = qi q 1 /\
  qi q 2 < vz (fall (s_g s) (qpos q1) (p_V0 (t_para t)) u) /\
  V3 (qi q i) (qi q (i + 1)) (qi q (i + 2)) = v /\ qi q (i + 3) = 0 /\ qi q (i + 4) = 0 /\ qi q (i + 5) = - s_g s.
Proof. exact (fun Hg HD HV HW Hl L1 L2 Hx Ht => timed_inside validate romNames d s Hg HD HV HW Hl q1 q2 L1 L2 Hx t tried Ht u). Qed.
Print Assumptions C74_inside.
Theorem C74_ends validate romNames d s q1 q2 t tried :
  0 < s_g s -> 0 < s_Dalpha s -> 0 <= s_V0max s -> 0 <= s_Vimpmax s -> lawful d ->
  length q1 = csize d -> length q2 = csize d -> qi q1 0 <> qi q2 0 ->
  compute_3D_path validate romNames d s q1 q2 = Ok (Some t, tried) ->
  t_compute d t 0 = t_init t /\ (forall u, t_len t <= u -> t_compute d t u = t_end t) /\
  (forall i, (i < indexEcs d)%nat -> qi (t_init t) i = qi q1 i /\ qi (t_end t) i = qi q2 i) /\
  let i := indexEcs d in
  V3 (qi (t_init t) i) (qi (t_init t) (i + 1)) (qi (t_init t) (i + 2)) = p_V0 (t_para t) /\
  V3 (qi (t_end t) i) (qi (t_end t) (i + 1)) (qi (t_end t) (i + 2)) = fallVelocity (s_g s) (p_V0 (t_para t)) (t_len t) /\
  qi (t_init t) (i + 5) = - s_g s /\ qi (t_end t) (i + 5) = qi q2 (i + 5).
Proof. exact (timed_all_ends validate romNames d s q1 q2 t tried). Qed.
Print Assumptions C74_ends.
Theorem C74_stuck validate romNames d s q1 q2 t tried u :
  0 < s_g s -> 0 < s_Dalpha s -> 0 <= s_V0max s -> 0 <= s_Vimpmax s -> lawful d ->
  qi q1 0 = qi q2 0 -> qi q1 1 <> qi q2 1 -> compute_3D_path validate romNames d s q1 q2 = Ok (Some t, tried) ->
  qpos (t_compute d t u) = qpos q1 /\ qpos (t_compute d t (t_len t)) <> qpos q2.
Proof. exact (stuck_jump validate romNames d s q1 q2 t tried u). Qed.
Print Assumptions C74_stuck.
Example C74_device : lawful exdev /\ length exq0 = csize exdev /\ length exq1 = csize exdev /\ qi exq0 0 <> qi exq1 0.
Proof. split; [exact ex_lawful|]. cbn. repeat split; lra. Qed.
Example C74_along_y : qi exq0 0 = qi exq2 0 /\ qi exq0 1 <> qi exq2 1 /\ exists t tried, compute_3D_path accept noRoms exdev exsteer exq0 exq2 = Ok (Some t, tried).
Proof. split; [reflexivity|]. split; [cbn; lra|exact ex_jump_y]. Qed.

(** * C75: evaluation, reversal and extraction of a parabola path *)
Theorem C75_evaluation d p : lawful d -> jump_path d p ->
  p_at d p 0 = p_init p /\ (forall u, p_len p <= u -> p_at d p u = p_end p) /\
  (forall u, 0 <= u <= p_len p -> qpos (p_at d p u) = between (qpos (p_init p)) (qpos (p_end p)) (u / p_len p)) /\
  (forall u i, 0 < u < p_len p -> (csize d - ecs d <= i < csize d)%nat -> qi (p_at d p u) i = 0).
Proof. exact (fun Hd Hp => conj (p_zero d p) (conj (p_full d p Hp) (conj (p_straight d Hd p Hp) (p_extra d Hd p Hp)))). Qed.
Print Assumptions C75_evaluation.
Theorem C75_reverse d p : lawful d -> jump_path d p ->
  (forall u, 0 <= u <= p_len p -> p_at d (p_reverse d p) u = p_at d p (p_len p - u)) /\
  p_V0 (p_reverse d p) = p_Vimp p /\ p_Vimp (p_reverse d p) = p_V0 p /\
  p_roms0 (p_reverse d p) = p_roms1 p /\ p_roms1 (p_reverse d p) = p_roms0 p /\ p_len (p_reverse d p) = p_len p /\
  p_reverse d (p_reverse d p) = p.
Proof. exact (fun Hd Hp => conj (p_reverse_at d Hd p Hp) (conj eq_refl (conj eq_refl (conj eq_refl (conj eq_refl (conj eq_refl (p_reverse_twice d Hd p Hp))))))). Qed.
Print Assumptions C75_reverse.
Theorem C75_extract d p a b : lawful d -> jump_path d p -> 0 <= a -> a < b -> b <= p_len p ->
  p_len (p_extract d p a b) = b - a /\ p_init (p_extract d p a b) = p_at d p a /\ p_end (p_extract d p a b) = p_at d p b /\
  forall u, 0 <= u <= b - a -> qpos (p_at d (p_extract d p a b) u) = qpos (p_at d p (a + u)).
Proof. exact (extract_all d p a b). Qed.
Print Assumptions C75_extract.
Theorem C75_extract_backwards d p a b u : lawful d -> jump_path d p -> 0 <= b -> b < a -> a <= p_len p -> 0 < u ->
  p_len (p_extract d p a b) < 0 /\ p_at d (p_extract d p a b) u = p_at d p b.
Proof. exact (fun Hd => p_extract_backwards d Hd p a b u). Qed.
Print Assumptions C75_extract_backwards.
Example C75_path : lawful exdev /\ jump_path exdev exppath.
Proof. exact (conj ex_lawful ex_path). Qed.

(** * C76: reversing a jump, and its range *)
Theorem C76_reverse validate romNames d s q1 q2 t tried u :
  0 < s_g s -> 0 < s_Dalpha s -> 0 <= s_V0max s -> 0 <= s_Vimpmax s -> lawful d ->
  length q1 = csize d -> length q2 = csize d -> qi q1 0 <> qi q2 0 ->
  compute_3D_path validate romNames d s q1 q2 = Ok (Some t, tried) -> 0 < u ->
  t_len (t_reverse d t) < 0 /\ t_compute d (t_reverse d t) u = t_init t.
Proof. exact (fun Hg HD HV HW Hl L1 L2 Hx Ht => timed_reverse validate romNames d s Hg HD HV HW Hl q1 q2 L1 L2 Hx t tried Ht u). Qed.
Print Assumptions C76_reverse.
Theorem C76_range validate romNames d s q1 q2 t tried :
  0 < s_g s -> 0 < s_Dalpha s -> 0 <= s_V0max s -> 0 <= s_Vimpmax s ->
  length q1 = csize d -> length q2 = csize d -> qi q1 0 <> qi q2 0 ->
  compute_3D_path validate romNames d s q1 q2 = Ok (Some t, tried) ->
  t_range t = (0, hdist q1 q2) /\
  t_len t = hdist q1 q2 / sqrt (vx (p_V0 (t_para t)) * vx (p_V0 (t_para t)) + vy (p_V0 (t_para t)) * vy (p_V0 (t_para t))).
Proof. exact (fun Hg HD HV HW L1 L2 Hx Ht => timed_range validate romNames d s Hg HD HV HW q1 q2 L1 L2 Hx t tried Ht). Qed.
Print Assumptions C76_range.
Example C76_jump : qi exq0 0 <> qi exq1 0 /\ exists t tried, compute_3D_path accept noRoms exdev exsteer exq0 exq1 = Ok (Some t, tried).
Proof. split; [cbn; lra|exact ex_jump]. Qed.

(** * C77: the random jump leaves its plane unless it starts on the line through the origin *)
Theorem C77_random_target g theta q1 alpha v :
  randomTarget g theta q1 alpha v = fall g (qpos q1) (V3 (v * cos alpha * cos theta) (v * cos alpha * sin theta) (v * sin alpha)) 3
  <-> qi q1 1 * cos theta = qi q1 0 * sin theta.
Proof. exact (random_target g theta q1 alpha v). Qed.
Print Assumptions C77_random_target.
Example C77_off_the_line : exists q1, qi q1 1 * cos 0 <> qi q1 0 * sin 0.
Proof. exact ex_offset. Qed.
