(** Properties of the trajectories of the interpolation. *)
From Verif Require Import Maps Vec VecProofs ParaModel ParaSpec ParaExamples TrajModel TrajSpec TrajProofs TrajProofs2 TrajProofs3 TrajExamples.
From Coq Require Import Psatz.
Local Open Scope R_scope.

(** * C78: the trajectory of the centre of mass *)
Theorem C78_motion p : 
  ct_at p 0 = ct_init p /\ (ct_len p <> 0 -> ct_at p (ct_len p) = ct_end p) /\
  (ct_len p <> 0 -> forall t, t <> ct_len p -> ct_at p t = comMotion p t) /\ (ct_len p = 0 -> forall t, ct_at p t = ct_init p) /\
  (0 < ct_len p -> (consistent p <-> forall t, 0 <= t <= ct_len p -> ct_at p t = comMotion p t)).
Proof.
  exact (conj (ct_zero p) (conj (ct_full p) (conj (fun H t => ct_motion p t H) (conj (fun H t => ct_null p t H) (ct_consistent p))))).
Qed.
Print Assumptions C78_motion.
Theorem C78_extract p a b : consistent p -> 0 <= a -> a < b -> b <= ct_len p ->
  ct_len (ct_extract p a b) = b - a /\ consistent (ct_extract p a b) /\
  forall u, 0 <= u <= b - a -> ct_at (ct_extract p a b) u = ct_at p (a + u).
Proof. exact (ct_extract_forward p a b). Qed.
Print Assumptions C78_extract.
Theorem C78_extract_backwards p a b : consistent p -> 0 <= b -> b < a -> a <= ct_len p ->
  (ct_len (ct_extract p a b) = a - b /\ ct_init (ct_extract p a b) = ct_at p a /\ ct_end (ct_extract p a b) = ct_at p b /\
   forall u, 0 < u < a - b -> ct_at (ct_extract p a b) u = comMotion p (a + u)) /\
  ((forall u, 0 <= u <= a - b -> ct_at (ct_extract p a b) u = ct_at p (a - u)) <-> vadd (vscale a (ct_acc p)) (ct_speed p) = V3 0 0 0).
Proof. exact (fun C Hb Hab Ha => conj (ct_extract_backward p a b C Hb Hab Ha) (ct_backward_is_reverse_iff p a b C Hb Hab Ha)). Qed.
Print Assumptions C78_extract_backwards.
Example C78_free_fall : consistent excom /\ ct_len excom = 2.
Proof. exact (conj ex_consistent eq_refl). Qed.

(** * C79: the polynomial trajectory *)
Theorem C79_values p t : (pt_stop p <> 0 -> pt_at p t = pt_pol p t) /\ (pt_stop p = 0 -> pt_at p t = pt_pol p (pt_start p)).
Proof. exact (conj (pt_value p t) (pt_null p t)). Qed.
Print Assumptions C79_values.
Theorem C79_extract p a b t : pt_stop p <> 0 -> b <> 0 -> pt_at (pt_extract p a b) t = pt_at p t /\ pt_len (pt_extract p a b) = b - a.
Proof. exact (fun H Hb => conj (eq_trans (pt_value (pt_extract p a b) t Hb) (eq_sym (pt_value p t H))) eq_refl). Qed.
Print Assumptions C79_extract.
Theorem C79_ends p : pt_initial p = pt_pol p (pt_start p) /\ pt_end p = pt_pol p (pt_stop p) /\
  pt_at p (pt_start p) = pt_initial p /\ (pt_stop p <> 0 -> pt_at p (pt_stop p) = pt_end p) /\
  forall a b, pt_initial (pt_extract p a b) = pt_pol p a /\ pt_end (pt_extract p a b) = pt_pol p b.
Proof. exact (pt_ends p). Qed.
Print Assumptions C79_ends.
Example C79_before_zero : let p := PT (fun t => V3 t 0 0) (- 1) 0 in pt_at p (- (1/2)) <> pt_pol p (- (1/2)).
Proof. cbn. rewrite pt_null by reflexivity. cbn. intros H. injection H. lra. Qed.

(** * C80: Bezier paths *)
Theorem C80_values d p t : lawful d -> standard d p -> bp_first p <= t <= bp_second p ->
  exists q, bp_at d p t = Ok q /\ length q = csize d /\ qpos q = bz_eval (bp_curve p) t /\
    forall i, (3 <= i)%nat -> qi q i = qi (interp d (bp_initial p) (bp_final p) (t / bz_max (bp_curve p))) i.
Proof. exact (bp_values d p t). Qed.
Print Assumptions C80_values.
Theorem C80_ends d p : standard d p ->
  bp_init d p = bp_at d p (bp_first p) /\ bp_end d p = bp_at d p (bp_second p) /\
  (forall t, t < bp_first p -> bp_at d p t = bp_at d p (bp_first p)) /\ (forall t, bp_second p < t -> bp_at d p t = bp_at d p (bp_second p)).
Proof.
  exact (fun S => conj (proj1 (bp_ends d p S)) (conj (proj2 (bp_ends d p S))
    (conj (fun t => proj1 (bp_clamped d p t S)) (fun t => proj2 (bp_clamped d p t S))))).
Qed.
Print Assumptions C80_ends.
Theorem C80_late_curve d p t : bz_min (bp_curve p) < bz_max (bp_curve p) -> bz_min (bp_curve p) <= bp_first p -> bp_second p <= bz_max (bp_curve p) ->
  bp_first p <= t <= bp_second p -> bp_second p <> 0 ->
  let T := bz_max (bp_curve p) - bz_min (bp_curve p) in
  let u := (t - bz_min (bp_curve p)) / T in
  bp_at d p t = Ok (setHead (interp d (bp_initial p) (bp_final p) (u + bz_min (bp_curve p) * (1 + / T))) (bz_eval (bp_curve p) t)).
Proof. exact (bp_parameter d p t). Qed.
Print Assumptions C80_late_curve.
Theorem C80_outside d p t : bp_first p <= t <= bp_second p -> t < bz_min (bp_curve p) \/ bz_max (bp_curve p) < t -> bp_at d p t = Throw.
Proof. exact (bp_outside d p t). Qed.
Print Assumptions C80_outside.
Example C80_path : lawful exdev /\ standard exdev exbez.
Proof. exact (conj ex_lawful ex_standard). Qed.
Example C80_late : bz_min (bp_curve exlate) < bz_max (bp_curve exlate) /\ bz_min (bp_curve exlate) = 1.
Proof. cbn. lra. Qed.

(** * C81: evaluating a path whose constraints depend on time *)
Theorem C81_configuration d p t : lawful d -> length (tc_init p) = csize d -> length (tc_end p) = csize d -> (tc_rank p < csize d)%nat ->
  tc_len p <> 0 -> tc_cons p = None -> forall w,
  exists q, tc_at d p t w = (w, (q, true)) /\ qi q (tc_rank p) = timeAt p t /\ (t = 0 -> q = tc_init p) /\ (t = tc_len p -> q = tc_end p) /\
  (t <> 0 -> t <> tc_len p -> forall i, i <> tc_rank p -> qi q i = qi (interp d (tc_init p) (tc_end p) (t / tc_len p)) i).
Proof.
  exact (fun L L1 L2 Hr Hl Hc w => ex_intro _ (tc_raw d p t) (conj (at_plain d p t w Hc) (conj (raw_time d p t L L1 L2 Hr Hl)
    (conj (fun H => eq_trans (f_equal (tc_raw d p) H) (proj1 (raw_ends d p)))
    (conj (fun H => eq_trans (f_equal (tc_raw d p) H) (proj2 (raw_ends d p) Hl))
          (fun H0 H1 i Hi => raw_other d p t i Hi H0 H1 Hl)))))).
Qed.
Print Assumptions C81_configuration.
Theorem C81_projected d p t w apply sat : lawful d -> length (tc_init p) = csize d -> length (tc_end p) = csize d -> (tc_rank p < csize d)%nat ->
  tc_len p <> 0 -> tc_cons p = Some (Projector apply sat) ->
  exists w' q, rightHandSides (tc_tds p) (timeAt p t) w w' /\ tc_at d p t w = (w', apply w' q) /\
    forall w0, tc_at d (TCP (tc_init p) (tc_end p) (tc_len p) None (tc_rank p) (tc_tds p)) t w0 = (w0, (q, true)).
Proof. exact (projected_time d p t w apply sat). Qed.
Print Assumptions C81_projected.
Theorem C81_history d us p t w :
  (forall u e, u ∈ us -> e ∈ equations (usedPath u) -> e ∈ equations p) ->
  snd (tc_at d p t (history d us w)) = snd (tc_at d p t w).
Proof. exact (history_independent d us p t w). Qed.
Print Assumptions C81_history.
Example C81_square : lawful exdev /\ length (tc_init extc) = csize exdev /\ length (tc_end extc) = csize exdev /\ (tc_rank extc < csize exdev)%nat /\
  tc_len extc <> 0 /\ tc_cons extc = Some (Projector exapply exsat) /\
  (forall u e, u ∈ exuses -> e ∈ equations (usedPath u) -> e ∈ equations extc).
Proof. split; [exact ex_lawful|]. cbn. repeat split; try lia; try lra. exact ex_history. Qed.

(** * C82: creating, extracting and editing such a path *)
Theorem C82_create p w : exists r, snd (tc_create p w) = r /\
  match tc_cons p with
  | None => r = Ok p
  | Some c => exists w1 w2, rightHandSides (match c with Projector _ _ => tc_tds p | _ => [] end) (qi (tc_init p) (tc_rank p)) w w1 /\
      rightHandSides (match c with Projector _ _ => tc_tds p | _ => [] end) (qi (tc_end p) (tc_rank p)) w w2 /\
      ((satisfied c w1 (tc_init p) = true /\ satisfied c w2 (tc_end p) = true /\ r = Ok p) \/
       ((satisfied c w1 (tc_init p) = false \/ satisfied c w2 (tc_end p) = false) /\ r = Throw))
  end.
Proof. exact (create_iff p w). Qed.
Print Assumptions C82_create.
Theorem C82_extract d p a b w r : tc_len p <> 0 -> snd (tc_extract d p a b w) = Extracted (Ok r) ->
  tc_len r = Rabs (b - a) /\ tc_cons r = tc_cons p /\ tc_rank r = tc_rank p /\ tc_tds r = tc_tds p /\
  (exists q1 q2, snd (tc_at d p a w) = (q1, true) /\ snd (tc_at d p b w) = (q2, true) /\
     tc_init r = <[tc_rank p := timeAt p a]> q1 /\ tc_end r = <[tc_rank p := timeAt p b]> q2) /\
  exists w', snd (tc_create r w') = Ok r /\ forall e, ~ e ∈ equations p -> w' e = w e.
Proof. exact (extract_spec d p a b w r). Qed.
Print Assumptions C82_extract.
Theorem C82_extract_times d p a b w r u : lawful d -> tc_len p <> 0 -> snd (tc_extract d p a b w) = Extracted (Ok r) ->
  (forall t q, snd (tc_at d p t w) = (q, true) -> length q = csize d) -> (tc_rank p < csize d)%nat -> a <> b ->
  timeAt r u = timeAt p (if Rleb a b then a + u else a - u).
Proof. exact (extract_time d p a b w r u). Qed.
Print Assumptions C82_extract_times.
Theorem C82_extract_fails d p a b w :
  (tc_len p = 0 -> snd (snd (tc_at d p a w)) = true -> snd (tc_extract d p a b w) = NotANumber) /\
  (tc_len p <> 0 -> snd (snd (tc_at d p a w)) = false \/ snd (snd (tc_at d p b w)) = false -> snd (tc_extract d p a b w) = Extracted Throw).
Proof.
  exact (conj (fun H0 H1 => extract_null d p a b w (fst (snd (tc_at d p a w))) H0 (eq_trans (surjective_pairing _) (f_equal (pair _) H1)))
    (extract_failed d p a b w)).
Qed.
Print Assumptions C82_extract_fails.
Theorem C82_edit p q : (tc_rank p < length q)%nat ->
  (qi (tc_init (tc_initialConfig p q)) (tc_rank p) = qi (tc_init p) (tc_rank p) /\ qi (tc_end (tc_endConfig p q)) (tc_rank p) = qi (tc_end p) (tc_rank p)) /\
  (forall i, i <> tc_rank p -> qi (tc_init (tc_initialConfig p q)) i = qi q i /\ qi (tc_end (tc_endConfig p q)) i = qi q i) /\
  tc_end (tc_initialConfig p q) = tc_end p /\ tc_init (tc_endConfig p q) = tc_init p.
Proof. exact (edit_ends p q). Qed.
Print Assumptions C82_edit.
Example C82_square : forall w, snd (tc_create extc w) = Ok extc.
Proof. exact ex_created. Qed.
Example C82_part : tc_len extc <> 0 /\ exists r, snd (tc_extract exdev extc 1 3 (fun _ => [])) = Extracted (Ok r).
Proof. split; [cbn; lra|exact ex_extracted]. Qed.

(** * C83: validating such a path *)
Theorem C83_verdict {A} (disc : tcPath -> world -> A) d rank p w : (7 <= length (tc_init p))%nat ->
  exists v, tc_validate disc d rank p w = Ok v /\
  exists w', (forall e, ~ e ∈ equations p -> w' e = w e) /\
  ((qi (tc_init p) rank <= qi (tc_end p) rank /\ (forall i, (i < 9)%nat -> stepSize d p w i <= tailDist (tc_end p) (tc_init p) / 5) /\
    v = Discretized (disc p w')) \/
   ((qi (tc_end p) rank < qi (tc_init p) rank \/ exists i, (i < 9)%nat /\ tailDist (tc_end p) (tc_init p) / 5 < stepSize d p w i) /\
    v = Refused (snd (tc_extract d p 0 0 w')))).
Proof. exact (validate_iff disc d rank p w). Qed.
Print Assumptions C83_verdict.
Theorem C83_last_step d p w : (forall i, (i < 9)%nat -> stepSize d p w i <= tailDist (tc_end p) (tc_init p) / 5) ->
  (forall i, length (sample d p w i) = csize d) -> length (tc_end p) = csize d ->
  tailDist (sample d p w 9) (tc_end p) <= 14 / 5 * tailDist (tc_end p) (tc_init p).
Proof. exact (last_step d p w). Qed.
Print Assumptions C83_last_step.
Theorem C83_straight d p w : linearTail d -> tc_cons p = None -> length (tc_init p) = csize d -> length (tc_end p) = csize d -> 0 < tc_len p ->
  forall i, (i < 9)%nat -> stepSize d p w i = tailDist (tc_end p) (tc_init p) / 10.
Proof. exact (straight_accepted d p w). Qed.
Print Assumptions C83_straight.
Example C83_line : linearTail exdev /\ tc_cons exline = None /\ length (tc_init exline) = csize exdev /\ 0 < tc_len exline.
Proof. split; [exact ex_linear|]. cbn. repeat split; lra. Qed.
Example C83_jump : tailDist (tc_end exjump) (tc_init exjump) / 5 < stepSize exdev exjump (fun _ => []) 0.
Proof. exact ex_jumpy. Qed.
