(** The properties of the steering method under time-dependent constraints (C154). *)
From Verif Require Import Maps Vec VecProofs ParaModel ParaSpec ParaExamples TrajModel TrajSpec TrajExamples SteerModel SteerSpec SteerProofs SteerExamples.
Local Open Scope R_scope.

Section Prop154.
Variable distance : config -> config -> R.
Variable copyFrom : (world -> config -> config * bool) -> (world -> config -> bool) -> config ->
                    (world -> config -> config * bool) * (world -> config -> bool).
Notation Steered := (steer distance copyFrom).

(** * C154: steering under time-dependent constraints *)
Theorem C154_exists s q1 q2 w :
  (st_cons s = None -> exists p, snd (Steered s q1 q2 w) = Some p) /\
  (forall apply sat, st_cons s = Some (NoProjector apply sat) ->
     ((exists p, snd (Steered s q1 q2 w) = Some p) <-> sat q1 = true /\ sat q2 = true)) /\
  (forall apply sat, st_cons s = Some (Projector apply sat) ->
     ((exists p, snd (Steered s q1 q2 w) = Some p) <->
      forall w1 w2, rightHandSides (st_tds s) (qi q1 (st_rank s)) w w1 -> rightHandSides (st_tds s) (qi q2 (st_rank s)) w w2 ->
        snd (copyFrom apply sat q1) w1 q1 = true /\ snd (copyFrom apply sat q1) w2 q2 = true)).
Proof. exact (steer_iff distance copyFrom s q1 q2 w). Qed.
Theorem C154_ends d s q1 q2 w p : snd (Steered s q1 q2 w) = Some p -> (forall c, tc_cons p = Some c -> stable c) ->
  tc_len p = distance q1 q2 /\
  snd (tc_at d p 0 w) = (q1, true) /\ (distance q1 q2 <> 0 -> snd (tc_at d p (distance q1 q2) w) = (q2, true)) /\
  (distance q1 q2 = 0 -> forall t, snd (tc_at d p t w) = (q1, true)).
Proof. exact (fun H Hs => conj (proj1 (proj2 (proj2 (steer_fields distance copyFrom s q1 q2 w p H)))) (steer_ends distance copyFrom d s q1 q2 w p H Hs)). Qed.
Theorem C154_values d s q1 q2 w0 p t w apply sat :
  lawful d -> length q1 = csize d -> length q2 = csize d -> (st_rank s < csize d)%nat -> distance q1 q2 <> 0 ->
  snd (Steered s q1 q2 w0) = Some p -> st_cons s = Some (Projector apply sat) ->
  exists w' q, rightHandSides (st_tds s) (timeAt p t) w w' /\ tc_at d p t w = (w', fst (copyFrom apply sat q1) w' q) /\
    qi q (st_rank s) = timeAt p t /\ (t = 0 -> q = q1) /\ (t = distance q1 q2 -> q = q2) /\
    (t <> 0 -> t <> distance q1 q2 -> forall i, i <> st_rank s -> qi q i = qi (interp d q1 q2 (t / distance q1 q2)) i).
Proof. exact (steer_projected distance copyFrom d s q1 q2 w0 p t w apply sat). Qed.
Theorem C154_history d s l q1 q2 w p t : ownPaths s l -> snd (Steered s q1 q2 w) = Some p ->
  snd (tc_at d p t (afterActions d distance copyFrom s l w)) = snd (tc_at d p t w) /\
  snd (Steered s q1 q2 (afterActions d distance copyFrom s l w)) = Some p.
Proof. exact (steer_later distance copyFrom d s l q1 q2 w p t). Qed.
Theorem C154_time {A} (disc : tcPath -> world -> A) d s q1 q2 w w' p a t1 t2 :
  lawful d -> length q1 = csize d -> length q2 = csize d -> (7 <= csize d)%nat -> (st_rank s < csize d)%nat -> 0 < distance q1 q2 ->
  snd (Steered s q1 q2 w) = Some p -> tc_validate disc d (st_rank s) p w' = Ok (Discretized a) ->
  0 <= t1 -> t1 <= t2 -> t2 <= distance q1 q2 ->
  qi q1 (st_rank s) <= timeAt p t1 /\ timeAt p t1 <= timeAt p t2 /\ timeAt p t2 <= qi q2 (st_rank s).
Proof. exact (steer_validated distance copyFrom disc d s q1 q2 w w' p a t1 t2). Qed.
Theorem C154_copy copyCons s q1 q2 w :
  (forall a b, copyCons (NoProjector a b) = NoProjector a b) ->
  (forall a b, exists a' b', copyCons (Projector a b) = Projector a' b' /\
     forall q w q', fst (copyFrom a' b' q) w q' = fst (copyFrom a b q) w q' /\ snd (copyFrom a' b' q) w q' = snd (copyFrom a b q) w q') ->
  let r := Steered s q1 q2 w in
  let r' := Steered (steerCopy copyCons s) q1 q2 w in
  fst r' = fst r /\
  match snd r, snd r' with
  | Some p, Some p' => tc_init p' = q1 /\ tc_end p' = q2 /\ tc_len p' = tc_len p /\ (forall d t w, tc_at d p' t w = tc_at d p t w)
  | None, None => True
  | _, _ => False
  end.
Proof. exact (steer_copy distance copyFrom copyCons s q1 q2 w). Qed.
End Prop154.
Print Assumptions C154_exists.
Print Assumptions C154_ends.
Print Assumptions C154_values.
Print Assumptions C154_history.
Print Assumptions C154_time.
Print Assumptions C154_copy.
Example C154_some : forall w, snd (steer exdist excopy exsteer eqa eqb w) = Some exsteered /\ snd (steer exdist excopy exsteer eqa eqc w) = None /\
  exdist eqa eqb = 5 /\ (forall c, tc_cons exsteered = Some c -> stable c) /\ ownPaths exsteer exactions.
Proof. exact (fun w => conj (ex_steer w) (conj (ex_no_steer w) (conj exdist5 (conj ex_stable ex_own)))). Qed.
Example C154_robot : lawful exdev /\ length eqa = csize exdev /\ length eqb = csize exdev /\ (7 <= csize exdev)%nat /\ (st_rank exsteer < csize exdev)%nat.
Proof. split; [exact ex_lawful|]. cbn. lia. Qed.
Example C154_valid : forall w, snd (steer exdist excopy exfree eqa eqb w) = Some exfreep /\
  tc_validate (fun p _ => p) exdev (st_rank exfree) exfreep w = Ok (Discretized exfreep).
Proof. exact (fun w => conj (ex_free w) (ex_validated w)). Qed.
Example C154_copied : (forall a b, excopied (NoProjector a b) = NoProjector a b) /\
  (forall a b, exists a' b', excopied (Projector a b) = Projector a' b' /\
     forall q w q', fst (excopy a' b' q) w q' = fst (excopy a b q) w q' /\ snd (excopy a' b' q) w q' = snd (excopy a b q) w q').
Proof. exact ex_copy. Qed.
