(** Cases for the steering method under time-dependent constraints. *)
From Verif Require Import Maps Vec VecProofs ParaModel ParaSpec ParaProofs4 ParaExamples TrajModel TrajSpec TrajProofs TrajProofs2 TrajProofs3 TrajExamples SteerModel SteerSpec SteerProofs.
From Coq Require Import Psatz.
Local Open Scope R_scope.

(** the eighth entry follows the square of the time, the second one stays where it is at the
    start of the path *)
Definition exdist (a b : config) : R := 5 * Rabs (qi b 8 - qi a 8).
Definition excopy (apply : world -> config -> config * bool) (sat : world -> config -> bool) (q1 : config) :
  (world -> config -> config * bool) * (world -> config -> bool) :=
  (fun w q => let '(q', ok) := apply w q in (<[1%nat := qi q1 1]> q', ok), fun w q => sat w q && Reqb (qi q 1) (qi q1 1)).
Definition exsteer : steering := Steer (Some (Projector exapply exsat)) 8 [extd].
Definition eqa : config := [0;0;0;0;0;0;0;0;0].
Definition eqb : config := [1;0;0;0;0;0;0;4;1].
(** the second entry moves *)
Definition eqc : config := [1;2;0;0;0;0;0;4;1].
Definition exsteered : tcPath := TCP eqa eqb 5 (Some (Projector (fst (excopy exapply exsat eqa)) (snd (excopy exapply exsat eqa)))) 8 [extd].
Ltac steer_cbv := cbv [updateRhs td_apply assign rhsAt headMap exref extd extraDof td_eq td_fun f_ref f_map r_at r_first r_second Nat.eqb qi nth take interp exdev zip_with insert list_insert eqa eqb eqc].
Lemma exdist5 : exdist eqa eqb = 5.
Proof. unfold exdist. cbn. rewrite Rabs_pos_eq; lra. Qed.
Lemma ex_steer w : snd (steer exdist excopy exsteer eqa eqb w) = Some exsteered.
Proof.
  rewrite steer_cases. cbn [snd]. rewrite exdist5.
  unfold tc_create, tc_check, tc_update, satisfied, steerConstraints, exsteer. cbn [st_cons excopy tc_cons tc_tds tc_rank tc_init tc_end st_rank st_tds]. unfold exsat.
  steer_cbv.
  rewrite (proj2 (Reqb_true 0 0) eq_refl), (proj2 (Reqb_true 0 _)) by ring. cbn [negb andb]. rewrite (proj2 (Reqb_true 4 _)) by ring. cbn [negb andb]. reflexivity.
Qed.
Lemma ex_no_steer w : snd (steer exdist excopy exsteer eqa eqc w) = None.
Proof.
  rewrite steer_cases. cbn [snd]. 
  unfold tc_create, tc_check, tc_update, satisfied, steerConstraints, exsteer. cbn [st_cons excopy tc_cons tc_tds tc_rank tc_init tc_end st_rank st_tds]. unfold exsat.
  steer_cbv.
  rewrite (proj2 (Reqb_true 0 0) eq_refl), (proj2 (Reqb_true 0 _)) by ring. cbn [negb andb]. rewrite (proj2 (Reqb_false 2 0)) by lra. rewrite andb_false_r. reflexivity.
Qed.
Lemma insert_same (q : config) i x : qi q i = x -> <[i := x]> q = q.
Proof.
  intros H. destruct (decide (i < length q)%nat) as [L|L]; [|apply list_insert_ge; lia].
  apply list_insert_id. unfold qi in H. subst x. destruct (nth_lookup_or_length q i 0) as [E|E]; [exact E|lia].
Qed.
Lemma ex_stable c : tc_cons exsteered = Some c -> stable c.
Proof.
  intros [= <-] w q. cbn [fst snd excopy]. unfold exsat, exapply. intros H. apply andb_true_iff in H as [H1 H2].
  apply Reqb_true in H1. apply Reqb_true in H2. rewrite (insert_same q 7) by exact H1. rewrite insert_same by exact H2. reflexivity.
Qed.
Definition exactions : list action := [Call eqa eqc; Use (Evaluate exsteered 4); Call eqb eqa; Use (Extract exsteered 2 5)].
Lemma ex_own : ownPaths exsteer exactions.
Proof. intros u H. unfold exactions in H. repeat (apply elem_of_cons in H as [H|H]; [try discriminate; injection H as ->; reflexivity|]). inversion H. Qed.
(** without constraints the same path passes the validation *)
Definition exfree : steering := Steer None 8 [extd].
Definition exfreep : tcPath := TCP eqa eqb 5 None 8 [extd].
Lemma ex_free w : snd (steer exdist excopy exfree eqa eqb w) = Some exfreep.
Proof. rewrite steer_cases. cbn. rewrite exdist5. reflexivity. Qed.
Lemma ex_validated w : tc_validate (fun p _ => p) exdev 8 exfreep w = Ok (Discretized exfreep).
Proof.
  destruct (validate_iff (fun p _ => p) exdev 8 exfreep w) as (v & Hv & w' & _ & C); [cbn; lia|]. rewrite Hv.
  destruct C as [(_ & _ & ->)|([C|(i & Hi & C)] & _)]; [reflexivity| |].
  - exfalso. revert C. cbn. lra.
  - exfalso. rewrite (straight_accepted exdev exfreep w ex_linear eq_refl eq_refl eq_refl) in C; [|cbn; lra|exact Hi].
    pose proof (tailDist_pos (tc_end exfreep) (tc_init exfreep)). lra.
Qed.
(** a copy whose constraints run another, equivalent, program *)
Definition excopied (c : constraintSet) : constraintSet :=
  match c with Projector a b => Projector (fun w q => let '(x, y) := a w q in (x, y)) b | _ => c end.
Lemma ex_copy : (forall a b, excopied (NoProjector a b) = NoProjector a b) /\
  (forall a b, exists a' b', excopied (Projector a b) = Projector a' b' /\
     forall q w q', fst (excopy a' b' q) w q' = fst (excopy a b q) w q' /\ snd (excopy a' b' q) w q' = snd (excopy a b q) w q').
Proof. split; [reflexivity|]. intros a b. eexists _, _. split; [reflexivity|]. intros q w q'. split; [|reflexivity]. cbn. destruct (a w q'). reflexivity. Qed.
