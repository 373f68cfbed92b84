(** Cases for the properties of the trajectories. *)
From Verif Require Import Maps Vec VecProofs ParaModel ParaSpec ParaProofs4 ParaExamples TrajModel TrajSpec TrajProofs TrajProofs2 TrajProofs3.
From Coq Require Import Psatz.
Local Open Scope R_scope.

(** two seconds of free fall *)
Definition excom : comTraj := CT (V3 0 0 0) (V3 2 0 (- 981/100 * 2)) (V3 1 0 0) (V3 0 0 (- 981/100)) 2.
Lemma ex_consistent : consistent excom.
Proof. split; [cbn; lra|]. unfold comMotion, motion, excom, vadd, vscale. cbn. f_equal; lra. Qed.

Definition excurve : bezier := Bez 0 2 (fun t => V3 t (t * t) 0).
Definition exbez : bezPath := BP excurve exq0 exq1 0 2.
Lemma ex_standard : standard exdev exbez.
Proof. unfold standard. cbn. repeat split; lra. Qed.
Definition exlate : bezPath := BP (Bez 1 2 (fun t => V3 t 0 0)) exq0 exq1 1 2.

(** a robot whose eighth entry follows the square of the time, the time is the ninth *)
Definition exref : refPath := Ref 0 2 (fun t => [t * t; 7]).
Definition extd : timeDep := TD 3 (Rhs exref (headMap 1)).
Definition exapply (w : world) (q : config) : config * bool := (<[7%nat := qi (w 3%nat) 0]> q, true).
Definition exsat (w : world) (q : config) : bool := Reqb (qi q 7) (qi (w 3%nat) 0).
Definition extc : tcPath := TCP [0;0;0;0;0;0;0;0;0] [1;0;0;0;0;0;0;4;1] 5 (Some (Projector exapply exsat)) 8 [extd].
Lemma ex_created w : snd (tc_create extc w) = Ok extc.
Proof.
  unfold tc_create, tc_check, extc, tc_update, satisfied, exsat. cbn [tc_cons tc_tds tc_rank tc_init tc_end].
  cbv [updateRhs td_apply assign rhsAt headMap exref extd extraDof td_eq td_fun f_ref f_map r_at r_first r_second Nat.eqb qi nth take interp exdev zip_with insert list_insert].
  rewrite (proj2 (Reqb_true 0 _)) by ring. cbn [negb]. rewrite (proj2 (Reqb_true 4 _)) by ring. reflexivity.
Qed.
Lemma ex_extracted : exists r, snd (tc_extract exdev extc 1 3 (fun _ => [])) = Extracted (Ok r).
Proof.
  unfold tc_extract, tc_at, tc_raw, extc. cbn [tc_cons tc_tds tc_rank tc_init tc_end tc_len].
  rewrite !(proj2 (Reqb_false _ _)) by lra. cbn [orb negb exapply].
  unfold tc_create, tc_check, tc_update. cbn [tc_cons tc_tds tc_rank tc_init tc_end satisfied].
  unfold exsat. rewrite !(proj2 (Reqb_true _ _)).
  - cbn [negb snd]. eexists. reflexivity.
  - cbv [updateRhs td_apply assign rhsAt headMap exref extd extraDof td_eq td_fun f_ref f_map r_at r_first r_second Nat.eqb qi nth take interp exdev zip_with insert list_insert]. field.
  - cbv [updateRhs td_apply assign rhsAt headMap exref extd extraDof td_eq td_fun f_ref f_map r_at r_first r_second Nat.eqb qi nth take interp exdev zip_with insert list_insert]. field.
Qed.
(** two histories *)
Definition exuses : list use := [Evaluate extc 4; Extract extc 2 5; Create extc; Evaluate extc 0].
Lemma ex_history : forall u e, u ∈ exuses -> e ∈ equations (usedPath u) -> e ∈ equations extc.
Proof.
  intros u e Hu. unfold exuses in Hu. repeat (apply elem_of_cons in Hu as [->|Hu]; [auto|]). inversion Hu.
Qed.
Lemma ex_linear : linearTail exdev.
Proof.
  intros q1 q2 u H1 H2. cbn [interp exdev csize] in *. split; [rewrite zip_with_length; lia|]. intros i Hi.
  rewrite !qi_lookup, lookup_zip_with.
  destruct (lookup_lt_is_Some_2 q1 i ltac:(lia)) as [x Ex]. destruct (lookup_lt_is_Some_2 q2 i ltac:(lia)) as [y Ey].
  rewrite Ex, Ey. reflexivity.
Qed.
Definition exline : tcPath := TCP exq0 [1;0;0;0;0;0;0;4;1] 5 None 8 [].
(** a projection that moves the eighth entry at once *)
Definition exjump : tcPath := TCP [0;0;0;0;0;0;0;0;0] [1;0;0;0;0;0;0;4;1] 5 (Some (NoProjector (fun q => (<[7%nat := 4]> q, true)) (fun _ => true))) 8 [].
Lemma ex_jumpy : tailDist (tc_end exjump) (tc_init exjump) / 5 < stepSize exdev exjump (fun _ => []) 0.
Proof.
  unfold stepSize, sample, tc_at, tc_raw, exjump, tc_update. cbn [tc_cons tc_tds tc_rank tc_init tc_end tc_len INR].
  rewrite !(proj2 (Reqb_false _ _)) by lra. cbn [orb snd fst]. unfold tailDist, tailOf, extraDof.
  cbn [drop skipn interp exdev zip_with insert list_insert diff sumSq qi nth].
  apply Rle_lt_trans with 1.
  - replace ((4 - 0) * (4 - 0) + ((1 - 0) * (1 - 0) + 0)) with 17 by ring. 
    assert (sqrt 17 <= 5); [|lra]. rewrite <- (sqrt_square 5) by lra. apply sqrt_le_1_alt. lra.
  - rewrite <- sqrt_1. apply sqrt_lt_1_alt. split; [lra|].
    match goal with |- 1 < (0 - 4) * (0 - 4) + (?x * ?y + 0) => assert (0 <= x * y) by (apply Rle_0_sqr); lra end.
Qed.
