(** The determinant of the product of a jacobian by its transpose (analysis.cc). *)
From Coq Require Import Reals Lra.
From Verif Require Import Maps MapsProofs Vec SampModel AnalModel AnalSpec AnalProofs AnalProofs2 AnalExamples.
Local Open Scope R_scope.

Lemma sign_pow j : (if Nat.even j then 1 else -1) = (-1) ^ j.
Proof.
  induction j as [|j IH]; [done|]. rewrite Nat.even_succ, <- Nat.negb_even. rewrite <- tech_pow_Rmult, <- IH.
  destruct (Nat.even j); simpl; lra.
Qed.
Lemma imap_as_map (g : nat -> R -> R) (r : list R) n (f : nat -> R) : length r = n -> (forall j, (j < n)%nat -> r !! j = Some (f j)) ->
  imap g r = map (fun j => g j (f j)) (seq 0 n).
Proof.
  intros Hl H. apply list_eq. intros j. rewrite list_lookup_imap, list_lookup_fmap.
  destruct (Nat.lt_ge_cases j n) as [Hj|Hj].
  - rewrite H by done. rewrite lookup_seq_lt by done. done.
  - rewrite (lookup_ge_None_2 r) by lia. rewrite lookup_seq_ge by done. done.
Qed.
Lemma det_entries n : forall rows a, length rows = n ->
  (forall i, (i < n)%nat -> exists r, rows !! i = Some r /\ length r = n /\ forall j, (j < n)%nat -> r !! j = Some (a i j)) ->
  det n rows = determinant n a.
Proof.
  induction n as [|n IH]; intros rows a Hl Hr; [done|].
  destruct rows as [|r rows]; [done|]. cbn [length] in Hl. injection Hl as Hl.
  destruct (Hr 0%nat ltac:(lia)) as (r0 & E0 & L0 & A0). injection E0 as <-.
  cbn [det determinant]. f_equal.
  rewrite (imap_as_map _ r (S n) (a 0%nat) L0 A0).
  apply map_ext_in. intros j Hj. apply in_seq in Hj. rewrite sign_pow. f_equal.
  apply IH.
  - rewrite map_length. done.
  - intros i Hi. destruct (Hr (S i) ltac:(lia)) as (ri & Ei & Li & Ai). cbn in Ei.
    exists (delete j ri). split; [|split].
    + pose proof (list_lookup_fmap (delete j) rows i) as X. transitivity (delete j <$> Some ri); [|done]. rewrite <- Ei. exact X.
    + rewrite length_delete by (apply lookup_lt_is_Some_2; lia). rewrite Li. lia.
    + intros k Hk. destruct (Nat.ltb_spec k j) as [Hkj|Hkj].
      * rewrite lookup_delete_lt by done. apply Ai. lia.
      * rewrite lookup_delete_ge by done. apply Ai. lia.
Qed.
Theorem manipulability_square s : let m := jacobianProduct (content s) in
  well_formed m -> mcols m = mrows m ->
  exists v, manipulability ALL s = Ok v /\ 0 <= v /\ v * v = Rmax 0 (determinant (mrows m) (entry m)).
Proof.
  intros m Hw Hc. destruct (manipulability_all s) as (v & H1 & H2 & H3). exists v. split; [done|]. split; [done|].
  rewrite H3. fold m. f_equal. apply det_entries.
  - unfold rowsOf. rewrite map_length, seq_length. done.
  - intros i Hi. exists (mrow m i). split; [|split].
    + unfold rowsOf. rewrite list_lookup_fmap, lookup_seq_lt by done. done.
    + unfold mrow. rewrite take_length, drop_length, Hw.
      assert (S i * mcols m <= mrows m * mcols m)%nat by (apply Nat.mul_le_mono_r; lia). simpl in *. lia.
    + intros j Hj. unfold mrow, entry. rewrite lookup_take by lia. rewrite lookup_drop. rewrite (nth_lookup (mdata m)).
      destruct (mdata m !! (i * mcols m + j)%nat) as [x|] eqn:E; [done|].
      apply lookup_ge_None in E. rewrite Hw in E.
      assert (S i * mcols m <= mrows m * mcols m)%nat by (apply Nat.mul_le_mono_r; lia). simpl in *. lia.
Qed.
(** posture weights of the right number, but a limb with degrees of freedom out of range: undefined *)
Lemma reference_undefined limbs non axis posture nd diffTo q s l conf :
  getLimbFromStartRank (startRank (content s)) limbs non = Ok l -> Load (content s) q = Ok conf ->
  length posture = nd -> (l_evrank l < l_vrank l \/ nd <= l_evrank l)%nat ->
  referenceConfiguration limbs non axis posture nd diffTo q s = Ub.
Proof.
  intros H1 H2 H3 H4. unfold referenceConfiguration. rewrite H1, H2. unfold weightsOf.
  rewrite (proj2 (Nat.eqb_eq _ _) H3).
  assert ((l_vrank l <=? l_evrank l)%nat && (S (l_evrank l) <=? nd)%nat = false) as -> ; [|done].
  apply andb_false_iff. destruct H4; [left|right]; apply Nat.leb_gt; lia.
Qed.
Definition squareSample : sample R := mkSample 0 0 (mkContent 7 2 [0; 0] (0, 0, 0) (0, 0, 0) cubeMat (mkMat 2 2 [3; 1; 1; 2])).
Lemma case_square : well_formed (jacobianProduct (content squareSample)) /\ mcols (jacobianProduct (content squareSample)) = mrows (jacobianProduct (content squareSample)) /\
  determinant 2 (entry (jacobianProduct (content squareSample))) = 5 /\ manipulability ALL squareSample = Ok (sqrt 5).
Proof.
  assert (E : determinant 2 (entry (jacobianProduct (content squareSample))) = 5) by (unfold entry; cbn; lra).
  split; [done|]. split; [done|]. split; [done|].
  destruct (manipulability_square squareSample eq_refl eq_refl) as (v & H1 & H2 & H3). rewrite H1. f_equal.
  change (mrows (jacobianProduct (content squareSample))) with 2%nat in H3. rewrite E, Rmax_right in H3 by lra.
  rewrite <- H3. symmetry. apply sqrt_square. done.
Qed.
Lemma case_undefined : referenceConfiguration (<["leg"%string := mkALimb hip 7 6 "knee" 12]> ∅) ∅ legAxis [1; 1; 1; 1; 1; 1; 1; 1] 8 legDiff bodyConf (legSample 1 0 someMat) = Ub.
Proof.
  refine (reference_undefined _ ∅ legAxis _ 8 legDiff bodyConf (legSample 1 0 someMat) (mkALimb hip 7 6 "knee" 12) (loaded 1 0) _ _ _ _).
  - apply limb_of_rank. left. exists "leg"%string. split; [done|]. split; [done|]. intros n l [<- <-]%lookup_singleton_Some _. reflexivity.
  - apply ex_leg_load.
  - done.
  - right. cbn. lia.
Qed.
