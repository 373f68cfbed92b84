(** Proofs about the joint limits, the reference configuration and the self collision analyses. *)
From Verif Require Import Maps MapsProofs Vec SampModel SampProofs AnalModel AnalSpec.
From Coq Require Import Lra Lia.
Local Open Scope R_scope.

(** * The limb of a sample *)
Lemma sorted_prefix_le {V} (m : gmap string V) i x y j : sitems m !! i = Some x -> sitems m !! j = Some y ->
  (i <= j)%nat -> str_le x.1 y.1.
Proof.
  intros Hi Hj Hle. assert (Hk1 : skeys m !! i = Some x.1) by (rewrite <- sitems_keys, list_lookup_fmap, Hi; done).
  assert (Hk2 : skeys m !! j = Some y.1) by (rewrite <- sitems_keys, list_lookup_fmap, Hj; done).
  revert i j Hi Hj Hle Hk1 Hk2. generalize (skeys_sorted m). generalize (skeys m) as l.
  induction l as [|k l IH]; intros Hs i j Hi Hj Hle Hk1 Hk2; [done|].
  inversion Hs as [|? ? Hs' Hf]; subst. destruct i as [|i].
  - simpl in Hk1. injection Hk1 as <-. destruct j as [|j]; [simpl in Hk2; injection Hk2 as <-; done|].
    simpl in Hk2. rewrite Forall_forall in Hf. apply Hf. by eapply elem_of_list_lookup_2.
  - destruct j as [|j]; [lia|]. simpl in Hk1, Hk2. clear IH.
    assert (Hij : (i <= j)%nat) by lia. clear -Hs' Hk1 Hk2 Hij.
    revert i j Hk1 Hk2 Hij. induction Hs' as [|k' l' Hs' IH Hf]; intros i j Hi Hj Hij; [done|].
    destruct i as [|i].
    + simpl in Hi. injection Hi as <-. destruct j as [|j]; [simpl in Hj; injection Hj as <-; done|].
      rewrite Forall_forall in Hf. apply Hf. by eapply elem_of_list_lookup_2.
    + destruct j as [|j]; [lia|]. apply (IH i j); [done..|lia].
Qed.
Lemma findRank_Some rank m l : findRank rank m = Some l <-> limb_at rank m l.
Proof.
  unfold limb_at.
  unfold findRank. split.
  - destruct (list_find _ _) as [[i [n l1]]|] eqn:Hf; [|done]. intros Heq. injection Heq as <-.
    apply list_find_Some in Hf as (Hi & Hr & Hbefore). simpl in Hr.
    exists n. split; [apply elem_of_sitems; by eapply elem_of_list_lookup_2|]. split; [done|].
    intros n' l' Hn Hr'. apply elem_of_sitems, elem_of_list_lookup in Hn as [j Hj].
    destruct (le_lt_dec i j) as [Hij|Hij]; [exact (sorted_prefix_le m i (n, l1) (n', l') j Hi Hj Hij)|].
    exfalso. by apply (Hbefore j (n', l') Hj Hij).
  - intros (n & Hn & Hr & Hmin). destruct (list_find _ _) as [[i [n1 l1]]|] eqn:Hf.
    + apply list_find_Some in Hf as (Hi & Hr1 & Hbefore). simpl in Hr1.
      assert (Hn1 : m !! n1 = Some l1) by (apply elem_of_sitems; by eapply elem_of_list_lookup_2).
      assert (H1 : str_le n n1) by (eapply Hmin; eauto).
      assert (H2 : str_le n1 n).
      { apply elem_of_sitems, elem_of_list_lookup in Hn as [j Hj].
        destruct (le_lt_dec i j) as [Hij|Hij]; [exact (sorted_prefix_le m i (n1, l1) (n, l) j Hi Hj Hij)|].
        exfalso. by apply (Hbefore j (n, l) Hj Hij). }
      assert (n1 = n) as -> by (by apply (anti_symm str_le)). congruence.
    + apply list_find_None in Hf. rewrite Forall_forall in Hf. exfalso. apply (Hf (n, l)); [|done].
      by apply elem_of_sitems.
Qed.
Lemma findRank_None rank m : findRank rank m = None <-> no_limb_at rank m.
Proof.
  unfold no_limb_at.
  unfold findRank. destruct (list_find _ _) as [[i [n1 l1]]|] eqn:Hf.
  - split; [done|]. intros H. apply list_find_Some in Hf as (Hi & Hr1 & _). exfalso.
    apply (H n1 l1); [apply elem_of_sitems; by eapply elem_of_list_lookup_2|done].
  - split; [|done]. intros _ n l Hn. apply list_find_None in Hf. rewrite Forall_forall in Hf.
    apply (Hf (n, l)). by apply elem_of_sitems.
Qed.
Theorem limb_of_rank rank limbs non l : getLimbFromStartRank rank limbs non = Ok l <->
  limb_at rank limbs l \/ (no_limb_at rank limbs /\ limb_at rank non l).
Proof.
  unfold getLimbFromStartRank. split.
  - destruct (findRank rank limbs) as [l1|] eqn:H1.
    + intros Heq. injection Heq as <-. left. by apply findRank_Some.
    + destruct (findRank rank non) as [l2|] eqn:H2; [|done]. intros Heq. injection Heq as <-.
      right. split; [by apply findRank_None|by apply findRank_Some].
  - intros [H|[H1 H2]].
    + apply findRank_Some in H. by rewrite H.
    + apply findRank_None in H1. apply findRank_Some in H2. by rewrite H1, H2.
Qed.
Theorem limb_of_rank_throws rank limbs non : getLimbFromStartRank rank limbs non = Throw <->
  no_limb_at rank limbs /\ no_limb_at rank non.
Proof.
  unfold getLimbFromStartRank. split.
  - destruct (findRank rank limbs) as [l1|] eqn:H1; [done|].
    destruct (findRank rank non) as [l2|] eqn:H2; [done|]. intros _. split; by apply findRank_None.
  - intros [H1 H2]. apply findRank_None in H1, H2. by rewrite H1, H2.
Qed.
Lemma limb_of_rank_not_ub rank limbs non : getLimbFromStartRank rank limbs non <> Ub.
Proof. unfold getLimbFromStartRank. by repeat case_match. Qed.

(** * Distance to the limits *)
Lemma joint_ind' (P : joint -> Prop) :
  (forall n r b, P (Joint n r b [])) -> (forall n r b c cs, P c -> P (Joint n r b (c :: cs))) -> forall j, P j.
Proof.
  intros H0 H1. fix IH 1. intros [n r b [|c cs]]; [apply H0|apply H1, IH].
Qed.
Lemma margin_some conf n r lb ub cs m v : lb < ub -> conf !! r = Some v ->
  margin conf (Joint n r (Some (lb, ub)) cs) m <-> m = (v - lb) * (ub - v) / ((ub - lb) * (ub - lb)).
Proof.
  intros Hlt Hv. unfold margin. simpl. split.
  - intros (lb' & ub' & v' & H1 & H2 & H3). injection H1 as <- <-. rewrite Hv in H2. injection H2 as <-.
    rewrite <- H3. field. lra.
  - intros ->. exists lb, ub, v. split; [done|]. split; [done|]. field. lra.
Qed.
Lemma nearBounds_exact conf j d : proper conf j ->
  exists m, nearBounds conf (jrank j) (jbounds j) (Some d) = Ok (Some m) /\ m <= d /\
    (m = d \/ margin conf j m) /\ forall m', margin conf j m' -> m <= m'.
Proof.
  intros [Hr Hb]. destruct j as [n r [[lb ub]|] cs]; simpl in *.
  - destruct (conf !! r) as [v|] eqn:Hv; [|apply lookup_ge_None in Hv; lia].
    specialize (Hb lb ub eq_refl). destruct (Req_EM_T (ub - lb) 0); [lra|]. eexists. split; [reflexivity|].
    split; [apply Rmin_l|]. split.
    + unfold Rmin. destruct (Rle_dec _ _); [by left|right]. by rewrite margin_some by done.
    + intros m' Hm. rewrite margin_some in Hm by done. rewrite Hm. apply Rmin_r.
  - exists d. split; [done|]. split; [lra|]. split; [by left|].
    intros m' (lb & ub & v & H & _). done.
Qed.
Lemma distanceRec_exact conf last j : forall d, (forall j', j' ∈ chain last j -> proper conf j') ->
  exists m, distanceRec conf last j (Some d) = Ok (Some m) /\ m <= d /\
    (m = d \/ exists j', j' ∈ chain last j /\ margin conf j' m) /\
    forall j' m', j' ∈ chain last j -> margin conf j' m' -> m <= m'.
Proof.
  induction j as [n r b|n r b c cs IH] using joint_ind'; intros d Hp.
  - destruct (nearBounds_exact conf (Joint n r b []) d) as (m & Hm & H1 & H2 & H3); [apply Hp; left|].
    cbn [distanceRec]. simpl jrank in Hm. simpl jbounds in Hm. rewrite Hm. exists m. split; [done|]. split; [done|]. split.
    + destruct H2; [by left|right]. exists (Joint n r b []). split; [left|done].
    + intros j' m' Hj. apply elem_of_list_singleton in Hj as ->. apply H3.
  - assert (Hself : Joint n r b (c :: cs) ∈ chain last (Joint n r b (c :: cs))).
    { cbn [chain]. case_bool_decide; left. }
    destruct (nearBounds_exact conf (Joint n r b (c :: cs)) d) as (m & Hm & H1 & H2 & H3); [by apply Hp|].
    cbn [distanceRec]. simpl jrank in Hm. simpl jbounds in Hm. rewrite Hm. cbn [chain] in *. case_bool_decide as Hl.
    + exists m. split; [done|]. split; [done|]. split.
      * destruct H2; [by left|right]. eexists. split; [left|done].
      * intros j' m' Hj. apply elem_of_list_singleton in Hj as ->. apply H3.
    + destruct (IH m) as (m2 & Hm2 & H4 & H5 & H6); [intros j' Hj; apply Hp; by right|].
      exists m2. split; [done|]. split; [lra|]. split.
      * destruct H5 as [->|(j' & Hj & Hm')]; [|right; exists j'; split; [by right|done]].
        destruct H2; [by left|right]. eexists. split; [left|done].
      * intros j' m' [->|Hj]%elem_of_cons Hm'; [|by eapply H6]. apply H3 in Hm'. lra.
Qed.
Lemma least_margin_unique conf js m m' : least_margin conf js m -> least_margin conf js m' -> m = m'.
Proof.
  intros (H1 & H2 & H3) (H1' & H2' & H3'). apply Rle_antisym.
  - destruct H2' as [->|(j & Hj & Hm)]; [done|by eapply H3].
  - destruct H2 as [->|(j & Hj & Hm)]; [done|by eapply H3'].
Qed.
Theorem limits_value limbs non q s l conf :
  getLimbFromStartRank (startRank (content s)) limbs non = Ok l -> Load (content s) q = Ok conf ->
  (forall j, j ∈ chain (l_effector l) (l_joint l) -> proper conf j) ->
  exists m, least_margin conf (chain (l_effector l) (l_joint l)) m /\
    distanceToLimits limbs non q s = Ok (Some (1 - exp (-5 * m))).
Proof.
  intros Hl Hq Hp. unfold distanceToLimits. rewrite Hl, Hq.
  destruct (distanceRec_exact conf (l_effector l) (l_joint l) 1 Hp) as (m & -> & H1 & H2 & H3).
  exists m. split; [|done]. split_and!; done.
Qed.
Lemma margin_sign conf j m : proper conf j -> margin conf j m -> within conf j ->
  0 <= m <= 1/4 /\ (m = 0 <-> at_bound conf j).
Proof.
  intros [Hr Hb] (lb & ub & v & Hj & Hv & Hm) Hw. specialize (Hb _ _ Hj). specialize (Hw _ _ _ Hj Hv).
  assert (Hd : 0 < (ub - lb) * (ub - lb)) by (apply Rmult_lt_0_compat; lra).
  split; [split|].
  - apply Rmult_le_reg_r with ((ub - lb) * (ub - lb)); [done|]. rewrite Hm, Rmult_0_l. apply Rmult_le_pos; lra.
  - apply Rmult_le_reg_r with ((ub - lb) * (ub - lb)); [done|]. rewrite Hm.
    assert (0 <= (2 * v - lb - ub) * (2 * v - lb - ub)) by apply Rle_0_sqr. lra.
  - split.
    + intros ->. rewrite Rmult_0_l in Hm. exists lb, ub, v. split; [done|]. split; [done|].
      symmetry in Hm. apply Rmult_integral in Hm as [|]; [left|right]; lra.
    + intros (lb' & ub' & v' & Hj' & Hv' & Hc). rewrite Hj in Hj'. injection Hj' as <- <-. rewrite Hv in Hv'. injection Hv' as <-.
      apply Rmult_eq_reg_r with ((ub - lb) * (ub - lb)); [|lra]. rewrite Hm, Rmult_0_l. destruct Hc as [->| ->]; ring.
Qed.
Theorem limits_within limbs non q s l conf :
  getLimbFromStartRank (startRank (content s)) limbs non = Ok l -> Load (content s) q = Ok conf ->
  (forall j, j ∈ chain (l_effector l) (l_joint l) -> proper conf j /\ within conf j) ->
  exists v, distanceToLimits limbs non q s = Ok (Some v) /\ 0 <= v < 1 /\
    (v = 0 <-> exists j, j ∈ chain (l_effector l) (l_joint l) /\ at_bound conf j).
Proof.
  intros Hl Hq Hp. destruct (limits_value limbs non q s l conf Hl Hq) as (m & (H1 & H2 & H3) & Hv).
  { intros j Hj. by apply Hp. }
  assert (Hm0 : 0 <= m).
  { destruct H2 as [->|(j & Hj & Hm)]; [lra|]. destruct (Hp j Hj). destruct (margin_sign conf j m) as [? _]; [done..|lra]. }
  assert (Hiff : m = 0 <-> exists j, j ∈ chain (l_effector l) (l_joint l) /\ at_bound conf j).
  { split.
    - intros ->. destruct H2 as [?|(j & Hj & Hm)]; [lra|]. exists j. split; [done|]. destruct (Hp j Hj).
      by apply (margin_sign conf j 0).
    - intros (j & Hj & Hat). destruct (Hp j Hj) as [Hpj Hwj].
      assert (Hm : margin conf j 0).
      { destruct Hat as (lb & ub & v & Ha & Hb & Hc). exists lb, ub, v. split; [done|]. split; [done|].
        destruct Hc as [->| ->]; ring. }
      specialize (H3 j 0 Hj Hm). lra. }
  exists (1 - exp (-5 * m)). split; [done|]. pose proof (exp_pos (-5 * m)).
  assert (Hexp : exp (-5 * m) <= 1 /\ (exp (-5 * m) = 1 <-> m = 0)).
  { destruct (Req_dec m 0) as [->|Hne].
    - rewrite Rmult_0_r, exp_0. split; [lra|tauto].
    - assert (exp (-5 * m) < exp 0) by (apply exp_increasing; lra). rewrite exp_0 in *. split; [lra|]. split; intros; lra. }
  destruct Hexp as [He1 He2]. split; [lra|]. rewrite <- Hiff, <- He2. split; intros; lra.
Qed.
(** a joint beyond a limit makes the value negative, and the value grows with the margin *)
Theorem limits_beyond limbs non q s l conf :
  getLimbFromStartRank (startRank (content s)) limbs non = Ok l -> Load (content s) q = Ok conf ->
  (forall j, j ∈ chain (l_effector l) (l_joint l) -> proper conf j) ->
  (exists j, j ∈ chain (l_effector l) (l_joint l) /\ ~ within conf j) ->
  exists v, distanceToLimits limbs non q s = Ok (Some v) /\ v < 0.
Proof.
  intros Hl Hq Hp (j & Hj & Hw). destruct (limits_value limbs non q s l conf Hl Hq Hp) as (m & (H1 & H2 & H3) & Hv).
  exists (1 - exp (-5 * m)). split; [done|].
  assert (Hm : m < 0).
  { destruct (Hp j Hj) as [Hr Hb]. destruct (jbounds j) as [[lb ub]|] eqn:Hjb.
    - specialize (Hb lb ub eq_refl). destruct (conf !! jrank j) as [v|] eqn:Hv'; [|apply lookup_ge_None in Hv'; lia].
      assert (Hd : 0 < (ub - lb) * (ub - lb)) by (apply Rmult_lt_0_compat; lra).
      assert (Hmm : margin conf j ((v - lb) * (ub - v) / ((ub - lb) * (ub - lb)))).
      { exists lb, ub, v. split; [done|]. split; [done|]. field. lra. }
      apply H3 in Hmm; [|done]. apply Rle_lt_trans with (1 := Hmm).
      apply Rmult_lt_reg_r with ((ub - lb) * (ub - lb)); [done|]. rewrite Rmult_0_l.
      replace ((v - lb) * (ub - v) / ((ub - lb) * (ub - lb)) * ((ub - lb) * (ub - lb))) with ((v - lb) * (ub - v)) by (field; lra).
      destruct (Rlt_dec v lb) as [Hvl|Hvl].
      { assert (0 < (lb - v) * (ub - v)) by (apply Rmult_lt_0_compat; lra). lra. }
      destruct (Rlt_dec ub v) as [Hvu|Hvu].
      { assert (0 < (v - lb) * (v - ub)) by (apply Rmult_lt_0_compat; lra). lra. }
      exfalso. apply Hw. intros lb' ub' v' Ha Hb'. rewrite Hjb in Ha. injection Ha as <- <-. rewrite Hv' in Hb'. injection Hb' as <-. lra.
    - exfalso. apply Hw. intros lb' ub' v' Ha. rewrite Hjb in Ha. done. }
  assert (exp 0 < exp (-5 * m)) by (apply exp_increasing; lra). rewrite exp_0 in *. lra.
Qed.
Theorem limits_throws limbs non q s : distanceToLimits limbs non q s = Throw <->
  no_limb_at (startRank (content s)) limbs /\ no_limb_at (startRank (content s)) non.
Proof.
  rewrite <- limb_of_rank_throws. unfold distanceToLimits. split; [|by intros ->].
  destruct (getLimbFromStartRank _ _ _) as [l| |]; [|done|done].
  destruct (Load (content s) q) as [conf| |] eqn:EL; [|unfold Load in EL; destruct (_ && _); done|done].
  match goal with |- context[distanceRec ?c ?e ?j ?d] => assert (Hn : forall x, distanceRec c e j x <> Throw) end.
  { generalize (l_joint l). intros j. induction j as [n r b|n r b c cs IH] using joint_ind'; intros d; cbn [distanceRec]; unfold nearBounds;
      repeat case_match; try done; naive_solver. }
  specialize (Hn (Some 1)). by repeat case_match.
Qed.

(** equal bounds *)
Theorem limits_equal_bounds limbs non q s l conf name rank b v :
  getLimbFromStartRank (startRank (content s)) limbs non = Ok l -> Load (content s) q = Ok conf ->
  l_joint l = Joint name rank (Some (b, b)) [] -> conf !! rank = Some v ->
  distanceToLimits limbs non q s = Ok (if Req_EM_T v b then Some (1 - exp (-5)) else None).
Proof.
  intros Hl Hq Hj Hv. unfold distanceToLimits. rewrite Hl, Hq, Hj. cbn [distanceRec]. unfold nearBounds. rewrite Hv.
  destruct (Req_EM_T (b - b) 0); [|lra]. destruct (Req_EM_T (v - b) 0), (Req_EM_T v b); try lra; try done.
  repeat f_equal. ring.
Qed.

(** * Reference configuration *)
Lemma weightedSquares_exact diff : forall is ws acc v, weightedSquares diff ws is acc = Ok v <->
  (length is <= length ws)%nat /\ (forall i, i ∈ is -> (i < length diff)%nat) /\
  v = acc + weighted_sum (zip is ws) diff.
Proof.
  induction is as [|i is IH]; intros ws acc v.
  - assert (E : weightedSquares diff ws [] acc = Ok acc) by (by destruct ws). rewrite E. unfold weighted_sum. simpl. split.
    + intros Heq. injection Heq as <-. split_and!; [lia| |lra]. intros i Hi. by apply elem_of_nil in Hi.
    + intros (_ & _ & ->). f_equal. ring.
  - destruct ws as [|w ws]; cbn [weightedSquares].
    + split; [done|]. intros (H & _). simpl in H. lia.
    + destruct (diff !! i) as [d|] eqn:Hd.
      * rewrite IH. unfold weighted_sum. simpl. rewrite (nth_lookup_Some diff i 0 d Hd). split.
        -- intros (H1 & H2 & ->). split_and!; [lia| |ring].
           intros i' [->|Hi]%elem_of_cons; [by eapply lookup_lt_Some|auto].
        -- intros (H1 & H2 & ->). split_and!; [lia| |ring]. intros i' Hi. apply H2. by right.
      * split; [done|]. intros (_ & H & _). apply lookup_ge_None in Hd. specialize (H i ltac:(left)). lia.
Qed.
Lemma weightsOf_length axis posture nd l ws : weightsOf axis posture nd l = Ok ws -> length ws = length (dofs l).
Proof.
  unfold weightsOf, computeWeightsFromAxis, dofs. destruct (Nat.eqb_spec (length posture) nd).
  - destruct (_ && _) eqn:Hc; [|done]. intros Heq. injection Heq as <-. apply andb_prop in Hc as [H1 H2].
    apply Nat.leb_le in H1, H2. rewrite take_length, drop_length, seq_length. lia.
  - intros Heq. injection Heq as <-. by rewrite map_length.
Qed.
Lemma axisWeight_spec yz w : axisWeight yz = w <->
  ((1/2 < Rabs yz.1 /\ w = 1) \/ (Rabs yz.1 <= 1/2 /\ 1/2 < Rabs yz.2 /\ w = 10) \/
    (Rabs yz.1 <= 1/2 /\ Rabs yz.2 <= 1/2 /\ w = 100)).
Proof.
  unfold axisWeight, Rltb. destruct (Rlt_dec (1/2) (Rabs yz.1)), (Rlt_dec (1/2) (Rabs yz.2)); simpl; split; intros H;
    try (subst; lra); try (destruct H as [H|[H|H]]; lra).
Qed.
Lemma zip_take_drop (p : list R) a n : (a + n <= length p)%nat ->
  zip (seq a n) (take n (drop a p)) = map (fun i => (i, nth i p 0)) (seq a n).
Proof.
  intros H. apply list_eq. intros k. rewrite list_lookup_fmap. destruct (decide (k < n)%nat) as [Hk|Hk].
  - rewrite lookup_zip_with, lookup_seq_lt by done. simpl. rewrite lookup_take by done. rewrite lookup_drop.
    destruct (lookup_lt_is_Some_2 p (a + k)) as [x Hx]; [lia|]. rewrite Hx. simpl. by rewrite (nth_lookup_Some p (a + k) 0 x Hx).
  - rewrite lookup_zip_with, lookup_seq_ge by lia. done.
Qed.
Lemma weightsOf_spec axis posture nd l : (l_vrank l <= l_evrank l < nd)%nat ->
  exists w, weightsOf axis posture nd l = Ok (map w (dofs l)) /\
    forall i, limb_dof l i -> forall x, dof_weight axis posture nd i x <-> x = w i.
Proof.
  intros Hr. unfold weightsOf. destruct (Nat.eqb_spec (length posture) nd) as [He|He].
  - destruct (Nat.leb_spec (l_vrank l) (l_evrank l)); [|lia]. destruct (Nat.leb_spec (S (l_evrank l)) nd); [|lia]. simpl.
    exists (fun i => nth i posture 0). split.
    + f_equal. unfold dofs. assert (Hz := zip_take_drop posture (l_vrank l) (S (l_evrank l) - l_vrank l) ltac:(lia)).
      apply (f_equal (map snd)) in Hz. rewrite map_map in Hz. simpl in Hz. rewrite <- Hz.
      apply list_eq. intros k. rewrite list_lookup_fmap, lookup_zip_with.
      destruct (decide (k < S (l_evrank l) - l_vrank l)%nat) as [Hk|Hk].
      * rewrite lookup_seq_lt by done. rewrite lookup_take, lookup_drop by done. simpl. by destruct (posture !! _).
      * rewrite lookup_seq_ge by lia. rewrite lookup_take_ge by lia. done.
    + intros i Hi x. unfold dof_weight. unfold limb_dof in Hi.
      destruct (lookup_lt_is_Some_2 posture i) as [y Hy]; [lia|]. rewrite Hy, (nth_lookup_Some posture i 0 y Hy).
      split; [intros [[_ H1]|[H1 _]]; [congruence|done]|intros ->; by left].
  - exists (fun i => axisWeight (axis i)). split; [done|]. intros i Hi x. unfold dof_weight. split.
    + intros [[H _]|[_ H]]; [done|]. symmetry. by apply axisWeight_spec.
    + intros ->. right. split; [done|]. by apply axisWeight_spec.
Qed.
Lemma dofs_elem l i : i ∈ dofs l <-> limb_dof l i.
Proof. unfold dofs, limb_dof. rewrite elem_of_seq. lia. Qed.
Lemma zip_map_self (w : nat -> R) l : zip l (map w l) = map (fun i => (i, w i)) l.
Proof. induction l as [|x l IH]; [done|]. simpl. by rewrite IH. Qed.
Theorem reference_value limbs non axis posture nd diffTo q s l conf :
  getLimbFromStartRank (startRank (content s)) limbs non = Ok l -> Load (content s) q = Ok conf ->
  (l_vrank l <= l_evrank l < nd)%nat -> length (diffTo conf) = nd ->
  exists w, (forall i, limb_dof l i -> dof_weight axis posture nd i (w i)) /\
    let d := weighted_sum (map (fun i => (i, w i)) (seq (l_vrank l) (S (l_evrank l) - l_vrank l))) (diffTo conf) in
    (0 <= d -> referenceConfiguration limbs non axis posture nd diffTo q s = Ok (Some (100 - sqrt d))) /\
    (d < 0 -> referenceConfiguration limbs non axis posture nd diffTo q s = Ok None).
Proof.
  intros Hl Hq Hr Hd. destruct (weightsOf_spec axis posture nd l Hr) as (w & Hw & Hws).
  exists w. split; [intros i Hi; by apply (Hws i Hi)|]. intros d. unfold referenceConfiguration. rewrite Hl, Hq, Hw.
  assert (Hs : weightedSquares (diffTo conf) (map w (dofs l)) (dofs l) 0 = Ok d).
  { apply weightedSquares_exact. split_and!.
    - by rewrite map_length.
    - intros i Hi%dofs_elem. unfold limb_dof in Hi. lia.
    - rewrite zip_map_self. unfold d, dofs. ring. }
  rewrite Hs. unfold Rltb. split; intros; destruct (Rlt_dec d 0); try done; lra.
Qed.
Lemma weighted_sum_nonneg iw diff : (forall i w, (i, w) ∈ iw -> 0 <= w) -> 0 <= weighted_sum iw diff /\
  (weighted_sum iw diff = 0 <-> forall i w, (i, w) ∈ iw -> 0 < w -> nth i diff 0 = 0).
Proof.
  induction iw as [|[i w] iw IH]; intros H; unfold weighted_sum in *; simpl.
  - split; [lra|]. split; [|done]. intros _ i w Hi. by apply elem_of_nil in Hi.
  - destruct IH as [IH1 IH2]; [intros i' w' Hi; apply (H i'); by right|].
    assert (Hw : 0 <= w) by (apply (H i); left). assert (Hsq : 0 <= nth i diff 0 * nth i diff 0) by apply Rle_0_sqr.
    assert (Hp : 0 <= w * (nth i diff 0 * nth i diff 0)) by (by apply Rmult_le_pos).
    split; [lra|]. split.
    + intros Hz. assert (H1 : w * (nth i diff 0 * nth i diff 0) = 0) by lra.
      intros i' w' [Heq|Hi]%elem_of_cons Hpos.
      * injection Heq as -> ->. apply Rmult_integral in H1 as [H1|H1]; [lra|]. by apply Rmult_integral in H1 as [|].
      * apply IH2 with w'; [lra|done..].
    + intros Hall. assert (Hr : fold_right Rplus 0 (map (fun p : nat * R => p.2 * (nth p.1 diff 0 * nth p.1 diff 0)) iw) = 0).
      { apply IH2. intros i' w' Hi. apply Hall. by right. }
      rewrite Hr. destruct (Req_dec w 0) as [->|Hne]; [ring|]. rewrite (Hall i w); [ring|left|lra].
Qed.
Theorem reference_best limbs non axis posture nd diffTo q s l conf :
  getLimbFromStartRank (startRank (content s)) limbs non = Ok l -> Load (content s) q = Ok conf ->
  (l_vrank l <= l_evrank l < nd)%nat -> length (diffTo conf) = nd ->
  (forall i w, limb_dof l i -> dof_weight axis posture nd i w -> 0 <= w) ->
  exists v, referenceConfiguration limbs non axis posture nd diffTo q s = Ok (Some v) /\ v <= 100 /\
    (v = 100 <-> forall i w, limb_dof l i -> dof_weight axis posture nd i w -> 0 < w -> nth i (diffTo conf) 0 = 0).
Proof.
  intros Hl Hq Hr Hd Hpos.
  destruct (weightsOf_spec axis posture nd l Hr) as (w & Hw & Hws).
  set (iw := map (fun i => (i, w i)) (seq (l_vrank l) (S (l_evrank l) - l_vrank l))).
  assert (Hiw : forall i x, (i, x) ∈ iw <-> limb_dof l i /\ x = w i).
  { intros i x. unfold iw. rewrite elem_of_list_fmap. split.
    - intros (i' & Heq & Hi). injection Heq as -> ->. split; [by apply dofs_elem|done].
    - intros [Hi ->]. exists i. split; [done|]. by apply dofs_elem. }
  destruct (weighted_sum_nonneg iw (diffTo conf)) as [H1 H2].
  { intros i x [Hi ->]%Hiw. apply (Hpos i); [done|]. by apply (Hws i Hi). }
  assert (Hs : weightedSquares (diffTo conf) (map w (dofs l)) (dofs l) 0 = Ok (weighted_sum iw (diffTo conf))).
  { apply weightedSquares_exact. split_and!.
    - by rewrite map_length.
    - intros i Hi%dofs_elem. unfold limb_dof in Hi. lia.
    - rewrite zip_map_self. unfold iw, dofs. ring. }
  unfold referenceConfiguration. rewrite Hl, Hq, Hw, Hs. unfold Rltb.
  destruct (Rlt_dec (weighted_sum iw (diffTo conf)) 0); [lra|]. eexists. split; [reflexivity|].
  pose proof (sqrt_pos (weighted_sum iw (diffTo conf))). split; [lra|].
  assert (Hz : 100 - sqrt (weighted_sum iw (diffTo conf)) = 100 <-> weighted_sum iw (diffTo conf) = 0).
  { split; [|intros ->; rewrite sqrt_0; ring]. intros Hz. apply sqrt_eq_0; [done|lra]. }
  rewrite Hz, H2. split.
  - intros Hall i x Hi Hx Hp. apply (Hall i x); [|done]. apply Hiw. split; [done|]. by apply (Hws i Hi).
  - intros Hall i x [Hi ->]%Hiw Hp. apply (Hall i (w i)); [done| |done]. by apply (Hws i Hi).
Qed.

(** * Self collision *)
Ltac shift H := match goal with |- _ (_ ?a) = true => match type of H with _ (_ ?b) = true => replace a with b by lia; exact H end end.
Lemma generate_spec {Q} (valid : Q -> bool) shots : forall fuel k missing db db',
  generateFullBodyDB valid shots fuel k missing db = Some db' <->
  exists n, (n <= fuel)%nat /\ db' = db ++ filter valid (map shots (seq k n)) /\
    length (filter valid (map shots (seq k n))) = missing /\
    (n = 0%nat \/ valid (shots (k + (n - 1))%nat) = true).
Proof.
  induction fuel as [|fuel IH]; intros k missing db db'.
  - destruct missing as [|missing]; cbn [generateFullBodyDB].
    + split.
      * intros Heq. injection Heq as <-. exists 0%nat. simpl. rewrite app_nil_r. split_and!; [lia|done..|by left].
      * intros (n & Hn & -> & _). assert (n = 0)%nat as -> by lia. simpl. by rewrite app_nil_r.
    + split; [done|]. intros (n & Hn & -> & Hl & _). assert (n = 0)%nat as -> by lia. done.
  - destruct missing as [|missing].
    + cbn [generateFullBodyDB]. split.
      * intros Heq. injection Heq as <-. exists 0%nat. simpl. rewrite app_nil_r. split_and!; [lia|done..|by left].
      * intros (n & Hn & -> & Hl & [->|Hlast]); [simpl; by rewrite app_nil_r|].
        destruct n as [|n]; [simpl; by rewrite app_nil_r|]. exfalso.
        assert (Hin : shots (k + (S n - 1))%nat ∈ filter valid (map shots (seq k (S n)))).
        { apply elem_of_list_filter. split; [by rewrite Hlast|]. apply elem_of_list_fmap. exists (k + (S n - 1))%nat. split; [done|].
          apply elem_of_seq. lia. }
        apply nil_length_inv in Hl. rewrite Hl in Hin. by apply elem_of_nil in Hin.
    + assert (Hunf : generateFullBodyDB valid shots (S fuel) k (S missing) db =
        if valid (shots k) then generateFullBodyDB valid shots fuel (S k) missing (db ++ [shots k])
        else generateFullBodyDB valid shots fuel (S k) (S missing) db) by reflexivity.
      rewrite Hunf. clear Hunf. destruct (valid (shots k)) eqn:Hv; rewrite IH.
      * split.
        -- intros (n & Hn & -> & Hl & Hlast). exists (S n). simpl. rewrite filter_cons_True by (by rewrite Hv).
           split_and!; [lia|by rewrite <- app_assoc|simpl; congruence|]. right.
           destruct n as [|n]; [simpl; by rewrite Nat.add_0_r|]. destruct Hlast as [?|Hlast]; [done|].
           shift Hlast.
        -- intros (n & Hn & -> & Hl & Hlast). destruct n as [|n]; [done|]. exists n.
           change (seq k (S n)) with (k :: seq (S k) n) in *. cbn [map] in *. rewrite filter_cons_True in * by (by rewrite Hv).
           split_and!; [lia|by rewrite <- app_assoc|simpl in Hl; congruence|].
           destruct n as [|n]; [by left|right]. destruct Hlast as [?|Hlast]; [done|].
           shift Hlast.
      * split.
        -- intros (n & Hn & -> & Hl & Hlast). exists (S n). simpl. rewrite filter_cons_False by (rewrite Hv; simpl; tauto).
           split_and!; [lia|done|done|]. right. destruct Hlast as [->|Hlast]; [done|].
           destruct n as [|n]; [done|].
           shift Hlast.
        -- intros (n & Hn & -> & Hl & Hlast). destruct n as [|n]; [done|]. exists n.
           change (seq k (S n)) with (k :: seq (S k) n) in *. cbn [map] in *. rewrite filter_cons_False in * by (rewrite Hv; simpl; tauto).
           split_and!; [lia|done|done|].
           destruct n as [|n]; [by left|right]. destruct Hlast as [?|Hlast]; [done|].
           shift Hlast.
Qed.
Lemma generate_needs {Q} (valid : Q -> bool) shots fuel k missing db :
  generateFullBodyDB valid shots fuel k missing db = None <->
  (length (filter valid (map shots (seq k fuel))) < missing)%nat.
Proof.
  revert k missing db. induction fuel as [|fuel IH]; intros k missing db.
  - destruct missing; cbn [generateFullBodyDB]; simpl; split; intros; try done; lia.
  - destruct missing as [|missing]; [cbn [generateFullBodyDB]; split; intros; [done|lia]|].
    assert (Hunf : generateFullBodyDB valid shots (S fuel) k (S missing) db =
        if valid (shots k) then generateFullBodyDB valid shots fuel (S k) missing (db ++ [shots k])
        else generateFullBodyDB valid shots fuel (S k) (S missing) db) by reflexivity.
    rewrite Hunf. clear Hunf. change (seq k (S fuel)) with (k :: seq (S k) fuel). cbn [map].
    destruct (valid (shots k)) eqn:Hv; rewrite IH.
    + rewrite filter_cons_True by (by rewrite Hv). simpl. lia.
    + rewrite filter_cons_False by (rewrite Hv; simpl; tauto). done.
Qed.
Theorem database_filled {Q} (valid : Q -> bool) shots fuel nb db db' :
  fullBodyInstance valid shots fuel nb db = Some db' ->
  length db' = Nat.max (length db) nb /\
  exists n, (n <= fuel)%nat /\ db' = db ++ filter valid (map shots (seq 0 n)).
Proof.
  unfold fullBodyInstance. destruct (Nat.ltb_spec (length db) nb) as [H|H].
  - intros Hg. apply generate_spec in Hg as (n & Hn & -> & Hl & _). split; [rewrite app_length, Hl; lia|]. by exists n.
  - intros Heq. injection Heq as <-. split; [lia|]. exists 0%nat. simpl. rewrite app_nil_r. split; [lia|done].
Qed.
Theorem database_stuck {Q} (valid : Q -> bool) shots nb db :
  (forall fuel, fullBodyInstance valid shots fuel nb db = None) <->
  forall fuel, (length db + length (filter valid (map shots (seq 0 fuel))) < nb)%nat.
Proof.
  unfold fullBodyInstance. destruct (Nat.ltb_spec (length db) nb) as [H|H].
  - split; intros Hs fuel; specialize (Hs fuel); rewrite generate_needs in *; lia.
  - split; intros Hs; [by specialize (Hs 0%nat)|]. specialize (Hs 0%nat). lia.
Qed.
Lemma countFree_exact valid s : forall db c n, countFree valid s db c = Ok n <->
  exists qs, Forall2 (fun q q' => Load s q = Ok q') db qs /\ n = (c + length (filter valid qs))%nat.
Proof.
  induction db as [|q db IH]; intros c n; cbn [countFree].
  - split.
    + intros Heq. injection Heq as <-. exists []. split; [constructor|]. simpl. lia.
    + intros (qs & Hf & ->). inversion Hf; subst. simpl. f_equal. lia.
  - destruct (Load s q) as [q'| |] eqn:Hq.
    + rewrite IH. split.
      * intros (qs & Hf & ->). exists (q' :: qs). split; [by constructor|]. destruct (valid q') eqn:Hv.
        -- rewrite filter_cons_True by (by rewrite Hv). simpl. lia.
        -- rewrite filter_cons_False by (rewrite Hv; simpl; tauto). lia.
      * intros (qs & Hf & ->). inversion Hf as [|? q2 ? qs' H1 H2]; subst. rewrite Hq in H1. injection H1 as <-.
        exists qs'. split; [done|]. destruct (valid q') eqn:Hv.
        -- rewrite filter_cons_True by (by rewrite Hv). simpl. lia.
        -- rewrite filter_cons_False by (rewrite Hv; simpl; tauto). lia.
    + split; [done|]. intros (qs & Hf & _). inversion Hf; subst. congruence.
    + split; [done|]. intros (qs & Hf & _). inversion Hf; subst. congruence.
Qed.
Theorem self_collision_value valid shots fuel db s v db' :
  selfCollisionProbability valid shots fuel db s = Some (Ok v, db') <->
  fullBodyInstance valid shots fuel nbFullBody db = Some db' /\
  exists qs, Forall2 (fun q q' => Load (content s) q = Ok q') db' qs /\
    v = INR (length (filter valid qs)) / INR (length db').
Proof.
  unfold selfCollisionProbability. destruct (fullBodyInstance valid shots fuel nbFullBody db) as [db1|]; [|naive_solver].
  split.
  - intros Heq. injection Heq as H1 <-. split; [done|].
    destruct (countFree valid (content s) db1 0) as [n| |] eqn:Hc; [|done|done]. injection H1 as <-.
    apply countFree_exact in Hc as (qs & Hf & ->). by exists qs.
  - intros [H1 (qs & Hf & ->)]. injection H1 as ->. f_equal. f_equal.
    assert (Hc : countFree valid (content s) db' 0 = Ok (0 + length (filter valid qs))%nat) by (apply countFree_exact; eauto).
    by rewrite Hc.
Qed.
Theorem self_collision_range valid shots fuel db s v db' :
  selfCollisionProbability valid shots fuel db s = Some (Ok v, db') -> 0 <= v <= 1.
Proof.
  intros H. apply self_collision_value in H as (Hd & qs & Hf & ->).
  apply database_filled in Hd as [Hl _].
  assert (Hnb : (0 < nbFullBody)%nat) by (unfold nbFullBody; lia).
  assert (Hle : (length (filter valid qs) <= length db')%nat).
  { rewrite (Forall2_length _ _ _ Hf). rewrite filter_length. lia || (pose proof (filter_length valid qs); lia). }
  assert (0 < INR (length db')) by (apply lt_0_INR; lia). apply le_INR in Hle.
  pose proof (pos_INR (length (filter valid qs))).
  split.
  - apply Rmult_le_pos; [done|]. left. by apply Rinv_0_lt_compat.
  - apply Rmult_le_reg_r with (INR (length db')); [done|].
    unfold Rdiv. rewrite Rmult_assoc, Rinv_l by lra. lra.
Qed.
Theorem self_collision_foreign valid shots fuel db s db' q :
  fullBodyInstance valid shots fuel nbFullBody db = Some db' -> q ∈ db ->
  (length q < startRank (content s) + slength (content s))%nat ->
  selfCollisionProbability valid shots fuel db s = Some (Ub, db').
Proof.
  intros Hd Hq Hlen. unfold selfCollisionProbability. rewrite Hd. f_equal. f_equal.
  assert (Hq' : q ∈ db').
  { apply database_filled in Hd as (_ & n & _ & ->). apply elem_of_app. by left. }
  assert (Hu : forall l c, q ∈ l -> countFree valid (content s) l c = Ub).
  { induction l as [|x l IH]; intros c Hin; [by apply elem_of_nil in Hin|]. cbn [countFree].
    assert (Hx : Load (content s) x <> Throw) by (unfold Load; by destruct (_ && _)).
    apply elem_of_cons in Hin as [->|Hin].
    - assert (E : Load (content s) x = Ub); [|by rewrite E]. unfold Load.
      destruct (Nat.leb_spec (startRank (content s) + slength (content s)) (length x)); [lia|done].
    - destruct (Load (content s) x); [by apply IH|done|done]. }
  by rewrite Hu.
Qed.

(** * The factory *)
Theorem add_analysis {E} name (f : E) m : forall b m', AddAnalysis name f m = (b, m') ->
  (b = true <-> m !! name = None) /\
  (forall n, m' !! n = if decide (n = name) then (match m !! name with Some g => Some g | None => Some f end) else m !! n).
Proof.
  unfold AddAnalysis. intros b m'. destruct (m !! name) as [g|] eqn:Hm; intros Heq; injection Heq as <- <-.
  - split; [done|]. intros n. destruct (decide (n = name)) as [->|]; done.
  - split; [done|]. intros n. destruct (decide (n = name)) as [->|Hn]; [by rewrite lookup_insert|by rewrite lookup_insert_ne].
Qed.
Theorem analysis_names_distinct : NoDup analysisNames /\ length analysisNames = 15%nat.
Proof. split; [|reflexivity]. apply (bool_decide_unpack _). vm_compute. done. Qed.
Theorem analysis_names_are : NoDup analysisNames /\ length analysisNames = 15%nat /\
  forall n, n ∈ analysisNames <-> n ∈ ["selfCollisionProbability"; "jointLimitsDistance"; "ReferenceConfiguration"]%string \/
    exists a b, a ∈ ["manipulability"; "isotropy"; "minimumSingularValue"; "maximumSingularValue"]%string /\ b ∈ [""; "Rot"; "Tr"]%string /\ n = (a ++ b)%string.
Proof.
  destruct analysis_names_distinct as [H1 H2]. split; [exact H1|]. split; [exact H2|]. intros n. unfold analysisNames. split.
  - assert (G : forall a b, a ∈ ["manipulability"; "isotropy"; "minimumSingularValue"; "maximumSingularValue"]%string -> b ∈ [""; "Rot"; "Tr"]%string -> n = (a ++ b)%string ->
      n ∈ ["selfCollisionProbability"; "jointLimitsDistance"; "ReferenceConfiguration"]%string \/
      exists a b, a ∈ ["manipulability"; "isotropy"; "minimumSingularValue"; "maximumSingularValue"]%string /\ b ∈ [""; "Rot"; "Tr"]%string /\ n = (a ++ b)%string) by eauto 8.
    intros H. rewrite !elem_of_cons, elem_of_nil in H.
    assert (M : forall (x : string) (l : list string), bool_decide (x ∈ l) = true -> x ∈ l) by (intros x l Hx; exact (proj1 (bool_decide_eq_true _) Hx)).
    destruct H as [H|[H|[H|[H|[H|[H|[H|[H|[H|[H|[H|[H|[H|[H|[H|[]]]]]]]]]]]]]]]].
    + apply (G "manipulability" "")%string; [apply M; reflexivity..|exact H].
    + apply (G "isotropy" "")%string; [apply M; reflexivity..|exact H].
    + apply (G "minimumSingularValue" "")%string; [apply M; reflexivity..|exact H].
    + apply (G "maximumSingularValue" "")%string; [apply M; reflexivity..|exact H].
    + apply (G "manipulability" "Rot")%string; [apply M; reflexivity..|exact H].
    + apply (G "isotropy" "Rot")%string; [apply M; reflexivity..|exact H].
    + apply (G "minimumSingularValue" "Rot")%string; [apply M; reflexivity..|exact H].
    + apply (G "maximumSingularValue" "Rot")%string; [apply M; reflexivity..|exact H].
    + apply (G "manipulability" "Tr")%string; [apply M; reflexivity..|exact H].
    + apply (G "isotropy" "Tr")%string; [apply M; reflexivity..|exact H].
    + apply (G "minimumSingularValue" "Tr")%string; [apply M; reflexivity..|exact H].
    + apply (G "maximumSingularValue" "Tr")%string; [apply M; reflexivity..|exact H].
    + left; subst n; apply M; reflexivity.
    + left; subst n; apply M; reflexivity.
    + left; subst n; apply M; reflexivity.
  - intros [H|(a & b & Ha & Hb & ->)].
    + rewrite !elem_of_cons in H. rewrite elem_of_nil in H. destruct H as [->|[->|[->|[]]]]; apply (bool_decide_unpack _); vm_compute; exact I.
    + rewrite !elem_of_cons, elem_of_nil in Ha. rewrite !elem_of_cons, elem_of_nil in Hb.
      destruct Ha as [->|[->|[->|[->|[]]]]], Hb as [->|[->|[->|[]]]]; apply (bool_decide_unpack _); vm_compute; exact I.
Qed.
