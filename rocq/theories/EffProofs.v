(** Proofs about the end effector trajectories (1): the effector, heights, index, curves. *)
From Coq Require Import Reals Lia Lra Psatz ZArith.
From Verif Require Import SampModel TrajModel MapsProofs VecProofs StateProofs.
From Verif Require Export EffSpec.
From Verif Require Import StateModel.
Local Open Scope R_scope.

Lemma limb_some (start next : PSt) n : getEffectorLimb start next = Ok n <-> moves_first start next n.
Proof.
  destruct (contactCreations_correct moved3 next start) as (H1 & _ & H3). unfold getEffectorLimb, moves_first.
  destruct (contactCreations moved3 next start) as [|m l].
  - split; [discriminate|]. intros [H _]. apply H1 in H. inversion H.
  - inversion H3 as [|? ? Hs Hf]; subst. rewrite Forall_forall in Hf.
    assert (Hm : forall k, created moved3 start next k -> str_le m k).
    { intros k Hk. apply H1, elem_of_cons in Hk as [->|Hk]; [reflexivity|apply Hf, Hk]. }
    assert (Hc : created moved3 start next m) by (apply H1, elem_of_cons; auto).
    split.
    + intros [= <-]. split; assumption.
    + intros [Hn Hle]. f_equal. apply (anti_symm str_le); [apply Hm, Hn|apply Hle, Hc].
Qed.
Lemma limb_none (start next : PSt) : getEffectorLimb start next = Ub <-> forall n, ~ created moved3 start next n.
Proof.
  destruct (contactCreations_correct moved3 next start) as (H1 & _ & _). unfold getEffectorLimb.
  destruct (contactCreations moved3 next start) as [|m l].
  - split; [|reflexivity]. intros _ n H. apply H1 in H. inversion H.
  - split; [discriminate|]. intros H. destruct (H m). apply H1, elem_of_cons. auto.
Qed.
Lemma effector_ok B (start next : PSt) en f : getEffector B start next = Ok (en, f) <->
  exists n, moves_first start next n /\ effector_of B n en f.
Proof.
  unfold getEffector, effector_of. destruct (getEffectorLimb start next) as [n| |] eqn:E; cbn [ibind].
  - apply limb_some in E. split.
    + intros H. exists n. split; [exact E|]. destruct (limbsOf B !! n) as [l|]; [|discriminate].
      destruct (frames (dev B) !! effName l) as [f'|] eqn:Ef; [|discriminate]. injection H as <- <-. eauto.
    + intros (m & Hm & l & Hl & <- & Hf). apply limb_some in E, Hm. assert (m = n) as -> by congruence. rewrite Hl, Hf. reflexivity.
  - unfold getEffectorLimb in E. destruct (contactCreations moved3 next start); discriminate.
  - split; [discriminate|]. intros (m & Hm & _). apply limb_some in Hm. congruence.
Qed.
Lemma effector_throw B (start next : PSt) : getEffector B start next = Throw <->
  exists n, moves_first start next n /\ forall en f, ~ effector_of B n en f.
Proof.
  unfold getEffector, effector_of. destruct (getEffectorLimb start next) as [n| |] eqn:E; cbn [ibind].
  - split.
    + intros H. exists n. split; [apply limb_some, E|]. intros en f (l & Hl & <- & Hf). rewrite Hl, Hf in H. discriminate.
    + intros (m & Hm & H). apply limb_some in Hm. assert (m = n) as -> by congruence.
      destruct (limbsOf B !! n) as [l|] eqn:El; [|reflexivity]. destruct (frames (dev B) !! effName l) as [f|] eqn:Ef; [|reflexivity].
      destruct (H (effName l) f). eauto.
  - unfold getEffectorLimb in E. destruct (contactCreations moved3 next start); discriminate.
  - split; [discriminate|]. intros (m & Hm & _). apply limb_some in Hm. congruence.
Qed.
Lemma effector_ub B (start next : PSt) : getEffector B start next = Ub <-> forall n, ~ created moved3 start next n.
Proof.
  rewrite <- limb_none. unfold getEffector. destruct (getEffectorLimb start next) as [n| |]; cbn [ibind]; [|split; congruence|split; congruence].
  split; [|congruence]. destruct (limbsOf B !! n) as [l|]; [|discriminate]. destruct (frames (dev B) !! effName l); discriminate.
Qed.
Lemma normal_found (n : string) (s : PSt) : getNormal n s = (default (V3 0 0 1) (normals s !! n), bool_decide (is_Some (normals s !! n))).
Proof. unfold getNormal. destruct (normals s !! n); reflexivity. Qed.

(** * The height *)
Definition den (x : R) : R := 1 + 4 * x + 6 * (x * x) - x * x * x.
Lemma constants p total t : t <> 0 -> computePredefConstants p total t = p / den ((total - 2 * t) / (2 * t)).
Proof. intros Ht. unfold computePredefConstants, den. f_equal. field. exact Ht. Qed.
Lemma height_at p total : height_is p total (computePredefConstants p total timeTakeoff).
Proof.
  exists ((total - 6/10) / (6/10)). split; [field|]. rewrite constants by (unfold timeTakeoff; lra). unfold timeTakeoff, den.
  replace ((total - 2 * (3/10)) / (2 * (3/10))) with ((total - 6/10) / (6/10)) by field. reflexivity.
Qed.
Lemma den_mid x : 0 <= x <= 6 -> 1 <= den x.
Proof. intros H. unfold den. assert (0 <= x * x * (6 - x)) by (apply Rmult_le_pos; nra). nra. Qed.
Lemma den_neg x : x <= 0 -> 1/3 <= den x.
Proof.
  intros H. unfold den. assert (H1 := Rle_0_sqr (x + 1/3)). unfold Rsqr in H1.
  assert (H2 : 0 <= x * x * - x) by (apply Rmult_le_pos; [apply (Rle_0_sqr x)|lra]).
  replace ((x + 1/3) * (x + 1/3)) with (x * x + 2/3 * x + 1/9) in H1 by field.
  replace (x * x * - x) with (- (x * x * x)) in H2 by ring. lra.
Qed.
Lemma den_big x : 7 <= x -> den x < 0.
Proof.
  intros H. unfold den. assert (H1 : 0 <= x * x * (x - 7)) by (apply Rmult_le_pos; nra). assert (H2 : 0 <= x * (x - 7)) by (apply Rmult_le_pos; lra).
  replace (x * x * (x - 7)) with (x * x * x - 7 * (x * x)) in H1 by ring. replace (x * (x - 7)) with (x * x - 7 * x) in H2 by ring. lra.
Qed.
Lemma height_facts p total off : 0 < p -> height_is p total off ->
  (6/10 <= total <= 42/10 -> 0 < off <= p) /\ (total < 6/10 -> 0 < off <= 3 * p) /\ (48/10 <= total -> off < 0).
Proof.
  intros Hp (x & -> & ->). fold (den x). split_and!; intros H.
  - assert (D := den_mid x ltac:(lra)). split; [apply Rdiv_lt_0_compat; lra|]. apply (Rmult_le_reg_r (den x)); [lra|]. unfold Rdiv.
    rewrite Rmult_assoc, Rinv_l, Rmult_1_r by lra. nra.
  - assert (D := den_neg x ltac:(lra)). split; [apply Rdiv_lt_0_compat; lra|]. apply (Rmult_le_reg_r (den x)); [lra|]. unfold Rdiv.
    rewrite Rmult_assoc, Rinv_l, Rmult_1_r by lra. nra.
  - assert (D := den_big x ltac:(lra)). unfold Rdiv. assert (/ den x < 0) by (apply Rinv_lt_0_compat; exact D). nra.
Qed.

(** * The index *)
Lemma lookTime_spec at_ len t : forall fuel k, (forall k', (k' < k)%nat -> at_ (INR k' / 100) < t) ->
  len < INR (k + fuel) / 100 -> first_index at_ len t (match lookTime at_ len t fuel k with Some c => c | None => len end).
Proof.
  induction fuel as [|fuel IH]; intros k Hk Hf; cbn [lookTime].
  - right. split; [reflexivity|]. intros k' Hk'. apply Hk. rewrite Nat.add_0_r in Hf. apply INR_lt. lra.
  - replace (INR k * (1 / 100)) with (INR k / 100) by field. destruct (Rltb (INR k / 100) len) eqn:E1.
    + apply Rltb_true in E1. destruct (Rleb t (at_ (INR k / 100))) eqn:E2.
      * apply Rleb_true in E2. left. exists k. auto.
      * assert (E3 : at_ (INR k / 100) < t) by (apply Rnot_le_lt; intros H; apply Rleb_true in H; congruence).
        apply IH.
        -- intros k' Hk'. destruct (decide (k' = k)) as [->|]; [exact E3|apply Hk; lia].
        -- rewrite Nat.add_succ_comm. exact Hf.
    + assert (E3 : len <= INR k / 100) by (apply Rnot_lt_le; intros H; apply Rltb_true in H; congruence).
      right. split; [reflexivity|]. intros k' Hk'. apply Hk, INR_lt. lra.
Qed.
Lemma index_found at_ len t : first_index at_ len t (match lookTime at_ len t (S (Z.to_nat (up (len * 100)))) 0 with Some c => c | None => len end).
Proof.
  apply lookTime_spec; [lia|]. destruct (archimed (len * 100)) as [H _]. rewrite Nat.add_0_l, S_INR.
  assert (IZR (up (len * 100)) <= INR (Z.to_nat (up (len * 100)))).
  { destruct (Z_le_gt_dec 0 (up (len * 100))) as [Hz|Hz].
    - rewrite INR_IZR_INZ, Z2Nat.id by exact Hz. lra.
    - apply Rle_trans with 0; [apply IZR_le; lia|apply pos_INR]. }
  lra.
Qed.
Lemma index_unique at_ len t i j : 0 < len -> first_index at_ len t i -> first_index at_ len t j -> i = j.
Proof.
  intros Hl [(k & -> & K1 & K2 & K3)|[-> K]] [(k' & -> & J1 & J2 & J3)|[-> J]].
  - destruct (lt_eq_lt_dec k k') as [[H| ->]|H]; [|reflexivity|].
    + apply J3 in H. lra.
    + apply K3 in H. lra.
  - specialize (J k K1). lra.
  - specialize (K k' J1). lra.
  - reflexivity.
Qed.
