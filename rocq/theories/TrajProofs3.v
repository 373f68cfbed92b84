(** Proofs about the validation of the paths with constraints that depend on time. *)
From Verif Require Import Maps Vec VecProofs ParaModel ParaSpec ParaProofs4 TrajModel TrajSpec TrajProofs TrajProofs2.
From Coq Require Import Psatz.
Local Open Scope R_scope.

(** ** distances between lists *)
Lemma sumSq_pos l : 0 <= sumSq l.
Proof. induction l as [|x l IH]; cbn; [lra|]. nra. Qed.
Lemma tailDist_pos a b : 0 <= tailDist a b.
Proof. apply sqrt_pos. Qed.
Lemma sumSq_sym a : forall b, sumSq (diff a b) = sumSq (diff b a).
Proof. induction a as [|x a IH]; intros [|y b]; cbn; try reflexivity. rewrite IH. ring. Qed.
Lemma tailDist_sym a b : tailDist a b = tailDist b a.
Proof. unfold tailDist. rewrite sumSq_sym. reflexivity. Qed.
Lemma minkowski2 x y s t : 0 <= s -> 0 <= t -> sqrt ((x + y) * (x + y) + (s + t) * (s + t)) <= sqrt (x * x + s * s) + sqrt (y * y + t * t).
Proof.
  intros Hs Ht. set (A := x * x + s * s). set (B := y * y + t * t).
  assert (HA : 0 <= A) by (unfold A; nra). assert (HB : 0 <= B) by (unfold B; nra).
  pose proof (sqrt_pos A). pose proof (sqrt_pos B).
  rewrite <- (sqrt_square (sqrt A + sqrt B)) by lra. apply sqrt_le_1_alt.
  pose proof (sqrt_sqrt A HA) as SA. pose proof (sqrt_sqrt B HB) as SB.
  assert (P : x * y + s * t <= sqrt A * sqrt B).
  { apply Rle_trans with (sqrt ((x * y + s * t) * (x * y + s * t))).
    - replace (sqrt ((x * y + s * t) * (x * y + s * t))) with (Rabs (x * y + s * t)).
      + apply Rle_abs.
      + symmetry. apply sqrt_Rsqr_abs.
    - rewrite <- sqrt_mult by assumption. apply sqrt_le_1_alt. unfold A, B.
      assert (0 <= (x * t - y * s) * (x * t - y * s)) by apply Rle_0_sqr. lra. }
  replace ((x + y) * (x + y) + (s + t) * (s + t)) with (A + B + 2 * (x * y + s * t)) by (unfold A, B; ring).
  replace ((sqrt A + sqrt B) * (sqrt A + sqrt B)) with (sqrt A * sqrt A + sqrt B * sqrt B + 2 * (sqrt A * sqrt B)) by ring.
  rewrite SA, SB. lra.
Qed.
Lemma dist_triangle a : forall b c, length a = length b -> length b = length c ->
  sqrt (sumSq (diff a c)) <= sqrt (sumSq (diff a b)) + sqrt (sumSq (diff b c)).
Proof.
  induction a as [|x a IH]; intros [|y b] [|z c]; cbn [length]; intros L1 L2; try discriminate; cbn [diff sumSq].
  - rewrite sqrt_0. lra.
  - injection L1 as L1. injection L2 as L2. specialize (IH b c L1 L2).
    set (A := sumSq (diff a b)) in *. set (B := sumSq (diff b c)) in *. set (C := sumSq (diff a c)) in *.
    assert (HA : 0 <= A) by apply sumSq_pos. assert (HB : 0 <= B) by apply sumSq_pos. assert (HC : 0 <= C) by apply sumSq_pos.
    pose proof (minkowski2 (x - y) (y - z) (sqrt A) (sqrt B) (sqrt_pos A) (sqrt_pos B)) as M.
    rewrite (sqrt_sqrt A HA), (sqrt_sqrt B HB) in M. eapply Rle_trans; [|exact M]. apply sqrt_le_1_alt.
    assert (C <= (sqrt A + sqrt B) * (sqrt A + sqrt B)).
    { rewrite <- (sqrt_sqrt C HC). pose proof (sqrt_pos C). nra. }
    replace (x - y + (y - z)) with (x - z) by ring. lra.
Qed.
Lemma tailDist_triangle a b c : length a = length b -> length b = length c -> tailDist a c <= tailDist a b + tailDist b c.
Proof. intros L1 L2. unfold tailDist, tailOf. apply dist_triangle; rewrite !drop_length; lia. Qed.
Lemma diff_nth a : forall b i, length a = length b -> nth i (diff a b) 0 = nth i a 0 - nth i b 0.
Proof.
  induction a as [|x a IH]; intros [|y b] i; cbn [length]; intros L; try discriminate.
  - destruct i; cbn; ring.
  - destruct i; cbn [diff nth]; [reflexivity|]. apply IH. lia.
Qed.
Lemma diff_length a : forall b, length a = length b -> length (diff a b) = length a.
Proof. induction a as [|x a IH]; intros [|y b]; cbn; intros L; try discriminate; auto. Qed.
Lemma sumSq_scale k l : forall m, length m = length l -> (forall i, nth i m 0 = k * nth i l 0) -> sumSq m = k * k * sumSq l.
Proof.
  induction l as [|x l IH]; intros [|y m]; cbn [length]; intros L H; try discriminate; cbn [sumSq].
  - ring.
  - pose proof (H O) as H0. cbn in H0. rewrite (IH m); [rewrite H0; ring|lia|]. intros i. apply (H (S i)).
Qed.
Lemma nth_drop {A} (l : list A) k i x : nth i (drop k l) x = nth (k + i) l x.
Proof. rewrite !nth_lookup, lookup_drop. reflexivity. Qed.
Lemma tailDist_scale k a b c e : length a = length b -> length c = length a -> length e = length a ->
  (forall i, (7 <= i < length a)%nat -> qi a i - qi b i = k * (qi c i - qi e i)) -> 0 <= k -> tailDist a b = k * tailDist c e.
Proof.
  intros L1 L2 L3 H Hk. unfold tailDist, tailOf.
  rewrite (sumSq_scale k (diff (drop 7 c) (drop 7 e)) (diff (drop 7 a) (drop 7 b))).
  - rewrite sqrt_mult; [|nra|apply sumSq_pos]. rewrite sqrt_square by exact Hk. reflexivity.
  - rewrite !diff_length; rewrite !drop_length; lia.
  - intros i. rewrite !diff_nth by (rewrite !drop_length; lia). rewrite !nth_drop.
    destruct (Nat.lt_ge_cases (7 + i) (length a)) as [Hi|Hi]; [apply H; lia|].
    rewrite !nth_overflow by lia. ring.
Qed.

(** ** the test of the steps *)
Lemma jumpy_iff x total : 0 <= x -> 0 <= total -> (jumpy x total = false <-> x <= total / 5).
Proof.
  intros Hx Ht. unfold jumpy. destruct (Reqb total 0) eqn:E.
  - apply Reqb_true in E. subst total. rewrite negb_false_iff, Reqb_true. lra.
  - apply Reqb_false in E. rewrite Rltb_false. split; intros H.
    + apply Rmult_le_reg_r with (/ total); [apply Rinv_0_lt_compat; lra|]. unfold Rdiv in *.
      rewrite Rmult_assoc, (Rmult_comm (/ 5)), <- Rmult_assoc, Rinv_r by lra. lra.
    + apply Rmult_le_reg_r with total; [lra|]. unfold Rdiv in *. rewrite Rmult_assoc, Rinv_l by lra. lra.
Qed.

Section validation.
Context (d : device) (p : tcPath).
Let at_ := fun (t : R) (w : world) => let '(w', (q, _)) := tc_at d p t w in (w', q).
Lemma at_fst t w : fst (at_ t w) = fst (tc_at d p t w).
Proof. unfold at_. destruct (tc_at d p t w) as [w' [q ok]]. reflexivity. Qed.
Lemma at_snd t w : snd (at_ t w) = fst (snd (tc_at d p t w)).
Proof. unfold at_. destruct (tc_at d p t w) as [w' [q ok]]. reflexivity. Qed.
Lemma noJump_iff w total n : forall k w1, (forall e, ~ e ∈ equations p -> w1 e = w e) ->
  (forall e, ~ e ∈ equations p -> fst (noJump at_ (tc_len p) total n (INR (S k)) (sample d p w k) w1) e = w e) /\
  (snd (noJump at_ (tc_len p) total n (INR (S k)) (sample d p w k) w1) = true <->
   forall i, (k <= i < k + n)%nat -> jumpy (stepSize d p w i) total = false).
Proof.
  induction n as [|n IH]; intros k w1 Hw.
  - cbn [noJump fst snd]. split; [exact Hw|]. split; [intros _ i Hi; lia|reflexivity].
  - cbn [noJump].
    pose proof (at_snd (INR (S k) / 10 * tc_len p) w1) as A. pose proof (at_fst (INR (S k) / 10 * tc_len p) w1) as B.
    destruct (at_ (INR (S k) / 10 * tc_len p) w1) as [w' q]. cbn [fst snd] in A, B.
    assert (Hw' : forall e, ~ e ∈ equations p -> w' e = w e).
    { intros e He. rewrite B, at_frame by exact He. apply Hw, He. }
    assert (A' : q = sample d p w (S k)).
    { rewrite A. cbn [sample]. rewrite (at_agree d p _ w1 w Hw). reflexivity. }
    clear A. subst q. destruct (jumpy (tailDist (sample d p w k) (sample d p w (S k))) total) eqn:J.
    + cbn [fst snd]. split; [exact Hw'|]. split; [discriminate|]. intros H. exfalso.
      assert (K : jumpy (stepSize d p w k) total = false) by (apply H; lia). unfold stepSize in K. rewrite J in K. discriminate.
    + rewrite <- S_INR. destruct (IH (S k) w' Hw') as [I1 I2]. split; [exact I1|]. rewrite I2. split.
      * intros H i Hi. destruct (Nat.eq_dec i k) as [->|Hne]; [exact J|]. apply H. lia.
      * intros H i Hi. apply H. lia.
Qed.
End validation.

Lemma validate_iff {A} (disc : tcPath -> world -> A) d rank p w : (7 <= length (tc_init p))%nat ->
  exists v, tc_validate disc d rank p w = Ok v /\
  exists w', (forall e, ~ e ∈ equations p -> w' e = w e) /\
  ((qi (tc_init p) rank <= qi (tc_end p) rank /\ (forall i, (i < 9)%nat -> stepSize d p w i <= tailDist (tc_end p) (tc_init p) / 5) /\
    v = Discretized (disc p w')) \/
   ((qi (tc_end p) rank < qi (tc_init p) rank \/ exists i, (i < 9)%nat /\ tailDist (tc_end p) (tc_init p) / 5 < stepSize d p w i) /\
    v = Refused (snd (tc_extract d p 0 0 w')))).
Proof.
  intros H7. unfold tc_validate. destruct (Rltb (qi (tc_end p) rank) (qi (tc_init p) rank)) eqn:E.
  - eexists. split; [reflexivity|]. exists w. split; [reflexivity|]. right. apply Rltb_true in E. auto.
  - apply Rltb_false in E. rewrite (proj2 (Nat.ltb_ge _ _) H7).
    set (total := tailDist (tc_end p) (tc_init p)).
    destruct (noJump_iff d p w total 9 0 w (fun _ _ => eq_refl)) as [F I0]. cbn [sample INR] in F, I0. 
    destruct (noJump _ (tc_len p) total 9 1 (tc_init p) w) as [w' ok]. cbn [fst snd] in F, I0.
    assert (JI : forall i, jumpy (stepSize d p w i) total = false <-> stepSize d p w i <= total / 5).
    { intros i. apply jumpy_iff; apply tailDist_pos. }
    destruct ok.
    + eexists. split; [reflexivity|]. exists w'. split; [exact F|]. left. split; [exact E|]. split; [|reflexivity].
      intros i Hi. apply JI. apply (proj1 I0 eq_refl). lia.
    + eexists. split; [reflexivity|]. exists w'. split; [exact F|]. right. split; [|reflexivity]. right.
      destruct (existsb (fun i => jumpy (stepSize d p w i) total) (seq 0 9)) eqn:X.
      * apply existsb_exists in X as (i & Hi & J). apply in_seq in Hi. exists i. split; [lia|].
        destruct (Rle_lt_dec (stepSize d p w i) (total / 5)) as [K|K]; [|exact K]. apply JI in K. congruence.
      * exfalso. assert (false = true) as ?; [|discriminate]. apply I0. intros i Hi.
        destruct (jumpy (stepSize d p w i) total) eqn:J; [|reflexivity].
        assert (true = false); [|discriminate]. rewrite <- X. symmetry. apply existsb_exists. exists i. split; [apply in_seq; lia|exact J].
Qed.
(** what is not tested: the last step *)
Lemma last_step d p w : (forall i, (i < 9)%nat -> stepSize d p w i <= tailDist (tc_end p) (tc_init p) / 5) ->
  (forall i, length (sample d p w i) = csize d) -> length (tc_end p) = csize d ->
  tailDist (sample d p w 9) (tc_end p) <= 14 / 5 * tailDist (tc_end p) (tc_init p).
Proof.
  intros H L Le. set (total := tailDist (tc_end p) (tc_init p)) in *.
  assert (S : forall n, (n <= 9)%nat -> tailDist (tc_init p) (sample d p w n) <= INR n * (total / 5)).
  { induction n as [|n IH]; intros Hn.
    - cbn [sample INR]. unfold tailDist. replace (sumSq (diff (tailOf (tc_init p)) (tailOf (tc_init p)))) with 0.
      + rewrite sqrt_0. lra.
      + symmetry. induction (tailOf (tc_init p)) as [|x l IHl]; cbn; [reflexivity|]. rewrite IHl. ring.
    - rewrite S_INR. eapply Rle_trans; [apply (tailDist_triangle _ (sample d p w n))|].
      + pose proof (L O) as L0. cbn [sample] in L0. rewrite L0, L. reflexivity.
      + rewrite !L. reflexivity.
      + pose proof (H n ltac:(lia)) as Hs. unfold stepSize in Hs. pose proof (IH ltac:(lia)). lra. }
  eapply Rle_trans; [apply (tailDist_triangle _ (tc_init p))|].
  - pose proof (L O) as L0. cbn [sample] in L0. rewrite L0, L. reflexivity.
  - pose proof (L O) as L0. cbn [sample] in L0. rewrite L0, Le. reflexivity.
  - pose proof (S 9%nat ltac:(lia)) as S9. rewrite tailDist_sym in S9. rewrite (tailDist_sym (tc_init p) (tc_end p)). fold total.
    cbn [INR] in S9. lra.
Qed.
(** straight paths pass *)
Lemma straight_accepted d p w : linearTail d -> tc_cons p = None -> length (tc_init p) = csize d -> length (tc_end p) = csize d -> 0 < tc_len p ->
  forall i, (i < 9)%nat -> stepSize d p w i = tailDist (tc_end p) (tc_init p) / 10.
Proof.
  intros HL HC L1 L2 Hl.
  assert (E : forall i, (i <= 9)%nat -> length (sample d p w i) = csize d /\
     forall j, (7 <= j < csize d)%nat -> qi (sample d p w i) j = (1 - INR i / 10) * qi (tc_init p) j + INR i / 10 * qi (tc_end p) j).
  { intros [|i] Hi; cbn [sample].
    - split; [exact L1|]. intros j _. cbn [INR]. lra.
    - rewrite at_plain by exact HC. cbn [snd fst].
      assert (P : 0 < INR (S i)) by (apply lt_0_INR; lia). assert (Q : INR (S i) <= 9) by (replace 9 with (INR 9) by (cbn; lra); apply le_INR; lia).
      assert (R : 0 < INR (S i) / 10 * tc_len p) by (apply Rmult_lt_0_compat; lra).
      assert (R' : INR (S i) / 10 * tc_len p < tc_len p).
      { rewrite <- (Rmult_1_l (tc_len p)) at 2. apply Rmult_lt_compat_r; lra. }
      rewrite raw_inside by lra. replace (INR (S i) / 10 * tc_len p / tc_len p) with (INR (S i) / 10) by (field; lra).
      destruct (HL (tc_init p) (tc_end p) (INR (S i) / 10) L1 L2) as [H1 H2]. rewrite insert_length. split; [exact H1|].
      intros j Hj. destruct (Nat.eq_dec j (tc_rank p)) as [->|Hne].
      + rewrite qi_insert_eq by lia. unfold timeAt. field. lra.
      + rewrite qi_insert_ne by congruence. apply H2, Hj. }
  intros i Hi. destruct (E i ltac:(lia)) as [A1 A2]. destruct (E (S i) ltac:(lia)) as [B1 B2]. unfold stepSize. rewrite tailDist_sym.
  replace (tailDist (tc_end p) (tc_init p) / 10) with (/ 10 * tailDist (tc_end p) (tc_init p)) by lra.
  apply tailDist_scale; try congruence; [|lra]. intros j Hj. rewrite A2, B2 by lia. rewrite S_INR. field.
Qed.
