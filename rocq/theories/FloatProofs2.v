(** Proofs of C161: the loops with rounded additions. *)
From Coq Require Import Reals ZArith Lra Lia Psatz.
From Verif Require Import Maps Vec VecProofs StateModel ValidModel SeqModel SeqSpec SeqProofs.
From Verif Require Import FloatSpec FloatModel FloatProofs.
Local Open Scope R_scope.

Section steps.
Context (rnd : R -> R) (Hr : to_nearest rnd) (step lo hi : R).
Context (Hs : 0 < step) (Hds : is_double step) (Hlo : is_double lo) (Hhi : is_double hi).
Context (Hle : lo <= hi) (Hml : Rabs lo <= powerRZ 2 52 * step) (Hmh : Rabs hi <= powerRZ 2 52 * step).

Fixpoint steps (x : R) (k : nat) : R := match k with O => x | S k => steps (rnd (x + step)) k end.
Lemma steps_S x k : steps x (S k) = rnd (steps x k + step).
Proof. revert x. induction k as [|k IH]; intros x; [reflexivity|]. exact (IH (rnd (x + step))). Qed.
Lemma steps_double x k : is_double x -> is_double (steps x k).
Proof. revert x. induction k as [|k IH]; intros x H; [exact H|]. apply IH, nearest_double, Hr. Qed.
Let M := Rmax (Rabs lo) (Rabs hi).
Lemma M_step : M <= powerRZ 2 52 * step.
Proof. apply Rmax_lub; assumption. Qed.
Lemma within_M x : lo <= x <= hi -> Rabs x <= M.
Proof.
  intros H. unfold M. apply Rmax_Rle. unfold Rabs. repeat destruct (Rcase_abs _); lra.
Qed.
Lemma pow_53_52 : powerRZ 2 (-53) * powerRZ 2 52 = / 2.
Proof. rewrite <- powerRZ_add by lra. change (/ (2 * 1) = / 2). f_equal. ring. Qed.
Lemma pow_pos e : 0 < powerRZ 2 e.
Proof. apply powerRZ_lt. lra. Qed.
(** a step that does not leave the range *)
Lemma step_in x : is_double x -> lo <= x -> x + step <= hi ->
  Rabs (rnd (x + step) - (x + step)) <= powerRZ 2 (-53) * M /\ x + step / 2 <= rnd (x + step) <= x + 3 / 2 * step /\ rnd (x + step) <= hi.
Proof.
  intros Hx H1 H2. pose proof (nearest_plus rnd Hr x step Hx Hds) as He. pose proof (within_M (x + step) ltac:(lra)) as HM.
  pose proof (pow_pos (-53)) as Hp. pose proof M_step. pose proof pow_53_52.
  assert (He' : powerRZ 2 (-53) * Rabs (x + step) <= powerRZ 2 (-53) * M) by (apply Rmult_le_compat_l; lra).
  assert (HM' : powerRZ 2 (-53) * M <= step / 2).
  { apply Rle_trans with (powerRZ 2 (-53) * (powerRZ 2 52 * step)); [apply Rmult_le_compat_l; lra|]. rewrite <- Rmult_assoc, H0. lra. }
  split; [lra|]. split.
  - assert (Rabs (rnd (x + step) - (x + step)) <= step / 2) as Hh by lra. revert Hh. unfold Rabs. destruct (Rcase_abs _); lra.
  - rewrite <- (nearest_fix rnd Hr hi Hhi). apply nearest_mono; assumption.
Qed.
Lemma step_out x : hi < x + step -> hi <= rnd (x + step).
Proof. intros H. rewrite <- (nearest_fix rnd Hr hi Hhi) at 1. apply nearest_mono; [assumption|lra]. Qed.
Lemma step_end : hi < rnd (hi + step).
Proof.
  pose proof (nearest_plus rnd Hr hi step Hhi Hds) as He. pose proof (pow_pos (-53)) as Hp. pose proof pow_53_52 as H0.
  assert (Rabs (hi + step) <= powerRZ 2 52 * step + step) as H1. { eapply Rle_trans; [apply Rabs_triang|]. rewrite (Rabs_right step) by lra. lra. }
  assert (powerRZ 2 (-53) * Rabs (hi + step) <= / 2 * step + powerRZ 2 (-53) * step) as H2.
  { eapply Rle_trans; [apply Rmult_le_compat_l; [lra|exact H1]|]. rewrite Rmult_plus_distr_l, <- Rmult_assoc, H0. lra. }
  assert (powerRZ 2 (-53) <= / 4) as H3. { change (/ 2 ^ 53 <= / 4). apply Rinv_le_contravar; [lra|]. replace 4 with (2 ^ 2) by ring. apply Rle_pow; [lra|lia]. }
  assert (powerRZ 2 (-53) * step <= / 4 * step) by (apply Rmult_le_compat_r; lra).
  assert (Rabs (rnd (hi + step) - (hi + step)) <= 3 / 4 * step) as H4 by lra. revert H4. unfold Rabs. destruct (Rcase_abs _); lra.
Qed.

(** the first step out of the range *)
Lemma exceed_from n x : is_double x -> lo <= x <= hi -> hi - x <= INR n * (step / 2) ->
  exists K, (1 <= K <= S n)%nat /\ (forall k, (1 <= k < K)%nat -> steps x k < hi) /\ hi <= steps x K.
Proof.
  revert x. induction n as [|n IH]; intros x Hx Hin Hn.
  - cbn in Hn. exists 1%nat. split; [lia|]. split; [lia|]. cbn. assert (x = hi) as -> by lra. apply Rlt_le, step_end.
  - destruct (Rle_dec hi (rnd (x + step))) as [H|H]; [exists 1%nat; split; [lia|]; split; [lia|exact H]|].
    assert (Hx' : x + step <= hi). { apply Rnot_lt_le. intros H'. apply H, step_out, H'. }
    destruct (step_in x Hx ltac:(lra) Hx') as (_ & Hb & _). rewrite S_INR in Hn.
    destruct (IH (rnd (x + step))) as (K & HK & Hlt & Hge); [apply nearest_double, Hr|lra|lra|].
    exists (S K). split; [lia|]. split; [|exact Hge]. intros [|[|k]] Hk; [lia|cbn; lra|]. apply (Hlt (S k)). lia.
Qed.
Lemma exceed : exists K, (1 <= K)%nat /\ (forall k, (1 <= k < K)%nat -> steps lo k < hi) /\ hi <= steps lo K.
Proof.
  destruct (least_above (step / 2) (hi - lo) ltac:(lra)) as (n & _ & Hn).
  destruct (exceed_from n lo Hlo ltac:(lra) Hn) as (K & HK & H1 & H2). exists K. split; [lia|]. split; assumption.
Qed.
Lemma steps_before K k : (forall k, (1 <= k < K)%nat -> steps lo k < hi) -> (k < K)%nat ->
  lo + INR k * (step / 2) <= steps lo k /\ Rabs (steps lo k - (lo + INR k * step)) <= INR k * (powerRZ 2 (-53) * M).
Proof.
  intros HK. induction k as [|k IH]; intros Hk.
  - cbn. replace (lo - (lo + 0 * step)) with 0 by ring. rewrite Rabs_R0. lra.
  - destruct (IH ltac:(lia)) as [IH1 IH2]. assert (Hp : 0 <= INR k * (step / 2)) by (apply Rmult_le_pos; [apply pos_INR|lra]).
    pose proof (HK (S k) ltac:(lia)) as Hlt. rewrite steps_S in Hlt |- *. rewrite S_INR.
    assert (Hin : steps lo k + step <= hi). { apply Rnot_lt_le. intros H. pose proof (step_out _ H). lra. }
    destruct (step_in (steps lo k) (steps_double lo k Hlo) ltac:(lra) Hin) as (He & Hb & _). split; [lra|].
    replace (rnd (steps lo k + step) - (lo + (INR k + 1) * step)) with ((rnd (steps lo k + step) - (steps lo k + step)) + (steps lo k - (lo + INR k * step))) by ring.
    eapply Rle_trans; [apply Rabs_triang|]. lra.
Qed.
(** one more step, the end of the range reached or passed *)
Lemma steps_one K k : (forall k, (1 <= k < K)%nat -> steps lo k < hi) -> (S k < K)%nat ->
  steps lo k + step / 2 <= steps lo (S k) <= steps lo k + 3 / 2 * step.
Proof.
  intros HK Hk. destruct (steps_before K k HK ltac:(lia)) as [H1 _]. assert (Hp : 0 <= INR k * (step / 2)) by (apply Rmult_le_pos; [apply pos_INR|lra]).
  pose proof (HK (S k) ltac:(lia)) as Hlt. rewrite steps_S in *.
  assert (Hin : steps lo k + step <= hi). { apply Rnot_lt_le. intros H. pose proof (step_out _ H). lra. }
  apply (step_in (steps lo k) (steps_double lo k Hlo) ltac:(lra) Hin).
Qed.
Lemma steps_last K : (1 <= K)%nat -> (forall k, (1 <= k < K)%nat -> steps lo k < hi) -> hi <= steps lo K -> hi <= steps lo (K - 1) + 3 / 2 * step.
Proof.
  intros H1 HK Hge. destruct (steps_before K (K - 1) HK ltac:(lia)) as [Hb _].
  assert (Hp : 0 <= INR (K - 1) * (step / 2)) by (apply Rmult_le_pos; [apply pos_INR|lra]).
  destruct (Rle_dec (steps lo (K - 1) + step) hi) as [H|H]; [|lra].
  destruct (step_in (steps lo (K - 1)) (steps_double lo _ Hlo) ltac:(lra) H) as (_ & Hb' & _).
  rewrite <- steps_S in Hb'. replace (S (K - 1)) with K in Hb' by lia. lra.
Qed.
Lemma steps_number K : (1 <= K)%nat -> (forall k, (1 <= k < K)%nat -> steps lo k < hi) -> INR K * step <= 2 * (hi - lo) + step.
Proof.
  intros H1 HK. destruct (steps_before K (K - 1) HK ltac:(lia)) as [Hb _].
  assert (Hh : steps lo (K - 1) <= hi). { destruct (Nat.eq_dec K 1%nat) as [->|Hne]; [cbn; lra|]. apply Rlt_le, HK. lia. }
  rewrite minus_INR in Hb by lia. cbn in Hb. lra.
Qed.
(** the instants of Interpolate *)
Lemma exceed_sampled K : (1 <= K)%nat -> (forall k, (1 <= k < K)%nat -> steps lo k < hi) -> hi <= steps lo K -> sampled step lo hi K (steps lo).
Proof.
  intros H1 HK Hge. split.
  - auto.
  - intros k Hk. destruct (steps_before K k HK Hk) as [Hb _]. assert (Hp : 0 <= INR k * (step / 2)) by (apply Rmult_le_pos; [apply pos_INR|lra]).
    split; [lra|]. destruct k; [cbn; lra|]. apply Rlt_le, HK. lia.
  - intros k Hk. pose proof (steps_one K k HK Hk). lra.
  - apply steps_last; assumption.
  - pose proof (steps_number K H1 HK). lra.
  - intros k Hk _. apply (steps_before K k HK Hk).
Qed.
(** those of the validation, that may stop exactly at the end *)
Lemma beyond_sampled : exists K, (1 <= K)%nat /\ (forall k, (k < K)%nat -> steps lo k <= hi) /\ hi < steps lo K /\ sampled step lo hi K (steps lo).
Proof.
  destruct exceed as (K & H1 & HK & Hge). pose proof (exceed_sampled K H1 HK Hge) as HS.
  destruct (Rlt_dec hi (steps lo K)) as [H|H].
  - exists K. split; [exact H1|]. split; [intros k Hk; apply (samples_in _ _ _ _ _ HS k Hk)|]. split; [exact H|exact HS].
  - assert (Heq : steps lo K = hi) by lra. exists (S K). split; [lia|].
    assert (HK' : forall k, (k < S K)%nat -> lo <= steps lo k <= hi).
    { intros k Hk. destruct (Nat.eq_dec k K) as [->|Hne]; [lra|]. apply (samples_in _ _ _ _ _ HS k). lia. }
    split; [intros k Hk; apply HK', Hk|]. split; [rewrite steps_S, Heq; apply step_end|]. split.
    + split; [lia|reflexivity].
    + exact HK'.
    + intros k Hk. destruct (Nat.eq_dec (S k) K) as [He|Hne]; [|apply (samples_advance _ _ _ _ _ HS); lia].
      rewrite He, Heq. pose proof (steps_last K H1 HK Hge) as Hl. replace (K - 1)%nat with k in Hl by lia. split; [|lra].
      destruct k as [|k]; [|apply HK; lia]. cbn.
      destruct (Req_dec lo hi) as [E|E]; [|lra]. exfalso. subst K. cbn in Heq. rewrite E in Heq. pose proof step_end. lra.
    + replace (S K - 1)%nat with K by lia. lra.
    + pose proof (steps_number K H1 HK). rewrite S_INR. lra.
    + intros k Hk Hlt. destruct (Nat.eq_dec k K) as [->|Hne]; [lra|]. apply (steps_before K k HK). lia.
Qed.
End steps.
