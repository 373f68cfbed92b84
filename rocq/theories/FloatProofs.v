(** Rounding to nearest: monotone, and a relative error for the sum of two doubles (Flocq). *)
From Coq Require Import Reals ZArith Lra Lia Psatz.
From Flocq Require Import Core Relative Plus_error.
From Verif Require Import FloatSpec.
Local Open Scope R_scope.

Notation fexp := (FLT_exp (-1074) 53).
Local Instance prec53 : Prec_gt_0 53. Proof. reflexivity. Qed.
Lemma double_format x : is_double x <-> generic_format radix2 fexp x.
Proof.
  split.
  - intros (m & e & -> & Hm & He). apply generic_format_FLT. exists (Float radix2 m e); [|exact Hm|exact He].
    unfold F2R. cbn [Fnum Fexp]. rewrite bpow_powerRZ. reflexivity.
  - intros H. apply FLT_format_generic in H; [|reflexivity]. destruct H as [[m e] -> Hm He]. exists m, e.
    unfold F2R. cbn [Fnum Fexp] in *. rewrite bpow_powerRZ. auto.
Qed.
Lemma double_opp x : is_double x -> is_double (- x).
Proof. intros (m & e & -> & Hm & He). exists (- m)%Z, e. rewrite opp_IZR. split; [ring|]. split; [lia|exact He]. Qed.
Definition nearestEven (x : R) : R := round radix2 fexp ZnearestE x.
Lemma nearestEven_ok : to_nearest nearestEven.
Proof.
  intros x. split.
  - apply double_format. apply generic_format_round; typeclasses eauto.
  - intros z Hz. apply double_format in Hz. apply (round_N_pt radix2 fexp (fun n => negb (Z.even n)) x); exact Hz.
Qed.

Section nearest.
Context (rnd : R -> R) (Hr : to_nearest rnd).
Lemma nearest_double x : is_double (rnd x).
Proof. apply Hr. Qed.
Lemma nearest_mono x y : x <= y -> rnd x <= rnd y.
Proof.
  intros H. destruct (Req_dec x y) as [->|Hne]; [lra|]. destruct (Rle_dec (rnd x) (rnd y)) as [|Hn]; [assumption|exfalso].
  pose proof (proj2 (Hr x) _ (nearest_double y)) as H1. pose proof (proj2 (Hr y) _ (nearest_double x)) as H2.
  revert H1 H2. unfold Rabs. repeat destruct (Rcase_abs _); intros; lra.
Qed.
Lemma nearest_fix x : is_double x -> rnd x = x.
Proof.
  intros H. pose proof (proj2 (Hr x) _ H) as H1. replace (x - x) with 0 in H1 by ring. rewrite Rabs_R0 in H1.
  destruct (Req_dec (rnd x - x) 0) as [|Hn]; [lra|]. pose proof (Rabs_pos_lt _ Hn). lra.
Qed.
Lemma nearest_plus x y : is_double x -> is_double y -> Rabs (rnd (x + y) - (x + y)) <= powerRZ 2 (-53) * Rabs (x + y).
Proof.
  intros Hx Hy. apply double_format in Hx, Hy.
  destruct (Rle_dec (Rabs (x + y)) (bpow radix2 (53 + -1074))) as [H|H].
  - assert (Hf : generic_format radix2 fexp (x + y)) by (apply FLT_format_plus_small; [reflexivity|assumption..]).
    apply double_format in Hf. rewrite (nearest_fix _ Hf). replace (x + y - (x + y)) with 0 by ring. rewrite Rabs_R0.
    apply Rmult_le_pos; [apply powerRZ_le; lra|apply Rabs_pos].
  - eapply Rle_trans; [apply (proj2 (Hr _)); apply (proj1 (nearestEven_ok (x + y)))|].
    unfold nearestEven. eapply Rle_trans; [apply (relative_error_N_FLT radix2 (-1074) 53)|].
    + reflexivity.
    + apply Rlt_le, Rnot_le_lt. intros H1. apply H. eapply Rle_trans; [exact H1|]. apply bpow_le. lia.
    + right. f_equal. change (/ 2 * bpow radix2 (-52) = powerRZ 2 (-53)). rewrite bpow_powerRZ.
      change (-52)%Z with (-53 + 1)%Z. rewrite powerRZ_add by (cbn; lra). change (IZR radix2) with 2. rewrite powerRZ_1. lra.
Qed.
(** a double further than [t] is further by more than 2^-53 t; less than half of that is lost *)
Lemma nearest_absorb t s : is_double t -> 0 < s -> s < powerRZ 2 (-54) * t -> rnd (t + s) = t.
Proof.
  intros Ht Hs Hst. assert (Hp : 0 < powerRZ 2 (-54)) by (apply powerRZ_lt; lra).
  assert (Hpos : 0 < t). { apply Rnot_le_lt. intros H. nra. }
  assert (H54 : powerRZ 2 (-53) = 2 * powerRZ 2 (-54)).
  { change (-53)%Z with (-54 + 1)%Z. rewrite powerRZ_add by lra. rewrite powerRZ_1. ring. }
  pose proof (proj2 (Hr (t + s)) t Ht) as H1. replace (t - (t + s)) with (- s) in H1 by ring. rewrite Rabs_Ropp, (Rabs_right s) in H1 by lra.
  destruct (Rtotal_order (rnd (t + s)) t) as [H|[H|H]]; [|exact H|].
  - rewrite Rabs_left in H1 by lra. lra.
  - exfalso. assert (Hu : t + ulp radix2 fexp t <= rnd (t + s)).
    { rewrite <- succ_eq_pos by lra. apply succ_le_lt; [typeclasses eauto|apply double_format, Ht|apply double_format, nearest_double|exact H]. }
    assert (Hg : Rabs t * bpow radix2 (-53) < ulp radix2 fexp t) by exact (ulp_FLT_gt radix2 (-1074) 53 t).
    rewrite Rabs_right, bpow_powerRZ in Hg by lra. change (IZR radix2) with 2 in Hg.
    pose proof (Rle_abs (rnd (t + s) - (t + s))). assert (t * powerRZ 2 (-53) = 2 * (powerRZ 2 (-54) * t)) by (rewrite H54; ring). lra.
Qed.
End nearest.
