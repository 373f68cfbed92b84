(** Proofs of C163: looking for a time with rounded additions. *)
From Coq Require Import Reals ZArith Lra Lia Psatz.
From Verif Require Import Maps Vec VecProofs StateModel ValidModel SeqModel SeqSpec SeqProofs.
From Verif Require Import FloatSpec FloatModel FloatProofs FloatProofs2.
Local Open Scope R_scope.

Lemma lookTimeR_spec rnd at_ len t step K : forall c fuel,
  (forall k, (k < K)%nat -> steps rnd step c k < len) -> len <= steps rnd step c K -> (K < fuel)%nat ->
  exists r, lookTimeR rnd at_ len t step fuel c = Some r /\
    match r with
    | Some x => exists k, (k < K)%nat /\ x = steps rnd step c k /\ t <= at_ x /\ forall j, (j < k)%nat -> at_ (steps rnd step c j) < t
    | None => forall j, (j < K)%nat -> at_ (steps rnd step c j) < t
    end.
Proof.
  induction K as [|K IH]; intros c fuel Hlt Hge Hf; (destruct fuel as [|fuel]; [lia|]); cbn [lookTimeR]; unfold Rltb, Rleb.
  - cbn in Hge. destruct (Rlt_dec c len); [lra|]. exists None. split; [reflexivity|]. lia.
  - assert (Hc : c < len) by exact (Hlt 0%nat ltac:(lia)). destruct (Rlt_dec c len); [|lra].
    destruct (Rle_dec t (at_ c)) as [H|H].
    + exists (Some c). split; [reflexivity|]. exists 0%nat. split; [lia|]. split; [reflexivity|]. split; [exact H|lia].
    + destruct (IH (rnd (c + step)) fuel) as (res & -> & Hr); [intros k Hk; exact (Hlt (S k) ltac:(lia))|exact Hge|lia|].
      exists res. split; [reflexivity|]. destruct res as [x|].
      * destruct Hr as (k & Hk & -> & Ht & Hj). exists (S k). split; [lia|]. split; [reflexivity|]. split; [exact Ht|].
        intros [|j] Hj'; [cbn; lra|]. apply (Hj j). lia.
      * intros [|j] Hj; [cbn; lra|]. apply (Hr j). lia.
Qed.
Lemma hundredth_range : 99 / 10000 < hundredth < 101 / 10000.
Proof.
  unfold hundredth. assert (H : powerRZ 2 (-59) = / 576460752303423488). { change (/ 2 ^ 59 = / 576460752303423488). f_equal. ring. }
  rewrite H. lra.
Qed.
Lemma hundredth_double : is_double hundredth.
Proof. exists 5764607523034235%Z, (-59)%Z. split; [reflexivity|]. split; reflexivity || discriminate. Qed.
Lemma zero_double : is_double 0.
Proof. exists 0%Z, 0%Z. split; [ring|]. split; reflexivity || discriminate. Qed.
Section look.
Context (rnd : R -> R) (Hr : to_nearest rnd) (len : R) (Hd : is_double len) (Hp : 0 < len) (Hm : len <= powerRZ 2 52 * hundredth).
Lemma look_rounded : exists K ts, sampled hundredth 0 len K ts /\ (forall k, (k < K)%nat -> ts k < len) /\
  forall at_ t fuel, (K < fuel)%nat -> exists i, timeIndexR rnd at_ len t fuel = Some i /\ first_reached at_ t K ts len i.
Proof.
  pose proof hundredth_range as Hh. pose proof (pow_pos 52) as H52.
  assert (H0 : Rabs 0 <= powerRZ 2 52 * hundredth) by (rewrite Rabs_R0; apply Rmult_le_pos; lra).
  assert (Hl : Rabs len <= powerRZ 2 52 * hundredth) by (rewrite Rabs_pos_eq by lra; exact Hm).
  destruct (exceed rnd Hr hundredth 0 len ltac:(lra) hundredth_double zero_double Hd ltac:(lra) H0 Hl) as (K & H1 & HK & Hge).
  assert (HS : sampled hundredth 0 len K (steps rnd hundredth 0)).
  { apply exceed_sampled; try assumption; [lra|exact hundredth_double|exact zero_double|lra]. }
  assert (HK' : forall k, (k < K)%nat -> steps rnd hundredth 0 k < len). { intros [|k] Hk; [exact Hp|apply HK; lia]. }
  exists K, (steps rnd hundredth 0). split; [exact HS|]. split; [exact HK'|]. intros at_ t fuel Hf. unfold timeIndexR.
  destruct (lookTimeR_spec rnd at_ len t hundredth K 0 fuel HK' Hge Hf) as ([x|] & -> & H).
  - destruct H as (k & Hk & -> & Ht & Hj). exists (steps rnd hundredth 0 k). split; [reflexivity|]. by apply (Reached _ _ _ _ _ k).
  - exists len. split; [reflexivity|]. by apply Never.
Qed.
End look.
(** the index is less than a step and a half late *)
Lemma reached_late at_ t step len K ts i x : sampled step 0 len K ts -> 0 < step -> (forall k, (k < K)%nat -> ts k < len) ->
  (forall y z, 0 <= y -> y <= z -> z <= len -> at_ y <= at_ z) -> first_reached at_ t K ts len i ->
  0 <= x <= len -> t <= at_ x -> (forall y, 0 <= y -> y < x -> at_ y < t) -> x <= i <= x + 3 / 2 * step.
Proof.
  intros HS Hstep HK Hmon Hi Hx Ht Hbefore. destruct (samples_start _ _ _ _ _ HS) as [H1 H0].
  assert (Hb : forall j, (j < K)%nat -> at_ (ts j) < t -> ts j < x).
  { intros j Hj Hlt. apply Rnot_le_lt. intros Hge. pose proof (samples_in _ _ _ _ _ HS j Hj). pose proof (Hmon x (ts j) ltac:(lra) Hge ltac:(lra)). lra. }
  destruct Hi as [k Hk Hge Hj|Hj].
  - pose proof (samples_in _ _ _ _ _ HS k Hk) as Hin. split.
    + apply Rnot_lt_le. intros H. pose proof (Hbefore (ts k) ltac:(lra) H). lra.
    + destruct k as [|k]; [rewrite H0; lra|]. pose proof (samples_advance _ _ _ _ _ HS k Hk).
      pose proof (Hb k ltac:(lia) (Hj k ltac:(lia))). lra.
  - split; [lra|]. pose proof (samples_end _ _ _ _ _ HS). pose proof (Hb (K - 1)%nat ltac:(lia) (Hj (K - 1)%nat ltac:(lia))). lra.
Qed.
Lemma hundredth_nearest z : is_double z -> Rabs (hundredth - 1 / 100) <= Rabs (z - 1 / 100).
Proof.
  intros (m & e & -> & Hm & _). assert (H59 : powerRZ 2 (-59) = / 576460752303423488). { change (/ 2 ^ 59 = / 576460752303423488). f_equal. ring. }
  assert (Hh : Rabs (hundredth - 1 / 100) <= / 8 * powerRZ 2 (-59)). { unfold hundredth. rewrite H59. apply Rabs_le. lra. }
  destruct (Z_le_dec (-59) e) as [He|He].
  - assert (E : IZR m * powerRZ 2 e = IZR (m * 2 ^ (e + 59)) * powerRZ 2 (-59)).
    { rewrite mult_IZR, Rmult_assoc. f_equal. replace (IZR (2 ^ (e + 59))) with (powerRZ 2 (e + 59)).
      - rewrite <- powerRZ_add by lra. f_equal. lia.
      - rewrite <- (Z2Nat.id (e + 59)) by lia. rewrite <- pow_powerRZ, <- pow_IZR. reflexivity. }
    rewrite E. set (N := (m * 2 ^ (e + 59))%Z).
    destruct (Z_lt_le_dec N 5764607523034235) as [H|H].
    + assert (IZR N <= 5764607523034234) by (apply IZR_le; lia). unfold hundredth. rewrite H59.
      unfold Rabs. repeat destruct (Rcase_abs _); lra.
    + apply IZR_le in H. unfold hundredth. rewrite H59. unfold Rabs. repeat destruct (Rcase_abs _); lra.
  - assert (Hz : IZR m * powerRZ 2 e <= powerRZ 2 53 * powerRZ 2 (-60)).
    { pose proof (powerRZ_lt 2 e ltac:(lra)) as He'. apply Rle_trans with (powerRZ 2 53 * powerRZ 2 e).
      - apply Rmult_le_compat_r; [lra|]. change (powerRZ 2 53) with (2 ^ 53). rewrite pow_IZR. apply IZR_le. change (2 ^ Z.of_nat 53)%Z with (2 ^ 53)%Z. lia.
      - apply Rmult_le_compat_l; [apply powerRZ_le; lra|]. replace (-60)%Z with (e + (-60 - e))%Z by lia. rewrite powerRZ_add by lra.
        assert (1 <= powerRZ 2 (-60 - e)).
        { rewrite <- (Z2Nat.id (-60 - e)) by lia. rewrite <- pow_powerRZ. apply pow_R1_Rle. lra. }
        rewrite <- (Rmult_1_r (powerRZ 2 e)) at 1. apply Rmult_le_compat_l; lra. }
    rewrite <- powerRZ_add in Hz by lra. change (powerRZ 2 (53 + -60)) with (/ 2 ^ 7) in Hz.
    replace (2 ^ 7) with 128 in Hz by ring. rewrite H59 in Hh. unfold Rabs at 2. destruct (Rcase_abs _); lra.
Qed.
