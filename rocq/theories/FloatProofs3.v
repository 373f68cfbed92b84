(** Proofs of C161: Interpolate and the validation of paths. *)
From Coq Require Import Reals ZArith Lra Lia Psatz.
From Verif Require Import Maps Vec VecProofs StateModel ValidModel SeqModel SeqSpec SeqProofs.
From Verif Require Import FloatSpec FloatModel FloatProofs FloatProofs2.
Local Open Scope R_scope.

Lemma sampleFromR_spec rnd extra (path : R -> list R) n len t1 step K :
  (forall t, length (path t) = n) -> (extra <= n)%nat -> (n <= len)%nat ->
  forall i start back fuel, length start = len -> (back = start \/ exists q, length q = n /\ mixed (n - extra) extra start q back) ->
  (forall k, (k < K)%nat -> steps rnd step i k < t1) -> t1 <= steps rnd step i K -> (K < fuel)%nat ->
  exists l, sampleFromR rnd fuel extra path t1 step i back = Some (Ok l) /\ length l = S K /\
    (forall k, (k < K)%nat -> exists c, l !! k = Some c /\ mixed (n - extra) extra start (path (steps rnd step i k)) c) /\
    exists c, l !! K = Some c /\ mixed (n - extra) extra start (path t1) c.
Proof.
  intros Hp He Hn. induction K as [|K IH]; intros i start back fuel Hls Hb Hlt Hge Hf;
    (destruct fuel as [|fuel]; [lia|]); simpl.
  - simpl in Hge. unfold Rltb. destruct (Rlt_dec i t1); [lra|].
    assert (Hlb : length back = len) by (destruct Hb as [->|(q & _ & [L _])]; congruence).
    destruct (configPosition_ok extra back (path (Rmin t1 t1))) as (c & -> & Hc); [rewrite Hp; lia..|].
    exists [c]. split; [done|]. split; [done|]. split; [lia|]. exists c. split; [done|].
    rewrite Rmin_left in Hc by lra. rewrite Hp in Hc.
    destruct Hb as [->|(q & Hq & Hb)]; [done|]. eapply mixed_base; [| |exact Hb|exact Hc]; [lia|]. by rewrite Hp.
  - assert (Hi : i < t1) by exact (Hlt 0%nat ltac:(lia)).
    unfold Rltb. destruct (Rlt_dec i t1); [|lra].
    assert (Hlb : length back = len) by (destruct Hb as [->|(q & _ & [L _])]; congruence).
    destruct (configPosition_ok extra back (path (Rmin i t1))) as (c & -> & Hc); [rewrite Hp; lia..|].
    rewrite Rmin_left in Hc by lra. rewrite Hp in Hc.
    assert (Hc' : mixed (n - extra) extra start (path i) c).
    { destruct Hb as [->|(q & Hq & Hb)]; [done|]. eapply mixed_base; [| |exact Hb|exact Hc]; [lia|]. by rewrite Hp. }
    edestruct (IH (rnd (i + step)) start c fuel) as (l & -> & Hl & Hk & (z & Hz & Hzm)).
    + done.
    + right. exists (path i). by rewrite Hp.
    + intros k Hk. exact (Hlt (S k) ltac:(lia)).
    + exact Hge.
    + lia.
    + exists (c :: l). split; [done|]. split; [simpl; lia|]. split.
      * intros [|k] Hk'; [exists c; by split|]. destruct (Hk k ltac:(lia)) as (c' & Hc1 & Hc2). exists c'. by split.
      * exists z. by split.
Qed.

Section times.
Context (rnd : R -> R) (Hr : to_nearest rnd) (step lo hi : R).
Context (Hs : 0 < step) (Hds : is_double step) (Hlo : is_double lo) (Hhi : is_double hi).
Context (Hle : lo <= hi) (Hml : Rabs lo <= powerRZ 2 52 * step) (Hmh : Rabs hi <= powerRZ 2 52 * step).

Lemma interpolate_rounded extra (path : R -> list R) n (start : list R) :
  (forall t, length (path t) = n) -> (extra <= n)%nat -> (n <= length start)%nat ->
  exists K ts configs, sampled step lo hi K ts /\ (forall k, (1 <= k < K)%nat -> ts k < hi) /\ (forall k, (S k < K)%nat -> ts k + step / 2 <= ts (S k)) /\
    (forall fuel, (K <= fuel)%nat -> pathConfigsR rnd fuel extra path lo hi step start = Some (Ok configs)) /\
    length configs = S K /\ configs !! 0%nat = Some start /\
    (forall k, (1 <= k < K)%nat -> exists c, configs !! k = Some c /\ mixed (n - extra) extra start (path (ts k)) c) /\
    exists c, configs !! K = Some c /\ mixed (n - extra) extra start (path hi) c.
Proof.
  intros Hp He Hn. destruct (exceed rnd Hr step lo hi) as (K & H1 & HK & Hge); try assumption.
  destruct K as [|K]; [lia|].
  assert (Hsamp : forall fuel, (K < fuel)%nat -> exists l, sampleFromR rnd fuel extra path hi step (rnd (lo + step)) start = Some (Ok l) /\ length l = S K /\
    (forall k, (k < K)%nat -> exists c, l !! k = Some c /\ mixed (n - extra) extra start (path (steps rnd step (rnd (lo + step)) k)) c) /\
    exists c, l !! K = Some c /\ mixed (n - extra) extra start (path hi) c).
  { intros fuel Hf. apply (sampleFromR_spec rnd extra path n (length start)); try done; [by left|].
    intros k Hk. exact (HK (S k) ltac:(lia)). }
  destruct (Hsamp (S K) ltac:(lia)) as (l & El & Hl & Hk & z & Hz & Hzm).
  exists (S K), (steps rnd step lo), (start :: l). split; [apply exceed_sampled; assumption|]. split; [exact HK|].
  split; [intros k Hk'; apply (steps_one rnd Hr step lo hi Hs Hds Hlo Hhi Hml Hmh (S K) k HK Hk') || (eapply steps_one; eassumption)|].
  split; [|split_and!].
  - intros fuel Hf. unfold pathConfigsR. destruct (Hsamp fuel ltac:(lia)) as (l' & -> & Hl' & Hk' & z' & Hz' & Hzm').
    do 3 f_equal. apply list_eq. intros i. destruct (decide (i < K)%nat) as [Hi|Hi].
    + destruct (Hk i Hi) as (c & -> & Hc). destruct (Hk' i Hi) as (c' & -> & Hc'). f_equal. by eapply mixed_det.
    + destruct (decide (i = K)) as [->|Hne]; [rewrite Hz, Hz'; f_equal; by eapply mixed_det|].
      rewrite !lookup_ge_None_2; [done|lia..].
  - simpl. lia.
  - done.
  - intros [|k] Hk'; [lia|]. destruct (Hk k ltac:(lia)) as (c & Hc & Hm). exists c. split; [done|exact Hm].
  - exists z. done.
Qed.

Lemma forward_rounded ok : exists K ts, sampled step lo hi K ts /\ forall fuel, (K + 2 <= fuel)%nat ->
  exists res, forwardLoopR rnd ok step lo hi fuel 0 lo lo = Some res /\ verdict ok K ts lo hi res.
Proof.
  destruct (beyond_sampled rnd Hr step lo hi) as (K & H1 & HK & Hgt & HS); try assumption.
  exists K, (steps rnd step lo). split; [exact HS|].
  set (ts := steps rnd step lo) in *.
  assert (Hin : forall k, (k < K)%nat -> instant K ts hi k = ts k). { intros k Hk. unfold instant. rewrite (proj2 (Nat.ltb_lt k K) Hk). reflexivity. }
  assert (HinK : instant K ts hi K = hi). { unfold instant. rewrite Nat.ltb_irrefl. reflexivity. }
  assert (Hend : Rltb hi (rnd (hi + step)) = true). { apply Rltb_true. apply step_end; assumption. }
  assert (Hloop : forall d k fuel, (k + d = K - 1)%nat -> (k < K)%nat -> (d + 3 <= fuel)%nat -> (forall j, (j < k)%nat -> ok (instant K ts hi j) = true) ->
    exists res, forwardLoopR rnd ok step lo hi fuel 0 (ts k) (instant K ts hi (k - 1)) = Some res /\ verdict ok K ts lo hi res).
  { induction d as [|d IH]; intros k fuel Hk HkK Hf Hprev; (destruct fuel as [|fuel]; [lia|]); cbn [forwardLoopR Nat.ltb Nat.leb].
    - destruct (ok (ts k)) eqn:Hok.
      + assert (Hlt : Rltb hi (rnd (ts k + step)) = true).
        { apply Rltb_true. unfold ts. rewrite <- steps_S. replace (S k) with K by lia. exact Hgt. }
        rewrite Hlt. destruct fuel as [|fuel]; [lia|]. cbn [forwardLoopR Nat.ltb Nat.leb].
        assert (Hprev' : forall j, (j < K)%nat -> ok (instant K ts hi j) = true).
        { intros j Hj. destruct (Nat.eq_dec j k) as [->|Hne]; [rewrite Hin by lia; exact Hok|apply Hprev; lia]. }
        destruct (ok hi) eqn:Hoh.
        * rewrite Hend. destruct fuel as [|fuel]; [lia|]. cbn [forwardLoopR Nat.ltb Nat.leb]. eexists. split; [reflexivity|]. constructor.
          intros j Hj. destruct (Nat.eq_dec j K) as [->|Hne]; [rewrite HinK; exact Hoh|apply Hprev'; lia].
        * eexists. split; [reflexivity|].
          replace (ts k) with (instant K ts hi (K - 1)) by (rewrite Hin by lia; f_equal; lia).
          pose proof (Rejected ok K ts lo hi K ltac:(lia) ltac:(rewrite HinK; exact Hoh) Hprev') as HR. rewrite HinK in HR. exact HR.
      + eexists. split; [reflexivity|]. rewrite <- (Hin k) by lia. constructor; [lia| |exact Hprev]. rewrite Hin by lia. exact Hok.
    - destruct (ok (ts k)) eqn:Hok.
      + assert (Hlt : Rltb hi (rnd (ts k + step)) = false).
        { apply Rltb_false. unfold ts. rewrite <- steps_S. apply Rle_not_lt || idtac. apply HK. lia. }
        rewrite Hlt. replace (rnd (ts k + step)) with (ts (S k)) by apply steps_S.
        replace (ts k) with (instant K ts hi (S k - 1)) by (rewrite Hin by lia; f_equal; lia).
        apply IH; [lia|lia|lia|]. intros j Hj. destruct (Nat.eq_dec j k) as [->|Hne]; [rewrite Hin by lia; exact Hok|apply Hprev; lia].
      + eexists. split; [reflexivity|]. rewrite <- (Hin k) by lia. constructor; [lia| |exact Hprev]. rewrite Hin by lia. exact Hok. }
  intros fuel Hf. destruct (Hloop (K - 1)%nat 0%nat fuel) as (res & E & Hv); [lia|lia|lia|lia|]. exists res. split; [|exact Hv].
  rewrite Hin in E by lia. exact E.
Qed.
(** no stretch of the range as long as three quarters of a step without a sample *)
Lemma sampled_dense K ts t : sampled step lo hi K ts -> lo <= t <= hi ->
  exists k, (k <= K)%nat /\ Rabs (t - instant K ts hi k) <= 3 / 4 * step.
Proof.
  intros HS Ht. destruct (samples_start _ _ _ _ _ HS) as [H1 H0].
  assert (Hf : forall n, (n < K)%nat -> ts n <= t \/ exists k, (S k <= n)%nat /\ ts k <= t < ts (S k)).
  { induction n as [|n IH]; intros Hn; [left; lra|].
    destruct (IH ltac:(lia)) as [H|(k & Hk & H)]; [|right; exists k; split; [lia|exact H]].
    destruct (Rle_dec (ts (S n)) t) as [H'|H']; [left; exact H'|right; exists n; split; [lia|lra]]. }
  assert (Hcase : forall a b i j, instant K ts hi i = a -> instant K ts hi j = b -> (i <= K)%nat -> (j <= K)%nat -> a <= t <= b -> b <= a + 3 / 2 * step ->
    exists k, (k <= K)%nat /\ Rabs (t - instant K ts hi k) <= 3 / 4 * step).
  { intros a b i j Hi Hj HiK HjK Hab Hgap. destruct (Rle_dec (t - a) (3 / 4 * step)) as [H|H].
    - exists i. split; [exact HiK|]. rewrite Hi, Rabs_right by lra. exact H.
    - exists j. split; [exact HjK|]. rewrite Hj. rewrite Rabs_left1 by lra. lra. }
  assert (Hin : forall k, (k < K)%nat -> instant K ts hi k = ts k). { intros k Hk. unfold instant. rewrite (proj2 (Nat.ltb_lt k K) Hk). reflexivity. }
  assert (HinK : instant K ts hi K = hi). { unfold instant. rewrite Nat.ltb_irrefl. reflexivity. }
  destruct (Hf (K - 1)%nat ltac:(lia)) as [H|(k & Hk & H)].
  - apply (Hcase (ts (K - 1)%nat) hi (K - 1)%nat K); [apply Hin; lia|exact HinK|lia|lia|lra|]. pose proof (samples_end _ _ _ _ _ HS). lra.
  - pose proof (samples_advance _ _ _ _ _ HS k ltac:(lia)). apply (Hcase (ts k) (ts (S k)) k (S k)); [apply Hin; lia|apply Hin; lia|lia|lia|lra|lra].
Qed.
End times.

(** backwards: the same on the opposite times *)
Lemma nearest_opp rnd : to_nearest rnd -> to_nearest (fun x => - rnd (- x)).
Proof.
  intros H x. destruct (H (- x)) as [H1 H2]. split; [apply double_opp, H1|]. intros z Hz. pose proof (H2 (- z) (double_opp z Hz)) as H3.
  replace (- rnd (- x) - x) with (- (rnd (- x) - - x)) by ring. replace (z - x) with (- (- z - - x)) by ring. rewrite !Rabs_Ropp. exact H3.
Qed.
Lemma reverse_mirror rnd ok step tmin tmax fuel fin t last :
  reverseLoopR rnd ok step tmin tmax fuel fin (- t) (- last) =
  option_map mirror (forwardLoopR (fun x => - rnd (- x)) (fun t => ok (- t)) step (- tmax) (- tmin) fuel fin t last).
Proof.
  revert fin t last. induction fuel as [|fuel IH]; intros fin t last; [reflexivity|]. cbn [reverseLoopR forwardLoopR].
  destruct (fin <? 2)%nat; [|reflexivity]. destruct (ok (- t)); [|cbn; rewrite Ropp_involutive; reflexivity].
  replace (- (t + step)) with (- t - step) by ring.
  destruct (Rltb (rnd (- t - step)) tmin) eqn:E1, (Rltb (- tmin) (- rnd (- t - step))) eqn:E2.
  - rewrite <- IH, Ropp_involutive. reflexivity.
  - apply Rltb_true in E1. apply Rltb_false in E2. lra.
  - apply Rltb_false in E1. apply Rltb_true in E2. lra.
  - rewrite <- IH, Ropp_involutive. reflexivity.
Qed.
(** a step too small to change the time *)
Lemma interpolate_stuck rnd step t0 t1 extra (path : R -> list R) n (start : list R) fuel :
  to_nearest rnd -> is_double t0 -> 0 < step -> step < powerRZ 2 (-54) * t0 -> t0 < t1 ->
  (forall t, length (path t) = n) -> (extra <= n)%nat -> (n <= length start)%nat ->
  pathConfigsR rnd fuel extra path t0 t1 step start = None.
Proof.
  intros Hr Hd Hs Hst Hlt Hp He Hn. unfold pathConfigsR. pose proof (nearest_absorb rnd Hr t0 step Hd Hs Hst) as Ha. rewrite Ha.
  assert (H : forall fuel back, length back = length start -> sampleFromR rnd fuel extra path t1 step t0 back = None).
  { induction fuel0 as [|f IH]; intros back Hb; [reflexivity|]. cbn [sampleFromR]. rewrite (proj2 (Rltb_true _ _) Hlt).
    destruct (configPosition_ok extra back (path (Rmin t0 t1))) as (c & -> & Hc); [rewrite Hp; lia..|].
    rewrite Ha, IH; [reflexivity|]. destruct Hc as [Hc _]. congruence. }
  rewrite H; reflexivity.
Qed.
Lemma forward_stuck rnd ok step tmin tmax fuel :
  to_nearest rnd -> is_double tmin -> 0 < step -> step < powerRZ 2 (-54) * tmin -> tmin <= tmax -> ok tmin = true ->
  forwardLoopR rnd ok step tmin tmax fuel 0 tmin tmin = None.
Proof.
  intros Hr Hd Hs Hst Hle Hok. induction fuel as [|f IH]; [reflexivity|]. cbn [forwardLoopR Nat.ltb Nat.leb]. rewrite Hok.
  rewrite (nearest_absorb rnd Hr tmin step Hd Hs Hst). rewrite (proj2 (Rltb_false _ _) Hle). exact IH.
Qed.
