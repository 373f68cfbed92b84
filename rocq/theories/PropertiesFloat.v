(** C161-C163: the loops over time and the weights of the shooter, with doubles. *)
From Coq Require Import Reals ZArith Lra.
From Verif Require Import Maps Vec StateModel SeqSpec ShootSpec FloatSpec FloatModel FloatProofs FloatProofs2 FloatProofs3 FloatProofs4 FloatProofs5.
Local Open Scope R_scope.

(** C161.  The time step of Interpolate, added with rounding to nearest: if the bounds of the
    path are less than 2^52 steps, the path is sampled to its end, with configurations at most
    a step and a half, and at least half a step, apart. *)
Theorem C161_interpolate rnd step t0 t1 extra (path : R -> list R) n (start : list R) :
  to_nearest rnd -> 0 < step -> is_double step -> is_double t0 -> is_double t1 ->
  t0 <= t1 -> Rabs t0 <= powerRZ 2 52 * step -> Rabs t1 <= powerRZ 2 52 * step ->
  (forall t, length (path t) = n) -> (extra <= n)%nat -> (n <= length start)%nat ->
  exists K ts configs, sampled step t0 t1 K ts /\ (forall k, (1 <= k < K)%nat -> ts k < t1) /\ (forall k, (S k < K)%nat -> ts k + step / 2 <= ts (S k)) /\
    (forall fuel, (K <= fuel)%nat -> pathConfigsR rnd fuel extra path t0 t1 step start = Some (Ok configs)) /\
    length configs = S K /\ configs !! 0%nat = Some start /\
    (forall k, (1 <= k < K)%nat -> exists c, configs !! k = Some c /\ mixed (n - extra) extra start (path (ts k)) c) /\
    exists c, configs !! K = Some c /\ mixed (n - extra) extra start (path t1) c.
Proof. intros. apply interpolate_rounded; assumption. Qed.
Print Assumptions C161_interpolate.

(** The validation of a path, forwards: it ends, the verdict is that of the instants it
    visits. *)
Theorem C161_forward rnd step tmin tmax ok :
  to_nearest rnd -> 0 < step -> is_double step -> is_double tmin -> is_double tmax ->
  tmin <= tmax -> Rabs tmin <= powerRZ 2 52 * step -> Rabs tmax <= powerRZ 2 52 * step ->
  exists K ts, sampled step tmin tmax K ts /\ forall fuel, (K + 2 <= fuel)%nat ->
  exists res, validatePathR rnd ok step tmin tmax false fuel = Some res /\ verdict ok K ts tmin tmax res.
Proof. intros. apply (forward_rounded rnd); assumption. Qed.
Print Assumptions C161_forward.
(** backwards: the same on the opposite times *)
Theorem C161_reverse rnd step tmin tmax ok :
  to_nearest rnd -> 0 < step -> is_double step -> is_double tmin -> is_double tmax ->
  tmin <= tmax -> Rabs tmin <= powerRZ 2 52 * step -> Rabs tmax <= powerRZ 2 52 * step ->
  exists K ts, sampled step (- tmax) (- tmin) K ts /\ forall fuel, (K + 2 <= fuel)%nat ->
  exists res, validatePathR rnd ok step tmin tmax true fuel = Some (mirror res) /\ verdict (fun t => ok (- t)) K ts (- tmax) (- tmin) res.
Proof.
  intros Hr Hs Hds Hlo Hhi Hle Hml Hmh.
  destruct (forward_rounded (fun x => - rnd (- x)) (nearest_opp rnd Hr) step (- tmax) (- tmin) Hs Hds (double_opp _ Hhi) (double_opp _ Hlo)
    ltac:(lra) ltac:(rewrite Rabs_Ropp; exact Hmh) ltac:(rewrite Rabs_Ropp; exact Hml) (fun t => ok (- t))) as (K & ts & HS & H).
  exists K, ts. split; [exact HS|]. intros fuel Hf. destruct (H fuel Hf) as (res & E & Hv). exists res. split; [|exact Hv].
  unfold validatePathR. rewrite <- (Ropp_involutive tmax) at 2 3. rewrite reverse_mirror, E. reflexivity.
Qed.
Print Assumptions C161_reverse.
(** every instant is within three quarters of a step of one that was found valid, if the path
    is accepted *)
Theorem C161_dense step lo hi K ts t : sampled step lo hi K ts -> lo <= t <= hi ->
  exists k, (k <= K)%nat /\ Rabs (t - instant K ts hi k) <= 3 / 4 * step.
Proof. exact (sampled_dense step lo hi K ts t). Qed.
Print Assumptions C161_dense.

(** A step below half of the spacing of the doubles at the start never advances: neither loop
    ends. *)
Theorem C161_stuck rnd step t0 t1 :
  to_nearest rnd -> is_double t0 -> 0 < step -> step < powerRZ 2 (-54) * t0 -> t0 < t1 ->
  (forall extra (path : R -> list R) n (start : list R) fuel, (forall t, length (path t) = n) -> (extra <= n)%nat -> (n <= length start)%nat ->
     pathConfigsR rnd fuel extra path t0 t1 step start = None) /\
  (forall ok fuel, ok t0 = true -> validatePathR rnd ok step t0 t1 false fuel = None).
Proof.
  intros Hr Hd Hs Hst Hlt. split.
  - intros. apply (interpolate_stuck rnd step t0 t1 extra path n start fuel); assumption.
  - intros ok fuel Hok. apply forward_stuck; [assumption..|apply Rlt_le, Hlt|exact Hok].
Qed.
Print Assumptions C161_stuck.

(** rounding to nearest even, a step of (the double nearest to) 0.1 from 0 to 1; and a step of 1 at
    2^55 *)
Example C161_case : to_nearest nearestEven /\ let step := IZR 3602879701896397 * powerRZ 2 (-55) in
  0 < step /\ is_double step /\ is_double 0 /\ is_double 1 /\ Rabs 0 <= powerRZ 2 52 * step /\ Rabs 1 <= powerRZ 2 52 * step.
Proof.
  split; [exact nearestEven_ok|]. intros step. assert (H55 : powerRZ 2 (-55) = / 36028797018963968).
  { change (/ 2 ^ 55 = / 36028797018963968). f_equal. ring. }
  assert (H52 : powerRZ 2 52 = 4503599627370496). { change (2 ^ 52 = 4503599627370496). ring. }
  assert (Hs : 1 / 100 < step). { unfold step. rewrite H55. lra. }
  split; [lra|]. split; [exists 3602879701896397%Z, (-55)%Z; split; [reflexivity|]; split; reflexivity || discriminate|].
  split; [exists 0%Z, 0%Z; split; [ring|]; split; reflexivity || discriminate|].
  split; [exists 1%Z, 0%Z; split; [cbn; ring|]; split; reflexivity || discriminate|].
  rewrite Rabs_R0, Rabs_R1, H52. split; nra.
Qed.
Example C161_stuck_case : is_double (powerRZ 2 55) /\ 0 < 1 /\ 1 < powerRZ 2 (-54) * powerRZ 2 55 /\ powerRZ 2 55 < powerRZ 2 56.
Proof.
  split; [exists 1%Z, 55%Z; split; [ring|]; split; reflexivity || discriminate|]. split; [lra|].
  rewrite <- powerRZ_add by lra. split; [change (1 < 2 * 1); lra|].
  change 56%Z with (55 + 1)%Z. rewrite powerRZ_add by lra. pose proof (powerRZ_lt 2 55 ltac:(lra)). rewrite powerRZ_1. lra.
Qed.

(** C162.  The weights of the triangles, computed with doubles: they never decrease and are
    within [delta] of the exact shares of the area. *)
Theorem C162_weights rnd areas :
  to_nearest rnd -> Forall (fun a => 0 <= a /\ is_double a) areas -> INR (length areas) * powerRZ 2 (-53) <= / 16 -> 0 < ShootSpec.total areas ->
  let delta := 8 * INR (length areas) * powerRZ 2 (-53) in
  exists ws, weightsR rnd areas = Some ws /\ length ws = length areas /\
  (forall i w, ws !! i = Some w -> Rabs (w - sum_first (S i) areas / ShootSpec.total areas) <= delta) /\
  (forall i v w, ws !! i = Some v -> ws !! S i = Some w -> v <= w).
Proof. exact (weights_rounded' rnd areas). Qed.
Print Assumptions C162_weights.
(** Every random number of [0, 1] chooses a triangle, the exact one or one that would be chosen
    by a number at most [delta] away; triangles without area are not chosen, but for the
    first and the last one. *)
Theorem C162_choice rnd areas r :
  to_nearest rnd -> Forall (fun a => 0 <= a /\ is_double a) areas -> INR (length areas) * powerRZ 2 (-53) <= / 16 -> 0 < ShootSpec.total areas ->
  0 <= r <= 1 -> let delta := 8 * INR (length areas) * powerRZ 2 (-53) in
  exists i, weightedIndexR rnd areas r = Ok i /\ (i < length areas)%nat /\
    r <= sum_first (S i) areas / ShootSpec.total areas + delta /\ (i = 0%nat \/ sum_first i areas / ShootSpec.total areas - delta < r) /\
    (areas !! i = Some 0 -> i = 0%nat \/ S i = length areas).
Proof. exact (index_rounded rnd areas r). Qed.
Print Assumptions C162_choice.
Example C162_case : let areas := [1; 3; 0; 2; 1] in
  Forall (fun a => 0 <= a /\ is_double a) areas /\ INR (length areas) * powerRZ 2 (-53) <= / 16 /\ ShootSpec.total areas = 7.
Proof.
  assert (H : forall m : Z, (0 <= m < 10)%Z -> 0 <= IZR m /\ is_double (IZR m)).
  { intros m Hm. split; [apply IZR_le; lia|]. exists m, 0%Z. split; [cbn; ring|]. split; lia. }
  split; [repeat (apply Forall_cons; split); [exact (H 1%Z ltac:(lia))|exact (H 3%Z ltac:(lia))|exact (H 0%Z ltac:(lia))|exact (H 2%Z ltac:(lia))|exact (H 1%Z ltac:(lia))|apply Forall_nil; exact I]|].
  split; [|unfold ShootSpec.total; cbn; ring]. cbn [length]. replace (INR 5) with 5 by (cbn; ring).
  apply Rle_trans with (5 * / 1024); [|lra]. apply Rmult_le_compat_l; [lra|]. apply u_small.
Qed.

(** C163.  Looking for a time along a path by steps of 0.01, with doubles: the search ends, at
    the first instant that is late enough, else at the end of the path. *)
Theorem C163_search rnd len : to_nearest rnd -> is_double len -> 0 < len -> len <= powerRZ 2 52 * hundredth ->
  exists K ts, sampled hundredth 0 len K ts /\ (forall k, (k < K)%nat -> ts k < len) /\
  forall at_ t fuel, (K < fuel)%nat -> exists i, timeIndexR rnd at_ len t fuel = Some i /\ first_reached at_ t K ts len i.
Proof. exact (fun Hr Hd Hp Hm => look_rounded rnd Hr len Hd Hp Hm). Qed.
Print Assumptions C163_search.
(** If the time never decreases along the path and is reached at [x] and not before, the
    answer is [x] or less than a step and a half later. *)
Theorem C163_late rnd len at_ t x : to_nearest rnd -> is_double len -> 0 < len -> len <= powerRZ 2 52 * hundredth ->
  (forall y z, 0 <= y -> y <= z -> z <= len -> at_ y <= at_ z) ->
  0 <= x <= len -> t <= at_ x -> (forall y, 0 <= y -> y < x -> at_ y < t) ->
  exists n, forall fuel, (n < fuel)%nat -> exists i, timeIndexR rnd at_ len t fuel = Some i /\ x <= i <= x + 3 / 2 * hundredth.
Proof.
  intros Hr Hd Hp Hm Hmon Hx Ht Hb. destruct (look_rounded rnd Hr len Hd Hp Hm) as (K & ts & HS & HK & H).
  exists K. intros fuel Hf. destruct (H at_ t fuel Hf) as (i & E & Hi). exists i. split; [exact E|].
  exact (reached_late at_ t hundredth len K ts i x HS ltac:(pose proof hundredth_range; lra) HK Hmon Hi Hx Ht Hb).
Qed.
Print Assumptions C163_late.
(** the step is that of the nearest double to 0.01 *)
Theorem C163_step z : is_double z -> Rabs (hundredth - 1 / 100) <= Rabs (z - 1 / 100).
Proof. exact (hundredth_nearest z). Qed.
Print Assumptions C163_step.
Example C163_case : is_double 1 /\ 0 < 1 /\ 1 <= powerRZ 2 52 * hundredth /\
  let at_ := fun y => y in (forall y z, 0 <= y -> y <= z -> z <= 1 -> at_ y <= at_ z) /\ 0 <= 1 / 2 <= 1 /\ 1 / 2 <= at_ (1 / 2) /\ (forall y, 0 <= y -> y < 1 / 2 -> at_ y < 1 / 2).
Proof.
  split; [exists 1%Z, 0%Z; split; [cbn; ring|]; split; reflexivity || discriminate|]. split; [lra|].
  split; [|split; [|split; [|split]]; intros; lra].
  assert (H52 : powerRZ 2 52 = 4503599627370496). { change (2 ^ 52 = 4503599627370496). ring. }
  rewrite H52. pose proof hundredth_range. lra.
Qed.
