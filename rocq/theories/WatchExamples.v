(** A history of calls on which the hypotheses of the profiler's theorems hold. *)
From Coq Require Import Reals ZArith Lra Lia.
From stdpp Require Import gmap strings.
From Verif Require Export WatchProofs.
Local Open Scope R_scope.

(** two measures of "a", of 2 and 1 seconds, one of "b" in between *)
Definition wh : list (call * reading) :=
  [(Start "a", Rd 1 1000); (Start "b", Rd 2 2000); (Stop "a", Rd 3 3000); (Start "a", Rd 4 4000); (Stop "b", Rd 5 5000); (Stop "a", Rd 5 5000)]%string.
Lemma wh_measured : measured 1000 REAL_TIME "a" 0 wh [3 - 1; 5 - 4].
Proof. unfold wh. constructor. constructor 4; [cbn; congruence|]. constructor. constructor. constructor 4; [cbn; congruence|]. constructor. constructor. Qed.
Lemma wh_measured_cpu : measured 1000 CPU_TIME "a" 0 wh [3000 / 1000 - 1000 / 1000; 5000 / 1000 - 4000 / 1000].
Proof. unfold wh. constructor. constructor 4; [cbn; congruence|]. constructor. constructor. constructor 4; [cbn; congruence|]. constructor. constructor. Qed.
Lemma wh_forward : forward 1000 REAL_TIME 0 wh.
Proof. cbn. lra. Qed.
(** stops without time in between: a zero, then more *)
Definition wz : list (call * reading) :=
  [(Start "a", Rd 1 0); (Stop "a", Rd 4 0); (Start "a", Rd 5 0); (Stop "a", Rd 5 0); (Stop "a", Rd 7 0)]%string.
Lemma wz_measured : measured 1000 REAL_TIME "a" 0 wz [4 - 1; 5 - 5; 7 - 5].
Proof. unfold wz. repeat constructor. Qed.
(** the minimum is 2, although nothing was measured as 0 before *)
Lemma wz_min : get_min_time "a" (run 1000 wz (newWatch REAL_TIME)) = Some (7 - 5).
Proof.
  assert (H := min_forgets 1000 "a" REAL_TIME (tail wz) 0 [4 - 1; 5 - 5; 7 - 5] (newWatch REAL_TIME) (Rd 1 0) ltac:(discriminate) wz_measured eq_refl eq_refl (or_introl eq_refl)).
  specialize (H [4 - 1] [7 - 5]). destruct H as (x & Hx & Hi & _).
  - cbn [app]. replace (5 - 5) with 0 by lra. reflexivity.
  - intros y Hy. apply elem_of_list_singleton in Hy as ->. lra.
  - intros y Hy. apply elem_of_list_singleton in Hy as ->. lra.
  - apply elem_of_list_singleton in Hi as ->. exact Hx.
Qed.
(** a watch that has measured "a" *)
Definition ww : watch := run 1000 wh (newWatch REAL_TIME).
Lemma ww_exists : exists p, records ww !! "a"%string = Some p /\ stops p = 2%nat /\ active ww = true /\ mode ww = REAL_TIME.
Proof.
  destruct (run_start 1000 "a" REAL_TIME (tail wh) 0 [3 - 1; 5 - 4] (newWatch REAL_TIME) (Rd 1 1000) ltac:(discriminate) wh_measured eq_refl eq_refl (or_introl eq_refl)) as (p & E & _ & E2 & _).
  exists p. split; [exact E|]. split; [exact E2|]. split; reflexivity.
Qed.
