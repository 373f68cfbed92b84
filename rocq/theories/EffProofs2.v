(** Proofs about the end effector trajectories (2): the three parts of a swing, the fits. *)
From Coq Require Import Reals Lia Lra ZArith.
From Verif Require Import SampModel TrajModel MapsProofs VecProofs StateProofs.
From Verif Require Export EffProofs.
From Verif Require Import StateModel.
Local Open Scope R_scope.

Lemma set_head p o v : setHead (cfg7 p o) v = cfg7 v o.
Proof. destruct o as [[[x y] z] w]. reflexivity. Qed.
Lemma cfg7_length p o : length (cfg7 p o) = 7%nat.
Proof. destruct o as [[[x y] z] w]. reflexivity. Qed.
Lemma path_init ff q0 q1 c T : free_flyer ff -> bz_min c = 0 -> bz_max c = T -> 0 < T -> length q0 = 7%nat -> length q1 = 7%nat ->
  bp_init ff (BP c q0 q1 0 T) = Ok (setHead q0 (bz_eval c 0)).
Proof.
  intros F H1 H2 HT L0 L1. unfold bp_init, bz_at. cbn [bp_curve bp_first bp_initial bp_final]. rewrite H1, H2.
  rewrite (proj2 (Rleb_true 0 0)), (proj2 (Rleb_true 0 T)) by lra. cbn [andb].
  replace (0 + 0 / (T - 0)) with 0 by (field; lra). replace (if Rltb 0 0 then 0 else 0) with 0 by (destruct (Rltb 0 0); reflexivity).
  rewrite (proj1 (F q0 q1 L0 L1)). reflexivity.
Qed.
Lemma path_end ff q0 q1 c T : free_flyer ff -> bz_min c = 0 -> bz_max c = T -> 0 < T -> length q0 = 7%nat -> length q1 = 7%nat ->
  bp_end ff (BP c q0 q1 0 T) = Ok (setHead q1 (bz_eval c T)).
Proof.
  intros F H1 H2 HT L0 L1. unfold bp_end, bz_at. cbn [bp_curve bp_second bp_initial bp_final]. rewrite H1, H2.
  rewrite (proj2 (Rleb_true 0 T)), (proj2 (Rleb_true T T)) by lra. cbn [andb].
  replace (0 + T / (T - 0)) with 1 by (field; lra). replace (if Rltb 1 1 then 1 else 1) with 1 by (destruct (Rltb 1 1); reflexivity).
  rewrite (proj2 (F q0 q1 L0 L1)). reflexivity.
Qed.

Section C.
Variable ff : device.
Variable pd0 : pdata.
Variables junkV junkA : R.
Variables predefInit predefGoal : pdata -> R -> list vec3.
Variable bezierOf : list vec3 -> R -> bezier.
Variable deriv : bezier -> nat -> R -> vec3.
Variable fit : nat -> pdata -> (R -> vec3) -> R -> R -> option bezier.
Notation Good := (good_curves predefInit predefGoal bezierOf deriv fit).
Notation Build := (buildPredefinedPath pd0 predefInit predefGoal bezierOf deriv).
Notation Three := (threePhases pd0 junkV junkA predefInit predefGoal bezierOf deriv).
Notation Compute := (computeBezierPath ff fit).

Lemma deriv_ok c t n : bz_min c <= t <= bz_max c -> derivate deriv c t n = Ok (deriv c n t).
Proof. intros [H1 H2]. unfold derivate. rewrite (proj2 (Rleb_true _ _) H1), (proj2 (Rleb_true _ _) H2). reflexivity. Qed.
Lemma deriv_before c t n : t < bz_min c -> derivate deriv c t n = Throw.
Proof. intros H. unfold derivate. replace (Rleb (bz_min c) t) with false; [reflexivity|]. symmetry. apply Rleb_false. lra. Qed.

Lemma build_init n p o off v a : Good -> exists c d, Build n p o off v timeTakeoff true a = Ok (BP c (cfg7 p o) (cfg7 (vadd p (vscale off n)) o) 0 (3/10), d) /\
  bz_min c = 0 /\ bz_max c = 3/10 /\ bz_eval c 0 = p /\ bz_eval c (3/10) = vadd p (vscale off n) /\
  deriv c 1 0 = vzero /\ deriv c 2 0 = vzero /\
  pc1 d = vadd p (vscale off n) /\ pdc1 d = deriv c 1 (3/10) /\ pddc1 d = deriv c 2 (3/10) /\ pj1 d = deriv c 3 (3/10).
Proof.
  intros G. unfold buildPredefinedPath, timeTakeoff. cbv zeta. rewrite Rminus_0_r.
  set (d0 := PD p _ _ _ _ _ _ _). destruct (gc_range _ _ _ _ _ G (predefInit d0 (3/10)) (3/10)) as [R1 R2].
  destruct (gc_init _ _ _ _ _ G d0 (3/10) ltac:(lra)) as (I1 & I2 & I3 & I4).
  rewrite !deriv_ok by (rewrite R1, R2; lra). cbn [ibind]. eexists _, _. split; [reflexivity|]. cbn [pc1 pdc1 pddc1 pj1].
  rewrite I1, I2, I3, I4. cbn [pc0 pc1 pdc0 pddc0 d0]. split_and!; try reflexivity; assumption.
Qed.
Lemma build_goal n p o off v a : Good -> exists c d, Build n p o off v timeTakeoff false a = Ok (BP c (cfg7 p o) (cfg7 p o) 0 (3/10), d) /\
  bz_min c = 0 /\ bz_max c = 3/10 /\ bz_eval c 0 = vadd p (vscale off n) /\ bz_eval c (3/10) = p /\
  deriv c 1 (3/10) = vzero /\ deriv c 2 (3/10) = vzero /\
  pc0 d = vadd p (vscale off n) /\ pdc0 d = deriv c 1 0 /\ pddc0 d = deriv c 2 0 /\ pj0 d = deriv c 3 0.
Proof.
  intros G. unfold buildPredefinedPath, timeTakeoff. cbv zeta. rewrite Rminus_0_r.
  set (d0 := PD (vadd p _) _ _ _ _ _ _ _). destruct (gc_range _ _ _ _ _ G (predefGoal d0 (3/10)) (3/10)) as [R1 R2].
  destruct (gc_goal _ _ _ _ _ G d0 (3/10) ltac:(lra)) as (I1 & I2 & I3 & I4).
  rewrite !deriv_ok by (rewrite R1, R2; lra). cbn [ibind]. eexists _, _. split; [reflexivity|]. cbn [pc0 pdc0 pddc0 pj0].
  rewrite I1, I2, I3, I4. cbn [pc0 pc1 pdc1 pddc1 d0]. split_and!; try reflexivity; assumption.
Qed.

Lemma phases off n0 n1 p0 o0 p1 o1 T : Good -> free_flyer ff -> 0 < T ->
  exists a c d, Three off n0 n1 p0 o0 p1 o1 = Ok (a, c, d) /\
    forall v eff wt, match fit v d eff T wt with
      | None => Compute v d eff T wt a c = Ok None
      | Some z => exists b, Compute v d eff T wt a c = Ok (Some [a; b; c]) /\ bp_curve b = z /\ swing ff deriv off T n0 n1 p0 o0 p1 o1 a b c
      end.
Proof.
  intros G F HT. unfold threePhases.
  destruct (build_init n0 p0 o0 off junkV junkA G) as (ca & da & Ea & A1 & A2 & A3 & A4 & A5 & A6 & A7 & A8 & A9 & A10).
  destruct (build_goal n1 p1 o1 off (- junkV) junkA G) as (cc & dc & Ec & C1 & C2 & C3 & C4 & C5 & C6 & C7 & C8 & C9 & C10).
  rewrite Ea, Ec. cbn [ibind]. eexists _, _, _. split; [reflexivity|]. intros v eff wt. unfold computeBezierPath.
  set (d := PD _ _ _ _ _ _ _ _). destruct (fit v d eff T wt) as [z|] eqn:Ez; [|reflexivity].
  destruct (gc_fit _ _ _ _ _ G v d eff T wt z HT Ez) as (Z1 & Z2 & Z3 & Z4 & Z5 & Z6 & Z7 & Z8 & Z9 & Z10).
  cbn [pc0 pc1 pdc0 pdc1 pddc0 pddc1 pj0 pj1 d] in Z3, Z4, Z5, Z6, Z7, Z8, Z9, Z10.
  rewrite (path_end ff _ _ ca (3/10) F A1 A2 ltac:(lra) (cfg7_length _ _) (cfg7_length _ _)).
  rewrite (path_init ff _ _ cc (3/10) F C1 C2 ltac:(lra) (cfg7_length _ _) (cfg7_length _ _)). cbn [ibind].
  rewrite Z1, Z2, (proj2 (Rleb_true 0 0)), (proj2 (Rleb_true T T)) by lra. cbn [andb].
  eexists. split; [reflexivity|]. split; [reflexivity|]. unfold swing. cbn [bp_first bp_second bp_curve].
  rewrite !set_head. split; [split_and!; reflexivity|]. split; [|split; [split; assumption|]].
  - rewrite !path_init, !path_end by (exact F || assumption || lra || apply cfg7_length). rewrite !set_head, A3, A4, C3, C4, Z3, Z4, A7, C7.
    split_and!; reflexivity.
  - split; [split|].
    + split; [congruence|]. intros [|[|[|[|n]]]] Hn; try lia; congruence.
    + split; [congruence|]. intros [|[|[|[|n]]]] Hn; try lia; congruence.
    + intros [|[|[|n]]] Hn; try lia; split; assumption.
Qed.

(** with the constructor of ndcurves, whose third argument is the beginning of the range *)
Lemma phases_throw off n0 n1 p0 o0 p1 o1 : (forall pts T, bz_min (bezierOf pts T) = T) -> Three off n0 n1 p0 o0 p1 o1 = Throw.
Proof.
  intros H. unfold threePhases. assert (L : forall a, Build n1 p1 o1 off (- junkV) timeTakeoff false a = Throw).
  { intros a. unfold buildPredefinedPath. cbv zeta. rewrite deriv_before; [reflexivity|]. rewrite H. unfold timeTakeoff. lra. }
  rewrite L. unfold buildPredefinedPath at 1. cbv zeta. set (c := bezierOf _ _). unfold derivate.
  destruct (_ && _); reflexivity.
Qed.
End C.
