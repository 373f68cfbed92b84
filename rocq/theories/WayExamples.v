(** Concrete cases for the way points of the end effector. *)
From Coq Require Import Reals ZArith Lra Lia.
From Verif Require Import Maps MapsProofs Vec VecProofs StateModel StateReal ProjModel InterModel EffModel WayModel WaySpec WayProofs SeqExamples.
From Verif Require Import StateModel.
Local Open Scope R_scope.

(** along x, and along an arc of the floor *)
Definition wline (t : R) : vec3 := V3 t 0 0.
Definition warc (t : R) : vec3 := V3 t (t * (1 - t)) 0.
Lemma wline_straight : straight wline 0 1.
Proof.
  apply straight_on_line; [unfold wline; intros H; injection H; lra|]. intros i Hi. unfold way_time. destruct (Nat.eqb_spec i 30); [lia|].
  exists (INR i * (1 / 31)). split.
  - apply Rmult_lt_0_compat; [apply lt_0_INR; lia|lra].
  - unfold wline, vadd, vsub, vscale. cbn. f_equal; field.
Qed.
Lemma warc_time : way_time 0 1 15 = 15 / 31.
Proof. unfold way_time. cbn [Nat.eqb]. rewrite INR_IZR_INZ. cbn. field. Qed.
Lemma eps_tiny : 4 / 2 ^ 52 < 1 / 100.
Proof.
  assert (400 < 2 ^ 52). { replace 52%nat with (9 + 43)%nat by done. rewrite pow_add. assert (1 <= 2 ^ 43) by (apply pow_R1_Rle; lra). assert (E : 2 ^ 9 = 512) by ring. rewrite E.
    apply Rlt_le_trans with (512 * 1); [lra|]. apply Rmult_le_compat_l; lra. }
  apply Rmult_lt_reg_r with (2 ^ 52); [lra|]. unfold Rdiv at 1. rewrite Rmult_assoc, Rinv_l by lra. lra.
Qed.
Lemma warc_not_straight : ~ straight warc 0 1.
Proof.
  intros H. destruct (H 15%nat ltac:(lia)) as [_ Hd]. rewrite warc_time in Hd. unfold warc in Hd.
  assert (E1 : vsub (V3 (15 / 31) (15 / 31 * (1 - 15 / 31)) 0) (V3 0 (0 * (1 - 0)) 0) = V3 (15 / 31) (240 / 961) 0) by (unfold vsub; cbn; f_equal; field).
  assert (E2 : vsub (V3 1 (1 * (1 - 1)) 0) (V3 0 (0 * (1 - 0)) 0) = V3 1 0 0) by (unfold vsub; cbn; f_equal; field).
  rewrite E1, E2 in Hd.
  assert (N2 : vnorm (V3 1 0 0) = 1). { unfold vnorm, vnorm2, vdot. cbn. replace (1 * 1 + 0 * 0 + 0 * 0) with 1 by ring. apply R_sqrt.sqrt_1. }
  assert (N1 : 54 / 100 <= vnorm (V3 (15 / 31) (240 / 961) 0)).
  { unfold vnorm. apply Rle_trans with (R_sqrt.sqrt ((54 / 100) * (54 / 100))); [rewrite R_sqrt.sqrt_square; lra|]. apply R_sqrt.sqrt_le_1_alt.
    unfold vnorm2, vdot. cbn. lra. }
  rewrite N2 in Hd. pose proof eps_tiny as Ht. unfold vdot in Hd. cbn [vx vy vz] in Hd.
  assert (K : 99 / 100 * (54 / 100) <= (1 - 4 / 2 ^ 52) * (vnorm (V3 (15 / 31) (240 / 961) 0) * 1)).
  { apply Rmult_le_compat; lra. }
  lra.
Qed.
Lemma warc_level : level warc 0 1.
Proof. intros i Hi. unfold warc. cbn. rewrite Rminus_0_r, Rabs_R0. lra. Qed.
Lemma ex_line : exists w, getWayPoints wline 0 1 (1 / 2) false = Ok (w, true) /\ bridge (V3 0 0 0) (V3 1 0 0) (7 / 100) w.
Proof.
  destruct (C158_lemma wline 0 1 (1 / 2) false) as (h & Hh & H). pose proof wline_straight as S. destruct (getWayPoints _ _ _ _ _) as [[w b]| |].
  - destruct H as [_ [(_ & _ & -> & Hw)|[(N & _)|(N & _)]]]; [|tauto|exfalso; apply N; split; [done|lra]].
    exists w. split; [done|]. destruct Hh as [[A _]|[_ ->]]; [lra|]. exact Hw.
  - unfold wline in H. injection H. lra.
  - done.
Qed.
Lemma ex_arc : exists w, getWayPoints warc 0 1 (1 / 20) false = Ok (w, true) /\ raised warc 0 1 (3 / 100) w.
Proof.
  destruct (C158_lemma warc 0 1 (1 / 20) false) as (h & Hh & H). pose proof warc_not_straight as S. pose proof warc_level as L. destruct (getWayPoints _ _ _ _ _) as [[w b]| |].
  - destruct H as [_ [(N & _)|[(_ & _ & _ & -> & Hw)|(_ & N & _)]]]; [tauto| |exfalso; apply N; split; [done|lra]].
    exists w. split; [done|]. destruct Hh as [[_ ->]|[A _]]; [|lra]. exact Hw.
  - unfold warc in H. injection H. lra.
  - done.
Qed.
Lemma ex_closed : getWayPoints (fun _ => V3 0 0 0) 0 1 1 false = Throw.
Proof. destruct (C158_lemma (fun _ => V3 0 0 0) 0 1 1 false) as (h & Hh & H). destruct (getWayPoints _ _ _ _ _) as [[w b]| |]; [by destruct H|done|done]. Qed.

#[local] Instance R_eq_dec : EqDecision R := Req_EM_T.
(** a curve through its way points: one that is there at their times, and elsewhere 0 *)
Definition wvalue (w : list (R * vec3)) (t : R) : vec3 :=
  match list_find (fun x => fst x = t) w with Some (_, x) => snd x | None => vzero end.
Lemma wvalue_ok : interpolates wvalue (fun w => w).
Proof.
  intros w t p Hi Hp. unfold wvalue. destruct (list_find_elem_of (fun x : R * vec3 => fst x = t) w (t, p) Hp eq_refl) as [[i x] Hf]. rewrite Hf.
  apply list_find_Some in Hf as (Hx & Ht & _). apply elem_of_list_lookup in Hp as [j Hj]. destruct (Nat.lt_trichotomy i j) as [L|[->|L]].
  - pose proof (Hi i j _ _ L Hx Hj). cbn in *. lra.
  - rewrite Hx in Hj. injection Hj as ->. done.
  - pose proof (Hi j i _ _ L Hj Hx). cbn in *. lra.
Qed.
Lemma ex_spline : exists c, splineFromEffectorTraj (fun w => w) wline 0 1 (snd h2) (snd h3) false = Ok (c, true).
Proof.
  pose proof (C158_spline_lemma wvalue (fun w => w) wline 0 1 (snd h2) (snd h3) false wvalue_ok) as H. destruct (splineFromEffectorTraj _ _ _ _ _ _ _) as [[c b]| |].
  - destruct H as [-> _]. by exists c.
  - unfold wline in H. injection H. lra.
  - destruct H as [_ H]. cbn [snd h2 h3] in H.
    assert (F : far (V3 (1/20) 0 (9/1000)) (V3 5 0 (9/1000))) by fars. pose proof (leg_moves (sq 0) (sq 0) _ _ vzero F) as L.
    rewrite H in L. done.
Qed.
