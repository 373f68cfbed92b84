(** Concrete cases for the theorems on the node matrices and the steering. *)
From Coq Require Import Reals ZArith Lra Lia.
From Verif Require Import SampModel VecProofs.
From Verif Require Export NodeProofs3.
Local Open Scope R_scope.

Definition xapprox (_ : string) : bool * vec3 * vec3 := (true, V3 0 0 1, V3 0 0 0).
Lemma xapprox_unit r : r ∈ ["foot"%string] -> vnorm2 (snd (fst (xapprox r))) = 1.
Proof. intros _. unfold vnorm2, vdot. cbn. ring. Qed.

(** a vertical force balances the robot *)
Lemma xnode : exists x f, fillNodeMatrices xapprox ["foot"%string] false 0 0 2 (1 / 2) (V3 0 0 1) (V3 1 0 0) = Ok x /\
  lp_solution x vzero f.
Proof.
  pose proof (fill_shape xapprox ["foot"%string] false 0 0 2 (1 / 2) (V3 0 0 1) (V3 1 0 0)) as (y & _ & Ey).
  pose proof (lp_iff xapprox ["foot"%string] false 0 0 2 (1 / 2) (V3 0 0 1) (V3 1 0 0)
    (fun r Hr => xapprox_unit r Hr) ltac:(lra) _ vzero Ey) as Hiff.
  destruct (proj2 Hiff) as [f Hf].
  - exists [V3 0 0 (2 * (981 / 100))]. split.
    + constructor; [|constructor]. exists (2 * (981 / 100)), 0, 0. cbn. split; [|split; [lra|rewrite Rabs_R0; lra]].
      unfold vadd, vscale. cbn. apply (f_equal3 V3); ring.
    + split.
      * unfold vsum, vadd, vscale, vsub, vzero, gravity_. cbn. apply (f_equal3 V3); ring.
      * cbn [all_contacts map concat model_contacts moments app cpos xapprox fst snd].
        unfold vadd, vscale, vsub, vzero, gravity_, vcross. cbn. apply (f_equal3 V3); ring.
  - eexists. exists f. split; [exact Ey|]. exact Hf.
Qed.

(** surfaces *)
Definition xinter (_ : string) (s : nat) : option R := match s with O => None | S O => Some 5 | S (S O) => Some 2 | _ => Some 3 end.

(** steering: a path of length 1 whose acceleration is not admissible after 0.7 *)
Definition yt0 (_ : R) (i : nat) : R := match i with O => 1 / 5 | _ => 0 end.
Definition yt1 (_ : R) (i : nat) : R := match i with O => 3 / 5 | _ => 0 end.
Definition ytv (_ : R) (_ : nat) : R := 0.
Definition yacc (_ t : R) : vec3 := V3 (7 / 10 - t) 0 0.
Definition yext (_ a b : R) : R := b - a.
Definition ykino (_ : vec3) (_ _ : list R) : option R := Some 1.
Definition yadm (a : vec3) : bool := Rleb 0 (vx a).
Definition ysteer := steerFrom R (fun p => p) (fun _ => V3 1 0 0) yt0 yt1 ytv yacc yext ykino 5 0 yadm (fun _ => 2).

Lemma yRltb_t a b : a < b -> Rltb a b = true. Proof. apply Rltb_true. Qed.
Lemma yRltb_f a b : b <= a -> Rltb a b = false. Proof. apply Rltb_false. Qed.
Lemma yRleb_t a b : a <= b -> Rleb a b = true. Proof. apply Rleb_true. Qed.
Lemma yRleb_f a b : b < a -> Rleb a b = false. Proof. apply Rleb_false. Qed.

Lemma ydir : vnormalize (V3 1 0 0) = V3 1 0 0.
Proof.
  unfold vnormalize. assert (E : vnorm2 (V3 1 0 0) = 1) by (unfold vnorm2, vdot; cbn; ring). unfold vnorm. rewrite E.
  destruct (Rlt_dec 0 1) as [_|]; [|reflexivity]. rewrite sqrt_1. unfold vscale. cbn. apply (f_equal3 V3); field.
Qed.

Lemma yrun : ysteer [0] [1] = Some (4 / 5).
Proof.
  unfold ysteer, steerFrom, setBounds, computeDirection, ykino. cbv zeta. rewrite ydir.
  assert (En : vnorm (V3 1 0 0) = 1) by (unfold vnorm, vnorm2, vdot; cbn; replace (1 * 1 + 0 * 0 + 0 * 0) with 1 by ring; apply sqrt_1).
  rewrite En. rewrite (yRleb_f 1).
  2:{ assert (/ 2 ^ 52 <= / 2 ^ 1) by (apply Rinv_le_contravar; [lra|apply Rle_pow; [lra|lia]]). lra. }
  rewrite (yRleb_t 2 5) by lra.
  unfold vscale. cbn [vx vy vz].
  rewrite (yRltb_f (Rabs ((2 - 1 / 100) * 0)) 0) by apply Rabs_pos. cbn [vx vy vz].
  rewrite yRleb_f.
  2:{ replace ((2 - 1 / 100) * 0) with 0 by ring. rewrite Rabs_R0, Rabs_R0. rewrite !(Rabs_right ((2 - 1 / 100) * 1)) by lra. rewrite ?Rabs_right by lra. lra. }
  rewrite (yRltb_f 50 1) by lra.
  unfold yadm, yacc at 1, keps. cbn [vx]. rewrite yRleb_t by lra. cbn [negb].
  assert (Et : NodeModel.allTimes R yt0 yt1 ytv 1 (1 / 10000) = [1 / 5 + 1 / 10000; 1 / 5 + 1 / 10000 + 3 / 5]).
  { unfold NodeModel.allTimes, NodeModel.axisTimes, yt0, yt1, ytv.
    rewrite (yRltb_t 0 (1 / 5)) by lra. rewrite (yRltb_t 0 (3 / 5)) by lra. rewrite (yRltb_f 0 0) by lra. reflexivity. }
  rewrite Et. cbn [fold_left]. unfold yacc. cbn [vx].
  rewrite (yRleb_t 0 (7 / 10 - (1 / 5 + 1 / 10000))) by lra. cbn [negb andb].
  rewrite (yRleb_f 0 (7 / 10 - (1 / 5 + 1 / 10000 + 3 / 5))) by lra. cbn [negb andb].
  rewrite (yRltb_t (1 / 5 + 1 / 10000 + 3 / 5) 1) by lra.
  rewrite yRltb_t by lra.
  unfold yext. f_equal. lra.
Qed.

Definition yacc' (_ t : R) : vec3 := V3 (t - 3 / 10) 0 0.
Definition ysteerTo := steerTo R (fun p => p) (fun _ => V3 1 0 0) yt0 yt1 ytv yacc' yext ykino 5 0 yadm (fun _ => 2).
Lemma yrun_to : ysteerTo [0] [1] = Some (4 / 5).
Proof.
  unfold ysteerTo, steerTo, setBounds, computeDirection, ykino. cbv zeta. rewrite ydir.
  assert (En : vnorm (V3 1 0 0) = 1) by (unfold vnorm, vnorm2, vdot; cbn; replace (1 * 1 + 0 * 0 + 0 * 0) with 1 by ring; apply sqrt_1).
  rewrite En. rewrite (yRleb_f 1).
  2:{ assert (/ 2 ^ 52 <= / 2 ^ 1) by (apply Rinv_le_contravar; [lra|apply Rle_pow; [lra|lia]]). lra. }
  rewrite (yRleb_t 2 5) by lra.
  unfold vscale. cbn [vx vy vz].
  rewrite (yRltb_f (Rabs ((2 - 1 / 100) * 0)) 0) by apply Rabs_pos. cbn [vx vy vz].
  rewrite yRleb_f.
  2:{ replace ((2 - 1 / 100) * 0) with 0 by ring. rewrite Rabs_R0, Rabs_R0. rewrite !(Rabs_right ((2 - 1 / 100) * 1)) by lra. rewrite ?Rabs_right by lra. lra. }
  rewrite (yRltb_f 50 1) by lra.
  unfold yadm, yacc' at 1, keps. cbn [vx]. rewrite yRleb_t by lra. cbn [negb].
  assert (Et : NodeModel.allTimes R yt0 yt1 ytv 1 (- (1 / 10000)) = [1 / 5 + - (1 / 10000); 1 / 5 + - (1 / 10000) + 3 / 5]).
  { unfold NodeModel.allTimes, NodeModel.axisTimes, yt0, yt1, ytv.
    rewrite (yRltb_t 0 (1 / 5)) by lra. rewrite (yRltb_t 0 (3 / 5)) by lra. rewrite (yRltb_f 0 0) by lra. reflexivity. }
  rewrite Et. cbn [fold_left]. unfold yacc'. cbn [vx].
  rewrite (yRleb_f 0 (1 / 5 + - (1 / 10000) - 3 / 10)) by lra. cbn [negb andb].
  rewrite (yRltb_t 0 (1 / 5 + - (1 / 10000))) by lra.
  rewrite (yRleb_t 0 (1 / 5 + - (1 / 10000) + 3 / 5 - 3 / 10)) by lra. cbn [negb andb].
  rewrite yRltb_t by lra.
  unfold yext. f_equal. lra.
Qed.

(** the first axis of the root *)
Lemma root_axis u th : vnorm2 u = 1 ->
  let s := sin (th / 2) in
  quatX (cos (th / 2)) (s * vx u) (s * vy u) (s * vz u) =
  vadd (vadd (vscale (cos th) (V3 1 0 0)) (vscale (sin th) (vcross u (V3 1 0 0)))) (vscale ((1 - cos th) * vdot u (V3 1 0 0)) u).
Proof.
  intros Hu. cbv zeta. pose proof (cos_2a (th / 2)) as C. pose proof (sin_2a (th / 2)) as S. pose proof (sin2_cos2 (th / 2)) as T. unfold Rsqr in T.
  replace (2 * (th / 2)) with th in C, S by field. rewrite C, S. destruct u as [a b c]. unfold vnorm2, vdot in Hu. cbn in Hu.
  unfold quatX, vadd, vscale, vcross, vdot. cbn. set (s := sin (th / 2)) in *. set (k := cos (th / 2)) in *.
  assert (Hk : k * k = 1 - s * s) by lra. assert (Hc : c * c = 1 - a * a - b * b) by lra. f_equal.
  - replace (2 * (s * b) * (s * b)) with (2 * (s * s) * (b * b)) by ring. replace (2 * (s * c) * (s * c)) with (2 * (s * s) * (c * c)) by ring. rewrite Hc, Hk. ring.
  - rewrite Hk. ring.
  - rewrite Hk. ring.
Qed.
