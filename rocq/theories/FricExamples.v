(** Witnesses for the friction cone of a jump. *)
From Coq Require Import Lia Psatz.
From Verif Require Import Maps Vec ParaModel ParaSpec ParaProofs FricModel FricSpec FricProofs.
Local Open Scope R_scope.

(** level ground, friction 1: the half angle is 45 degrees *)
Definition flat : vec3 := V3 0 0 1.
Lemma flat_unit : vnorm2 flat = 1. Proof. unfold vnorm2, vdot, flat; cbn; ring. Qed.
Lemma flat_clear : clearOfVertical 1 flat.
Proof. unfold clearOfVertical, flat; cbn. unfold Rabs; destruct (Rcase_abs _); lra. Qed.
Lemma zero_range : - PI <= 0 <= PI. Proof. pose proof PI_RGT_0; lra. Qed.
Lemma flat_run : fiveth_constraint 1 flat 0 = Ok (Some (PI / 4)).
Proof.
  destruct (clear_run 1 flat 0) as [_ H]; [lra|apply flat_unit|apply zero_range|apply flat_clear|].
  assert (Q : spread 1 0 flat = 2) by (unfold spread, along, flat; cbn; ring).
  rewrite Q in H. unfold margin in H. rewrite cos_0 in H. destruct (Req_EM_T 1 0); [lra|].
  destruct H as [H _]; [lra|]. rewrite H. unfold half. replace (2 / 2 - 1) with 0 by lra. rewrite acos_0. do 2 f_equal. lra.
Qed.
Lemma flat_elev : elevation 0 flat (PI / 2).
Proof. exists 1. unfold flat; cbn. rewrite cos_PI2, sin_PI2. repeat split; lra. Qed.

(** a steep wall seen sideways: a narrow cone, refused although a direction holds *)
Definition narrow : vec3 := V3 (9 / 17) (12 / 17) (8 / 17).
Lemma narrow_unit : vnorm2 narrow = 1. Proof. unfold vnorm2, vdot, narrow; cbn; field. Qed.
Lemma narrow_clear : clearOfVertical 1 narrow.
Proof. unfold clearOfVertical, narrow; cbn. unfold Rabs; destruct (Rcase_abs _); lra. Qed.
Lemma narrow_spread : spread 1 0 narrow = 290 / 289.
Proof. unfold spread, along, narrow; cbn. rewrite cos_0, sin_0. field. Qed.
Lemma narrow_run : fiveth_constraint 1 narrow 0 = Ok None.
Proof.
  destruct (clear_run 1 narrow 0) as [H _]; [lra|apply narrow_unit|apply zero_range|apply narrow_clear|].
  apply H. rewrite narrow_spread. unfold margin. rewrite cos_0. destruct (Req_EM_T 1 0); lra.
Qed.
Lemma narrow_elev : exists eta, elevation 0 narrow eta.
Proof.
  exists (atan2 (8 / 17) (9 / 17)). destruct (atan2_spec (8 / 17) (9 / 17)) as [A C]; [left; lra|].
  exists (sqrt (9 / 17 * (9 / 17) + 8 / 17 * (8 / 17))). split; [apply sqrt_pos|]. unfold narrow; cbn. rewrite cos_0, sin_0.
  split; lra.
Qed.
Lemma narrow_holds eta : elevation 0 narrow eta -> noSlip 1 narrow (launch 0 eta).
Proof.
  intros He. apply (cone_half 1 0 narrow eta eta); [lra|apply narrow_unit|exact He|rewrite narrow_spread; lra| |].
  - rewrite Rminus_eq_0, Rabs_R0. pose proof PI_RGT_0; lra.
  - rewrite Rminus_eq_0, Rabs_R0. apply (half_cos (spread 1 0 narrow)). rewrite narrow_spread; lra.
Qed.

(** a slope whose cone touches the vertical, crossed along the slope's level line *)
Definition graze : vec3 := V3 0 (3 / 5) (4 / 5).
Lemma graze_unit : vnorm2 graze = 1. Proof. unfold vnorm2, vdot, graze; cbn; field. Qed.
Lemma graze_grazes : grazesVertical (3 / 4) graze. Proof. unfold grazesVertical, graze; cbn; field. Qed.
Lemma graze_along : vx graze * cos 0 + vy graze * sin 0 = 0. Proof. unfold graze; cbn. rewrite sin_0. ring. Qed.
Lemma graze_elev : elevation 0 graze (PI / 2).
Proof. exists (4 / 5). unfold graze; cbn. rewrite cos_PI2, sin_PI2, sin_0. repeat split; lra. Qed.
(** the same slope, faced *)
Lemma graze_faced : vx graze * cos (PI / 2) + vy graze * sin (PI / 2) <> 0. Proof. unfold graze; cbn. rewrite cos_PI2, sin_PI2. lra. Qed.
Lemma quarter_range : - PI <= PI / 2 <= PI. Proof. pose proof PI_RGT_0; lra. Qed.
Lemma graze_faced_run : exists delta, fiveth_constraint (3 / 4) graze (PI / 2) = Ok (Some delta).
Proof.
  destruct (graze_run (3 / 4) graze (PI / 2)) as [H _]; [lra|apply graze_unit|apply quarter_range|apply graze_grazes|apply graze_faced|].
  eexists; exact H.
Qed.
