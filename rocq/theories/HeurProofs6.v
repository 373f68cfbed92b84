(** Proofs of C58_angle and of the specification of the contacts of C60. *)
From Coq Require Import Lra Lia.
From Verif Require Import Maps Vec GeomModel GeomSpec HeurModel HeurSpec HeurProofs HeurProofs2 HeurProofs3 HeurProofs4 HeurProofs5.
Local Open Scope R_scope.

Lemma transform_in_world p tr ro : in_world ro tr p (transform p tr ro).
Proof. destruct ro as [[r1 r2] r3]. unfold transform, vdot. cbn. repeat split; ring. Qed.
Lemma considered_with {T P} (z : hparam T P) eff : with_contact (contactPositions z) (consideredContacts z eff) (sampleLimbName z) eff.
Proof.
  intros k c. unfold consideredContacts. destruct (contactPositions z !! sampleLimbName z) as [v|] eqn:E.
  - split; [auto|]. intros [H|(H1 & -> & _)]; [assumption|congruence].
  - destruct (decide (k = sampleLimbName z)) as [->|Hne].
    + rewrite lookup_insert. split; [intros [= <-]; auto|]. intros [H|(_ & _ & ->)]; [congruence|reflexivity].
    + rewrite lookup_insert_ne by congruence. split; [auto|]. intros [H|(_ & H & _)]; [assumption|congruence].
Qed.
Theorem dynamic_value {P} (s : hsample) (z : hparam ((vec3 * vec3 * vec3) * vec3) P) :
  exists N i c eff contacts, in_world (tfWorldRoot z).1 (tfWorldRoot z).2 (effectorPosition s) eff /\
    with_contact (contactPositions z) contacts (sampleLimbName z) eff /\ amid (grounded contacts) c /\
    (forall fuel, (N <= fuel)%nat -> interest fuel z = Some i) /\
    forall fuel, (N <= fuel)%nat -> dynamicHeuristic fuel s z = Ok (Some (- planar_dist i c)).
Proof.
  destruct (dynamic_defined s z) as (N & i & c & H1 & H2 & H3).
  exists N, i, c, (transform (effectorPosition s) (tfWorldRoot z).2 (tfWorldRoot z).1).
  eexists. split; [apply transform_in_world|]. split; [apply considered_with|]. auto.
Qed.
Lemma cauchy2 x1 y1 x2 y2 : Rabs (x1 * x2 + y1 * y2) <= sqrt (x1 * x1 + y1 * y1) * sqrt (x2 * x2 + y2 * y2).
Proof.
  rewrite <- sqrt_mult by nra. rewrite <- (sqrt_Rsqr_abs (x1 * x2 + y1 * y2)). apply sqrt_le_1_alt. unfold Rsqr.
  assert (0 <= (x1 * y2 - y1 * x2) * (x1 * y2 - y1 * x2)) by (apply Rle_0_sqr). lra.
Qed.
Theorem angle_value center e1 e2 a : computeAngle center e1 e2 = Some a ->
  near e1 e2 /\ a = 0 \/ planar_angle (vx e1 - vx center) (vy e1 - vy center) (vx e2 - vx center) (vy e2 - vy center) a.
Proof.
  unfold computeAngle. destruct (close e1 e2) eqn:Ec.
  - intros [= <-]. left. split; [|reflexivity]. unfold close in Ec. apply andb_true_iff in Ec as [H1 H2].
    unfold Rltb in *. destruct (Rlt_dec _ _) in H1; [|discriminate]. destruct (Rlt_dec _ _) in H2; [|discriminate]. split; assumption.
  - cbv zeta. set (x1 := vx e1 - vx center). set (y1 := vy e1 - vy center). set (x2 := vx e2 - vx center). set (y2 := vy e2 - vy center).
    pose proof (cauchy2 x1 y1 x2 y2) as Hc.
    set (n := sqrt (x1 * x1 + y1 * y1) * sqrt (x2 * x2 + y2 * y2)) in *.
    assert (Hn : 0 <= n) by (apply Rmult_le_pos; apply sqrt_pos).
    destruct (Reqb n 0) eqn:En; [discriminate|]. intros [= <-]. right.
    assert (Hn0 : n <> 0) by (unfold Reqb in En; destruct (Req_EM_T n 0); [discriminate|assumption]).
    split; [split; apply acos_bound|]. fold n. rewrite cos_acos; [field; assumption|].
    assert (Hp : 0 < n) by lra. assert (Hc1 : - n <= x1 * x2 + y1 * y2 <= n) by (revert Hc; unfold Rabs; destruct (Rcase_abs _); lra).
    split; apply (Rmult_le_reg_r n); try assumption; unfold Rdiv; rewrite Rmult_assoc, Rinv_l by assumption; lra.
Qed.
Theorem angle_defined center e1 e2 : computeAngle center e1 e2 = None <->
  ~ near e1 e2 /\ (same_xy e1 center \/ same_xy e2 center).
Proof.
  assert (Hcl : close e1 e2 = true <-> near e1 e2).
  { unfold close, near. rewrite andb_true_iff. unfold Rltb. destruct (Rlt_dec _ _), (Rlt_dec _ _); intuition discriminate. }
  assert (Hz : forall x y, sqrt (x * x + y * y) = 0 <-> x = 0 /\ y = 0).
  { intros x y. split.
    - intros H. apply sqrt_eq_0 in H; [|nra]. split; nra.
    - intros [-> ->]. rewrite Rmult_0_l, Rplus_0_l. apply sqrt_0. }
  unfold computeAngle. destruct (close e1 e2); [split; [discriminate|]; intros [H _]; exfalso; apply H, Hcl; reflexivity|].
  cbv zeta. unfold Reqb. destruct (Req_EM_T _ 0) as [E|E].
  - split; [|reflexivity]. intros _. split; [intros H; apply Hcl in H; discriminate|]. unfold same_xy.
    apply Rmult_integral in E as [E|E]; apply Hz in E as [H1 H2]; [left|right]; split; lra.
  - split; [discriminate|]. intros [_ [[H1 H2]|[H1 H2]]]; exfalso; apply E.
    + replace (sqrt _) with 0 at 1; [ring|]. symmetry. apply Hz. split; lra.
    + rewrite Rmult_comm. replace (sqrt _) with 0 at 1; [ring|]. symmetry. apply Hz. split; lra.
Qed.
