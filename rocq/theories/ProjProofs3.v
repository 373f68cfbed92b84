From Coq Require Import Reals Lra Psatz.
From Verif Require Import SampModel MapsProofs VecProofs ToolProofs ToolProofs2 ProjSpec ProjProofs ProjProofs2.
From Verif Require Import StateModel.
Local Open Scope R_scope.

(** ** time-varying effector constraints of the interpolation *)
Lemma position_method r f target th q :
  satisfied r th q (createPositionMethod f target) <-> dist3 (tra (fpose r q f)) target <= th.
Proof.
  unfold createPositionMethod. cbn [satisfied rot tra]. rewrite se3mul_id_r, mtr_id, mapp_id. reflexivity.
Qed.
Lemma orientation_method_aligned r f target th q : lawful_robot r -> is_rotation target -> rot (placement f) = mid ->
  (satisfied r th q (createOrientationMethod f target) <-> angle_between target (rot (fpose r q f)) <= th).
Proof.
  intros LR Ht Hp. unfold createOrientationMethod, fpose, se3mul. cbn [satisfied rot tra masked]. rewrite Hp, mmul_id_l, !mmul_id_r.
  assert (EV : forall v, V3 (vx v) (vy v) (vz v) = v) by (intros []; reflexivity). rewrite EV.
  rewrite (lr_log _ LR); [reflexivity|]. apply rotation_mmul; [apply rotation_mtr; assumption|apply (lr_joint _ LR)].
Qed.
Lemma orientation_method_general r f target th q : lawful_robot r -> is_rotation target ->
  (exists n, frames r !! n = Some f) ->
  (satisfied r th q (createOrientationMethod f target) <->
   angle_between (mmul (rot (placement f)) (mmul target (rot (placement f)))) (rot (fpose r q f)) <= th).
Proof.
  intros LR Ht [n Hn]. pose proof (lr_frame _ LR _ _ Hn) as HP. unfold createOrientationMethod, fpose, se3mul. cbn [satisfied rot tra masked].
  rewrite !mmul_id_r.
  assert (EV : forall v, V3 (vx v) (vy v) (vz v) = v) by (intros []; reflexivity). rewrite EV.
  rewrite (lr_log _ LR).
  2:{ apply rotation_mmul; [apply rotation_mtr, rotation_mmul; assumption|apply (lr_joint _ LR)]. }
  assert (E : angle (mmul (mtr (mmul (rot (placement f)) target)) (rot (jpose r q (fjoint f)))) =
    angle_between (mmul (rot (placement f)) (mmul target (rot (placement f)))) (mmul (rot (jpose r q (fjoint f))) (rot (placement f)))).
  { unfold angle_between, angle. do 3 f_equal.
    set (P := rot (placement f)) in *. set (J := rot (jpose r q (fjoint f))).
    rewrite (mmul_assoc P target P), (mtr_mmul (mmul P target) P).
    rewrite (mtrace_cyc (mmul (mtr P) (mtr (mmul P target)))), (mmul_assoc (mmul J P)), <- (mmul_assoc J P).
    rewrite (orth_right _ (proj1 HP) (proj2 HP)), mmul_id_r, mtrace_cyc. reflexivity. }
  rewrite E. reflexivity.
Qed.

(** ** weights of the postural task *)
Lemma filter_mask nd : (10 <= nd)%nat -> List.filter taskMask (seq 0 nd) = [3; 4; 5; 6; 7; 8; 9]%nat.
Proof.
  intros H. replace nd with (10 + (nd - 10))%nat by lia. rewrite seq_app, List.filter_app.
  assert (E : List.filter taskMask (seq (0 + 10) (nd - 10)) = []).
  { generalize (nd - 10)%nat as k. intros k.
    assert (G : forall k b, (10 <= b)%nat -> List.filter taskMask (seq b k) = []).
    { clear. induction k as [|k IH]; intros b Hb; cbn; [reflexivity|].
      unfold taskMask at 1. replace (b <=? 9)%nat with false by (symmetry; apply Nat.leb_gt; lia). rewrite andb_false_r. apply IH. lia. }
    apply G. lia. }
  rewrite E, app_nil_r. reflexivity.
Qed.
Lemma mean_active nd : (10 <= nd)%nat -> meanActive nd = 163 / 7.
Proof.
  intros H. unfold meanActive. rewrite filter_mask by assumption. cbn [fold_left length]. unfold rawWeight. cbn. field.
Qed.
Lemma interp_weights nd : (10 <= nd)%nat -> exists w, interpWeights nd = Some w /\ length w = nd /\
  (forall i, (i < nd)%nat -> nth i w 0 = rawWeight nd i * (7 / 163)) /\
  (nth 3 w 0 + nth 4 w 0 + nth 5 w 0 + nth 6 w 0 + nth 7 w 0 + nth 8 w 0 + nth 9 w 0) / 7 = 1.
Proof.
  intros H. unfold interpWeights. replace (nd <? 10)%nat with false by (symmetry; apply Nat.ltb_ge; lia).
  eexists. split; [reflexivity|]. rewrite mean_active by assumption.
  assert (N : forall i, (i < nd)%nat -> nth i (map (fun i => rawWeight nd i / (163 / 7)) (seq 0 nd)) 0 = rawWeight nd i * (7 / 163)).
  { intros i Hi. rewrite nth_indep with (d' := (fun i => rawWeight nd i / (163 / 7)) 0%nat) by (rewrite map_length, seq_length; assumption).
    rewrite (map_nth (fun i => rawWeight nd i / (163 / 7))), seq_nth by assumption. cbn [Nat.add]. field. }
  split_and!.
  - rewrite map_length, seq_length. reflexivity.
  - exact N.
  - rewrite !N by lia. unfold rawWeight. cbn. field.
Qed.
Lemma interp_weights_small nd : (nd < 10)%nat -> interpWeights nd = None.
Proof. intros H. unfold interpWeights. replace (nd <? 10)%nat with true by (symmetry; apply Nat.ltb_lt; lia). reflexivity. Qed.
Lemma raw_values nd i : (10 <= nd)%nat -> (i < nd)%nat ->
  rawWeight nd i = if (i <? 3)%nat then 0 else if (i <? 6)%nat then 50 else if (i =? 6)%nat then 10
                   else if (i <? 10)%nat || (i <? nd - 7)%nat then 1 else 0.
Proof.
  intros H Hi. unfold rawWeight.
  destruct (3 <=? i)%nat eqn:E1, (i <? 6)%nat eqn:E2, (7 <=? i)%nat eqn:E3, (i <=? 9)%nat eqn:E4, (i =? 6)%nat eqn:E5,
    (i <? 3)%nat eqn:E6, (i <? nd - 7)%nat eqn:E7, (i <? 10)%nat eqn:E8; cbn; try reflexivity; exfalso;
  rewrite ?Nat.leb_le, ?Nat.leb_gt, ?Nat.ltb_lt, ?Nat.ltb_ge, ?Nat.eqb_eq, ?Nat.eqb_neq in *; lia.
Qed.
Lemma weights_exact nd : (10 <= nd)%nat -> exists w, interpWeights nd = Some w /\ length w = nd /\
  (forall i, (i < nd)%nat -> nth i w 0 = 7 / 163 *
     (if (i <? 3)%nat then 0 else if (i <? 6)%nat then 50 else if (i =? 6)%nat then 10
      else if (i <? 10)%nat || (i <? nd - 7)%nat then 1 else 0)) /\
  (nth 3 w 0 + nth 4 w 0 + nth 5 w 0 + nth 6 w 0 + nth 7 w 0 + nth 8 w 0 + nth 9 w 0) / 7 = 1.
Proof.
  intros H. destruct (interp_weights nd H) as (w & H1 & H2 & H3 & H4). exists w. split_and!; auto.
  intros i Hi. rewrite H3, (raw_values nd i H Hi) by assumption. ring.
Qed.
Lemma reference_weights B : exists w, posturalConstraint B = CPost (reference B) w /\
  (length (pweights B) = ndof (dev B) -> w = pweights B) /\
  (length (pweights B) <> ndof (dev B) -> w = repeat 1 (ndof (dev B))) /\ length w = ndof (dev B).
Proof.
  unfold posturalConstraint. eexists. split; [reflexivity|].
  destruct (length (pweights B) =? ndof (dev B))%nat eqn:E.
  - apply Nat.eqb_eq in E. split_and!; auto. congruence.
  - apply Nat.eqb_neq in E. split_and!; auto; [congruence|apply repeat_length].
Qed.
