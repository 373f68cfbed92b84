(** Concrete cases for the tools. *)
From Verif Require Import Maps MapsProofs Vec VecProofs ToolModel ToolSpec ToolProofs ToolProofs2 ToolProofs3.
From Coq Require Import Lra Lia.
Local Open Scope R_scope.

(** the identity and a half turn around x *)
Definition qid := Q4 0 0 0 1.
Definition qhalf := Q4 1 0 0 0.
Lemma ex_quats : unit_quat qid /\ unit_quat qhalf /\ qdistance qid qhalf = Ok PI /\ 1/5000 < PI.
Proof.
  assert (H1 : unit_quat qid) by (unfold unit_quat, qdot; simpl; lra).
  assert (H2 : unit_quat qhalf) by (unfold unit_quat, qdot; simpl; lra).
  split_and!; [done|done| |].
  - rewrite qdistance_unit by done. f_equal. replace (qdot qid qhalf) with 0 by (unfold qdot; simpl; ring).
    rewrite Rabs_R0, acos_0. field.
  - pose proof PI2_1. lra.
Qed.
Lemma ex_same : qdistance qid (qopp qid) = Ok 0 /\ interpolate qid (qopp qid) 1 = Ok qid.
Proof.
  assert (H1 : unit_quat qid) by (unfold unit_quat, qdot; simpl; lra).
  assert (H2 : unit_quat (qopp qid)) by (unfold unit_quat, qdot, qopp, qscale; simpl; lra).
  assert (Hd : qdistance qid (qopp qid) = Ok 0).
  { rewrite qdistance_unit by done. f_equal. replace (qdot qid (qopp qid)) with (-1) by (unfold qdot, qopp, qscale; simpl; ring).
    rewrite Rabs_left by lra. replace (- -1) with 1 by ring. rewrite acos_1. ring. }
  split; [done|].
  assert (Hn : ~ far qid (qopp qid)). { rewrite <- (far_distance qid (qopp qid) 0) by done. lra. }
  destruct (interpolate_near qid (qopp qid) H1 H2 Hn) as (s & Hs & Hc & Hi). rewrite Hi.
  assert (Hs1 : s = -1).
  { destruct Hs as [->| ->]; [|done]. exfalso. destruct (theta_bound qid (qopp qid) H1 H2) as [Hb _].
    assert (Hge : 0 <= cos (theta12 qid (qopp qid))) by (apply cos_ge_0; pose proof PI_RGT_0; lra).
    rewrite <- Hc in Hge. unfold qdot, qopp, qscale in Hge. simpl in Hge. lra. }
  rewrite Hs1. f_equal. apply quat_ext; unfold qadd, qscale, qopp, qid; simpl; ring.
Qed.
Lemma ex_z : completes (GetZRotMatrix 0) (fun i j => if (i =? j)%nat then 1 else 0) /\ orthonormal (fun i j => if (i =? j)%nat then 1 else 0).
Proof.
  split.
  - intros i j v. destruct i as [|[|[|i]]], j as [|[|[|j]]]; simpl; intros Heq; try done; injection Heq as <-; rewrite ?cos_0, ?sin_0; lra.
  - intros j k Hj Hk. destruct j as [|[|[|j]]]; [| | |lia]; (destruct k as [|[|[|k]]]; [| | |lia]); simpl; lra.
Qed.
Lemma ex_x : sin (PI / 2) <> 0.
Proof. rewrite sin_PI2. lra. Qed.

Local Open Scope nat_scope.
Local Open Scope string_scope.
(** a robot: pelvis with two legs of two joints *)
Definition lankle := Jnt "lankle" 8 1 true [].
Definition lhip := Jnt "lhip" 7 1 true [lankle].
Definition rankle := Jnt "rankle" 10 1 true [].
Definition rhip := Jnt "rhip" 9 1 true [rankle].
Definition robot := Jnt "pelvis" 0 7 true [lhip; rhip].
Lemma ex_names : NoDup (names robot).
Proof. apply (bool_decide_unpack _). vm_compute. done. Qed.
Definition conf11 : list nat := seq 0 11.
Lemma ex_locks : LockJointRec1 conf11 "lhip" robot = [("pelvis", [0; 1; 2; 3; 4; 5; 6]); ("rhip", [9]); ("rankle", [10])].
Proof. reflexivity. Qed.
Definition allPairs : pairs := addLimbCollisionRec "" "" ["floor"; "wall"] false robot ∅.
Lemma ex_allPairs j o : in_tree robot j -> o ∈ ["floor"; "wall"] -> (jname j, o) ∈ allPairs.
Proof.
  intros Hj Ho. apply add_collisions. right. split; [done|]. exists j. split; [|done]. clear Ho.
  induction Hj as [j|j k j' Hk Hj IH]; [apply reach_here|eapply reach_down; [|done|done]]; unfold excluded; intros [? _]; done.
Qed.
Lemma ex_eff : ("rankle", "floor") ∉ RemoveEffectorCollision ["floor"; "wall"] rhip allPairs /\
  ("rhip", "wall") ∉ RemoveEffectorCollision ["floor"; "wall"] rhip allPairs /\
  ("lankle", "wall") ∈ RemoveEffectorCollision ["floor"; "wall"] rhip allPairs.
Proof. split_and!; apply (bool_decide_unpack _); vm_compute; done. Qed.
(** after the obstacles of the pelvis are removed, the overload for several limbs removes nothing *)
Definition pelvisFree : pairs := allPairs ∖ {[ ("pelvis", "floor") ]}.
Lemma ex_stuck : ("pelvis", "floor") ∉ pelvisFree /\ RemoveNonLimbCollisionRec ["lhip"] ["floor"; "wall"] robot pelvisFree = pelvisFree /\
  ("rhip", "floor") ∈ pelvisFree /\ ("rhip", "floor") ∉ RemoveNonLimbCollisionRec1 "lhip" ["floor"; "wall"] robot pelvisFree.
Proof. split_and!; apply (bool_decide_unpack _); vm_compute; done. Qed.
(** two feet registered with disableEffectorCollision: the whole body is tested by what the first says *)
Definition leftReg := mkReg "lf" lhip "lankle" "lankle" ["floor"] true false.
Definition rightReg := mkReg "rf" rhip "rankle" "rankle" ["floor"; "wall"] false false.
Lemma ex_regs : ("rhip", "floor") ∈ c_body (addLimbs robot [leftReg; rightReg]) /\
  ("rhip", "wall") ∉ c_body (addLimbs robot [leftReg; rightReg]) /\ ("rankle", "floor") ∉ c_body (addLimbs robot [leftReg; rightReg]) /\
  first_of_kind [leftReg; rightReg] leftReg.
Proof.
  split_and!; [apply (bool_decide_unpack _); vm_compute; done..|].
  exists [], [rightReg]. split; [done|]. intros r Hr. by apply elem_of_nil in Hr.
Qed.
