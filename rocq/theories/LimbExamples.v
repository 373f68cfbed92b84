(** Concrete cases for limbs. *)
From Coq Require Import Reals ZArith Lra Lia.
From Verif Require Import ProjModel ProjSpec ProjProofs MapsProofs VecProofs SampModel SampSpec SampExamples LimbModel LimbSpec LimbProofs.
Local Open Scope R_scope.

(** a robot whose only joint, after the seven root entries, slides the effector along x and
    turns it upside down when it is negative *)
Definition le_eff (q : list R) : se3 :=
  SE3 (if Rltb (nth 7 q 0) 0 then M3 (V3 1 0 0) (V3 0 (-1) 0) (V3 0 0 (-1)) else mid) (V3 (nth 0 q 0 + nth 7 q 0) 0 0).
Definition le_limb (q : list R) : se3 := SE3 mid (V3 (nth 0 q 0) 0 0).
Definition le_jac (_ : list R) : matrix R := mkMat 1 1 [1].
Definition le_det (m : matrix R) : R := nth 0 (mdata m) 0.
Definition le_neutral : list R := [0; 0; 0; 0; 0; 0; 1; 2].
Definition le_shoot (i : nat) : list R := [0; 0; 0; 0; 0; 0; 1; - INR i].

Lemma le_rigid : rigid le_limb None.
Proof. intros k. apply rotation_mid. Qed.
Lemma le_sizes : (7 <= 8)%nat /\ (8 <= length le_neutral)%nat /\ forall i, (8 <= length (le_shoot i))%nat.
Proof. cbn. split; [lia|]. split; [lia|]. intros i. lia. Qed.
(** sample 0 holds the neutral joint value and the geometry of another configuration *)
Lemma le_stale : exists l s, GenerateSamples le_eff le_limb None le_jac le_det 7 8 vzero vzero le_neutral (le_shoot 1) le_shoot 2 = Ok l /\
  l !! 0%nat = Some s /\ configuration (content s) = [2] /\ pt (effectorPosition (content s)) = V3 (-1) 0 0.
Proof.
  destruct (generate_ok le_eff le_limb None le_jac le_det 7 8 vzero vzero le_neutral (le_shoot 1) le_shoot 2) as (l & Hl & _ & (s & H0 & Hs) & _).
  - apply le_rigid.
  - lia.
  - cbn. lia.
  - intros i. cbn. lia.
  - exists l, s. split; [exact Hl|]. split; [exact H0|]. destruct Hs as [_ _ _ [Hc1 Hc2] Hp _ _ _ _ _]. split.
    + specialize (Hc2 0%nat ltac:(lia)). cbn in Hc1, Hc2. destruct (configuration (content s)) as [|a [|b l']]; try discriminate.
      injection Hc2 as ->. reflexivity.
    + unfold base, le_limb, le_eff in Hp. unfold se3act, mapp, vdot, vadd, vzero in Hp. cbn in Hp.
      injection Hp as H1 H2 H3. apply vec3_ext; cbn; lra.
Qed.
(** the default rotation is that of the last placements computed, not of the neutral
    configuration *)
Lemma le_stale_rotation : exists r o n p,
  createLimb le_eff le_neutral (fun _ => Ok []) (V3 0 0 1) (V3 0 0 1) (mkDevice le_neutral (le_shoot 1)) =
    Ok (r, o, n, [], p, mkDevice le_neutral le_neutral) /\ n = V3 0 0 (-1) /\ mapp (mtr (rot (le_eff le_neutral))) (V3 0 0 1) = V3 0 0 1.
Proof.
  destruct (create_ok le_eff le_neutral (fun _ => Ok []) (V3 0 0 1) (V3 0 0 1) (mkDevice le_neutral (le_shoot 1)) 0 0 0 0 0 0 1 [2] [])
    as (p & Hp & _); [reflexivity|lra|reflexivity|].
  eexists _, _, _, p. split; [exact Hp|]. unfold le_eff. cbn [computed].
  assert (E1 : Rltb (nth 7 (le_shoot 1) 0) 0 = true) by (apply Rltb_true; cbn; lra).
  assert (E2 : Rltb (nth 7 le_neutral 0) 0 = false) by (apply Rltb_false; cbn; lra).
  rewrite E1, E2. split; apply vec3_ext; cbn; unfold vdot; cbn; lra.
Qed.
Lemma le_create : exists p, createLimb le_eff le_neutral (fun _ => Ok []) (V3 0 0 1) (V3 0 0 1) (mkDevice (le_shoot 3) le_neutral) =
  Ok (mtr (rot (le_eff le_neutral)), mapp (mtr (rot (le_eff le_neutral))) (V3 0 0 1), mapp (mtr (rot (le_eff le_neutral))) (V3 0 0 1), [], p, mkDevice le_neutral le_neutral).
Proof.
  destruct (create_ok le_eff le_neutral (fun _ => Ok []) (V3 0 0 1) (V3 0 0 1) (mkDevice (le_shoot 3) le_neutral) 0 0 0 0 0 0 1 [2] [])
    as (p & Hp & _); [reflexivity|lra|reflexivity|]. exists p. exact Hp.
Qed.
