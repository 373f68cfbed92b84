(** C122-C124: limbs, their samples and their files. *)
From Coq Require Import Reals ZArith Lra.
From Verif Require Import ProjModel ProjSpec SampModel SampSpec SampExamples LimbModel LimbSpec LimbProofs LimbExamples.

(** C122.  The samples generated for a limb: sample 0 holds the joint values of the neutral
    configuration (and the geometry of the robot's last computed placements, at [k]), each of the
    others the joint values and the geometry of a configuration drawn. *)
Theorem C122_samples effT limbT parentT jac det start stop offset limbOffset neutral k shoot nb :
  rigid limbT parentT -> (start <= stop)%nat -> (stop <= length neutral)%nat -> (forall i, (stop <= length (shoot i))%nat) ->
  exists l, GenerateSamples effT limbT parentT jac det start stop offset limbOffset neutral k shoot nb = Ok l /\
    length l = Nat.max 1 nb /\
    (exists s, l !! 0%nat = Some s /\ sample_at effT limbT parentT jac det start stop offset limbOffset 0 neutral k s) /\
    (forall i, (1 <= i < nb)%nat -> exists s, l !! i = Some s /\
       sample_at effT limbT parentT jac det start stop offset limbOffset i (shoot i) (shoot i) s).
Proof. exact (generate_ok effT limbT parentT jac det start stop offset limbOffset neutral k shoot nb). Qed.
Print Assumptions C122_samples.
(** loading a sample in the configuration it was drawn at leaves it as it is *)
Theorem C122_load effT limbT parentT jac det start stop offset limbOffset i q k s :
  (start <= stop)%nat -> (stop <= length q)%nat ->
  sample_at effT limbT parentT jac det start stop offset limbOffset i q k s -> Load (content s) q = Ok q.
Proof. exact (sample_load effT limbT parentT jac det start stop offset limbOffset i q k s). Qed.
Print Assumptions C122_load.
Example C122_case : rigid le_limb None /\ (7 <= 8)%nat /\ (8 <= length le_neutral)%nat /\ forall i, (8 <= length (le_shoot i))%nat.
Proof. split; [exact le_rigid|exact le_sizes]. Qed.
Example C122_stale : exists l s, GenerateSamples le_eff le_limb None le_jac le_det 7 8 vzero vzero le_neutral (le_shoot 1) le_shoot 2 = Ok l /\
  l !! 0%nat = Some s /\ configuration (content s) = [2%R] /\ pt (effectorPosition (content s)) = V3 (-1) 0 0.
Proof. exact le_stale. Qed.

(** C123.  A limb created on a robot: the default rotation is that of the effector at the
    configuration the placements were last computed at; the reference position is that of the
    effector in the root's frame at the neutral configuration, in which the robot is left. *)
Theorem C123_create effT neutral samplesOf offset normal d px py pz x y z w rest ss :
  neutral = px :: py :: pz :: x :: y :: z :: w :: rest -> (w * w + x * x + y * y + z * z = 1)%R ->
  samplesOf (computed d) = Ok ss ->
  exists p, createLimb effT neutral samplesOf offset normal d =
    Ok (mtr (rot (effT (computed d))), mapp (mtr (rot (effT (computed d)))) offset, mapp (mtr (rot (effT (computed d)))) normal,
        ss, p, mkDevice neutral neutral) /\
    se3act (SE3 (toRotationMatrix (w, V3 x y z)) (V3 px py pz)) p = tra (effT neutral).
Proof. exact (create_ok effT neutral samplesOf offset normal d px py pz x y z w rest ss). Qed.
Print Assumptions C123_create.
Theorem C123_effector j : first_leaf j (GetEffector j "") /\ forall name, name <> ""%string -> GetEffector j name = name.
Proof. split; [exact (effector_default j)|exact (effector_named j)]. Qed.
Print Assumptions C123_effector.
Example C123_case : exists p, createLimb le_eff le_neutral (fun _ => Ok []) (V3 0 0 1) (V3 0 0 1) (mkDevice (le_shoot 3) le_neutral) =
  Ok (mtr (rot (le_eff le_neutral)), mapp (mtr (rot (le_eff le_neutral))) (V3 0 0 1), mapp (mtr (rot (le_eff le_neutral))) (V3 0 0 1), [], p, mkDevice le_neutral le_neutral).
Proof. exact le_create. Qed.
Example C123_stale : exists r o n p,
  createLimb le_eff le_neutral (fun _ => Ok []) (V3 0 0 1) (V3 0 0 1) (mkDevice le_neutral (le_shoot 1)) =
    Ok (r, o, n, [], p, mkDevice le_neutral le_neutral) /\ n = V3 0 0 (-1) /\ mapp (mtr (rot (le_eff le_neutral))) (V3 0 0 1) = V3 0 0 1.
Proof. exact le_stale_rotation. Qed.

(** C124.  A limb saved and read again. *)
Theorem C124_round_trip {T} (nt : numtext T) (rnd : T -> T) hasJoint hasFrame robotName d03 voxel loadValues noCollision grasps (l : limbFile T) :
  number_text nt rnd -> storable_limb l -> hasJoint (limbName l) = true -> hasFrame (effectorName l) = true ->
  (loadValues = false -> forall n vs, values (database l) !! n = Some vs -> contains "sample" n = false) ->
  exists l' p, loadLimb nt hasJoint hasFrame robotName d03 voxel loadValues noCollision grasps (saveLimbInfoAndDatabase nt l) = Ok l' /\
    limb_kept rnd l l' /\ rearranged p (rounded rnd loadValues (database l)) (database l') /\ voxels_exact voxel (database l') /\
    disableCollision l' = noCollision /\ grasps_ l' = grasps /\ limbOffset_ l' = None /\
    constraintsFrom l' = (constraintsFile robotName (limbName l), d03).
Proof. intros Hnt. exact (limb_round_trip nt rnd Hnt hasJoint hasFrame robotName d03 voxel loadValues noCollision grasps l). Qed.
Print Assumptions C124_round_trip.
Example C124_case : number_text ex_nt ex_rnd /\
  storable_limb (mkLimb "leg" "foot" ((1, 0, 0), (0, 1, 0), (0, 0, 1))%nat (1, 2, 3)%nat (Some (4, 5, 6)%nat) (0, 0, 1)%nat 1%nat 2%nat 1 ex_db false true
    ("constraints.obj"%string, 3%nat)).
Proof.
  destruct ex_storable as (H1 & H2 & _). split; [exact H1|]. split; [apply (bool_decide_unpack _); vm_compute; exact I|].
  split; [apply (bool_decide_unpack _); vm_compute; exact I|]. split; [cbn; Lia.lia|exact H2].
Qed.
