(** Proofs about limbs and their samples. *)
From Coq Require Import Reals ZArith Lra Lia.
From Verif Require Import ProjModel ProjSpec ProjProofs MapsProofs VecProofs SampModel SampSpec SampProofs SampProofs3 SampProofs2 LimbModel LimbSpec.

Section samples.
Local Open Scope R_scope.
Variables (effT limbT : list R -> se3) (parentT : option (list R -> se3)) (jac : list R -> matrix R) (det : matrix R -> R).
Variables (start stop : nat).
Variables (offset limbOffset : vec3).

Lemma inverseAct_act t p : is_rotation (rot t) -> se3act t (inverseAct t p) = p.
Proof.
  intros Hr. apply rotation_mtr in Hr as [Hm _]. destruct t as [[[a b c] [d e f] [g h i]] [x y z]], p as [u v w].
  unfold mmul, mtr, mid, mapp, vdot in Hm. cbn in Hm. injection Hm as H1 H2 H3 H4 H5 H6 H7 H8 H9.
  unfold se3act, inverseAct, mapp, mtr, vadd, vopp, vdot. cbn. apply vec3_ext; cbn.
  - transitivity ((a * a + b * b + c * c) * (u - x) + (a * d + b * e + c * f) * (v - y) + (a * g + b * h + c * i) * (w - z) + x); [ring|].
    replace (a * a + b * b + c * c) with 1 by lra. replace (a * d + b * e + c * f) with 0 by lra. replace (a * g + b * h + c * i) with 0 by lra. ring.
  - transitivity ((d * a + e * b + f * c) * (u - x) + (d * d + e * e + f * f) * (v - y) + (d * g + e * h + f * i) * (w - z) + y); [ring|].
    replace (d * a + e * b + f * c) with 0 by lra. replace (d * d + e * e + f * f) with 1 by lra. replace (d * g + e * h + f * i) with 0 by lra. ring.
  - transitivity ((g * a + h * b + i * c) * (u - x) + (g * d + h * e + i * f) * (v - y) + (g * g + h * h + i * i) * (w - z) + z); [ring|].
    replace (g * a + h * b + i * c) with 0 by lra. replace (g * d + h * e + i * f) with 0 by lra. replace (g * g + h * h + i * i) with 1 by lra. ring.
Qed.

Lemma rows_length (f : nat -> nat -> R) n l : length (concat (map (fun i => map (f i) (seq 0 n)) l)) = (length l * n)%nat.
Proof.
  induction l as [|i l IH]; [reflexivity|]. cbn [map concat length]. rewrite app_length, map_length, seq_length, IH. lia.
Qed.
Lemma gram_length m : length (mdata (gram m)) = (mrows m * mrows m)%nat.
Proof.
  unfold gram. cbn [mdata].
  rewrite (rows_length (fun i j => rsum (map (fun k => entry m i k * entry m j k) (seq 0 (mcols m))))), seq_length. reflexivity.
Qed.
Lemma nth_rows (f : nat -> nat -> R) n l a b i0 : nth_error l a = Some i0 -> (b < n)%nat ->
  nth (a * n + b) (concat (map (fun i => map (f i) (seq 0 n)) l)) 0 = f i0 b.
Proof.
  revert a. induction l as [|i l IH]; intros a Ha Hb; [destruct a; discriminate|].
  cbn [map concat]. destruct a as [|a]; cbn in Ha.
  - injection Ha as ->. rewrite Nat.mul_0_l, Nat.add_0_l, app_nth1 by (rewrite map_length, seq_length; lia).
    rewrite (nth_indep _ 0 (f i0 0%nat)) by (rewrite map_length, seq_length; lia). rewrite map_nth, seq_nth by lia. reflexivity.
  - rewrite app_nth2 by (rewrite map_length, seq_length; cbn; lia). rewrite map_length, seq_length.
    replace (S a * n + b - n)%nat with (a * n + b)%nat by (cbn; lia). apply IH; assumption.
Qed.
Lemma gram_entry m a b : (a < mrows m)%nat -> (b < mrows m)%nat ->
  entry (gram m) a b = rsum (map (fun c => entry m a c * entry m b c) (seq 0 (mcols m))).
Proof.
  intros Ha Hb. unfold entry at 1. unfold gram. cbn [mcols mdata].
  rewrite (nth_rows (fun i j => rsum (map (fun k => entry m i k * entry m j k) (seq 0 (mcols m)))) (mrows m) _ a b a); [reflexivity| |exact Hb].
  rewrite (nth_error_nth' _ 0%nat) by (rewrite seq_length; exact Ha). rewrite seq_nth by exact Ha. reflexivity.
Qed.

Notation SA := (sample_at effT limbT parentT jac det start stop offset limbOffset).
Notation MK := (makeSample effT limbT parentT jac det start offset limbOffset).
Notation Rigid := (rigid limbT parentT).

Lemma segment_ok q n c : segment start q n = Ok c -> length c = n /\ forall j, (j < n)%nat -> c !! j = q !! (start + j)%nat.
Proof.
  unfold segment. destruct (start + n <=? length q)%nat eqn:E; [|discriminate]. apply Nat.leb_le in E. intros [= <-]. split.
  - rewrite take_length, drop_length. lia.
  - intros j Hj. rewrite lookup_take by exact Hj. rewrite lookup_drop. reflexivity.
Qed.

Lemma makeSample_at i k conf c : Rigid -> (start <= stop)%nat -> segment start conf (stop - start) = Ok c ->
  SA i conf k (MK k c (stop - start)%nat i).
Proof.
  intros Hr Hs Hc. destruct (segment_ok _ _ _ Hc) as [Hl Hj]. constructor; try reflexivity.
  - split; [exact Hl|exact Hj].
  - cbn. unfold pt, triple. cbn [fst snd]. unfold ComputeEffectorPosition. fold (base limbT parentT k).
    set (v := inverseAct _ _). replace (V3 (vx v) (vy v) (vz v)) with v by (destruct v; reflexivity).
    subst v. apply inverseAct_act, Hr.
  - cbn. unfold pt, triple, ComputeEffectorPositionInLimbFrame. cbn [fst snd].
    unfold se3mul, se3act. cbn [tra rot]. apply vec3_ext; cbn; ring.
  - split; [reflexivity|]. split; [reflexivity|]. apply gram_length.
  - intros a b Ha Hb. apply gram_entry; assumption.
  - cbn. unfold Manipulability. destruct (Rltb 0 (det (gram (jac k)))) eqn:E.
    + apply Rltb_true in E. split; [apply sqrt_pos|]. left. split; [exact E|]. apply sqrt_sqrt. lra.
    + apply Rltb_false in E. split; [lra|]. right. split; [exact E|reflexivity].
Qed.

Lemma shootSamples_ok shoot n : forall i, Rigid -> (start <= stop)%nat -> (forall i, (stop <= length (shoot i))%nat) ->
  exists l, shootSamples effT limbT parentT jac det start offset limbOffset shoot (stop - start) n i = Ok l /\ length l = n /\
    forall j, (j < n)%nat -> exists s, l !! j = Some s /\ SA (i + j) (shoot (i + j)%nat) (shoot (i + j)%nat) s.
Proof.
  induction n as [|n IH]; intros i Hr Hs Hlen; cbn [shootSamples].
  - exists []. split; [reflexivity|]. split; [reflexivity|]. intros j Hj. lia.
  - destruct (segment start (shoot i) (stop - start)) as [c| |] eqn:Ec.
    2,3: exfalso; unfold segment in Ec; destruct (start + (stop - start) <=? length (shoot i))%nat eqn:E; [discriminate|];
      apply Nat.leb_gt in E; specialize (Hlen i); lia.
    destruct (IH (S i) Hr Hs Hlen) as (l & -> & Hl & Hj). eexists. split; [reflexivity|]. split; [cbn; lia|].
    intros [|j] Hlt.
    + eexists. split; [reflexivity|]. rewrite Nat.add_0_r. apply makeSample_at; assumption.
    + destruct (Hj j ltac:(lia)) as (s & Hs1 & Hs2). exists s. split; [exact Hs1|].
      replace (i + S j)%nat with (S i + j)%nat by lia. exact Hs2.
Qed.

Theorem generate_ok neutral k shoot nb : Rigid -> (start <= stop)%nat -> (stop <= length neutral)%nat ->
  (forall i, (stop <= length (shoot i))%nat) ->
  exists l, GenerateSamples effT limbT parentT jac det start stop offset limbOffset neutral k shoot nb = Ok l /\
    length l = Nat.max 1 nb /\
    (exists s, l !! 0%nat = Some s /\ SA 0 neutral k s) /\
    (forall i, (1 <= i < nb)%nat -> exists s, l !! i = Some s /\ SA i (shoot i) (shoot i) s).
Proof.
  intros Hr Hs Hn Hlen. unfold GenerateSamples, ComputeLength. destruct (stop <? start)%nat eqn:E; [apply Nat.ltb_lt in E; lia|].
  destruct (segment start neutral (stop - start)) as [c| |] eqn:Ec.
  2,3: exfalso; unfold segment in Ec; destruct (start + (stop - start) <=? length neutral)%nat eqn:E2; [discriminate|];
    apply Nat.leb_gt in E2; lia.
  destruct (shootSamples_ok shoot (nb - 1) 1 Hr Hs Hlen) as (l & -> & Hl & Hj).
  eexists. split; [reflexivity|]. split; [cbn; lia|]. split.
  - eexists. split; [reflexivity|]. apply makeSample_at; assumption.
  - intros i Hi. destruct (Hj (i - 1)%nat ltac:(lia)) as (s & Hs1 & Hs2). exists s.
    replace (1 + (i - 1))%nat with i in Hs2 by lia. split; [|exact Hs2].
    destruct i as [|i]; [lia|]. cbn. replace (S i - 1)%nat with i in Hs1 by lia. exact Hs1.
Qed.

(** loading a sample into the configuration it was drawn at changes nothing *)
Theorem sample_load i q k s : (start <= stop)%nat -> (stop <= length q)%nat -> SA i q k s -> Load (content s) q = Ok q.
Proof.
  intros Hs Hq H. destruct H as [_ H1 H2 [H3 H4] _ _ _ _ _ _].
  destruct (Load_ok (content s) q) as (q' & -> & Hl & Hi).
  - rewrite H1, H2. lia.
  - rewrite H2. exact H3.
  - f_equal. apply list_eq. intros j. rewrite Hi, H1, H2. case_bool_decide as E; [|reflexivity].
    rewrite H4 by lia. f_equal. lia.
Qed.
End samples.

Section create.
Local Open Scope R_scope.
Variables (effT : list R -> se3) (neutral : list R).

Lemma toRotationMatrix_rotation w x y z : w * w + x * x + y * y + z * z = 1 -> is_rotation (toRotationMatrix (w, V3 x y z)).
Proof.
  intros H. unfold is_rotation, toRotationMatrix, mmul, mtr, mid, mapp, mdet, vdot. cbn.
  assert (E : w * w = 1 - x * x - y * y - z * z) by lra. split.
  - apply (f_equal3 M3); apply vec3_ext; cbn; ring [E].
  - ring [E].
Qed.

Theorem create_ok samplesOf offset normal d px py pz x y z w rest ss :
  neutral = px :: py :: pz :: x :: y :: z :: w :: rest -> w * w + x * x + y * y + z * z = 1 ->
  samplesOf (computed d) = Ok ss ->
  exists p, createLimb effT neutral samplesOf offset normal d =
    Ok (mtr (rot (effT (computed d))), mapp (mtr (rot (effT (computed d)))) offset, mapp (mtr (rot (effT (computed d)))) normal,
        ss, p, mkDevice neutral neutral) /\
    se3act (SE3 (toRotationMatrix (w, V3 x y z)) (V3 px py pz)) p = tra (effT neutral).
Proof.
  intros Hn Hq Hss. unfold createLimb, GetEffectorTransform, computeEffectorReferencePosition. cbn [computed current]. rewrite Hss.
  destruct neutral as [|a0 [|a1 [|a2 [|a3 [|a4 [|a5 [|a6 l]]]]]]]; try discriminate. injection Hn as -> -> -> -> -> -> -> ->.
  eexists. split; [reflexivity|]. apply inverseAct_act. cbn [rot]. apply toRotationMatrix_rotation. exact Hq.
Qed.
End create.

Section text.
Context {T : Type} (nt : numtext T) (rnd : T -> T) (Hnt : number_text nt rnd).

Lemma loadDB_from voxel lv text : loadDB nt voxel lv text = loadDBfrom nt voxel lv (lines text).
Proof. reflexivity. Qed.

Lemma fmt_nl x : nl ∉ chars (fmt nt x).
Proof. intros H. by destruct (nt_fmt_chars _ _ Hnt x nl H). Qed.
Lemma rot_nl m : nl ∉ chars (writeRot nt m).
Proof. destruct m as [[[[a b] c] [[d e] f]] [[g h] i]]. apply (entries_nl _ _ Hnt). Qed.
Lemma readRot_ok m st : readRot nt (writeRot nt m :: st) = Ok (rnd9 rnd m, st).
Proof.
  destruct m as [[[[a b] c] [[d e] f]] [[g h] i]]. unfold readRot, writeRot. cbn [getline].
  rewrite (split_entries _ _ Hnt). pose proof (toks_read _ _ Hnt [a; b; c; d; e; f; g; h; i]) as H.
  destruct (toks nt [a; b; c; d; e; f; g; h; i]) as [|t1 [|t2 [|t3 [|t4 [|t5 [|t6 [|t7 [|t8 [|t9 [|t10 l]]]]]]]]]]; try discriminate.
  injection H as -> -> -> -> -> -> -> -> ->. reflexivity.
Qed.

Theorem limb_round_trip hasJoint hasFrame robotName d03 voxel lv dis gr (l : limbFile T) :
  storable_limb l -> hasJoint (limbName l) = true -> hasFrame (effectorName l) = true ->
  (lv = false -> forall n vs, values (database l) !! n = Some vs -> contains "sample" n = false) ->
  exists l' p, loadLimb nt hasJoint hasFrame robotName d03 voxel lv dis gr (saveLimbInfoAndDatabase nt l) = Ok l' /\
    limb_kept rnd l l' /\ rearranged p (rounded rnd lv (database l)) (database l') /\ voxels_exact voxel (database l') /\
    disableCollision l' = dis /\ grasps_ l' = gr /\ limbOffset_ l' = None /\ constraintsFrom l' = (constraintsFile robotName (limbName l), d03).
Proof.
  intros (H1 & H2 & H3 & H4) Hj Hf Hv. destruct (load_save_full nt rnd Hnt voxel lv (database l) H4 Hv) as (db & p & Hdb & Hre & Hvx).
  rewrite loadDB_from in Hdb. unfold loadLimb, saveLimbInfoAndDatabase.
  rewrite lines_line by exact H1. cbn [getline]. rewrite Hj. cbn [negb].
  rewrite lines_line by exact H2. cbn [getline]. rewrite Hf. cbn [negb].
  rewrite lines_line by apply rot_nl. rewrite readRot_ok.
  rewrite lines_line by apply (vec_nl _ _ Hnt). rewrite (readVec_ok _ _ Hnt).
  rewrite lines_line by apply (vec_nl _ _ Hnt). rewrite (readVec_ok _ _ Hnt).
  rewrite lines_line by apply fmt_nl. unfold StrToD_in. cbn [getline].
  rewrite lines_line by apply fmt_nl. cbn [getline].
  rewrite lines_line. 2:{ intros H. destruct (nt_int_chars _ _ Hnt (contactType_ l) ltac:(lia) nl H); done. }
  unfold StrToI_in. cbn [getline]. rewrite Hdb. eexists _, p. split; [reflexivity|].
  split; [|split; [exact Hre|split; [exact Hvx|split_and!; reflexivity]]].
  constructor; cbn; try reflexivity; try apply (nt_read _ _ Hnt). apply (nt_int_read _ _ Hnt). lia.
Qed.
End text.

Theorem effector_default j : first_leaf j (GetEffector j "").
Proof.
  unfold GetEffector. cbn. revert j. fix IH 1. intros [n [|c cs]]; cbn; constructor. apply IH.
Qed.
Theorem effector_named j name : name <> ""%string -> GetEffector j name = name.
Proof. intros H. unfold GetEffector. destruct (String.eqb_spec name ""); [contradiction|reflexivity]. Qed.
