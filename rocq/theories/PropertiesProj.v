From Coq Require Import Reals.
From Verif Require Import DevModel DevSpec DevProofs ProjSpec ProjProofs ProjProofs2 ProjProofs3 ProjExamples.
From Verif Require Import SampModel TriModel StateModel.
Local Open Scope R_scope.

(** * C84: a successful projection keeps the contacts and reaches its target *)
Theorem C84_com solve B : lawful_robot (dev B) -> sound_solver (dev B) solve -> forall target s rep,
  projectToComPosition solve B target s = Ok rep ->
  same_but_configuration s (presult rep) /\
  (psuccess rep = true ->
   (forall e, contact_held B (1 / 10000) s (StateModel.configuration (presult rep)) e) /\
   dist3 (comOf (dev B) (StateModel.configuration (presult rep))) target <= 1 / 10000).
Proof. exact (com_position solve B). Qed.
Print Assumptions C84_com.
Theorem C84_root solve B : lawful_robot (dev B) -> sound_solver (dev B) solve -> forall target s rep,
  projectToRootPosition solve B target s = Ok rep ->
  same_but_configuration s (presult rep) /\
  (psuccess rep = true ->
   (forall e, contact_held B (1 / 10000) s (StateModel.configuration (presult rep)) e) /\
   dist3 (tra (jpose (dev B) (StateModel.configuration (presult rep)) (rootName (dev B)))) target <= 1 / 10000).
Proof. exact (root_position solve B). Qed.
Print Assumptions C84_root.
(** it throws exactly when a contact is not one of a known limb with its frame and rotation *)
Theorem C84_defined B s : (known_contacts B s <-> exists l, CreateContactConstraints B s = Ok l) /\
  (~ known_contacts B s <-> CreateContactConstraints B s = Throw).
Proof. exact (conj (known_defined B s) (unknown_throws B s)). Qed.
Print Assumptions C84_defined.
Example C84_laws : lawful_robot (dev ebody) /\ sound_solver (dev ebody) check /\ known_contacts ebody estate.
Proof. exact (conj erobot_lawful (conj check_sound estate_known)). Qed.
Example C84_com_case : exists rep, projectToComPosition check ebody (V3 0 0 1) estate = Ok rep /\ psuccess rep = true.
Proof. exact ex_com. Qed.
Example C84_root_case : exists rep, projectToRootPosition check ebody (V3 0 0 1) estate = Ok rep /\ psuccess rep = true.
Proof. exact ex_root. Qed.

(** * C85: projecting on a root configuration *)
Theorem C85_locked_joints B conf x : x ∈ LockFromRoot B conf <->
  exists j, reaches (limb_root B) (tree (dev B)) j /\ x = lockOf conf j.
Proof. exact (root_locks B conf x). Qed.
Print Assumptions C85_locked_joints.
Theorem C85_root_configuration solve B : lawful_robot (dev B) -> sound_solver (dev B) solve -> forall conf s offset rep,
  projectToRootConfiguration solve B conf s offset = Ok rep ->
  same_but_configuration s (presult rep) /\
  (psuccess rep = true ->
   (forall e, contact_held B (1 / 10000) s (StateModel.configuration (presult rep)) e) /\
   (offset = vzero -> forall j, reaches (limb_root B) (tree (dev B)) j ->
      lockOf (StateModel.configuration (presult rep)) j = lockOf conf j) /\
   (offset <> vzero -> exists f, frames (dev B) !! "root_joint"%string = Some f /\
      dist3 (se3act (fpose (dev B) (StateModel.configuration (presult rep)) f) offset) (head3 conf) <= 1 / 10000)).
Proof. exact (root_configuration solve B). Qed.
Print Assumptions C85_root_configuration.
Example C85_case : exists rep, projectToRootConfiguration check ebody eq0 estate vzero = Ok rep /\ psuccess rep = true.
Proof. exact ex_root_conf. Qed.
Example C85_locks : LockFromRoot ebody eq0 = [("root_joint", [0;0;1;0;0;0;1])]%string.
Proof. exact ex_locks. Qed.

(** * C86: the collision-free projection on a centre of mass; what the samples of the
    free limbs gave is dropped: the result is the solver's, started from its first result *)
Theorem C86_free_com solve B : lawful_robot (dev B) -> sound_solver (dev B) solve -> forall target s rep,
  projectToColFreeComPosition solve B target s = Ok rep ->
  same_but_configuration s (presult rep) /\
  (psuccess rep = true ->
   let q := StateModel.configuration (presult rep) in
   (forall e, contact_held B (1 / 100) s q e) /\
   dist3 (comOf (dev B) q) target <= 1 / 100 /\
   wholeValid B q = true /\
   exists p c, solve p (StateModel.configuration s) = (true, c) /\ solve p c = (true, q) /\
     forall n, is_Some (limbsOf B !! n) -> contacts s !! n <> Some true -> can_be_freed B n c).
Proof. exact (free_com solve B). Qed.
Print Assumptions C86_free_com.
Example C86_case : exists rep, projectToColFreeComPosition check ebody (V3 0 0 1) estate = Ok rep /\ psuccess rep = true.
Proof. exact ex_free_com. Qed.

(** * C87: the pose at which a contact is aimed *)
Theorem C87_align axis : sound_axis axis -> forall from to, from <> vzero -> to <> vzero ->
  let c := vdot (vnormalize to) (vnormalize from) in
  is_rotation (GetRotationMatrix axis from to) /\
  (c = -1 \/ -1 + / 10 ^ 12 <= c -> mapp (GetRotationMatrix axis from to) (vnormalize from) = vnormalize to) /\
  dist3 (mapp (GetRotationMatrix axis from to) (vnormalize from)) (vnormalize to) <= 3 / 10 ^ 6.
Proof. exact (fun A f t Hf Ht => rotation_matrix axis f t Hf Ht A). Qed.
Print Assumptions C87_align.
Theorem C87_contact_point axis B l f q n p rotation :
  se3act (computeProjectionMatrix B axis l f q n p rotation) (loffset l) = vadd p (vscale (1 / 1000) n).
Proof. exact (contact_point axis B l f q n p rotation). Qed.
Print Assumptions C87_contact_point.
Theorem C87_requested_rotation axis B l f q n p rotation : rotation <> mzero ->
  rot (computeProjectionMatrix B axis l f q n p rotation) = rotation.
Proof. exact (requested_rotation axis B l f q n p rotation). Qed.
Print Assumptions C87_requested_rotation.
Theorem C87_normal_aligned axis B l f q n p : sound_axis axis -> lawful_robot (dev B) ->
  (exists k, frames (dev B) !! k = Some f) -> lnormal l <> vzero -> n <> vzero ->
  let r := rot (computeProjectionMatrix B axis l f q n p mzero) in
  let c := vdot (vnormalize n) (vnormalize (mapp (rot (fpose (dev B) q f)) (lnormal l))) in
  is_rotation r /\
  (c = -1 \/ -1 + / 10 ^ 12 <= c -> vnormalize (mapp r (lnormal l)) = vnormalize n) /\
  dist3 (vnormalize (mapp r (lnormal l))) (vnormalize n) <= 3 / 10 ^ 6.
Proof. exact (fun A LR F => aligned_rotation axis B l f q n p LR F A). Qed.
Print Assumptions C87_normal_aligned.
Example C87_axis : sound_axis eaxis.
Proof. exact eaxis_sound. Qed.
Example C87_opposite : mapp (GetRotationMatrix eaxis (V3 0 0 2) (V3 0 0 (-3))) (V3 0 0 1) = V3 0 0 (-1).
Proof. exact ex_opposite. Qed.

(** * C88: creating a contact *)
Theorem C88_state_to_obstacle solve axis B : lawful_robot (dev B) -> sound_solver (dev B) solve ->
  forall devq limbId l cur n pos valid lock rotation rep,
  projectStateToObstacle solve B axis devq limbId l cur n pos valid lock rotation = Ok rep ->
  let st := snd (RemoveContact limbId cur) in
  (psuccess rep = false -> same_but_configuration st (presult rep)) /\
  (psuccess rep = true ->
   let c := StateModel.configuration (presult rep) in
   exists f, frames (dev B) !! effName l = Some f /\
   let target := computeProjectionMatrix B axis l f (StateModel.configuration cur) n pos rotation in
     valid c = true /\
     (forall e, contact_held B (tol B) st c e) /\
     (lock = true -> forall j, reaches (fun j => jname j = limbJoint l) (tree (dev B)) j -> lockOf c j = lockOf devq j) /\
     dist3 (tra (fpose (dev B) c f)) (tra target) <= tol B /\
     (ltype l = _6_DOF -> is_rotation (rot target) ->
        (postural B = false -> angle_between (rot target) (rot (fpose (dev B) c f)) <= tol B) /\
        let v := log3 (dev B) (mmul (mtr (rot target)) (rot (fpose (dev B) c f))) in
        vx v * vx v + vy v * vy v <= tol B * tol B) /\
     same_but_configuration (addContact limbId c (tra (fpose (dev B) c f)) n (rot (fpose (dev B) c f)) st) (presult rep)).
Proof. exact (state_to_obstacle solve axis B). Qed.
Print Assumptions C88_state_to_obstacle.
Theorem C88_sample_to_obstacle solve axis B : lawful_robot (dev B) -> sound_solver (dev B) solve ->
  forall devq limbId l smp rn v1 v2 v3 valid q cur rep,
  projectSampleToObstacle solve B axis devq limbId l smp rn v1 v2 v3 valid q cur = Ok rep ->
  (psuccess rep = false -> same_but_configuration cur (presult rep)) /\
  (psuccess rep = true ->
   let c := StateModel.configuration (presult rep) in
   valid c = true /\
   (forall j, reaches (fun j => jname j = limbJoint l) (tree (dev B)) j -> lockOf c j = lockOf devq j) /\
   exists f l0 q', frames (dev B) !! effName l = Some f /\ limbsOf B !! limbId = Some l0 /\ Load (content smp) q = Ok q' /\
     (let rootT := jpose (dev B) devq (match limbParent l0 with Some j => j | None => limbJoint l0 end) in
      let pos := closestPointInTriangle (se3act rootT (let '(a, b, c) := effectorPosition (content smp) in V3 a b c)) v1 v2 v3 0 in
      dist3 (tra (fpose (dev B) c f)) (tra (computeProjectionMatrix B axis l f q' (vnormalize rn) pos mzero)) <= tol B) /\
     same_but_configuration (addContact limbId c (tra (fpose (dev B) c f)) (vnormalize rn) (rot (fpose (dev B) c f)) cur) (presult rep)).
Proof. exact (sample_to_obstacle solve axis B). Qed.
Print Assumptions C88_sample_to_obstacle.
Example C88_case : exists rep,
  projectStateToObstacle check ebody (fun a b => a) eq0 "leg" eleg estate (V3 0 0 1) (V3 0 0 (-1 / 1000)) (fun _ => true) true Pz = Ok rep /\
  psuccess rep = true.
Proof. exact ex_state_to_obstacle. Qed.

(** * C89: effector constraints of the interpolation *)
Theorem C89_position r f target th q :
  satisfied r th q (createPositionMethod f target) <-> dist3 (tra (fpose r q f)) target <= th.
Proof. exact (position_method r f target th q). Qed.
Print Assumptions C89_position.
Theorem C89_orientation r f target th q : lawful_robot r -> is_rotation target -> (exists n, frames r !! n = Some f) ->
  (satisfied r th q (createOrientationMethod f target) <->
   angle_between (mmul (rot (placement f)) (mmul target (rot (placement f)))) (rot (fpose r q f)) <= th).
Proof. exact (orientation_method_general r f target th q). Qed.
Print Assumptions C89_orientation.
Theorem C89_orientation_aligned r f target th q : lawful_robot r -> is_rotation target -> rot (placement f) = mid ->
  (satisfied r th q (createOrientationMethod f target) <-> angle_between target (rot (fpose r q f)) <= th).
Proof. exact (orientation_method_aligned r f target th q). Qed.
Print Assumptions C89_orientation_aligned.
Theorem C89_orientation_wrong : exists r f target q, is_rotation target /\ is_rotation (rot (placement f)) /\
  satisfied r 0 q (createOrientationMethod f target) /\ angle_between target (rot (fpose r q f)) = PI.
Proof. exact orientation_wrong. Qed.
Example C89_case : lawful_robot (dev ebody) /\ is_rotation Pz /\ (exists n, frames (dev ebody) !! n = Some efoot) /\
  (exists n, frames (dev ebody) !! n = Some eroot) /\ rot (placement eroot) = mid /\
  satisfied (dev ebody) 0 [0; 0; 1; 0; 0; 0; 1; 0; 0] (createPositionMethod efoot (V3 0 0 0)).
Proof.
  split; [exact (proj1 C84_laws)|]. split; [exact Pz_rotation|]. split; [exists "foot"%string; reflexivity|].
  split; [exists "root_joint"%string; reflexivity|]. split; [reflexivity|].
  apply C89_position. cbn [dev ebody]. replace (tra (fpose erobot _ efoot)) with (V3 0 0 0).
  - unfold dist3, vnorm, vnorm2, vdot, vsub. cbn. replace ((0 - 0) * (0 - 0) + (0 - 0) * (0 - 0) + (0 - 0) * (0 - 0)) with 0 by ring. rewrite R_sqrt.sqrt_0. lra.
  - unfold fpose. cbn. assert (epose [0; 0; 1; 0; 0; 0; 1; 0; 0] "hip"%string = SE3 mid (V3 0 0 (1 - 1 + 0))) as -> by reflexivity.
    unfold vadd, mapp, mid, vzero, vdot. cbn. f_equal; ring.
Qed.
Print Assumptions C89_orientation_wrong.

(** * C90: weights of the postural task of the interpolation *)
Theorem C90_weights nd : (10 <= nd)%nat -> exists w, interpWeights nd = Some w /\ length w = nd /\
  (forall i, (i < nd)%nat -> nth i w 0 = 7 / 163 *
     (if (i <? 3)%nat then 0 else if (i <? 6)%nat then 50 else if (i =? 6)%nat then 10
      else if (i <? 10)%nat || (i <? nd - 7)%nat then 1 else 0)) /\
  (nth 3 w 0 + nth 4 w 0 + nth 5 w 0 + nth 6 w 0 + nth 7 w 0 + nth 8 w 0 + nth 9 w 0) / 7 = 1.
Proof. exact (weights_exact nd). Qed.
Print Assumptions C90_weights.
Theorem C90_few_dofs nd : (nd < 10)%nat -> interpWeights nd = None.
Proof. exact (interp_weights_small nd). Qed.
Print Assumptions C90_few_dofs.
Theorem C90_reference B : exists w, posturalConstraint B = CPost (reference B) w /\
  (length (pweights B) = ndof (dev B) -> w = pweights B) /\
  (length (pweights B) <> ndof (dev B) -> w = repeat 1 (ndof (dev B))) /\ length w = ndof (dev B).
Proof. exact (reference_weights B). Qed.
Example C90_case : exists w, interpWeights 14 = Some w /\ length w = 14%nat /\ nth 4 w 0 = 350 / 163 /\ nth 11 w 0 = 0.
Proof.
  destruct (C90_weights 14 ltac:(lia)) as (w & E & Hl & Hw & _). exists w. split; [exact E|]. split; [exact Hl|].
  split; [rewrite (Hw 4%nat) by lia|rewrite (Hw 11%nat) by lia]; cbn; lra.
Qed.
Print Assumptions C90_reference.

(** * C91: the reachability bodies follow the robot *)
Theorem C91_set_configuration {T V} `{EqDecision T} q (d : rbdevice T V) b d' : currentConfiguration q d = (b, d') ->
  dconf (base d') = q /\ dextra (base d') = dextra (base d) /\ (b = true <-> dconf (base d) <> q) /\
  refs d' = refs d /\
  forall n, roms d' !! n = (fun r => mkDev q (dextra r)) <$> roms d !! n.
Proof. exact (current_exact q d b d'). Qed.
Print Assumptions C91_set_configuration.
Theorem C91_together {T V} `{EqDecision T} resize ops (d : rbdevice T V) : in_step d -> in_step (dev_run resize d ops).
Proof. exact (run_in_step resize ops d). Qed.
Print Assumptions C91_together.
Theorem C91_last_configuration {T V} `{EqDecision T} resize ops q tail (d : rbdevice T V) : in_step d ->
  Forall (fun o => exists rom v, o = DRef rom v) tail ->
  let d' := dev_run resize d (ops ++ DConf q :: tail) in
  dconf (base d') = q /\ forall n r, roms d' !! n = Some r -> dconf r = q.
Proof. exact (run_last resize ops q tail d). Qed.
Print Assumptions C91_last_configuration.
Theorem C91_references {T V} `{EqDecision T} resize (uninit : V) ops rom (d : rbdevice T V) : refs d = ∅ ->
  getEffectorReference uninit rom (dev_run resize d ops) =
  match last_ref rom ops with Some v => v | None => uninit end.
Proof. exact (run_reference resize uninit ops rom d). Qed.
Print Assumptions C91_references.
Example C91_case : in_step (dev_run (V:=nat) (fun _ _ q => q)
   (mkRbDev (mkDev [0%nat] 0) (<["rom" := mkDev [0%nat] 0]> ∅)%string ∅) [DConf [3%nat]; DRef "rom"%string 5%nat]).
Proof. exact ex_device. Qed.
