(** A two-limbed robot on which the hypotheses of the projection theorems hold. *)
From Coq Require Import Reals Lra Psatz.
From Verif Require Import SampModel MapsProofs VecProofs ToolProofs ToolProofs2 ProjSpec ProjProofs ProjProofs2 ProjProofs3.
From Verif Require Import StateModel.
Local Open Scope R_scope.

(** quarter turn about z *)
Definition Pz : mat3 := M3 (V3 0 (-1) 0) (V3 1 0 0) (V3 0 0 1).
Definition etree : jnt := Jnt "root_joint" 0 7 true [Jnt "hip" 7 1 true []; Jnt "shoulder" 8 1 true []].
Definition epose (q : list R) (j : string) : se3 :=
  if bool_decide (j = "root_joint"%string) then SE3 mid (head3 q)
  else if bool_decide (j = "hip"%string) then SE3 mid (V3 (nth 0 q 0) (nth 1 q 0) (nth 2 q 0 - 1 + nth 7 q 0))
  else SE3 mid (V3 (nth 0 q 0 + 1) (nth 1 q 0) (nth 2 q 0 + nth 8 q 0)).
Definition efoot : frame := mkFrame "hip" (SE3 Pz vzero).
Definition ehand : frame := mkFrame "shoulder" (SE3 Pz vzero).
Definition eroot : frame := mkFrame "root_joint" (SE3 mid vzero).
Definition erobot : robot :=
  mkRobot epose head3 etree (<["foot" := efoot]> (<["hand" := ehand]> (<["root_joint" := eroot]> ∅)))%string 8
    (fun m => V3 (angle m) 0 0) (fun _ _ _ => 0).
Definition eleg : plimb := mkPlimb "hip" (Some "root_joint"%string) "foot" vzero (V3 0 0 1) _6_DOF [].
Definition earm : plimb := mkPlimb "shoulder" (Some "root_joint"%string) "hand" vzero (V3 0 0 1) _6_DOF [].
Definition ebody : fullbody :=
  mkFullbody erobot (<["leg" := eleg]> (<["arm" := earm]> ∅))%string [0;0;1;0;0;0;1;0;0] [] false (fun _ => true)
    (<["leg" := fun _ => true]> (<["arm" := fun _ => true]> ∅))%string 0.

(** a solver that checks the constraints at the initial configuration *)
Fixpoint joints (j : jnt) : list jnt := match j with Jnt _ _ _ _ kids => j :: concat (map joints kids) end.
Definition satb (r : robot) (th : R) (q : list R) (c : cstr) : bool :=
  match c with
  | CPos j loc g => Rleb (vnorm (mapp (mtr (rot g)) (vsub (tra (se3mul (jpose r q j) loc)) (tra g)))) th
  | COri j loc t m => Rleb (vnorm (masked m (log3 r (mmul (mtr t) (mmul (rot (jpose r q j)) loc))))) th
  | CLock l => forallb (fun j => if bool_decide (jname j = fst l) then (if List.list_eq_dec Req_EM_T (snd (lockOf q j)) (snd l) then true else false) else true) (joints (tree r))
  | CCom t => Rleb (dist3 (comOf r q) t) th
  | CPost ref w => Rleb (postErr r ref w q) th
  end.
Definition check (p : projector) (q : list R) : bool * list R :=
  (forallb (satb erobot (thr p) q) (cs p ++ cs1 p), q).

Lemma in_joints j j' : in_tree j j' -> j' ∈ joints j.
Proof.
  induction 1 as [[n r z b kids]|[n r z b kids] k j' Hk _ IH]; cbn; [left|]. right.
  cbn in Hk. clear -Hk IH. induction kids as [|a kids IHk]; [inversion Hk|]. cbn. apply elem_of_app.
  apply elem_of_cons in Hk as [->|Hk]; auto.
Qed.
Lemma joints_in j : forall j', j' ∈ joints j -> in_tree j j'.
Proof.
  revert j. fix IH 1. intros [n r z b kids] j' H. cbn in H. apply elem_of_cons in H as [->|H]; [constructor|].
  assert (G : exists k, k ∈ kids /\ in_tree k j').
  { revert H. induction kids as [|a kids IHk]; cbn; intros H; [inversion H|].
    apply elem_of_app in H as [H|H].
    - exists a. split; [left|]. apply IH, H.
    - destruct (IHk H) as (k & Hk & Ht). exists k. split; [right; exact Hk|exact Ht]. }
  destruct G as (k & Hk & Ht). eapply in_down; [exact Hk|exact Ht].
Qed.
Lemma satb_spec r th q c : satb r th q c = true <-> satisfied r th q c.
Proof.
  destruct c as [j loc g|j loc t m|l|t|ref w]; cbn [satb satisfied]; try apply Rleb_true.
  rewrite forallb_forall. split.
  - intros H j Hj E. assert (Hin : In j (joints (tree r))) by (apply elem_of_list_In, in_joints, Hj).
    specialize (H j Hin). cbn in H. rewrite bool_decide_eq_true_2 in H by exact E.
    destruct (List.list_eq_dec Req_EM_T (snd (lockOf q j)) (snd l)) as [E2|]; [|discriminate].
    destruct j as [n rk z b kids], l as [ln lv]. cbn in *. congruence.
  - intros H j Hj. apply elem_of_list_In in Hj. case_bool_decide as E; [|reflexivity].
    rewrite (H j (joints_in _ _ Hj) E). destruct (List.list_eq_dec Req_EM_T (snd l) (snd l)); [reflexivity|congruence].
Qed.
Lemma check_sound : sound_solver erobot check.
Proof.
  intros p q q' H c Hc. unfold check in H. injection H as H <-. apply satb_spec.
  rewrite forallb_forall in H. apply H. apply elem_of_list_In, elem_of_app. destruct Hc as [Hc|[_ Hc]]; auto.
Qed.
Lemma check_ok p q : (forall c, c ∈ cs p ++ cs1 p -> satisfied erobot (thr p) q c) -> check p q = (true, q).
Proof.
  intros H. unfold check. f_equal. apply forallb_forall. intros c Hc. apply satb_spec, H, elem_of_list_In, Hc.
Qed.

Lemma Pz_rotation : is_rotation Pz.
Proof. split; unfold Pz; mat; [f_equal; f_equal; ring|ring]. Qed.
Lemma angle_nonneg m : 0 <= angle m.
Proof. apply acos_bound. Qed.
Lemma erobot_lawful : lawful_robot erobot.
Proof.
  split.
  - intros q j. cbn. unfold epose. repeat case_bool_decide; apply rotation_mid.
  - intros n f. cbn. rewrite !lookup_insert_Some, lookup_empty.
    intros [[_ <-]|[_ [[_ <-]|[_ [[_ <-]|[_ H]]]]]]; [apply Pz_rotation|apply Pz_rotation|apply rotation_mid|discriminate].
  - intros m _. cbn [log3 erobot]. unfold vnorm, vnorm2, vdot. cbn [vx vy vz].
    replace (angle m * angle m + 0 * 0 + 0 * 0) with (angle m * angle m) by ring. apply sqrt_square, angle_nonneg.
Qed.

Definition eq0 : list R := [0;0;1;0;0;0;1;0;0].
Definition estate : PSt :=
  mkState eq0 (<["leg" := true]> (<["arm" := true]> ∅))%string
    (<["leg" := V3 0 0 1]> (<["arm" := V3 0 0 1]> ∅))%string
    (<["leg" := V3 0 0 0]> (<["arm" := V3 1 0 1]> ∅))%string
    (<["leg" := Pz]> (<["arm" := Pz]> ∅))%string ["leg"; "arm"]%string 2 true 0.

Lemma dist_self_le a b th : a = b -> 0 <= th -> dist3 a b <= th.
Proof. intros -> H. rewrite dist3_refl. exact H. Qed.
Lemma angle_id : angle mid = 0.
Proof. unfold angle, mtrace, mid. cbn [vx vy vz row1 row2 row3]. replace ((1 + 1 + 1 - 1) / 2) with 1 by field. apply acos_1. Qed.
Lemma angle_zero m th : m = mid -> 0 <= th -> vnorm (V3 (angle m) 0 0) <= th.
Proof.
  intros -> H. rewrite angle_id. unfold vnorm, vnorm2, vdot. cbn [vx vy vz].
  replace (0 * 0 + 0 * 0 + 0 * 0) with 0 by ring. rewrite sqrt_0. exact H.
Qed.
Lemma hip_pose q : epose q "hip" = SE3 mid (V3 (nth 0 q 0) (nth 1 q 0) (nth 2 q 0 - 1 + nth 7 q 0)).
Proof. reflexivity. Qed.
Lemma shoulder_pose q : epose q "shoulder" = SE3 mid (V3 (nth 0 q 0 + 1) (nth 1 q 0) (nth 2 q 0 + nth 8 q 0)).
Proof. reflexivity. Qed.
Lemma leg_foot : fpose erobot eq0 efoot = SE3 Pz (V3 0 0 0).
Proof.
  unfold fpose, efoot, se3mul. cbn [fjoint placement rot tra jpose erobot]. rewrite hip_pose. cbn [rot tra].
  rewrite mmul_id_l, mapp_id. f_equal. unfold eq0, vadd, vzero. cbn [nth vx vy vz]. f_equal; ring.
Qed.
Lemma arm_hand : fpose erobot eq0 ehand = SE3 Pz (V3 1 0 1).
Proof.
  unfold fpose, ehand, se3mul. cbn [fjoint placement rot tra jpose erobot]. rewrite shoulder_pose. cbn [rot tra].
  rewrite mmul_id_l, mapp_id. f_equal. unfold eq0, vadd, vzero. cbn [nth vx vy vz]. f_equal; ring.
Qed.
Lemma PzPz : mmul (mtr Pz) Pz = mid.
Proof. apply Pz_rotation. Qed.
Lemma PzPzt : mmul Pz (mtr Pz) = mid.
Proof. apply orth_right; apply Pz_rotation. Qed.
Lemma foot_lookup : frames erobot !! "foot"%string = Some efoot.
Proof. reflexivity. Qed.
Lemma hand_lookup : frames erobot !! "hand"%string = Some ehand.
Proof. reflexivity. Qed.

(** the contacts of a state that records the actual poses hold *)
Lemma one_contact (th : R) (e : string) (l : plimb) (f : frame) (s : PSt) le c :
  0 <= th -> limbsOf ebody !! e = Some l -> frames erobot !! effName l = Some f -> rot (jpose erobot eq0 (fjoint f)) = mid ->
  rot (placement f) = Pz ->
  positions s !! e = Some (tra (fpose erobot eq0 f)) -> rotations s !! e = Some Pz ->
  contactConstraint ebody s e = Ok le -> c ∈ le -> satisfied erobot th eq0 c.
Proof.
  intros Hth Hl Hf Hj Hp Hpos Hrot. unfold contactConstraint. rewrite Hl, Hpos. cbn [dev ebody]. rewrite Hf.
  assert (H1 : satisfied erobot th eq0 (CPos (fjoint f) (se3mul (placement f) se3id) (SE3 mid (tra (fpose erobot eq0 f))))).
  { apply (cpos_effector ebody). apply dist_self_le; [reflexivity|exact Hth]. }
  destruct (is6 (ltype l)).
  - rewrite Hrot. intros [= <-] Hc. apply elem_of_cons in Hc as [->|Hc]; [exact H1|].
    apply elem_of_list_singleton in Hc as ->. cbn [satisfied masked log3 erobot vx vy vz].
    apply angle_zero; [|exact Hth].
    change (jpose (mkRobot epose head3 etree (frames erobot) 8 (fun m => V3 (angle m) 0 0) (fun _ _ _ => 0))) with (jpose erobot).
    rewrite Hj, Hp, PzPzt, !mmul_id_r. reflexivity.
  - intros [= <-] Hc. apply elem_of_list_singleton in Hc as ->. exact H1.
Qed.

Lemma estate_known : known_contacts ebody estate.
Proof.
  intros e [p Hp]. cbn in Hp. rewrite !lookup_insert_Some, lookup_empty in Hp.
  destruct Hp as [[<- _]|[_ [[<- _]|[_ H]]]]; [| |discriminate].
  - exists eleg, efoot. split_and!; [reflexivity..|intros _; eexists; reflexivity].
  - exists earm, ehand. split_and!; [reflexivity..|intros _; eexists; reflexivity].
Qed.
Lemma estate_satisfied th l : 0 <= th -> CreateContactConstraints ebody estate = Ok l ->
  forall c, c ∈ l -> satisfied erobot th eq0 c.
Proof.
  intros Hth Hl c Hc. destruct (contacts_elem_inv _ _ _ _ Hl c Hc) as (e & le & He & Hle & Hin).
  apply fixed_self in He as [p Hp]. cbn in Hp. rewrite !lookup_insert_Some, lookup_empty in Hp.
  destruct Hp as [[<- _]|[_ [[<- _]|[_ H]]]]; [| |discriminate].
  - eapply (one_contact th "leg" eleg efoot estate); [exact Hth|reflexivity|reflexivity|reflexivity|reflexivity|rewrite leg_foot; reflexivity|reflexivity|exact Hle|exact Hin].
  - eapply (one_contact th "arm" earm ehand estate); [exact Hth|reflexivity|reflexivity|reflexivity|reflexivity|rewrite arm_hand; reflexivity|reflexivity|exact Hle|exact Hin].
Qed.

Lemma ex_com : exists rep, projectToComPosition check ebody (V3 0 0 1) estate = Ok rep /\ psuccess rep = true.
Proof.
  unfold projectToComPosition. destruct (proj1 (known_defined ebody estate) estate_known) as [l Hl]. rewrite Hl.
  eexists. split; [reflexivity|]. unfold applyAndReport. rewrite check_ok; [reflexivity|].
  cbn [cs cs1 thr addC addCs newProj app]. rewrite app_nil_r. intros c Hc. apply elem_of_app in Hc as [Hc|Hc].
  - apply (estate_satisfied _ l); [lra|assumption|assumption].
  - apply elem_of_list_singleton in Hc as ->. apply dist_self_le; [reflexivity|lra].
Qed.
Lemma ex_root : exists rep, projectToRootPosition check ebody (V3 0 0 1) estate = Ok rep /\ psuccess rep = true.
Proof.
  unfold projectToRootPosition. destruct (proj1 (known_defined ebody estate) estate_known) as [l Hl]. rewrite Hl.
  eexists. split; [reflexivity|]. unfold applyAndReport. rewrite check_ok; [reflexivity|].
  cbn [cs cs1 thr addC addCs newProj app]. rewrite app_nil_r. intros c Hc. apply elem_of_app in Hc as [Hc|Hc].
  - apply (estate_satisfied _ l); [lra|assumption|assumption].
  - apply elem_of_list_singleton in Hc as ->. cbn [satisfied rootPosConstraint rot tra]. rewrite mtr_id, mapp_id.
    apply dist_self_le; [|lra]. rewrite se3mul_id_r. reflexivity.
Qed.
(** only the root joint is locked *)
Lemma ex_locks : LockFromRoot ebody eq0 = [("root_joint", [0;0;1;0;0;0;1])]%string.
Proof. reflexivity. Qed.
Lemma ex_root_conf : exists rep, projectToRootConfiguration check ebody eq0 estate vzero = Ok rep /\ psuccess rep = true.
Proof.
  unfold projectToRootConfiguration. destruct (proj1 (known_defined ebody estate) estate_known) as [l Hl]. rewrite Hl.
  replace (Reqb (vx vzero) 0 && Reqb (vy vzero) 0 && Reqb (vz vzero) 0) with true
    by (symmetry; rewrite !andb_true_iff, !Reqb_true; auto).
  eexists. split; [reflexivity|]. unfold applyAndReport. rewrite check_ok; [reflexivity|].
  cbn [cs cs1 thr addC addCs newProj app]. rewrite app_nil_r. intros c Hc. apply elem_of_app in Hc as [Hc|Hc].
  - apply (estate_satisfied _ l); [lra|assumption|assumption].
  - rewrite ex_locks in Hc. apply elem_of_list_singleton in Hc as ->.
    cbn [satisfied]. intros j Hj E. apply in_joints in Hj.
    change (joints (tree erobot)) with [etree; Jnt "hip" 7 1 true []; Jnt "shoulder" 8 1 true []] in Hj.
    rewrite !elem_of_cons in Hj. destruct Hj as [->|[->|[->|Hj]]]; try discriminate; [reflexivity|inversion Hj].
Qed.
Lemma ex_free_com : exists rep, projectToColFreeComPosition check ebody (V3 0 0 1) estate = Ok rep /\ psuccess rep = true.
Proof.
  unfold projectToColFreeComPosition. destruct (proj1 (known_defined ebody estate) estate_known) as [l Hl]. rewrite Hl.
  assert (Hck : forall p, cs p = l ++ [CCom (V3 0 0 1)] -> cs1 p = [posturalConstraint ebody] -> thr p = 1 / 100 -> check p eq0 = (true, eq0)).
  { intros p E1 E2 E3. apply check_ok. rewrite E1, E2, E3. intros c Hc. rewrite <- app_assoc in Hc. apply elem_of_app in Hc as [Hc|Hc].
    - apply (estate_satisfied _ l); [lra|assumption|assumption].
    - cbn [app] in Hc. apply elem_of_cons in Hc as [->|Hc]; [apply dist_self_le; [reflexivity|lra]|].
      apply elem_of_list_singleton in Hc as ->. cbn. lra. }
  cbn [StateModel.configuration estate]. rewrite Hck by reflexivity. cbn zeta.
  assert (E : freeEffectors estate (skeys (limbsOf ebody)) = []).
  { unfold freeEffectors. destruct (filter _ _) as [|e es] eqn:Ee; [reflexivity|]. exfalso.
    assert (H : e ∈ e :: es) by left. rewrite <- Ee in H. apply elem_of_list_filter in H as [H1 H2].
    apply elem_of_skeys in H2 as [x Hx]. cbn in Hx. rewrite !lookup_insert_Some, lookup_empty in Hx.
    destruct Hx as [[<- _]|[_ [[<- _]|[_ H]]]]; discriminate. }
  rewrite E. cbn [freeLimbsLoop]. rewrite Hck by reflexivity. eexists. split; [reflexivity|]. reflexivity.
Qed.

(** the leg's contact is moved (to where it is), the arm's is kept *)
Lemma ex_state_to_obstacle : exists rep,
  projectStateToObstacle check ebody (fun a b => a) eq0 "leg" eleg estate (V3 0 0 1) (V3 0 0 (-1 / 1000)) (fun _ => true) true Pz = Ok rep /\
  psuccess rep = true.
Proof.
  unfold projectStateToObstacle. cbn zeta.
  set (st := snd (RemoveContact "leg" estate)).
  assert (Hp : positions st = delete "leg"%string (positions estate)) by reflexivity.
  assert (Hr : rotations st = delete "leg"%string (rotations estate)) by reflexivity.
  assert (Hk : known_contacts ebody st).
  { intros e [p He]. rewrite Hp in He. apply lookup_delete_Some in He as [Hne He].
    destruct (estate_known e) as (l & f & H1 & H2 & H3); [eauto|]. exists l, f. split_and!; auto.
    intros H6. destruct (H3 H6) as [r Er]. exists r. rewrite Hr. apply lookup_delete_Some. auto. }
  change (addContactConstraints ebody st (fixedContacts moved3 st st)) with (CreateContactConstraints ebody st).
  destruct (proj1 (known_defined ebody st) Hk) as [l Hl]. rewrite Hl.
  unfold projectToObstacle. cbn [dev ebody effName eleg]. rewrite foot_lookup. eexists. split; [reflexivity|].
  set (tg := computeProjectionMatrix _ _ _ _ _ _ _ _).
  assert (Htg : tg = SE3 Pz (V3 0 0 0)).
  { unfold tg, computeProjectionMatrix. replace (isZero0 Pz) with false.
    2:{ symmetry. destruct (isZero0 Pz) eqn:E; [|reflexivity]. apply isZero0_true in E. unfold Pz, mzero, vzero in E.
        injection E as E1. lra. }
    f_equal. unfold eleg, Pz. cbv [loffset vzero mapp vdot vsub vadd vscale row1 row2 row3 vx vy vz]. f_equal; field. }
  unfold projectEffector. cbn [postural ebody is6 ltype eleg negb]. rewrite check_ok.
  - reflexivity.
  - cbn [StateModel.configuration estate cs cs1 thr addC addCs newProj app]. rewrite app_nil_r. intros c Hc.
    rewrite !elem_of_app, !elem_of_list_singleton in Hc. destruct Hc as [[[Hc|Hc]|E9]|E9]; [| |subst c|subst c].
    + destruct (contacts_elem_inv _ _ _ _ Hl c Hc) as (e & le & He & Hle & Hin).
      apply fixed_self in He as [p He]. rewrite Hp in He. apply lookup_delete_Some in He as [Hne He].
      cbn in He. rewrite !lookup_insert_Some, lookup_empty in He.
      destruct He as [[<- _]|[_ [[<- _]|[_ H]]]]; [congruence| |discriminate].
      eapply (one_contact (1 / 10000) "arm" earm ehand st); [lra|reflexivity|reflexivity|reflexivity|reflexivity|rewrite arm_hand; reflexivity|reflexivity|exact Hle|exact Hin].
    + apply elem_of_list_fmap in Hc as (x & -> & Hx). rewrite lock_singleton in Hx. apply lock_elem in Hx as (j & Rj & ->).
      cbn [satisfied]. intros j' Hj E. apply in_joints in Hj.
      change (joints (tree erobot)) with [etree; Jnt "hip" 7 1 true []; Jnt "shoulder" 8 1 true []] in Hj.
      assert (Hjj : j ∈ joints etree) by (apply in_joints, (reaches_in_tree _ _ _ Rj)).
      change (joints etree) with [etree; Jnt "hip" 7 1 true []; Jnt "shoulder" 8 1 true []] in Hjj.
      rewrite !elem_of_cons in Hj, Hjj.
      destruct Hj as [->|[->|[->|Hj]]]; [| | |inversion Hj]; destruct Hjj as [->|[->|[->|Hjj]]]; try (inversion Hjj; fail); try reflexivity; discriminate E.
    + apply (cpos_effector ebody). rewrite Htg. cbn [dev ebody]. rewrite leg_foot. apply dist_self_le; [reflexivity|lra].
    + cbn [satisfied masked]. rewrite Htg, se3mul_id_r. cbn [rot log3 erobot vx vy vz]. apply angle_zero; [|lra].
      change (rot (jpose erobot eq0 (fjoint efoot))) with mid. cbn [placement efoot rot]. rewrite mmul_id_l. apply PzPz.
Qed.

(** a sound choice of axis *)
Definition eaxis (v0 v1 : vec3) : vec3 :=
  if Req_EM_T (vx v0) 0 then V3 1 0 0 else vnormalize (V3 (vy v0) (- vx v0) 0).
Lemma eaxis_sound : sound_axis eaxis.
Proof.
  intros v0 v1 N0 _. unfold eaxis. destruct (Req_EM_T (vx v0) 0) as [E|E].
  - split; unfold vnorm2, vdot; cbn [vx vy vz]; [ring|rewrite E; ring].
  - assert (Hn : V3 (vy v0) (- vx v0) 0 <> vzero) by (unfold vzero; intros H; injection H; intros; lra).
    split; [apply vnormalize_unit; exact Hn|].
    destruct (vnormalize_scale _ Hn) as (k & _ & ->). unfold vdot, vscale. cbn [vx vy vz]. ring.
Qed.
(** opposite vectors *)
Lemma ex_opposite : mapp (GetRotationMatrix eaxis (V3 0 0 2) (V3 0 0 (-3))) (V3 0 0 1) = V3 0 0 (-1).
Proof.
  assert (E1 : vnormalize (V3 0 0 2) = V3 0 0 1).
  { unfold vnormalize, vnorm, vnorm2, vdot. cbn [vx vy vz]. replace (0 * 0 + 0 * 0 + 2 * 2) with (2 * 2) by ring.
    destruct (Rlt_dec 0 (2 * 2)); [|lra]. rewrite sqrt_square by lra. unfold vscale. cbn [vx vy vz]. f_equal; field. }
  assert (E2 : vnormalize (V3 0 0 (-3)) = V3 0 0 (-1)).
  { unfold vnormalize, vnorm, vnorm2, vdot. cbn [vx vy vz]. replace (0 * 0 + 0 * 0 + -3 * -3) with (3 * 3) by ring.
    destruct (Rlt_dec 0 (3 * 3)); [|lra]. rewrite sqrt_square by lra. unfold vscale. cbn [vx vy vz]. f_equal; field. }
  rewrite <- E1, <- E2.
  apply (rotation_matrix eaxis (V3 0 0 2) (V3 0 0 (-3))).
  - unfold vzero. intros H. injection H. lra.
  - unfold vzero. intros H. injection H. lra.
  - apply eaxis_sound.
  - left. rewrite E1, E2. unfold vdot. cbn [vx vy vz]. ring.
Qed.

(** the orientation constraint of the interpolation aims at another orientation than
    the target when the effector frame is turned: here half a turn away *)
Lemma ex_orientation_wrong : satisfied erobot 0 eq0 (createOrientationMethod (mkFrame "hip" (SE3 (mtr Pz) vzero)) Pz) /\
  angle_between Pz (rot (fpose erobot eq0 (mkFrame "hip" (SE3 (mtr Pz) vzero)))) = PI.
Proof.
  split.
  - unfold createOrientationMethod. cbn [satisfied masked placement rot log3 erobot vx vy vz fjoint].
    apply angle_zero; [|lra]. change (rot (jpose erobot eq0 "hip")) with mid. rewrite PzPz, !mmul_id_r. reflexivity.
  - unfold fpose. cbn [placement fjoint se3mul rot]. change (rot (jpose erobot eq0 "hip")) with mid. rewrite mmul_id_l.
    unfold angle_between, angle. replace ((mtrace (mmul (mtr Pz) (mtr Pz)) - 1) / 2) with (-1).
    + replace (-1) with (Ropp 1) by ring. rewrite acos_opp, acos_1. ring.
    + unfold Pz. cbv [mtrace mmul mtr mapp vdot row1 row2 row3 vx vy vz]. field.
Qed.
Lemma orientation_wrong : exists r f target q, is_rotation target /\ is_rotation (rot (placement f)) /\
  satisfied r 0 q (createOrientationMethod f target) /\ angle_between target (rot (fpose r q f)) = PI.
Proof.
  exists erobot, (mkFrame "hip" (SE3 (mtr Pz) vzero)), Pz, eq0. split; [apply Pz_rotation|].
  split; [apply rotation_mtr, Pz_rotation|apply ex_orientation_wrong].
Qed.
From Verif Require Import DevModel DevSpec DevProofs.
Lemma ex_device : in_step (dev_run (V:=nat) (fun _ _ q => q)
   (mkRbDev (mkDev [0%nat] 0) (<["rom" := mkDev [0%nat] 0]> ∅)%string ∅) [DConf [3%nat]; DRef "rom"%string 5%nat]).
Proof.
  apply run_in_step. intros n r. cbn. rewrite lookup_insert_Some, lookup_empty. intros [[_ <-]|[_ H]]; [auto|discriminate].
Qed.
