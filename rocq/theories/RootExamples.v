(** The root of the robot along a generated sequence: a case. *)
From Coq Require Import Reals ZArith Lra Lia.
From Verif Require Import Maps MapsProofs CombModel GenModel GenSpec StateModel StateSpec StateReal StateRealProofs StateProofs Vec VecProofs SampModel ToolModel ToolSpec ProjModel ProjSpec ProjProofs ProjExamples SeqModel SeqSpec
  SeqProofs SeqProofs2 SeqProofs3 SeqProofs4 SeqExamples HoldSpec HoldRobot HoldProofs HoldProofs2 HoldExamples StepSpec StepRobot RootSpec RootProofs.
From Verif Require Import StateModel ToolSpec ProjModel.
Local Open Scope R_scope.

(** the foot follows the robot; the first call repositions the contact *)
Definition rcomp (k : nat) (prev : PSt) (c : list R) (d a : vec3) (t : R) : creport :=
  let re := Nat.eqb k 0 in
  let q := if re then configuration prev else c in
  mkCrep true true false true re (sst q (Some (hfoot q)) None).
Lemma rcomp_rooted cut : rooted hbody cut rcomp (fun _ => True).
Proof.
  intros k prev c d a t _. unfold rcomp. cbv zeta. cbn [crRepos crResult].
  destruct (Nat.eqb k 0); intros j _; reflexivity.
Qed.
Lemma rcomp_reliable : reliable rcomp (fun _ => True).
Proof. intros k prev c d a t _. cbn. split; [by intros [?|?]|done]. Qed.
Lemma rcomp_sized configs : (forall c, c ∈ configs -> length c = 9%nat) -> sized rcomp 9 0 configs hbegin.
Proof.
  intros Hc. exists (fun s => length (configuration s) = 9%nat).
  split; [lia|]. split; [lia|]. split; [lia|]. split; [reflexivity|]. split; [done|]. split; [done|].
  intros k prev c d a t Hp H s (E & _). rewrite E. unfold rcomp. cbv zeta. cbn [crResult].
  change (length (if Nat.eqb k 0 then configuration prev else c) = 9%nat). by destruct (Nat.eqb k 0).
Qed.
Lemma hroot_joints : root_joints hbody (limb_root hbody).
Proof. intros j i ->%hbase. unfold entry_of. simpl. lia. Qed.
Definition rafter (x : R) : PSt := recount (sst (hq x) (Some (hfoot (hq x))) None).
Lemma rcomp_loop : interpLoop rcomp 9 0 [hq 0; hq 1; hq 2] 1 10 (initial 0 hbegin) =
  Some (Ok (true, [(0, hbegin); (0, rafter 0); (0 + 1, rafter 1); (0 + 1 + 1, rafter 2)])).
Proof. reflexivity. Qed.
(** the services of the robot with a leg and an arm, refusing projections of another size *)
Definition hserv (oct : string -> list (sample R * vec3 * (vec3 * vec3 * vec3))) stab : services (list R) vec3 mat3 (sample R * vec3 * (vec3 * vec3 * vec3)) (sample R) :=
  let S := made hcheck (fun a _ => a) hbody oct stab hsamples in
  mkServices _ _ _ _ _ (octree S)
    (fun b limb x q cur => let r := ik S b limb x q cur in if Nat.eqb (length (snd r)) (length q) then r else (false, q))
    (candNormal S) (fkPos S) (fkRot S) (isStable S) (reachQS S) (reachDyn S) (limbValid S) (GenModel.samples S) (loadS S)
    (fun conf cur => let r := projRoot S conf cur in if Nat.eqb (length (snd r)) (length conf) then r else (false, conf))
    (validate S) (limbNames S) (nonContacting S) (groupOf S) (copyExtra S) (emptyCfg S) (junkPos S) (junkRot S) (junkRob S) (minRob S).
Lemma hserv_robot oct stab : robot_services hcheck (fun a _ => a) hbody (hserv oct stab).
Proof.
  destruct (hservices oct stab) as [H1 H2 H3 H4 H5 H6 H7 H8]. split.
  - exact H1.
  - exact H2.
  - exact H3.
  - intros conf cur c. cbn [projRoot hserv]. destruct (Nat.eqb _ _); [apply H4|done].
  - intros limb l x q cur ok c Hl He. cbn [ik hserv]. destruct (Nat.eqb _ _); [by apply H5|]. by intros [= <- <-].
  - exact H6.
  - exact H7.
  - exact H8.
Qed.
Lemma hserv_samples oct stab : samples_of_limbs hbody (limb_root hbody) (hserv oct stab).
Proof. exact (hbase_samples oct stab). Qed.
Lemma hserv_size oct stab : keeps_size (hserv oct stab) 9.
Proof.
  split.
  - intros conf cur c Hl. cbn [projRoot hserv]. destruct (Nat.eqb_spec (length (snd (projRoot (made hcheck (fun a _ => a) hbody oct stab hsamples) conf cur))) (length conf)) as [E|]; [|done].
    intros H. rewrite H in E. simpl in E. congruence.
  - intros limb x c cur _ Hl. cbn [ik hserv].
    destruct (Nat.eqb_spec (length (snd (ik (made hcheck (fun a _ => a) hbody oct stab hsamples) false limb x c cur))) (length c)) as [E|]; [|done]. congruence.
  - intros limb smp c _ Hl. cbn [loadS hserv made]. destruct (Load (content smp) c) as [c'| |] eqn:E; [|done..].
    unfold Load in E. destruct ((startRank (content smp) + slength (content smp) <=? length c)%nat && (length (SampModel.configuration (content smp)) =? slength (content smp))%nat) eqn:Eb; [|done].
    injection E as <-. apply andb_true_iff in Eb as [E1%Nat.leb_le E2%Nat.eqb_eq]. rewrite !app_length, take_length, drop_length. lia.
  - done.
Qed.
Lemma hserv_limbs oct stab : NoDup (limbNames (hserv oct stab)) /\ "leg"%string ∈ limbNames (hserv oct stab).
Proof.
  split; [exact (sl_nodup _ (made_separate hcheck (fun a _ => a) hbody oct stab hsamples))|]. apply (rs_limbs _ _ _ _ (hserv_robot oct stab)). by eexists.
Qed.
(** ** A solver that moves the root *)
(** the root five metres away, the hand at (1, 0, 0) *)
Definition hz : list R := [5; 0; 0; 0; 0; 0; 1; 0; -4].
Definition hmove (p : projector) (_ : list R) : bool * list R := (forallb (satb hrobot (thr p) hz) (cs p ++ cs1 p), hz).
Lemma hmove_sound : sound_solver hrobot hmove.
Proof.
  intros p q q' H c Hc. unfold hmove in H. injection H as H <-. apply satb_spec.
  rewrite forallb_forall in H. apply H. apply elem_of_list_In, elem_of_app. destruct Hc as [Hc|[_ Hc]]; auto.
Qed.
Lemma hmove_ok p q : (forall c, c ∈ cs p ++ cs1 p -> satisfied hrobot (thr p) hz c) -> hmove p q = (true, hz).
Proof. intros H. unfold hmove. f_equal. apply forallb_forall. intros c Hc. apply satb_spec, H, elem_of_list_In, Hc. Qed.
(** the robot jumps from 0 to 1, and has to stand there with both contacts *)
Definition hgoal : PSt := sst (hq 1) (Some (hfoot (hq 1))) (Some (hhand (hq 1))).
Definition jcomp (k : nat) (prev : PSt) (c : list R) (d a : vec3) (t : R) : creport := mkCrep true false false false false (sst c None None).
Definition hflying : PSt := recount (sst (hq 1) None None).
Definition hreach : PSt :=
  into_fresh hbody (addContact "arm"%string hz (tra (fpose hrobot hz (mkFrame "shoulder" se3id))) (V3 0 0 1) (rot (fpose hrobot hz (mkFrame "shoulder" se3id))) (snd (RemoveContact "arm" hflying))).
Lemma jcomp_reliable : reliable jcomp (fun _ => True).
Proof. intros k prev c d a t _. cbn. split; [by intros [?|?]|done]. Qed.
Lemma jcomp_rooted cut : rooted hbody cut jcomp (fun _ => True).
Proof. intros k prev c d a t _. cbv zeta. cbn [crRepos crResult jcomp]. intros j _; reflexivity. Qed.
Lemma jcomp_sized configs : (forall c, c ∈ configs -> length c = 9%nat) -> sized jcomp 9 0 configs hbegin.
Proof.
  intros Hc. exists (fun s => length (configuration s) = 9%nat).
  split; [lia|]. split; [lia|]. split; [lia|]. split; [reflexivity|]. split; [done|]. split; [done|].
  intros k prev c d a t Hp H s (E & _). rewrite E. exact H.
Qed.
Lemma jreplace : replaceLimbContactForState hmove hbody hgoal hflying "arm" = Ok (mkPRep true hreach).
Proof.
  unfold replaceLimbContactForState. cbn zeta.
  change (addContactConstraints hbody (snd (RemoveContact "arm" hflying)) (fixedContacts moved3 (snd (RemoveContact "arm" hflying)) (snd (RemoveContact "arm" hflying))))
    with (Ok (A := list cstr) []).
  cbn [bindo]. change (at_ (limbsOf hbody) "arm"%string) with (Ok harm). cbn [bindo].
  change (at_ (rotations hgoal) "arm"%string) with (Ok mid). change (at_ (positions hgoal) "arm"%string) with (Ok (hhand (hq 1))).
  change (at_ (normals hgoal) "arm"%string) with (Ok (V3 0 0 1)). cbn [bindo].
  change (at_ (frames (dev hbody)) (effName harm)) with (Ok (mkFrame "shoulder" se3id)). cbn [bindo].
  unfold projectEffector. cbn [postural setPostural is6 ltype harm negb tra fjoint placement].
  rewrite hmove_ok; [reflexivity|]. cbn [cs cs1 thr addC addCs newProj app]. intros c Hc.
  rewrite !elem_of_cons, elem_of_nil in Hc. destruct Hc as [->|[->|[]]]; cbn [satisfied].
  - cbn [rot tra]. rewrite mtr_id, mapp_id.
    replace (vsub _ _) with vzero; [unfold vnorm, vnorm2, vdot, vzero; cbn; replace (_ + _) with 0 by ring; rewrite sqrt_0; lra|].
    unfold hhand, fpose. cbn [jpose hrobot hpose fjoint placement]. unfold hpose. rewrite bool_decide_eq_false_2 by done. rewrite bool_decide_eq_true_2 by done.
    unfold se3mul, se3id, vsub, vadd, vzero, mapp, mid, vdot, head3, hz, hq. cbn. f_equal; ring.
  - replace (mmul _ _) with mid.
    + cbn [log3 hrobot]. replace (angle mid) with 0. 
      * unfold masked, vnorm, vnorm2, vdot. cbn. replace (_ + _) with 0 by ring. rewrite sqrt_0. lra.
      * pose proof (angle_self mid (rotation_mid)) as E. unfold angle_between in E. rewrite <- E. f_equal. by rewrite mtr_id, mmul_id_l.
    + cbn [rot tra]. rewrite mtr_id, mmul_id_l. cbn [jpose hrobot]. unfold hpose. cbn [rot]. rewrite mmul_id_l. unfold se3mul. cbn [rot se3id]. by rewrite mmul_id_l.
Qed.
Lemma jloop : interpLoop jcomp 9 0 [hq 0; hq 1] 1 10 (initial 0 hbegin) = Some (Ok (true, [(0, hbegin); (0, hflying)])).
Proof. reflexivity. Qed.
Lemma jgoal : fst (addGoalConfig hmove hbody hgoal (Some 1) [(0, hbegin); (0, hflying)]) = Ok [(0, hbegin); (0, hflying); (0, hreach); (1, hgoal)].
Proof.
  assert (Hm := replace_moved hmove hbody hgoal hrobot_lawful hmove_sound hflying "arm" _ jreplace eq_refl). cbn [presult] in Hm.
  assert (E : contactVariations moved3 hflying hgoal = ["arm"; "leg"]%string) by reflexivity.
  unfold addGoalConfig. cbn [last]. rewrite E. cbn [length]. cbn [addGoalConfigRec length Nat.eqb last firstMovable]. rewrite jreplace. cbn [psuccess presult].
  cbn [app addGoalConfigRec length Nat.eqb]. cbn [last].
  assert (Hv : contactVariations moved3 hreach hgoal = ["leg"]%string).
  { apply Permutation_singleton_r. apply NoDup_Permutation; [apply variations_NoDup|apply NoDup_singleton|]. intros k.
    rewrite vars_iff, (moved_differs hbody hgoal "arm" hflying _ k Hm), <- vars_iff, E. set_solver. }
  rewrite Hv. reflexivity.
Qed.
Lemma jfar a b i : 1 <= Rabs (nth i a 0 - nth i b 0) -> (i < length a)%nat -> length a = length b -> ~ same_conf a b.
Proof.
  intros H Hi Hl. rewrite <- same_conf_iff. unfold confDistance.
  assert (H1 : Rsqr (nth i a 0 - nth i b 0) <= fold_right Rplus 0 (map (fun '(x, y) => (x - y) * (x - y)) (zip a b))).
  { clear H. revert i b Hi Hl. induction a as [|x a IH]; intros i [|y b] Hi Hl; try (cbn in *; lia). cbn.
    assert (Hp : 0 <= fold_right Rplus 0 (map (fun '(x, y) => (x - y) * (x - y)) (zip a b))).
    { clear. revert b. induction a as [|u a IH]; intros [|v b]; cbn; try lra. specialize (IH b). pose proof (Rle_0_sqr (u - v)). unfold Rsqr in *. apply Rplus_le_le_0_compat; [lra|exact IH]. }
    destruct i as [|i]; [unfold Rsqr; apply Rplus_le_reg_l with (- ((x - y) * (x - y))); ring_simplify; exact Hp|]. cbn in Hi, Hl. specialize (IH i b ltac:(lia) ltac:(lia)).
    pose proof (Rle_0_sqr (x - y)). eapply Rle_trans; [exact IH|]. unfold Rsqr in *. apply Rplus_le_reg_l with (- (x - y) * (x - y)). ring_simplify. lra. }
  apply sqrt_le_1_alt in H1. rewrite sqrt_Rsqr_abs in H1. unfold epsilon. intros Hle.
  assert (/ 2 ^ 52 < 1); [|lra]. rewrite <- Rinv_1. apply Rinv_lt_contravar; [|apply Rlt_pow_R1; [lra|lia]].
  rewrite Rmult_1_l. apply pow_lt. lra.
Qed.
(** the sequence of the jump: the arm is put on its contact with the root at 5, though the root of the path
    goes from 0 to 1 *)
Lemma jump_run : InterpolateConfigs jcomp 9 0 false (fun _ _ => false) hmove (fun a _ => a) hbody hbegin hgoal 10 (Some 1) [hq 0; hq 1] 1 0 false =
  Some (Ok [(0, hbegin); (0, hflying); (0, hreach); (1, hgoal)]).
Proof.
  unfold InterpolateConfigs. rewrite jloop. cbn [length Nat.ltb Nat.leb]. rewrite jgoal.
  unfold FilterStates. cbn [length Nat.leb]. f_equal. f_equal. cbn [FilterObsolete obsoleteLoop app last].
  assert (K1 : keepState hbegin hflying = true).
  { apply not_false_iff_true. rewrite keepState_iff. intros [H|H].
    - revert H. apply (jfar _ _ 0); [|cbn; lia|reflexivity]. cbn. unfold Rabs; destruct (Rcase_abs _); lra.
    - specialize (H "leg"%string) as [_ HH]. apply HH. split; [by eexists|by left]. }
  assert (K2 : keepState hflying hreach = true).
  { apply not_false_iff_true. rewrite keepState_iff. intros [H|H].
    - revert H. apply (jfar _ _ 0); [|cbn; lia|reflexivity]. cbn. unfold Rabs; destruct (Rcase_abs _); lra.
    - specialize (H "arm"%string) as [HH _]. apply HH. split; [by eexists|by left]. }
  cbn [snd]. rewrite K1, K2. reflexivity.
Qed.
Lemma hreach_elsewhere c : (exists x, x <> 5 /\ c = hq x) -> ~ same_base hbody (limb_root hbody) c (configuration hreach).
Proof.
  intros (x & Hx & ->) H. specialize (H htree hbase_here).
  assert (E : lockOf hz htree = lockOf (hq x) htree) by exact H. cbn in E. injection E as E. lra.
Qed.
