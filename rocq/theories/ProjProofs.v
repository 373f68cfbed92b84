From Coq Require Import Reals Lra Psatz.
From Verif Require Import SampModel MapsProofs VecProofs StateSpec StateProofs ToolProofs ToolProofs2 ToolProofs3 ProjSpec.
From Verif Require Import StateModel.
Local Open Scope R_scope.

(** ** 3x3 matrices *)
Ltac mat := repeat match goal with m : mat3 |- _ => destruct m as [[? ? ?] [? ? ?] [? ? ?]] end;
  repeat match goal with v : vec3 |- _ => destruct v as [? ? ?] end;
  cbv [mmul mtr mapp mid mtrace mdet vdot vcross vadd vsub vscale row1 row2 row3 vx vy vz] in *.
Lemma mat3_ext a b : row1 a = row1 b -> row2 a = row2 b -> row3 a = row3 b -> a = b.
Proof. destruct a, b; simpl; intros; subst; reflexivity. Qed.
Lemma mmul_assoc a b c : mmul a (mmul b c) = mmul (mmul a b) c.
Proof. mat. f_equal; f_equal; ring. Qed.
Lemma mtr_mmul a b : mtr (mmul a b) = mmul (mtr b) (mtr a).
Proof. mat. f_equal; f_equal; ring. Qed.
Lemma mtr_mtr a : mtr (mtr a) = a.
Proof. mat. reflexivity. Qed.
Lemma mmul_id_l a : mmul mid a = a.
Proof. mat. f_equal; f_equal; ring. Qed.
Lemma mmul_id_r a : mmul a mid = a.
Proof. mat. f_equal; f_equal; ring. Qed.
Lemma mtr_id : mtr mid = mid.
Proof. reflexivity. Qed.
Lemma mapp_mmul a b v : mapp (mmul a b) v = mapp a (mapp b v).
Proof. mat. f_equal; ring. Qed.
Lemma mapp_id v : mapp mid v = v.
Proof. mat. f_equal; ring. Qed.
Lemma mdet_mmul a b : mdet (mmul a b) = mdet a * mdet b.
Proof. mat. ring. Qed.
Lemma mdet_mtr a : mdet (mtr a) = mdet a.
Proof. mat. ring. Qed.
Lemma mtrace_cyc a b : mtrace (mmul a b) = mtrace (mmul b a).
Proof. mat. ring. Qed.
Lemma mapp_vadd a u v : mapp a (vadd u v) = vadd (mapp a u) (mapp a v).
Proof. mat. f_equal; ring. Qed.
Lemma mapp_vsub a u v : mapp a (vsub u v) = vsub (mapp a u) (mapp a v).
Proof. mat. f_equal; ring. Qed.
Lemma vdot_mapp a u v : vdot (mapp a u) v = vdot u (mapp (mtr a) v).
Proof. mat. ring. Qed.

(** left inverse is right inverse: the adjugate *)
Lemma orth_right m : mmul (mtr m) m = mid -> mdet m = 1 -> mmul m (mtr m) = mid.
Proof.
  intros H D.
  (* adj m * m = det m * id, hence mtr m = adj m, and m * adj m = det m * id *)
  set (adj := M3 (vcross (row2 (mtr m)) (row3 (mtr m))) (vcross (row3 (mtr m)) (row1 (mtr m))) (vcross (row1 (mtr m)) (row2 (mtr m)))).
  set (dm := M3 (V3 (mdet m) 0 0) (V3 0 (mdet m) 0) (V3 0 0 (mdet m))).
  assert (A1 : mmul m adj = dm).
  { subst adj dm. clear H D. mat. f_equal; f_equal; ring. }
  assert (E : dm = mid) by (subst dm; rewrite D; reflexivity).
  rewrite E in A1.
  assert (adj = mtr m).
  { rewrite <- (mmul_id_l adj). rewrite <- H, <- mmul_assoc, A1, mmul_id_r. reflexivity. }
  rewrite <- H0. exact A1.
Qed.
Lemma rotation_mtr m : is_rotation m -> is_rotation (mtr m).
Proof. intros [H D]. split; [rewrite mtr_mtr; apply orth_right; assumption|rewrite mdet_mtr; assumption]. Qed.
Lemma rotation_mmul a b : is_rotation a -> is_rotation b -> is_rotation (mmul a b).
Proof.
  intros [Ha Da] [Hb Db]. split.
  - rewrite mtr_mmul, mmul_assoc. rewrite <- (mmul_assoc (mtr b)), Ha, mmul_id_r. exact Hb.
  - rewrite mdet_mmul, Da, Db. ring.
Qed.
Lemma rotation_mid : is_rotation mid.
Proof. split; mat; [f_equal; f_equal; ring|ring]. Qed.
Lemma rotation_norm m v : is_rotation m -> vnorm2 (mapp m v) = vnorm2 v.
Proof. intros [H _]. unfold vnorm2. rewrite vdot_mapp, <- mapp_mmul, H, mapp_id. reflexivity. Qed.

(** angles *)
Lemma angle_placement r j P : angle_between (mmul r (mtr P)) j = angle_between r (mmul j P).
Proof.
  unfold angle_between, angle. do 3 f_equal.
  rewrite mtr_mmul, mtr_mtr, <- mmul_assoc, mtrace_cyc, mmul_assoc. reflexivity.
Qed.

(** ** constraints of the contacts *)
Section B.
Variable B : fullbody.
Variable s : PSt.

Lemma moved3_refl p : moved3 p p = false.
Proof.
  unfold moved3. apply Rltb_false. pose proof (dist3_refl p) as H. unfold dist3 in H. rewrite H. lra.
Qed.
Lemma moved3_sym p q : moved3 p q = moved3 q p.
Proof. unfold moved3. rewrite vnorm_opp_sub. reflexivity. Qed.

Lemma fixed_self e : e ∈ fixedContacts moved3 s s <-> is_Some (positions s !! e).
Proof.
  destruct (fixedContacts_correct moved3 s s) as [H _]; [intros; apply moved3_sym|].
  rewrite H. unfold kept. split.
  - intros (p & q & H1 & _). eauto.
  - intros [p Hp]. exists p, p. split_and!; auto using moved3_refl.
Qed.

Lemma contacts_elem es l : contactConstraintsOf B s es = Ok l ->
  forall e, e ∈ es -> exists le, contactConstraint B s e = Ok le /\ forall c, c ∈ le -> c ∈ l.
Proof.
  revert l; induction es as [|a es IH]; cbn [contactConstraintsOf]; intros l Hl e He; [inversion He|].
  destruct (contactConstraint B s a) as [la| |] eqn:Ea; try discriminate.
  destruct (contactConstraintsOf B s es) as [ls| |] eqn:Es; try discriminate. injection Hl as <-.
  apply elem_of_cons in He as [->|He].
  - exists la. split; [assumption|]. intros c Hc. apply elem_of_app. auto.
  - destruct (IH _ eq_refl e He) as (le & H1 & H2). exists le. split; [assumption|].
    intros c Hc. apply elem_of_app. auto.
Qed.

Lemma contacts_elem_inv es l : contactConstraintsOf B s es = Ok l ->
  forall c, c ∈ l -> exists e le, e ∈ es /\ contactConstraint B s e = Ok le /\ c ∈ le.
Proof.
  revert l; induction es as [|a es IH]; cbn [contactConstraintsOf]; intros l Hl c Hc.
  - injection Hl as <-. inversion Hc.
  - destruct (contactConstraint B s a) as [la| |] eqn:Ea; try discriminate.
    destruct (contactConstraintsOf B s es) as [ls| |] eqn:Es; try discriminate. injection Hl as <-.
    apply elem_of_app in Hc as [Hc|Hc].
    + exists a, la. split; [left|auto].
    + destruct (IH _ eq_refl c Hc) as (e & le & H1 & H2 & H3). exists e, le. split; [right; exact H1|auto].
Qed.
Lemma contacts_defined es : (forall e, e ∈ es -> exists le, contactConstraint B s e = Ok le) ->
  exists l, contactConstraintsOf B s es = Ok l.
Proof.
  induction es as [|a es IH]; cbn; intros H; [eauto|].
  destruct (H a) as [la ->]; [constructor|]. destruct IH as [l ->]; [intros; apply H; constructor; assumption|]. eauto.
Qed.
Lemma contacts_no_ub es : contactConstraintsOf B s es <> Ub.
Proof.
  induction es as [|a es IH]; cbn; [discriminate|]. unfold contactConstraint.
  repeat (case_match; try discriminate; try congruence).
Qed.

Lemma known_defined : known_contacts B s <-> exists l, CreateContactConstraints B s = Ok l.
Proof.
  unfold CreateContactConstraints. split.
  - intros H. apply contacts_defined. intros e He. apply fixed_self in He.
    destruct (H e He) as (l & f & Hl & Hf & Hr). destruct He as [p Hp].
    unfold contactConstraint. rewrite Hl, Hp, Hf. destruct (ltype l) eqn:Et; cbn; [|eauto].
    destruct (Hr eq_refl) as [r ->]. eauto.
  - intros [l Hl] e He. pose proof He as He'. apply fixed_self in He'.
    destruct (contacts_elem _ _ Hl e He') as (le & Hc & _).
    unfold contactConstraint in Hc. destruct (limbsOf B !! e) as [L|] eqn:EL; [|discriminate].
    destruct (positions s !! e) as [p|]; [|discriminate].
    destruct (frames (dev B) !! effName L) as [f|] eqn:Ef; [|discriminate].
    exists L, f. split_and!; auto. intros E6. rewrite E6 in Hc. cbn in Hc.
    destruct (rotations s !! e); [eauto|discriminate].
Qed.
Lemma create_no_ub : CreateContactConstraints B s <> Ub.
Proof. apply contacts_no_ub. Qed.
Lemma unknown_throws : ~ known_contacts B s <-> CreateContactConstraints B s = Throw.
Proof.
  rewrite known_defined. destruct (CreateContactConstraints B s) eqn:E.
  - split; [intros H; destruct H; eauto|discriminate].
  - split; [reflexivity|]. intros _ [l Hl]. discriminate.
  - destruct (create_no_ub E).
Qed.

Lemma fpose_rot q f : rot (fpose (dev B) q f) = mmul (rot (jpose (dev B) q (fjoint f))) (rot (placement f)).
Proof. reflexivity. Qed.
Lemma se3mul_id_r a : se3mul a se3id = a.
Proof.
  destruct a as [r t]. unfold se3mul, se3id. cbn. rewrite mmul_id_r. f_equal.
  clear. mat. unfold vzero. cbn. f_equal; ring.
Qed.

(** the position constraint of an effector, read as a distance *)
Lemma cpos_effector th q f p :
  satisfied (dev B) th q (CPos (fjoint f) (se3mul (placement f) se3id) (SE3 mid p)) <->
  dist3 (tra (fpose (dev B) q f)) p <= th.
Proof. cbn [satisfied rot tra]. rewrite se3mul_id_r, mtr_id, mapp_id. reflexivity. Qed.

Lemma held_of_constraints (LR : lawful_robot (dev B)) th q l :
  CreateContactConstraints B s = Ok l -> (forall c, c ∈ l -> satisfied (dev B) th q c) ->
  forall e, contact_held B th s q e.
Proof.
  intros Hl Hs e L f p HL Hf Hp.
  assert (He : e ∈ fixedContacts moved3 s s) by (apply fixed_self; eauto).
  destruct (contacts_elem _ _ Hl e He) as (le & Hc & Hin).
  unfold contactConstraint in Hc. rewrite HL, Hp, Hf in Hc.
  destruct (ltype L) eqn:Et; cbn [is6] in Hc.
  - destruct (rotations s !! e) as [r|] eqn:Er; [|discriminate]. injection Hc as <-. split.
    + apply cpos_effector, Hs, Hin. left.
    + intros _ r' [= <-] Hr.
      assert (Hsat : satisfied (dev B) th q (COri (fjoint f) mid (mmul r (mtr (rot (placement f)))) (true, true, true)))
        by (apply Hs, Hin; right; left).
      cbn [satisfied masked] in Hsat. rewrite mmul_id_r in Hsat.
      assert (EV : forall v, V3 (vx v) (vy v) (vz v) = v) by (intros []; reflexivity). rewrite EV in Hsat.
      rewrite (lr_log _ LR) in Hsat.
      * change (angle_between (mmul r (mtr (rot (placement f)))) (rot (jpose (dev B) q (fjoint f))) <= th) in Hsat.
        rewrite angle_placement in Hsat. rewrite fpose_rot. exact Hsat.
      * apply rotation_mmul; [apply rotation_mtr, rotation_mmul; [assumption|apply rotation_mtr, (lr_frame _ LR _ _ Hf)]|apply (lr_joint _ LR)].
  - injection Hc as <-. split; [|discriminate]. apply cpos_effector, Hs, Hin. left.
Qed.

Lemma same_conf c : same_but_configuration s (with_conf c (into_fresh B s)).
Proof. repeat split. Qed.
End B.

(** ** the projections *)
Section P.
Variable solve : projector -> list R -> bool * list R.
Variable B : fullbody.
Hypothesis LR : lawful_robot (dev B).
Hypothesis SS : sound_solver (dev B) solve.

Lemma apply_report p s rep : applyAndReport solve B p s = rep ->
  same_but_configuration s (presult rep) /\
  solve p (StateModel.configuration s) = (psuccess rep, StateModel.configuration (presult rep)).
Proof.
  unfold applyAndReport. destruct (solve p (StateModel.configuration s)) as [ok c]. intros <-.
  split; [apply same_conf|reflexivity].
Qed.
Lemma report_satisfied p s : psuccess (applyAndReport solve B p s) = true -> forall c, c ∈ cs p ->
  satisfied (dev B) (thr p) (StateModel.configuration (presult (applyAndReport solve B p s))) c.
Proof.
  intros Hok c Hc. destruct (apply_report p s _ eq_refl) as [_ H]. rewrite Hok in H.
  apply (SS _ _ _ H). auto.
Qed.

Lemma root_position target s rep : projectToRootPosition solve B target s = Ok rep ->
  same_but_configuration s (presult rep) /\
  (psuccess rep = true ->
   (forall e, contact_held B (1 / 10000) s (StateModel.configuration (presult rep)) e) /\
   dist3 (tra (jpose (dev B) (StateModel.configuration (presult rep)) (rootName (dev B)))) target <= 1 / 10000).
Proof.
  unfold projectToRootPosition. destruct (CreateContactConstraints B s) as [l| |] eqn:El; try discriminate.
  intros [= <-]. split; [apply (apply_report _ _ _ eq_refl)|]. intros Hok.
  pose proof (report_satisfied _ _ Hok) as H. cbn [cs thr addC addCs newProj app] in H. split.
  - apply (held_of_constraints B s LR _ _ l El). intros c Hc. apply H. apply elem_of_app. auto.
  - assert (Hs := H (CPos (rootName (dev B)) se3id (SE3 mid target))). cbn [satisfied rot tra] in Hs.
    rewrite se3mul_id_r, mtr_id, mapp_id in Hs. apply Hs. apply elem_of_app. right. left.
Qed.

Lemma com_position target s rep : projectToComPosition solve B target s = Ok rep ->
  same_but_configuration s (presult rep) /\
  (psuccess rep = true ->
   (forall e, contact_held B (1 / 10000) s (StateModel.configuration (presult rep)) e) /\
   dist3 (comOf (dev B) (StateModel.configuration (presult rep))) target <= 1 / 10000).
Proof.
  unfold projectToComPosition. destruct (CreateContactConstraints B s) as [l| |] eqn:El; try discriminate.
  intros [= <-]. split; [apply (apply_report _ _ _ eq_refl)|]. intros Hok.
  pose proof (report_satisfied _ _ Hok) as H. cbn [cs thr addC addCs newProj app] in H. split.
  - apply (held_of_constraints B s LR _ _ l El). intros c Hc. apply H. apply elem_of_app. auto.
  - apply (H (CCom target)). apply elem_of_app. right. left.
Qed.

Lemma lock_from_root_eq limbs q : forall j, LockFromRootRec limbs q j = LockJointRec q limbs j.
Proof.
  fix IH 1. intros [n r z b kids]. cbn [LockFromRootRec LockJointRec]. unfold not_a_limb.
  destruct (inb n limbs); cbn [negb]; [reflexivity|]. do 2 f_equal.
  induction kids as [|k kids IHk]; cbn; [reflexivity|]. rewrite IH, IHk. reflexivity.
Qed.

Lemma limb_roots_list j : jname j ∈ map (fun kl => limbJoint (snd kl)) (sitems (limbsOf B)) <-> limb_root B j.
Proof.
  rewrite elem_of_list_fmap. unfold limb_root. split.
  - intros ([n l] & E & H). apply elem_of_sitems in H. exists n, l. cbn in E. auto.
  - intros (n & l & H & E). exists (n, l). split; [symmetry; exact E|]. apply elem_of_sitems. assumption.
Qed.
Lemma reaches_ext c1 c2 j j' : (forall x, c1 x <-> c2 x) -> reaches c1 j j' -> reaches c2 j j'.
Proof.
  intros H R. induction R; [apply reach_here; rewrite <- H; assumption|].
  eapply reach_down; eauto. rewrite <- H; assumption.
Qed.
Lemma reaches_in_tree c j j' : reaches c j j' -> in_tree j j'.
Proof. induction 1; [constructor|econstructor; eauto]. Qed.

Lemma root_locks conf x : x ∈ LockFromRoot B conf <->
  exists j, reaches (limb_root B) (tree (dev B)) j /\ x = lockOf conf j.
Proof.
  unfold LockFromRoot. rewrite lock_from_root_eq, lock_elem. split; intros (j & R & E); exists j; (split; [|assumption]).
  - eapply reaches_ext; [|exact R]. intros y. apply limb_roots_list.
  - eapply reaches_ext; [|exact R]. intros y. symmetry. apply limb_roots_list.
Qed.

Lemma root_configuration conf s offset rep : projectToRootConfiguration solve B conf s offset = Ok rep ->
  same_but_configuration s (presult rep) /\
  (psuccess rep = true ->
   (forall e, contact_held B (1 / 10000) s (StateModel.configuration (presult rep)) e) /\
   (offset = vzero -> forall j, reaches (limb_root B) (tree (dev B)) j ->
      lockOf (StateModel.configuration (presult rep)) j = lockOf conf j) /\
   (offset <> vzero -> exists f, frames (dev B) !! "root_joint"%string = Some f /\
      dist3 (se3act (fpose (dev B) (StateModel.configuration (presult rep)) f) offset) (head3 conf) <= 1 / 10000)).
Proof.
  unfold projectToRootConfiguration. destruct (CreateContactConstraints B s) as [l| |] eqn:El; try discriminate.
  assert (Hz : Reqb (vx offset) 0 && Reqb (vy offset) 0 && Reqb (vz offset) 0 = true <-> offset = vzero).
  { rewrite !andb_true_iff, !Reqb_true. destruct offset as [a b c]; cbn. split.
    - intros [[-> ->] ->]. reflexivity.
    - unfold vzero. intros [= -> -> ->]. auto. }
  destruct (Reqb (vx offset) 0 && Reqb (vy offset) 0 && Reqb (vz offset) 0) eqn:Eb.
  - apply proj1 in Hz. specialize (Hz eq_refl). intros [= <-]. split; [apply (apply_report _ _ _ eq_refl)|]. intros Hok.
    pose proof (report_satisfied _ _ Hok) as H. cbn [cs thr addC addCs newProj app] in H. split_and!.
    + apply (held_of_constraints B s LR _ _ l El). intros c Hc. apply H. apply elem_of_app. auto.
    + intros _ j Rj. assert (Hs := H (CLock (lockOf conf j))). cbn [satisfied] in Hs. apply Hs.
      * apply elem_of_app. right. apply elem_of_list_fmap. exists (lockOf conf j). split; [reflexivity|].
        apply root_locks. eauto.
      * eapply reaches_in_tree; eassumption.
      * destruct j; reflexivity.
    + intros Hn. destruct (Hn Hz).
  - assert (Hn : offset <> vzero) by (intros E; apply Hz in E; discriminate).
    destruct (frames (dev B) !! "root_joint"%string) as [f|] eqn:Ef; [|discriminate].
    intros [= <-]. split; [apply (apply_report _ _ _ eq_refl)|]. intros Hok.
    pose proof (report_satisfied _ _ Hok) as H. cbn [cs thr addC addCs newProj app] in H. split_and!.
    + apply (held_of_constraints B s LR _ _ l El). intros c Hc. apply H. apply elem_of_app. auto.
    + intros E. destruct (Hn E).
    + intros _. exists f. split; [reflexivity|].
      set (q := StateModel.configuration _) in *. clearbody q.
      assert (Hs := H (CPos (fjoint f) (se3mul (placement f) (SE3 mid offset)) (SE3 mid (head3 conf)))).
      cbn [satisfied rot tra] in Hs. rewrite mtr_id, mapp_id in Hs.
      assert (E : tra (se3mul (jpose (dev B) q (fjoint f)) (se3mul (placement f) (SE3 mid offset)))
                  = se3act (fpose (dev B) q f) offset).
      { unfold fpose, se3mul, se3act. cbn [rot tra]. rewrite mapp_mmul, mapp_vadd.
        unfold vadd; cbn. f_equal; ring. }
      rewrite E in Hs. apply Hs. apply elem_of_app. right. left.
Qed.

(** ** the collision-free projection on a centre of mass *)
Lemma try_all_found (valid : list R -> bool) q0 : forall ss q q', tryAll valid ss q0 q = Ok (true, q') ->
  exists pre post q1, ss = (pre ++ post)%list /\ loaded pre q q1 /\ valid q1 = true.
Proof.
  induction ss as [|x ss IH]; cbn; intros q q' H; [discriminate|].
  destruct (Load (content x) q) as [q1| |] eqn:EL; try discriminate.
  destruct (valid q1) eqn:Ev.
  - exists [x], ss, q1. split_and!; auto. econstructor; [eassumption|constructor].
  - destruct (IH _ _ H) as (pre & post & q2 & -> & HL & Hv). exists (x :: pre), post, q2. split_and!; auto.
    econstructor; eassumption.
Qed.
Lemma free_loop q : forall ns, freeLimbsLoop B ns q = Ok true -> forall n, n ∈ ns -> can_be_freed B n q.
Proof.
  induction ns as [|a ns IH]; cbn [freeLimbsLoop]; intros H n Hn; [inversion Hn|].
  destruct (limbValids B !! a) as [valid|] eqn:Ev; [|discriminate].
  unfold setCollisionFreeP in H. apply elem_of_cons in Hn as [->|Hn].
  - exists valid. split; [assumption|]. destruct (valid q) eqn:E; [auto|]. right.
    destruct (limbsOf B !! a) as [l|] eqn:El; [|discriminate].
    destruct (tryAll valid (lsamples l) q q) as [[[] q']| |] eqn:Et; try discriminate.
    destruct (try_all_found _ _ _ _ _ Et) as (pre & post & q1 & E1 & E2 & E3). exists l, pre, post, q1. auto.
  - apply IH; [|assumption]. destruct (valid q); [assumption|].
    destruct (limbsOf B !! a) as [l|]; [|discriminate].
    destruct (tryAll valid (lsamples l) q q) as [[[] q']| |]; try discriminate. assumption.
Qed.

Lemma free_com target s rep : projectToColFreeComPosition solve B target s = Ok rep ->
  same_but_configuration s (presult rep) /\
  (psuccess rep = true ->
   let q := StateModel.configuration (presult rep) in
   (forall e, contact_held B (1 / 100) s q e) /\
   dist3 (comOf (dev B) q) target <= 1 / 100 /\
   wholeValid B q = true /\
   exists p c, solve p (StateModel.configuration s) = (true, c) /\ solve p c = (true, q) /\
     forall n, is_Some (limbsOf B !! n) -> contacts s !! n <> Some true -> can_be_freed B n c).
Proof.
  unfold projectToColFreeComPosition. destruct (CreateContactConstraints B s) as [l| |] eqn:El; try discriminate.
  set (p := withOpt _ _ _). destruct (solve p (StateModel.configuration s)) as [ok c] eqn:E1. destruct ok.
  - destruct (freeLimbsLoop B (freeEffectors s (skeys (limbsOf B))) c) as [[]| |] eqn:Ef; try discriminate.
    + destruct (solve p c) as [ok2 c2] eqn:E2. intros [= <-]. split; [apply same_conf|]. cbn [psuccess presult].
      intros [-> Hw]%andb_true_iff. cbn zeta. cbn [StateModel.configuration with_conf].
      pose proof (fun k H => SS _ _ _ E2 k (or_introl H)) as H. subst p. cbn [cs thr addC addC1 addCs newProj withOpt app] in H.
      split_and!.
      * apply (held_of_constraints B s LR _ _ l El). intros k Hk. apply H. apply elem_of_app. auto.
      * apply (H (CCom target)). apply elem_of_app. right. left.
      * assumption.
      * eexists _, c. split; [exact E1|]. split; [exact E2|]. intros n Hn Hc.
        apply (free_loop c _ Ef). unfold freeEffectors. apply elem_of_list_filter. split.
        -- destruct (contacts s !! n) as [[]|]; congruence.
        -- apply elem_of_skeys. assumption.
    + intros [= <-]. split; [apply same_conf|discriminate].
  - intros [= <-]. split; [apply same_conf|discriminate].
Qed.
End P.
