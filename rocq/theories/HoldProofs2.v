(** Contacts that hold, for a robot: proofs. *)
From Coq Require Import Reals ZArith Lra Lia.
From Verif Require Import Maps MapsProofs CombModel GenModel GenSpec GenProofs13 StateModel StateSpec StateReal StateProofs Vec VecProofs SampModel ToolModel ToolSpec
  ProjModel ProjSpec ProjProofs ProjProofs2 SeqModel SeqSpec SeqProofs SeqProofs2 SeqProofs3 SeqProofs4 SeqProofs5 SeqProofs7 SeqProofs8 HoldSpec HoldProofs HoldRobot.
From Verif Require Import StateModel ToolSpec ProjModel.
Local Open Scope R_scope.

Lemma angle_self r : is_rotation r -> angle_between r r = 0.
Proof.
  intros [H _]. unfold angle_between, angle. rewrite H. unfold mtrace, mid. cbn. replace ((1 + 1 + 1 - 1) / 2) with 1 by lra. apply acos_1.
Qed.
Lemma dist3_self p : dist3 p p = 0.
Proof. unfold dist3, vnorm, vnorm2, vdot, vsub. cbn. rewrite !Rminus_diag_eq by done. rewrite !Rmult_0_l, !Rplus_0_l. apply sqrt_0. Qed.
Lemma near_self_contact B e p r : near_contact B e p r p r.
Proof. intros l f _ _. split; [rewrite dist3_self; lra|]. intros _ Hr. rewrite (angle_self r Hr). lra. Qed.

(** ** Trees *)
Lemma in_tree_trans a b c : in_tree a b -> in_tree b c -> in_tree a c.
Proof. induction 1 as [|j k j' Hk _ IH]; intros H; [done|]. eapply in_down; [exact Hk|]. by apply IH. Qed.
Lemma above_reaches (r : robot) (cut : jnt -> Prop) n j : (forall i, above r n i -> ~ cut i) -> above r n j -> ToolSpec.reaches cut (tree r) j.
Proof.
  intros Hc [Hj (k & Hk & Hn)].
  assert (Hgen : forall t, in_tree t j -> in_tree (tree r) t -> ToolSpec.reaches cut t j).
  { induction 1 as [t|t c t' Hin Hct IH]; intros Ht.
    - constructor. apply Hc. split; [done|]. by exists k.
    - econstructor 2; [|exact Hin|].
      + apply Hc. split; [done|]. exists k. split; [|done]. eapply in_down; [exact Hin|]. by eapply in_tree_trans.
      + apply IH; try done. eapply in_tree_trans; [exact Ht|]. eapply in_down; [exact Hin|constructor]. }
  apply Hgen; [done|constructor].
Qed.
Lemma lock_entries (q q' : list R) j : (forall i, entry_of j i -> q !! i = q' !! i) -> lockOf q j = lockOf q' j.
Proof.
  destruct j as [n rk sz b kids]. unfold entry_of. simpl. intros H. f_equal. apply list_eq. intros i.
  destruct (decide (i < sz)%nat) as [Hi|Hi].
  - rewrite !lookup_take by done. rewrite !lookup_drop. apply H. lia.
  - rewrite !lookup_take_ge by lia. done.
Qed.
Lemma load_entries (x : sample R) (c : list R) i : ~ sets x i ->
  (match Load (content x) c with Ok c' => c' | _ => c end) !! i = c !! i.
Proof.
  unfold sets, Load. intros Hi. destruct (_ && _) eqn:E; [|done]. apply andb_true_iff in E as [E1%Nat.leb_le E2%Nat.eqb_eq].
  set (a := startRank (content x)) in *. set (n := slength (content x)) in *.
  destruct (decide (i < a)%nat) as [H1|H1].
  - rewrite lookup_app_l by (rewrite take_length; lia). by rewrite lookup_take.
  - rewrite lookup_app_r by (rewrite take_length; lia). rewrite take_length, min_l by lia.
    rewrite lookup_app_r by lia. rewrite lookup_drop. f_equal. lia.
Qed.

Section services.
Context {Cand : Type}.
Variable solve : projector -> list R -> bool * list R.
Variable axis : vec3 -> vec3 -> vec3.
Variable B : fullbody.
Hypothesis LR : lawful_robot (dev B).
Hypothesis SS : sound_solver (dev B) solve.
Hypothesis CL : chain_law (dev B).

Lemma pose_above f q q' : (forall j, above (dev B) (fjoint f) j -> lockOf q j = lockOf q' j) -> fpose (dev B) q f = fpose (dev B) q' f.
Proof. intros H. unfold fpose. by rewrite (CL (fjoint f) q q'). Qed.

Lemma robot_kinematics (S : services (list R) vec3 mat3 Cand (sample R)) :
  robot_services solve axis B S -> kinematics S (near_contact B) (fun x q q' => forall l, limbsOf B !! x = Some l -> elsewhere B l q q').
Proof.
  intros H.
  assert (Hfk : forall e c c', e ∈ limbNames S ->
    (forall le fe, limbsOf B !! e = Some le -> frames (dev B) !! effName le = Some fe ->
       forall j, above (dev B) (fjoint fe) j -> lockOf c j = lockOf c' j) ->
    fkPos S e c = fkPos S e c' /\ fkRot S e c = fkRot S e c').
  { intros e c c' He Hj. apply (rs_limbs _ _ _ _ H) in He as [le Hle].
    destruct (rs_frames _ _ _ _ H e le Hle) as (fe & Hfe & Hp). destruct (Hp c) as [-> ->], (Hp c') as [-> ->].
    by rewrite (pose_above fe c c' (Hj le fe Hle Hfe)). }
  split.
  - intros e p r. apply near_self_contact.
  - intros conf cur c Hpr e He p r Hep Her l f Hl Hf.
    destruct (rs_root _ _ _ _ H conf cur c Hpr) as (s & rep & Hal & Hrep & Hs & <-).
    apply (root_configuration solve B LR SS) in Hrep as [_ Hrep]. destruct (Hrep Hs) as [Hrep' _].
    destruct Hal as (_ & _ & _ & E3 & E4 & _). rewrite E3 in Hep. rewrite E4 in Her.
    destruct (Hrep' e l f p Hl Hf Hep) as [H1 H2].
    destruct (rs_frames _ _ _ _ H e l Hl) as (f' & Hf' & Hp). rewrite Hf in Hf'. injection Hf' as <-.
    destruct (Hp (configuration (presult rep))) as [-> ->]. split; [done|]. intros H6 Hr. by apply H2.
  - intros limb x c cur Hlimb Hso l Hl. specialize (Hso l Hl). destruct (ik S false limb x c cur) as [ok c'] eqn:Eik. simpl.
    destruct (rs_create _ _ _ _ H limb l x c cur ok c' Hl Hso Eik) as [H1 H2]. destruct ok; [|by apply H2].
    destruct (H1 eq_refl) as (devq & smp & n & v1 & v2 & v3 & s & rep & Hdev & _ & Hpr & Hs & <-).
    eapply sample_to_obstacle in Hpr; [|exact LR|exact SS]; destruct Hpr as [_ Hpr]. destruct (Hpr Hs) as (_ & Hl' & _).
    intros j Hj. rewrite (Hl' j Hj). by apply Hdev.
  - by intros limb c l _ j _.
  - intros limb c c' Hlimb Hso e He Hne. apply (rs_limbs _ _ _ _ H) in Hlimb as [l Hl]. specialize (Hso l Hl).
    apply Hfk; [done|]. intros le fe Hle Hfe j Hj. symmetry. apply Hso. eapply above_reaches; [|exact Hj].
    intros i Hi. by apply (rs_apart _ _ _ _ H e le fe limb l).
  - intros limb x c Hlimb Hx e He Hne. apply Hfk; [done|]. intros le fe Hle Hfe j Hj.
    rewrite (rs_load _ _ _ _ H). apply lock_entries. intros i Hi. symmetry. apply load_entries.
    by eapply (rs_samples _ _ _ _ H).
  - intros c c' e He. apply Hfk; [done|]. intros le fe Hle Hfe j [Hj _]. by apply (rs_extra _ _ _ _ H).
Qed.
End services.
