From Coq Require Import Reals Lra Lia Psatz Nsatz.
From Verif Require Import SampModel.
From Verif Require Import ReachSpec MapsProofs VecProofs ProjProofs ProjProofs2 StabProofs StabProofs2.
Local Open Scope R_scope.

(** ** kinematic constraints *)
Lemma vdot_comm a b : vdot a b = vdot b a.
Proof. unfold vdot. ring. Qed.
Lemma vdot_vsub a b c : vdot a (vsub b c) = vdot a b - vdot a c.
Proof. unfold vdot, vsub; simpl. ring. Qed.

Lemma row_meaning n v T p : is_rotation (rot T) ->
  vdot (mapp (rot T) n) p - vdot (se3act T v) (mapp (rot T) n) = vdot n (vsub (in_frame T p) v).
Proof.
  intros HR. unfold in_frame, se3act. rewrite vdot_vsub.
  rewrite (vdot_mapp (rot T) n p), mapp_vsub, vdot_vsub.
  assert (E : vdot (vadd (mapp (rot T) v) (tra T)) (mapp (rot T) n) = vdot n v + vdot (tra T) (mapp (rot T) n)).
  { transitivity (vdot (mapp (rot T) v) (mapp (rot T) n) + vdot (tra T) (mapp (rot T) n)).
    - unfold vdot, vadd; simpl. ring.
    - rewrite rotation_dot by done. rewrite (vdot_comm v n). done. }
  rewrite E, (vdot_comm (tra T)), vdot_mapp. ring.
Qed.

Lemma verify_feasible Ab p : verifyIneqs Ab p = true <-> feasible Ab p.
Proof.
  unfold verifyIneqs, feasible. rewrite forallb_forall. split.
  - intros H a b Hin. specialize (H (a, b)). cbn [fst snd] in H.
    apply elem_of_list_In in Hin. specialize (H Hin). apply negb_true_iff, Rltb_false in H. done.
  - intros H [a b] Hin. apply negb_true_iff, Rltb_false. cbn [fst snd]. apply H. by apply elem_of_list_In.
Qed.

Lemma ineqs_feasible NV T p : is_rotation (rot T) ->
  feasible (getInequalitiesAtTransform NV T) p <-> inside NV T p.
Proof.
  intros HR. unfold feasible, inside, getInequalitiesAtTransform. split.
  - intros H n v Hin.
    specialize (H (mapp (rot T) n) (vdot (se3act T v) (mapp (rot T) n))).
    assert (Hm : (mapp (rot T) n, vdot (se3act T v) (mapp (rot T) n)) ∈
      map (fun nv => let n := mapp (rot T) (fst nv) in let v := se3act T (snd nv) in (n, vdot v n)) NV).
    { apply elem_of_list_In, in_map_iff. exists (n, v). split; [done|]. by apply elem_of_list_In. }
    specialize (H Hm). rewrite <- (row_meaning n v T p HR). lra.
  - intros H a b Hin. apply elem_of_list_In, in_map_iff in Hin as ([n v] & E & Hin). cbn [fst snd] in E.
    injection E as <- <-. apply elem_of_list_In in Hin. specialize (H n v Hin).
    rewrite <- (row_meaning n v T p HR) in H. lra.
Qed.

Lemma verify_inside NV T p : is_rotation (rot T) -> verifyAtTransform NV T p = true <-> inside NV T p.
Proof. intros HR. unfold verifyAtTransform. rewrite verify_feasible. by apply ineqs_feasible. Qed.

Lemma in_frame_moved G T p : is_rotation (rot G) -> in_frame (se3mul G T) (se3act G p) = in_frame T p.
Proof.
  intros [HG _]. unfold in_frame, se3mul, se3act. cbn [rot tra].
  rewrite mtr_mmul, mapp_mmul.
  replace (vsub (vadd (mapp (rot G) p) (tra G)) (vadd (mapp (rot G) (tra T)) (tra G)))
    with (mapp (rot G) (vsub p (tra T))).
  2:{ rewrite mapp_vsub. unfold vadd, vsub; simpl. f_equal; ring. }
  rewrite <- (mapp_mmul (mtr (rot G))), HG, mapp_id. done.
Qed.
Lemma inside_moved NV G T p : is_rotation (rot G) -> inside NV (se3mul G T) (se3act G p) <-> inside NV T p.
Proof. intros HG. unfold inside. rewrite in_frame_moved by done. done. Qed.

(** ** the mesh *)
Lemma normalize_sign u v : vdot (vnormalize u) v <= 0 <-> vdot u v <= 0.
Proof.
  unfold vnormalize. destruct (Rlt_dec 0 (vnorm2 u)) as [H|H]; [|done].
  assert (P : 0 < / vnorm u). { apply Rinv_0_lt_compat. unfold vnorm. apply sqrt_lt_R0. done. }
  replace (vdot (vscale (/ vnorm u) u) v) with (/ vnorm u * vdot u v) by (unfold vdot, vscale; simpl; ring).
  split; intros Hd.
  - destruct (Rle_dec (vdot u v) 0); [done|]. exfalso.
    assert (0 < / vnorm u * vdot u v) by (apply Rmult_lt_0_compat; lra). lra.
  - apply Rmult_le_compat_l with (r := / vnorm u) in Hd; lra.
Qed.

Lemma face_rows m fs rows : faceRows m fs = Ok rows ->
  forall T p, inside rows T p <->
   (forall i j k a b c, (i, j, k) ∈ fs -> verts m !! i = Some a -> verts m !! j = Some b -> verts m !! k = Some c ->
      volume a b c (in_frame T p) <= 0).
Proof.
  revert rows. induction fs as [|[[i j] k] fs IH]; intros rows H T p; simpl in H.
  - injection H as <-. split; [intros _ ? ? ? ? ? ? Hin; inversion Hin|intros _ ? ? Hin; inversion Hin].
  - inv_bind H. inv_bind H. injection H as <-. specialize (IH _ E0 T p).
    unfold vert in E. inv_bind E. inv_bind E. inv_bind E. injection E as <-.
    destruct (verts m !! i) as [vi|] eqn:Ei; [|done]. destruct (verts m !! j) as [vj|] eqn:Ej; [|done].
    destruct (verts m !! k) as [vk|] eqn:Ek; [|done].
    injection E1 as <-. injection E2 as <-. injection E3 as <-.
    split.
    + intros Hi i' j' k' a' b' c' Hin Ha Hb Hc.
      apply elem_of_cons in Hin as [Hin|Hin].
      * injection Hin as -> -> ->. rewrite Ha in Ei. rewrite Hb in Ej. rewrite Hc in Ek.
        injection Ei as <-. injection Ej as <-. injection Ek as <-.
        unfold volume. apply normalize_sign. apply Hi. apply elem_of_cons. by left.
      * eapply (proj1 IH); try done. intros n v Hn. apply Hi. apply elem_of_cons. by right.
    + intros Hv n v Hin. apply elem_of_cons in Hin as [Hin|Hin].
      * injection Hin as -> ->. apply normalize_sign. apply (Hv i j k vi vj vk); try done. apply elem_of_cons. by left.
      * apply (proj2 IH); [|done]. intros i' j' k' a' b' c' Hin'. apply Hv. apply elem_of_cons. by right.
Qed.

Lemma inside_app r1 r2 T p : inside (r1 ++ r2) T p <-> inside r1 T p /\ inside r2 T p.
Proof.
  unfold inside. split.
  - intros H. split; intros n v Hin; apply H; apply elem_of_app; auto.
  - intros [H1 H2] n v Hin. apply elem_of_app in Hin as [Hin|Hin]; auto.
Qed.

Lemma loaded_mesh m d NV : loadConstraintsFromObj (Some m) d = Ok NV ->
  forall T p, inside NV T p <-> inside_mesh m (in_frame T p) /\ (0 < d -> d <= vz (in_frame T p)).
Proof.
  intros H T p. simpl in H. inv_bind H. pose proof (face_rows _ _ _ E T p) as Hf.
  destruct (Rltb 0 d) eqn:Ed; injection H as <-.
  - apply Rltb_true in Ed. rewrite inside_app, Hf. unfold inside_mesh.
    assert (Hz : inside [(V3 0 0 (-1), V3 0 0 d)] T p <-> d <= vz (in_frame T p)).
    { unfold inside. split.
      - intros Hi. specialize (Hi (V3 0 0 (-1)) (V3 0 0 d)). unfold vdot, vsub in Hi. cbn [vx vy vz] in Hi.
        assert (((0 * (vx (in_frame T p) - 0) + 0 * (vy (in_frame T p) - 0) + -1 * (vz (in_frame T p) - d))%R <= 0)%R) by (apply Hi; by apply elem_of_list_singleton). lra.
      - intros Hd n v Hin. apply elem_of_list_singleton in Hin. injection Hin as -> ->. unfold vdot, vsub; cbn [vx vy vz]. lra. }
    rewrite Hz. split; [intros [H1 H2]; split; done|intros [H1 H2]; split; auto].
  - apply Rltb_false in Ed. rewrite Hf. unfold inside_mesh. split; [intros H1; split; [done|lra]|intros [H1 _]; done].
Qed.
Lemma loaded_missing d : loadConstraintsFromObj None d = Ok [].
Proof. done. Qed.
Lemma loaded_defined m d : mesh_ok m -> exists NV, loadConstraintsFromObj (Some m) d = Ok NV.
Proof.
  intros Hm. simpl.
  assert (H : forall fs, (forall f, f ∈ fs -> f ∈ faces m) -> exists r, faceRows m fs = Ok r).
  { induction fs as [|[[i j] k] fs IH]; intros Hin; simpl; [eauto|].
    destruct (Hm i j k) as (H1 & H2 & H3); [apply Hin, elem_of_cons; by left|].
    apply lookup_lt_is_Some_2 in H1 as [a Ea]. apply lookup_lt_is_Some_2 in H2 as [b Eb]. apply lookup_lt_is_Some_2 in H3 as [c Ec].
    destruct IH as [r Er]. { intros f Hf. apply Hin, elem_of_cons. by right. }
    unfold vert. rewrite Ea, Eb, Ec. simpl. rewrite Er. simpl. eauto. }
  destruct (H (faces m)) as [r Er]; [done|]. rewrite Er. simpl. eauto.
Qed.

Lemma vcomb_affine (n : vec3) (k : R) ws ps : length ws = length ps ->
  vdot n (vcomb ws ps) - k * fold_right Rplus 0 ws = fold_right Rplus 0 (zip_with (fun w p => w * (vdot n p - k)) ws ps).
Proof.
  revert ps. induction ws as [|w ws IH]; intros [|p ps] H; try done; simpl.
  - unfold vdot, vzero; simpl. ring.
  - injection H as H. specialize (IH _ H). rewrite <- IH. unfold vdot, vadd, vscale; simpl. ring.
Qed.
Lemma sum_nonpos ws ps (f : R -> vec3 -> R) : (forall w p, w ∈ ws -> p ∈ ps -> f w p <= 0) ->
  fold_right Rplus 0 (zip_with f ws ps) <= 0.
Proof.
  revert ps. induction ws as [|w ws IH]; intros [|p ps] H; simpl; try lra.
  assert (f w p <= 0) by (apply H; apply elem_of_cons; by left).
  assert (fold_right Rplus 0 (zip_with f ws ps) <= 0).
  { apply IH. intros w' p' Hw Hp. apply H; apply elem_of_cons; by right. }
  lra.
Qed.
Lemma hull_inside m p : (forall v, v ∈ verts m -> inside_mesh m v) -> in_hull (verts m) p -> inside_mesh m p.
Proof.
  intros Hv (ws & Hl & Hw & Hs & ->) i j k a b c Hf Ha Hb Hc. unfold volume.
  set (n := vcross (vsub b a) (vsub c a)). rewrite vdot_vsub.
  pose proof (vcomb_affine n (vdot n a) ws (verts m) Hl) as E. rewrite Hs, Rmult_1_r in E. rewrite E.
  apply sum_nonpos. intros w q Hw' Hq. rewrite List.Forall_forall in Hw. apply elem_of_list_In in Hw'. specialize (Hw _ Hw').
  specialize (Hv q Hq i j k a b c Hf Ha Hb Hc). unfold volume in Hv. fold n in Hv. rewrite vdot_vsub in Hv.
  cbn beta in Hw. apply Rmult_le_compat_l with (r := w) in Hv; lra.
Qed.

(** ** stacking over the limbs of a state *)
Lemma feasible_app A B x : feasible (A ++ B) x <-> feasible A x /\ feasible B x.
Proof.
  unfold feasible. split.
  - intros H. split; intros a b Hin; apply H; apply elem_of_app; auto.
  - intros [H1 H2] a b Hin. apply elem_of_app in Hin as [Hin|Hin]; auto.
Qed.
Lemma feasible_nil x : feasible [] x.
Proof. intros a b H. inversion H. Qed.

Section K.
Context (B : rbody) (HB : lawful_body B).

Lemma in_contact_spec q cs Ab : inContactIneqs B q cs = Ok Ab ->
  forall x, feasible Ab x <-> forall e l, (e, true) ∈ cs -> rlimbs B !! e = Some l -> inside (rkin l) (reffpose l q) x.
Proof.
  revert Ab. induction cs as [|[n b] cs IH]; intros Ab H x; simpl in H.
  - injection H as <-. split; [intros _ e l Hin; inversion Hin|intros _; apply feasible_nil].
  - destruct b.
    + inv_bind H. inv_bind H. injection H as <-. apply at_ok in E. specialize (IH _ E0 x).
      rewrite feasible_app, IH. unfold limbIneqs. rewrite ineqs_feasible by (eapply HB; done).
      split.
      * intros [H1 H2] e l Hin Hl. apply elem_of_cons in Hin as [Hin|Hin]; [|eauto]. injection Hin as ->. rewrite E in Hl. injection Hl as <-. done.
      * intros Hi. split; [apply (Hi n); [apply elem_of_cons; by left|done]|].
        intros e l Hin. apply Hi. apply elem_of_cons. by right.
    + rewrite (IH _ H x). split; intros Hi e l Hin; apply Hi; [|apply elem_of_cons; by right].
      apply elem_of_cons in Hin as [Hin|Hin]; [congruence|done].
Qed.

Lemma state_kinematics s Ab : computeKinematicsConstraintsForState B s = Ok Ab ->
  forall x, feasible Ab x <-> within_reach B s x.
Proof.
  intros H x. rewrite (in_contact_spec _ _ _ H x). unfold within_reach.
  split; intros Hi e l He; apply Hi; [by apply elem_of_sitems|by apply elem_of_sitems in He].
Qed.

Lemma kinematics_defined s : known_limbs B s -> exists Ab, computeKinematicsConstraintsForState B s = Ok Ab.
Proof.
  intros Hk. unfold computeKinematicsConstraintsForState.
  assert (H : forall cs, (forall e, (e, true) ∈ cs -> is_Some (rlimbs B !! e)) -> exists Ab, inContactIneqs B (configuration s) cs = Ok Ab).
  { induction cs as [|[n b] cs IH]; intros Hc; simpl; [eauto|].
    destruct IH as [r Er]. { intros e He. apply Hc, elem_of_cons. by right. }
    destruct b; [|eauto].
    destruct (Hc n) as [l El]; [apply elem_of_cons; by left|]. unfold at_. rewrite El. simpl. rewrite Er. simpl. eauto. }
  apply H. intros e He. apply Hk. by apply elem_of_sitems in He.
Qed.
Lemma kinematics_no_ub s : computeKinematicsConstraintsForState B s <> Ub.
Proof.
  unfold computeKinematicsConstraintsForState. induction (sitems (contacts s)) as [|[n b] cs IH]; simpl; [done|].
  destruct b; [|done]. unfold at_. destruct (rlimbs B !! n); simpl; [|done].
  destruct (inContactIneqs B (configuration s) cs); done.
Qed.
Lemma kinematics_throws s : computeKinematicsConstraintsForState B s = Throw <-> ~ known_limbs B s.
Proof.
  split.
  - intros H Hk. destruct (kinematics_defined s Hk) as [Ab E]. congruence.
  - intros Hn. destruct (computeKinematicsConstraintsForState B s) as [Ab| |] eqn:E; [|done|by apply kinematics_no_ub in E].
    exfalso. apply Hn. intros e He. unfold computeKinematicsConstraintsForState in E.
    assert (Hin : (e, true) ∈ sitems (contacts s)) by (by apply elem_of_sitems).
    revert Ab E Hin. induction (sitems (contacts s)) as [|[n b] cs IH]; intros Ab E Hin; [inversion Hin|].
    simpl in E. apply elem_of_cons in Hin as [Hin|Hin].
    + injection Hin as <- <-. inv_bind E. apply at_ok in E0. eauto.
    + destruct b; [|eauto]. inv_bind E. inv_bind E. eauto.
Qed.

Lemma verify_state s x b : verifyKinematicConstraints B s x = Ok b -> (b = true <-> within_reach B s x).
Proof.
  intros H. unfold verifyKinematicConstraints in H. inv_bind H. injection H as <-.
  rewrite verify_feasible. by apply state_kinematics.
Qed.
Lemma all_kinematics q x : feasible (computeAllKinematicsConstraints B q) x <->
  forall e l, rlimbs B !! e = Some l -> inside (rkin l) (reffpose l q) x.
Proof.
  unfold computeAllKinematicsConstraints.
  assert (H : forall ls, (forall k l, (k, l) ∈ ls -> rlimbs B !! k = Some l) -> feasible (concat (map (fun kl : string * rlimb => limbIneqs (snd kl) q) ls)) x <->
    forall e l, (e, l) ∈ ls -> inside (rkin l) (reffpose l q) x).
  { induction ls as [|[k l] ls IH]; intros Hls; simpl.
    - split; [intros _ e l Hin; inversion Hin|intros _; apply feasible_nil].
    - rewrite feasible_app, IH by (intros k' l' Hin; apply Hls, elem_of_cons; by right).
      unfold limbIneqs. rewrite ineqs_feasible by (eapply HB, Hls, elem_of_cons; by left). split.
      + intros [H1 H2] e l' Hin. apply elem_of_cons in Hin as [Hin|Hin]; [|eauto]. injection Hin as -> ->. done.
      + intros Hi. split; [apply (Hi k), elem_of_cons; by left|]. intros e l' Hin. apply (Hi e), elem_of_cons; by right. }
  rewrite H by (intros k l; apply elem_of_sitems). split; intros Hi e l He; apply (Hi e); by apply elem_of_sitems.
Qed.
Lemma limb_kinematics s e Ab : computeKinematicsConstraintsForLimb B s e = Ok Ab ->
  forall x, feasible Ab x <-> (contacts s !! e = Some true -> forall l, rlimbs B !! e = Some l -> inside (rkin l) (reffpose l (configuration s)) x).
Proof.
  intros H x. unfold computeKinematicsConstraintsForLimb in H. destruct (contacts s !! e) as [[]|].
  - inv_bind H. injection H as <-. apply at_ok in E. unfold limbIneqs. rewrite ineqs_feasible by (eapply HB; done).
    split; [intros Hi _ l Hl; rewrite E in Hl; injection Hl as <-; done|eauto].
  - injection H as <-. split; [congruence|intros _; apply feasible_nil].
  - injection H as <-. split; [congruence|intros _; apply feasible_nil].
Qed.
End K.

(** ** balance rows *)
Lemma lookup_combine {A C} (l1 : list A) (l2 : list C) i a c :
  combine l1 l2 !! i = Some (a, c) <-> l1 !! i = Some a /\ l2 !! i = Some c.
Proof.
  revert l2 i. induction l1 as [|x l1 IH]; intros [|y l2] [|i]; simpl; try (split; [done|intros [? ?]; done]).
  - split; [intros H; injection H as -> ->; done|intros [H1 H2]; congruence].
  - apply IH.
Qed.
Lemma balance_rows lib B k acc Ab : computeStabilityConstraints lib B k acc = Some Ab -> nonzero_rows lib k ->
  forall x, feasible Ab x <-> balanced_at lib (rmass B) k acc x.
Proof.
  intros H Hnz x. unfold computeStabilityConstraints, balanced_at, nonzero_rows in *.
  destruct (polytope lib k) as [st [Hr h]] eqn:Ep. cbn [fst snd] in *.
  destruct (isOptimal st); [|done]. injection H as <-.
  assert (Row : forall r hi, norm6 r <> 0 ->
    vdot (mapp (mtr (M3 (vsub (row1 (skew (gravity lib))) (row1 (skew acc))) (vsub (row2 (skew (gravity lib))) (row2 (skew acc)))
      (vsub (row3 (skew (gravity lib))) (row3 (skew acc))))) (vscale (rmass B) (vscale (- / norm6 r) (ang r)))) x
      <= hi + vdot (vscale (rmass B) (vscale (- / norm6 r) (lin r))) (vsub (gravity lib) acc) <->
    dot6 r (gi_wrench (rmass B) (gravity lib) acc x) <= norm6 r * hi).
  { intros r hi Hn. set (N := norm6 r) in *.
    assert (PN : 0 < N). { assert (0 <= N) by apply sqrt_pos. lra. }
    set (g := gravity lib). destruct r as [l a]. cbn [lin ang].
    assert (E : N * (vdot (mapp (mtr (M3 (vsub (row1 (skew g)) (row1 (skew acc))) (vsub (row2 (skew g)) (row2 (skew acc)))
      (vsub (row3 (skew g)) (row3 (skew acc))))) (vscale (rmass B) (vscale (- / N) a))) x
      - vdot (vscale (rmass B) (vscale (- / N) l)) (vsub g acc)) = dot6 (R6 l a) (gi_wrench (rmass B) g acc x)).
    { destruct l as [l1 l2 l3], a as [a1 a2 a3], x as [x1 x2 x3], g as [g1 g2 g3], acc as [c1 c2 c3].
      unfold dot6, gi_wrench, mapp, mtr, skew, vdot, vsub, vscale, vcross; cbn [lin ang row1 row2 row3 vx vy vz].
      field. lra. }
    rewrite <- E. split; intros H.
    - apply Rmult_le_compat_l; lra.
    - apply Rmult_le_reg_l in H; lra. }
  unfold feasible. split.
  - intros H i r hi Hi Hh.
    assert (Hn : norm6 r <> 0) by (apply Hnz; eapply elem_of_list_lookup_2; done).
    apply (Row r hi Hn). eapply (H _ _).
    apply elem_of_list_In, in_map_iff. exists (r, hi). split; [reflexivity|].
    apply elem_of_list_In. apply elem_of_list_lookup. exists i.
    by apply lookup_combine.
  - intros H a b Hin. apply elem_of_list_In, in_map_iff in Hin as ([r hi] & E & Hin).
    injection E as <- <-. apply elem_of_list_In, elem_of_list_lookup in Hin as [i Hi].
    apply lookup_combine in Hi as [H1 H2].
    apply (Row r hi); [apply Hnz; eapply elem_of_list_lookup_2; done|]. eapply H; done.
Qed.
