From Coq Require Import Reals Lra Psatz Nsatz.
From Verif Require Import SampModel TriModel MapsProofs VecProofs StateSpec StateProofs ToolProofs ToolProofs2 ProjSpec ProjProofs.
From Verif Require Import StateModel.
Local Open Scope R_scope.
Notation sqrt := R_sqrt.sqrt.

(** ** quaternions *)
Definition qnorm2 (q : R * vec3) : R := fst q * fst q + vnorm2 (snd q).
Lemma unit_quaternion_rotation q : qnorm2 q = 1 -> is_rotation (toRotationMatrix q).
Proof.
  destruct q as [w [x y z]]. unfold qnorm2, vnorm2, vdot. cbn [fst snd vx vy vz]. intros N.
  assert (W : w * w = 1 - (x * x + y * y + z * z)) by lra.
  split; cbv [toRotationMatrix mmul mtr mapp mid mdet vdot vcross row1 row2 row3 vx vy vz].
  - f_equal; f_equal; nsatz.
  - nsatz.
Qed.
Lemma quaternion_apply w u v : 
  mapp (toRotationMatrix (w, u)) v =
  vadd v (vadd (vscale (2 * w) (vcross u v)) (vscale 2 (vcross u (vcross u v)))).
Proof.
  destruct u as [u1 u2 u3], v as [v1 v2 v3]. cbv [toRotationMatrix mapp vdot vcross vadd vscale row1 row2 row3 vx vy vz]. f_equal; ring.
Qed.

Lemma vnormalize_unit a : a <> vzero -> vnorm2 (vnormalize a) = 1.
Proof.
  intros Ha. unfold vnormalize.
  assert (P : 0 < vnorm2 a).
  { destruct (Rle_lt_or_eq_dec _ _ (vnorm2_nonneg a)) as [H|H]; [assumption|]. destruct Ha. apply vnorm2_zero. auto. }
  destruct (Rlt_dec 0 (vnorm2 a)); [|contradiction].
  assert (Hn : vnorm a <> 0). { intros E. apply vnorm_zero in E. contradiction. }
  pose proof (vnorm_sqr a) as Hs. unfold vnorm2, vdot, vscale in *. cbn [vx vy vz].
  replace (/ vnorm a * vx a * (/ vnorm a * vx a) + / vnorm a * vy a * (/ vnorm a * vy a) + / vnorm a * vz a * (/ vnorm a * vz a))
    with (/ (vnorm a * vnorm a) * (vx a * vx a + vy a * vy a + vz a * vz a)) by (field; assumption).
  rewrite Hs. field. lra.
Qed.
Lemma vnormalize_scale a : a <> vzero -> exists k, 0 < k /\ vnormalize a = vscale k a.
Proof.
  intros Ha. unfold vnormalize.
  assert (P : 0 < vnorm2 a).
  { destruct (Rle_lt_or_eq_dec _ _ (vnorm2_nonneg a)) as [H|H]; [assumption|]. destruct Ha. apply vnorm2_zero. auto. }
  destruct (Rlt_dec 0 (vnorm2 a)); [|contradiction]. exists (/ vnorm a). split; [|reflexivity].
  apply Rinv_0_lt_compat. unfold vnorm. apply sqrt_lt_R0. assumption.
Qed.

Lemma vsub_zero_eq a b : vsub a b = vzero -> a = b.
Proof.
  destruct a as [a1 a2 a3], b as [b1 b2 b3]. unfold vsub, vzero. cbn [vx vy vz]. intros H.
  injection H as H1 H2 H3. f_equal; lra.
Qed.

Section A.
Variable axis : vec3 -> vec3 -> vec3.

(** unit vectors that are not nearly opposite *)
Lemma align_unit_core v0 v1 : vnorm2 v0 = 1 -> vnorm2 v1 = 1 -> -1 < vdot v1 v0 ->
  let c := vdot v1 v0 in let s := sqrt ((1 + c) * 2) in
  let q := (s * (1 / 2), vscale (/ s) (vcross v0 v1)) in
  qnorm2 q = 1 /\ mapp (toRotationMatrix q) v0 = v1.
Proof.
  intros N0 N1 Hc c s q.
  assert (Pc : 0 < (1 + c) * 2) by (unfold c; lra).
  assert (Ps : 0 < s) by (apply sqrt_lt_R0; assumption).
  assert (Ss : s * s = (1 + c) * 2) by (apply sqrt_sqrt; lra).
  assert (Sn : s <> 0) by lra.
  assert (Lag : vnorm2 (vcross v0 v1) = 1 - c * c).
  { unfold c. revert N0 N1. unfold vnorm2, vdot, vcross. cbn [vx vy vz]. intros. nsatz. }
  assert (I2 : / s * / s = / ((1 + c) * 2)) by (rewrite <- Ss; field; assumption).
  assert (NV : vnorm2 (vscale (/ s) (vcross v0 v1)) = (1 - c) / 2).
  { assert (vnorm2 (vscale (/ s) (vcross v0 v1)) = / s * / s * vnorm2 (vcross v0 v1)) as ->
      by (unfold vnorm2, vdot, vscale; cbn [vx vy vz]; ring).
    rewrite I2, Lag. field. lra. }
  split.
  - unfold qnorm2, q. cbn [fst snd]. rewrite NV.
    replace (s * (1 / 2) * (s * (1 / 2))) with (s * s / 4) by field. rewrite Ss. field.
  - unfold q. rewrite quaternion_apply.
    assert (E1 : vcross (vscale (/ s) (vcross v0 v1)) v0 = vscale (/ s) (vsub v1 (vscale c v0))).
    { unfold c. generalize (/ s) as k. revert N0. clear. intros N0 k. revert N0.
      destruct v0 as [x y z], v1 as [a b d]. unfold vnorm2, vdot. cbn [vx vy vz]. intros N0.
      unfold vcross, vscale, vsub. cbn [vx vy vz]. f_equal; nsatz. }
    assert (E2 : vcross (vscale (/ s) (vcross v0 v1)) (vcross (vscale (/ s) (vcross v0 v1)) v0) = vscale (- ((1 - c) / 2)) v0).
    { assert (O : vdot (vscale (/ s) (vcross v0 v1)) v0 = 0) by (unfold vdot, vscale, vcross; cbn [vx vy vz]; ring).
      set (u := vscale (/ s) (vcross v0 v1)) in *. clearbody u. rewrite <- NV.
      revert O. clear. destruct u as [x y z], v0 as [a b d]. unfold vnorm2, vdot, vcross, vscale. cbn [vx vy vz]. intros O.
      f_equal; nsatz. }
    rewrite E2, E1.
    assert (K : 2 * (s * (1 / 2)) * / s = 1) by (field; assumption).
    destruct v0 as [x y z], v1 as [a b d]. unfold vadd, vscale, vsub. cbn [vx vy vz].
    f_equal; rewrite <- Rmult_assoc, K; field.
Qed.

(** exactly opposite vectors: the axis is a unit vector orthogonal to them *)
Lemma align_opposite v0 u : vnorm2 v0 = 1 -> vnorm2 u = 1 -> vdot u v0 = 0 ->
  qnorm2 (0, u) = 1 /\ mapp (toRotationMatrix (0, u)) v0 = vscale (-1) v0.
Proof.
  intros N0 Nu O. split; [unfold qnorm2; cbn [fst snd]; rewrite Nu; ring|].
  rewrite quaternion_apply. revert O Nu. clear. destruct u as [x y z], v0 as [a b d].
  unfold vnorm2, vdot, vcross, vscale, vadd. cbn [vx vy vz]. intros O N. f_equal; nsatz.
Qed.

(** nearly opposite vectors: rotation about [u] with cosine [c] *)
Lemma align_near v0 v1 u c : vnorm2 v0 = 1 -> vnorm2 v1 = 1 -> vnorm2 u = 1 -> vdot u v0 = 0 -> vdot v1 v0 = c -> -1 <= c <= 1 ->
  let w2 := (1 + c) * (1 / 2) in let q := (sqrt w2, vscale (sqrt (1 - w2)) u) in
  qnorm2 q = 1 /\ vnorm2 (vsub (mapp (toRotationMatrix q) v0) v1) <= 4 * (1 - c * c).
Proof.
  intros N0 N1 Nu O Ec Hc w2 q.
  assert (A1 : sqrt w2 * sqrt w2 = w2) by (apply sqrt_sqrt; unfold w2; lra).
  assert (A2 : sqrt (1 - w2) * sqrt (1 - w2) = 1 - w2) by (apply sqrt_sqrt; unfold w2; lra).
  unfold q. set (a := sqrt w2) in *. set (b := sqrt (1 - w2)) in *. clearbody a b. subst w2. split.
  - unfold qnorm2. cbn [fst snd].
    assert (vnorm2 (vscale b u) = b * b * vnorm2 u) as -> by (unfold vnorm2, vdot, vscale; cbn [vx vy vz]; ring).
    rewrite Nu. lra.
  - rewrite quaternion_apply.
    set (x := vscale (2 * a * b) (vcross u v0)). set (y := vsub v1 (vscale c v0)).
    assert (Ex : vsub (vadd v0 (vadd (vscale (2 * a) (vcross (vscale b u) v0)) (vscale 2 (vcross (vscale b u) (vcross (vscale b u) v0))))) v1
       = vsub x y).
    { unfold x, y. clear x y. 
      assert (Ecc : vcross u (vcross u v0) = vscale (-1) v0).
      { revert O Nu. clear. destruct u as [x y z], v0 as [k l m].
        unfold vnorm2, vdot, vcross, vscale. cbn [vx vy vz]. intros O N. f_equal; nsatz. }
      assert (Ecb : vcross (vscale b u) (vcross (vscale b u) v0) = vscale (- (b * b)) v0).
      { replace (vcross (vscale b u) (vcross (vscale b u) v0)) with (vscale (b * b) (vcross u (vcross u v0)))
          by (unfold vcross, vscale; cbn [vx vy vz]; f_equal; ring).
        rewrite Ecc. unfold vscale; cbn [vx vy vz]; f_equal; ring. }
      rewrite Ecb, A2. unfold vsub, vadd, vscale, vcross. cbn [vx vy vz]. f_equal; field. }
    rewrite Ex.
    assert (Nx : vnorm2 x = 1 - c * c).
    { unfold x. assert (vnorm2 (vscale (2 * a * b) (vcross u v0)) = 4 * (a * a) * (b * b) * vnorm2 (vcross u v0)) as ->
        by (unfold vnorm2, vdot, vscale; cbn [vx vy vz]; ring).
      rewrite A1, A2. assert (vnorm2 (vcross u v0) = 1) as ->.
      { revert O Nu N0. clear. unfold vnorm2, vdot, vcross. cbn [vx vy vz]. intros. nsatz. }
      field. }
    assert (Ny : vnorm2 y = 1 - c * c).
    { unfold y. revert N0 N1 Ec. clear. unfold vnorm2, vdot, vsub, vscale. cbn [vx vy vz]. intros. nsatz. }
    assert (Hxy : vnorm2 (vsub x y) <= 2 * (vnorm2 x + vnorm2 y)).
    { clear. unfold vnorm2, vdot, vsub. cbn [vx vy vz].
      pose proof (Rle_0_sqr (vx x + vx y)). pose proof (Rle_0_sqr (vy x + vy y)). pose proof (Rle_0_sqr (vz x + vz y)).
      unfold Rsqr in *. lra. }
    rewrite Nx, Ny in Hxy. lra.
Qed.

Lemma dot_units v0 v1 : vnorm2 v0 = 1 -> vnorm2 v1 = 1 -> -1 <= vdot v1 v0 <= 1.
Proof.
  intros N0 N1. pose proof (cauchy_schwarz v1 v0) as H. rewrite N0, N1 in H.
  split; nra.
Qed.

Lemma rotation_matrix from to : from <> vzero -> to <> vzero ->
  (forall v0 v1, vnorm2 v0 = 1 -> vnorm2 v1 = 1 -> vnorm2 (axis v0 v1) = 1 /\ vdot (axis v0 v1) v0 = 0) ->
  let c := vdot (vnormalize to) (vnormalize from) in
  is_rotation (GetRotationMatrix axis from to) /\
  (c = -1 \/ -1 + / 10 ^ 12 <= c -> mapp (GetRotationMatrix axis from to) (vnormalize from) = vnormalize to) /\
  dist3 (mapp (GetRotationMatrix axis from to) (vnormalize from)) (vnormalize to) <= 3 / 10 ^ 6.
Proof.
  intros Hf Ht Hax c.
  pose proof (vnormalize_unit _ Hf) as N0. pose proof (vnormalize_unit _ Ht) as N1.
  pose proof (dot_units _ _ N0 N1) as Hc. fold c in Hc.
  unfold GetRotationMatrix, setFromTwoVectors. fold c.
  assert (Pe : 0 < / 10 ^ 12) by (apply Rinv_0_lt_compat, pow_lt; lra).
  destruct (Rltb c (-1 + / 10 ^ 12)) eqn:Eb.
  - apply Rltb_true in Eb.
    assert (Rmax c (-1) = c) as -> by (apply Rmax_left; lra).
    destruct (Hax _ _ N0 N1) as [Nu Ou].
    destruct (align_near _ _ _ c N0 N1 Nu Ou eq_refl Hc) as [H1 H2]. split_and!.
    + apply unit_quaternion_rotation, H1.
    + intros [E|E]; [|lra].
      assert (vnorm2 (vsub (mapp (toRotationMatrix (sqrt ((1 + c) * (1 / 2)),
         vscale (sqrt (1 - (1 + c) * (1 / 2))) (axis (vnormalize from) (vnormalize to)))) (vnormalize from)) (vnormalize to)) = 0) as Z.
      { apply Rle_antisym; [|apply vnorm2_nonneg]. eapply Rle_trans; [exact H2|]. rewrite E. lra. }
      apply vnorm2_zero in Z. revert Z. generalize (mapp (toRotationMatrix (sqrt ((1 + c) * (1 / 2)),
         vscale (sqrt (1 - (1 + c) * (1 / 2))) (axis (vnormalize from) (vnormalize to)))) (vnormalize from)) (vnormalize to).
      clear. intros a b H. apply vsub_zero_eq, H.
    + unfold dist3, vnorm. replace (3 / 10 ^ 6) with (sqrt ((3 / 10 ^ 6) * (3 / 10 ^ 6))) by (apply sqrt_square; apply Rlt_le, Rdiv_lt_0_compat; [lra|apply pow_lt; lra]).
      apply sqrt_le_1_alt. eapply Rle_trans; [exact H2|].
      replace (1 - c * c) with ((1 - c) * (1 + c)) by ring.
      assert ((1 - c) * (1 + c) <= 2 * / 10 ^ 12).
      { set (e := / 10 ^ 12) in *. clearbody e. nra. }
      replace (3 / 10 ^ 6 * (3 / 10 ^ 6)) with (9 * / 10 ^ 12) by field. set (e := / 10 ^ 12) in *. clearbody e. lra.
  - apply Rltb_false in Eb.
    assert (Hlt : -1 < c) by lra.
    destruct (align_unit_core _ _ N0 N1 Hlt) as [H1 H2]. split_and!.
    + apply unit_quaternion_rotation, H1.
    + intros _. exact H2.
    + cbn zeta in H2. fold c in H2. rewrite H2, dist3_refl. lra.
Qed.
End A.

(** ** the target pose of the effector *)
Section T.
Variable axis : vec3 -> vec3 -> vec3.
Variable B : fullbody.

Lemma isZero0_true m : isZero0 m = true <-> m = mzero.
Proof.
  unfold isZero0. rewrite !andb_true_iff, !Reqb_true. destruct m as [[a b c] [d e f] [g h i]]. cbn. unfold mzero, vzero.
  split; [intros ([[[-> ->] ->] [[-> ->] ->]] & [[-> ->] ->]); reflexivity|intros [=]; subst; repeat split].
Qed.

Lemma contact_point l f q n p rotation :
  se3act (computeProjectionMatrix B axis l f q n p rotation) (loffset l) = vadd p (vscale (1 / 1000) n).
Proof.
  unfold computeProjectionMatrix, se3act. cbn [rot tra].
  generalize (mapp (if isZero0 rotation then mmul (GetRotationMatrix axis (mapp (rot (fpose (dev B) q f)) (lnormal l)) n)
     (rot (fpose (dev B) q f)) else rotation) (loffset l)).
  intros v. destruct v as [v1 v2 v3], p as [p1 p2 p3], n as [n1 n2 n3]. unfold vadd, vsub, vscale. cbn [vx vy vz]. f_equal; field.
Qed.
Lemma requested_rotation l f q n p rotation : rotation <> mzero ->
  rot (computeProjectionMatrix B axis l f q n p rotation) = rotation.
Proof.
  intros H. unfold computeProjectionMatrix. cbn [rot].
  destruct (isZero0 rotation) eqn:E; [apply isZero0_true in E; contradiction|reflexivity].
Qed.
Lemma vnormalize_mapp m v : is_rotation m -> mapp m (vnormalize v) = vnormalize (mapp m v).
Proof.
  intros Hm. unfold vnormalize, vnorm. rewrite (rotation_norm _ _ Hm).
  destruct (Rlt_dec 0 (vnorm2 v)); [|reflexivity].
  generalize (/ R_sqrt.sqrt (vnorm2 v)) as k. intros k. destruct m as [[m1 m2 m3] [m4 m5 m6] [m7 m8 m9]], v as [v1 v2 v3].
  cbv [mapp vdot vscale row1 row2 row3 vx vy vz]. f_equal; ring.
Qed.
Lemma aligned_rotation l f q n p : lawful_robot (dev B) -> (exists k, frames (dev B) !! k = Some f) ->
  (forall v0 v1, vnorm2 v0 = 1 -> vnorm2 v1 = 1 -> vnorm2 (axis v0 v1) = 1 /\ vdot (axis v0 v1) v0 = 0) ->
  lnormal l <> vzero -> n <> vzero ->
  let r := rot (computeProjectionMatrix B axis l f q n p mzero) in
  let c := vdot (vnormalize n) (vnormalize (mapp (rot (fpose (dev B) q f)) (lnormal l))) in
  is_rotation r /\
  (c = -1 \/ -1 + / 10 ^ 12 <= c -> vnormalize (mapp r (lnormal l)) = vnormalize n) /\
  dist3 (vnormalize (mapp r (lnormal l))) (vnormalize n) <= 3 / 10 ^ 6.
Proof.
  intros LR [k Hk] Hax Hl Hn r c.
  assert (Hrot : is_rotation (rot (fpose (dev B) q f))).
  { unfold fpose, se3mul. cbn [rot]. apply rotation_mmul; [apply (lr_joint _ LR)|apply (lr_frame _ LR _ _ Hk)]. }
  set (re := rot (fpose (dev B) q f)) in *.
  assert (Hz : mapp re (lnormal l) <> vzero).
  { intros E. apply Hl. apply vnorm2_zero. rewrite <- (rotation_norm _ _ Hrot), E. unfold vnorm2, vdot, vzero. cbn. ring. }
  assert (Er : r = mmul (GetRotationMatrix axis (mapp re (lnormal l)) n) re).
  { unfold r, computeProjectionMatrix. cbn [rot].
    rewrite (proj2 (isZero0_true mzero) eq_refl). reflexivity. }
  destruct (rotation_matrix axis _ _ Hz Hn Hax) as (H1 & H2 & H3).
  assert (Em : vnormalize (mapp r (lnormal l)) = mapp (GetRotationMatrix axis (mapp re (lnormal l)) n) (vnormalize (mapp re (lnormal l)))).
  { rewrite Er, mapp_mmul, vnormalize_mapp by assumption. reflexivity. }
  split_and!.
  - rewrite Er. apply rotation_mmul; assumption.
  - rewrite Em. exact H2.
  - rewrite Em. exact H3.
Qed.
End T.

(** ** projecting an effector *)
Section E.
Variable solve : projector -> list R -> bool * list R.
Variable axis : vec3 -> vec3 -> vec3.
Variable B : fullbody.
Hypothesis LR : lawful_robot (dev B).
Hypothesis SS : sound_solver (dev B) solve.

Lemma effector p limbId l f valid q target n cur rep :
  thr p = 1 / 10000 -> (exists k, frames (dev B) !! k = Some f) ->
  projectEffector solve B p limbId l f valid q target n cur = rep ->
  (psuccess rep = false -> same_but_configuration cur (presult rep) /\ StateModel.configuration (presult rep) = StateModel.configuration cur) /\
  (psuccess rep = true -> let c := StateModel.configuration (presult rep) in
     valid c = true /\
     (forall k, k ∈ cs p -> satisfied (dev B) (tol B) c k) /\
     dist3 (tra (fpose (dev B) c f)) (tra target) <= tol B /\
     (ltype l = _6_DOF -> is_rotation (rot target) ->
        (postural B = false -> angle_between (rot target) (rot (fpose (dev B) c f)) <= tol B) /\
        let v := log3 (dev B) (mmul (mtr (rot target)) (rot (fpose (dev B) c f))) in
        vx v * vx v + vy v * vy v <= tol B * tol B) /\
     same_but_configuration (addContact limbId c (tra (fpose (dev B) c f)) n (rot (fpose (dev B) c f)) cur) (presult rep)).
Proof.
  intros Ht [k Hk] <-. unfold projectEffector.
  set (p2 := if is6 (ltype l) then _ else _).
  set (p3 := if postural B then withOpt _ _ _ else _).
  destruct (solve p3 q) as [ok c] eqn:Es.
  destruct (ok && valid c) eqn:Eok; cbn [psuccess presult].
  2:{ split; [intros _; split; [repeat split|reflexivity]|discriminate]. }
  split; [discriminate|]. intros _. cbn zeta. cbn [StateModel.configuration into_fresh state_assign addContact].
  apply andb_true_iff in Eok as [-> Hv].
  pose proof (fun k H => SS _ _ _ Es k (or_introl H)) as Hs.
  assert (Th : thr p3 = tol B).
  { unfold p3, p2, tol. destruct (postural B); [reflexivity|]. destruct (is6 (ltype l)); exact Ht. }
  rewrite Th in Hs.
  assert (In1 : forall x, x ∈ cs p -> x ∈ cs p3).
  { intros x Hx. unfold p3, p2. destruct (postural B), (is6 (ltype l)); cbn [cs withOpt addC1 addC];
      repeat (apply elem_of_app; left); assumption. }
  assert (In2 : CPos (fjoint f) (se3mul (placement f) se3id) (SE3 mid (tra target)) ∈ cs p3).
  { unfold p3, p2. destruct (postural B), (is6 (ltype l)); cbn [cs withOpt addC1 addC]; rewrite ?elem_of_app, ?elem_of_list_singleton; auto. }
  split_and!.
  - assumption.
  - intros x Hx. apply Hs, In1, Hx.
  - apply cpos_effector, Hs, In2.
  - intros E6 Hr.
    assert (In3 : COri (fjoint f) (rot (se3mul (placement f) se3id)) (rot target) (true, true, negb (postural B)) ∈ cs p3).
    { unfold p3, p2. rewrite E6. cbn [is6]. destruct (postural B); cbn [cs withOpt addC1 addC]; rewrite ?elem_of_app, ?elem_of_list_singleton; auto. }
    apply Hs in In3. cbn [satisfied] in In3. rewrite se3mul_id_r in In3.
    change (mmul (rot (jpose (dev B) c (fjoint f))) (rot (placement f))) with (rot (fpose (dev B) c f)) in In3.
    assert (Tp : 0 < tol B) by (unfold tol; destruct (postural B); lra).
    split.
    + intros Hp. rewrite Hp in In3. cbn [negb masked] in In3.
      assert (EV : forall v, V3 (vx v) (vy v) (vz v) = v) by (intros []; reflexivity). rewrite EV in In3.
      rewrite (lr_log _ LR) in In3; [exact In3|].
      apply rotation_mmul; [apply rotation_mtr; assumption|].
      apply rotation_mmul; [apply (lr_joint _ LR)|apply (lr_frame _ LR _ _ Hk)].
    + set (v := log3 (dev B) _) in *. clearbody v.
      assert (Hn : vnorm2 (masked (true, true, negb (postural B)) v) <= tol B * tol B).
      { rewrite <- vnorm_sqr. apply Rmult_le_compat; try apply vnorm_nonneg; assumption. }
      revert Hn. cbn [masked]. unfold vnorm2, vdot. cbn [vx vy vz]. destruct (negb (postural B)); nra.
  - repeat split.
Qed.

Lemma sample_to_obstacle devq limbId l smp rn v1 v2 v3 valid q cur rep :
  projectSampleToObstacle solve B axis devq limbId l smp rn v1 v2 v3 valid q cur = Ok rep ->
  (psuccess rep = false -> same_but_configuration cur (presult rep)) /\
  (psuccess rep = true ->
   let c := StateModel.configuration (presult rep) in
   valid c = true /\
   (forall j, reaches (fun j => jname j = limbJoint l) (tree (dev B)) j -> lockOf c j = lockOf devq j) /\
   exists f l0 q', frames (dev B) !! effName l = Some f /\ limbsOf B !! limbId = Some l0 /\ Load (content smp) q = Ok q' /\
     (let rootT := jpose (dev B) devq (match limbParent l0 with Some j => j | None => limbJoint l0 end) in
      let pos := closestPointInTriangle (se3act rootT (let '(a, b, c) := effectorPosition (content smp) in V3 a b c)) v1 v2 v3 0 in
      dist3 (tra (fpose (dev B) c f)) (tra (computeProjectionMatrix B axis l f q' (vnormalize rn) pos mzero)) <= tol B) /\
     same_but_configuration (addContact limbId c (tra (fpose (dev B) c f)) (vnormalize rn) (rot (fpose (dev B) c f)) cur) (presult rep)).
Proof.
  unfold projectSampleToObstacle. destruct (Load (content smp) q) as [q'| |]; try discriminate.
  destruct (limbsOf B !! limbId) as [l0|]; [|discriminate]. cbn zeta. unfold projectToObstacle.
  destruct (frames (dev B) !! effName l) as [f|] eqn:Ef; [|discriminate]. intros [= E].
  eapply effector in E as [H0 H]; [|reflexivity|eauto]. split; [intros Hf; apply H0, Hf|].
  intros Hok. specialize (H Hok). cbn zeta in H.
  destruct H as (Hv & Hc & Hd & _ & Hs). split_and!; [assumption| |exists f, l0, q'; split_and!; auto].
  intros j Rj. assert (Hl := Hc (CLock (lockOf devq j))). cbn [satisfied] in Hl. apply Hl.
  - cbn [cs addCs newProj app]. apply elem_of_list_fmap. exists (lockOf devq j). split; [reflexivity|].
    rewrite lock_singleton, lock_elem. exists j. split; [|reflexivity].
    eapply reaches_ext; [|exact Rj]. intros x. cbn. rewrite elem_of_list_singleton. reflexivity.
  - eapply reaches_in_tree; eassumption.
  - destruct j; reflexivity.
Qed.

Lemma state_to_obstacle devq limbId l cur n pos valid lock rotation rep :
  projectStateToObstacle solve B axis devq limbId l cur n pos valid lock rotation = Ok rep ->
  let st := snd (RemoveContact limbId cur) in
  (psuccess rep = false -> same_but_configuration st (presult rep)) /\
  (psuccess rep = true ->
   let c := StateModel.configuration (presult rep) in
   exists f, frames (dev B) !! effName l = Some f /\
   let target := computeProjectionMatrix B axis l f (StateModel.configuration cur) n pos rotation in
     valid c = true /\
     (forall e, contact_held B (tol B) st c e) /\
     (lock = true -> forall j, reaches (fun j => jname j = limbJoint l) (tree (dev B)) j -> lockOf c j = lockOf devq j) /\
     dist3 (tra (fpose (dev B) c f)) (tra target) <= tol B /\
     (ltype l = _6_DOF -> is_rotation (rot target) ->
        (postural B = false -> angle_between (rot target) (rot (fpose (dev B) c f)) <= tol B) /\
        let v := log3 (dev B) (mmul (mtr (rot target)) (rot (fpose (dev B) c f))) in
        vx v * vx v + vy v * vy v <= tol B * tol B) /\
     same_but_configuration (addContact limbId c (tra (fpose (dev B) c f)) n (rot (fpose (dev B) c f)) st) (presult rep)).
Proof.
  unfold projectStateToObstacle. cbn zeta. set (st := snd (RemoveContact limbId cur)).
  change (addContactConstraints B st (fixedContacts moved3 st st)) with (CreateContactConstraints B st).
  destruct (CreateContactConstraints B st) as [cl| |] eqn:Ecl; try discriminate.
  unfold projectToObstacle. destruct (frames (dev B) !! effName l) as [f|] eqn:Ef; [|discriminate].
  intros [= E].
  eapply effector in E as [H0 H1]; [| |eauto].
  2:{ destruct lock; reflexivity. }
  split; [intros Hf; apply H0, Hf|]. intros Hok. specialize (H1 Hok). cbn zeta in H1.
  destruct H1 as (Hv & Hc & Hd & Ho & Hs). exists f. split_and!; auto.
  - apply (held_of_constraints B st LR _ _ cl Ecl). intros k Hk. apply Hc.
    destruct lock; cbn [cs addCs newProj app]; [apply elem_of_app; left|]; assumption.
  - intros -> j Rj. assert (Hl := Hc (CLock (lockOf devq j))). cbn [satisfied] in Hl. apply Hl.
    + cbn [cs addCs newProj app]. apply elem_of_app. right.
      apply elem_of_list_fmap. exists (lockOf devq j). split; [reflexivity|].
      rewrite lock_singleton, lock_elem. exists j. split; [|reflexivity].
      eapply reaches_ext; [|exact Rj]. intros x. cbn. rewrite elem_of_list_singleton. reflexivity.
    + eapply reaches_in_tree; eassumption.
    + destruct j; reflexivity.
Qed.
End E.
