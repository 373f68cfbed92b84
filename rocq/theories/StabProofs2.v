From Coq Require Import Reals Lra Lia Psatz Nsatz.
From Verif Require Import SampModel.
From Verif Require Import StabSpec MapsProofs VecProofs ProjProofs ProjProofs2 StabProofs.
Local Open Scope R_scope.

(** ** the plane of a rectangular contact *)
Lemma twice_rotated axis n : good_axis axis -> vnorm2 n = 1 ->
  vz n = -1 \/ -1 + / 10 ^ 12 <= vz n ->
  mapp (GetRotationMatrix axis (V3 0 0 1) n) n = vsub (vscale (2 * vz n) n) (V3 0 0 1).
Proof.
  intros Hax Hn Hz.
  assert (Hnz : n <> vzero). { intros ->. unfold vnorm2, vdot in Hn; simpl in Hn. lra. }
  assert (Nn : vnormalize n = n).
  { unfold vnormalize. rewrite Hn. destruct (Rlt_dec 0 1); [|lra]. unfold vnorm. rewrite Hn, sqrt_1, Rinv_1.
    destruct n as [x y z]. unfold vscale; simpl. f_equal; ring. }
  assert (Nz : vnormalize (V3 0 0 1) = V3 0 0 1).
  { unfold vnormalize, vnorm, vnorm2, vdot, vscale. simpl.
    replace (0 * 0 + 0 * 0 + 1 * 1) with 1 by ring. destruct (Rlt_dec 0 1); [|lra]. rewrite sqrt_1, Rinv_1. f_equal; ring. }
  assert (Hzz : V3 0 0 1 <> vzero) by (intros H; injection H; lra).
  destruct Hz as [Hz|Hz].
  - (* n = -z *)
    destruct (rotation_matrix axis (V3 0 0 1) n Hzz Hnz Hax) as (_ & Ha & _).
    rewrite Nn, Nz in Ha.
    assert (En : n = V3 0 0 (-1)).
    { destruct n as [x y z]. unfold vnorm2, vdot in Hn. cbn [vx vy vz] in *. subst z. assert (x * x + y * y = 0) by lra.
      f_equal; nra. }
    assert (Ha' : mapp (GetRotationMatrix axis (V3 0 0 1) n) (V3 0 0 1) = n).
    { apply Ha. left. rewrite En. unfold vdot; simpl. ring. }
    transitivity (vscale (-1) (mapp (GetRotationMatrix axis (V3 0 0 1) n) (V3 0 0 1))).
    + rewrite <- mapp_vscale. f_equal. rewrite En. unfold vscale; simpl. f_equal; ring.
    + rewrite Ha', En. unfold vscale, vsub; simpl. f_equal; ring.
  - unfold GetRotationMatrix, setFromTwoVectors. rewrite Nn, Nz.
    assert (Ec : vdot n (V3 0 0 1) = vz n) by (unfold vdot; simpl; ring). rewrite Ec.
    assert (Hb : Rltb (vz n) (-1 + / 10 ^ 12) = false) by (apply Rltb_false; done). rewrite Hb.
    assert (Pe : 0 < / 10 ^ 12) by (apply Rinv_0_lt_compat, pow_lt; lra).
    set (s := R_sqrt.sqrt ((1 + vz n) * 2)).
    assert (Hs : s * s = (1 + vz n) * 2) by (apply R_sqrt.sqrt_sqrt; lra).
    assert (Ps : 0 < s) by (apply R_sqrt.sqrt_lt_R0; lra).
    rewrite quaternion_apply. replace (2 * (s * (1 / 2))) with s by field. clearbody s. destruct n as [x y z].
    unfold vnorm2, vdot in Hn. cbn [vx vy vz] in *.
    unfold vadd, vscale, vcross, vsub; cbn [vx vy vz].
    set (i := / s). assert (Hi : i * s = 1) by (unfold i; field; lra). clearbody i.
    assert (Hi2 : i * i * ((1 + z) * 2) = 1) by (rewrite <- Hs; nsatz).
    assert (Hz1 : 1 + z <> 0) by lra.
    assert (Hii : i * i = / ((1 + z) * 2)) by (apply Rmult_eq_reg_r with ((1+z)*2); [rewrite Hi2; field; lra | lra]).
    clear Hii.
    assert (Hi3 : i * i * 2 * (1 - z * z) = 1 - z).
    { apply Rmult_eq_reg_r with (1 + z); [|done]. nsatz. }
    assert (Hsi : s * i = 1) by lra.
    assert (Exy : i * i * 2 * (x * x + y * y) = 1 - z) by (rewrite <- Hi3; replace (x * x + y * y) with (1 - z * z) by lra; ring).
    assert (Exy' : x * x + y * y = 1 - z * z) by lra.
    apply (f_equal3 V3).
    + transitivity (x + (s * i) * (x * z) - (i * i * 2 * (x * x + y * y)) * x); [ring|]. rewrite Hsi, Exy. ring.
    + transitivity (y + (s * i) * (y * z) - (i * i * 2 * (x * x + y * y)) * y); [ring|]. rewrite Hsi, Exy. ring.
    + transitivity (z - (s * i) * (x * x + y * y) - (i * i * 2 * (x * x + y * y)) * z); [ring|]. rewrite Exy, Hsi, Exy'. ring.
Qed.

Lemma sole_plane axis s e l fx fy ps p r : good_axis axis -> vnorm2 (rnormal l) = 1 ->
  vz (rnormal l) = -1 \/ -1 + / 10 ^ 12 <= vz (rnormal l) ->
  positions s !! e = Some p -> rotations s !! e = Some r -> is_rotation r ->
  computeRectangleContact axis e l s fx fy = Ok ps ->
  exists p1 p2 p3 p4 lx ly, ps = [p1; p2; p3; p4] /\ size_or fx (rx l) lx /\ size_or fy (ry l) ly /\
    vdot (vsub p1 p4) (mapp r (rnormal l)) = 4 * lx * (vz (rnormal l) * vx (rnormal l)) /\
    vdot (vsub p1 p2) (mapp r (rnormal l)) = 4 * ly * (vz (rnormal l) * vy (rnormal l)).
Proof.
  intros Hax Hn Hz Ep Er Hr H. unfold computeRectangleContact, at_ in H. rewrite Ep, Er in H. cbn [obind] in H.
  rewrite rect_points in H. cbn zeta in H.
  set (lx := if Reqb fx 0 then rx l else fx) in *. set (ly := if Reqb fy 0 then ry l else fy) in *.
  set (G := GetRotationMatrix axis (V3 0 0 1) (rnormal l)) in *.
  set (u := mapp r (mapp (mtr G) (V3 lx 0 0))) in *. set (v := mapp r (mapp (mtr G) (V3 0 ly 0))) in *.
  set (c := vadd (mapp r (roffset l)) p) in *.
  assert (H' := f_equal (fun o => match o with Ok l => l | _ => [] end) H). cbn beta iota in H'.
  exists (vadd (vadd c u) v), (vsub (vadd c u) v), (vsub (vsub c u) v), (vadd (vsub c u) v), lx, ly.
  split_and!; [done|apply size_or_if|apply size_or_if| |].
  - transitivity (2 * vdot u (mapp r (rnormal l))). { unfold vdot, vsub, vadd; cbn [vx vy vz]. ring. }
    unfold u. rewrite rotation_dot by done. rewrite vdot_mapp, mtr_mtr. unfold G. rewrite twice_rotated by done.
    unfold vdot, vsub, vscale; cbn [vx vy vz]. ring.
  - transitivity (2 * vdot v (mapp r (rnormal l))). { unfold vdot, vsub, vadd; cbn [vx vy vz]. ring. }
    unfold v. rewrite rotation_dot by done. rewrite vdot_mapp, mtr_mtr. unfold G. rewrite twice_rotated by done.
    unfold vdot, vsub, vscale; cbn [vx vy vz]. ring.
Qed.

(** ** the balance test *)
Section I.
Context (axis : vec3 -> vec3 -> vec3) (lib : eqlib) (B : rbody).

Lemma stable_cases s acc com alg r : IsStable axis lib B s acc com alg = Ok r ->
  exists k c0 a, setupLibrary axis lib B s alg 0 0 = Ok (k, c0) /\ chosenAcc B s acc = Ok a /\
    let c := if isZero12 com then c0 else com in
    let oa := if rstatic B then None else Some a in
    (calg k = ALG_PP /\
       ((fst (checkEq lib k c oa) = LP_OPTIMAL /\ r = (if snd (checkEq lib k c oa) then dmax else -1)) \/
        ((fst (checkEq lib k c oa) = LP_INFEASIBLE \/ fst (checkEq lib k c oa) = LP_UNBOUNDED) /\ r = - (11 / 10)) \/
        ((exists n, fst (checkEq lib k c oa) = LP_OTHER n) /\ r = - dmax))) \/
    (calg k <> ALG_PP /\
       ((fst (robEq lib k c oa) = LP_OPTIMAL /\ r = snd (robEq lib k c oa)) \/
        ((fst (robEq lib k c oa) = LP_INFEASIBLE \/ fst (robEq lib k c oa) = LP_UNBOUNDED) /\ r = - (11 / 10)) \/
        ((exists n, fst (robEq lib k c oa) = LP_OTHER n) /\ r = - dmax))).
Proof.
  intros H. unfold IsStable in H. inv_bind H. inv_bind H. destruct a0 as [k c0]. exists k, c0, a. split; [done|].
  split; [done|]. cbn zeta.
  destruct (calg k) as [|n] eqn:Ek; cbn [isPP] in H.
  - left. split; [done|]. destruct (checkEq lib k _ _) as [st ok]. cbn [fst snd] in *.
    destruct st; injection H as <-; eauto.
  - right. split; [done|]. destruct (robEq lib k _ _) as [st v]. cbn [fst snd] in *.
    destruct st; injection H as <-; eauto.
Qed.

Lemma dmax_pos : 1 < dmax.
Proof. unfold dmax. apply IZR_lt. vm_compute. done. Qed.

Definition eq_inputs (s1 s2 : PSt) : Prop :=
  configuration s1 = configuration s2 /\ positions s1 = positions s2 /\ normals s1 = normals s2 /\ rotations s1 = rotations s2.

Lemma rows_ext s1 s2 norm fx fy names : eq_inputs s1 s2 ->
  contactRows axis B s1 norm fx fy names = contactRows axis B s2 norm fx fy names.
Proof.
  intros (Ec & Ep & En & Er). induction names as [|n ns IH]; [done|]. simpl.
  unfold computeRectangleContact, computePointContact. rewrite Ec, Ep, En, Er, IH. done.
Qed.
Lemma setup_ext s1 s2 alg fx fy : eq_inputs s1 s2 -> setupLibrary axis lib B s1 alg fx fy = setupLibrary axis lib B s2 alg fx fy.
Proof.
  intros H. unfold setupLibrary. pose proof H as (Ec & Ep & En & Er). rewrite Ep.
  destruct (splitGrasps B _) as [[cs gs]| |]; simpl; [|done|done].
  rewrite (rows_ext s1 s2), (rows_ext s1 s2 (fun n => n)), Ec by done. done.
Qed.
Lemma stable_ext s1 s2 acc com alg : eq_inputs s1 s2 ->
  IsStable axis lib B s1 acc com alg = IsStable axis lib B s2 acc com alg.
Proof.
  intros H. unfold IsStable. rewrite (setup_ext s1 s2) by done. destruct H as (Ec & _).
  unfold chosenAcc. rewrite Ec. done.
Qed.

Lemma stable_static s acc1 acc2 com alg r1 r2 : rstatic B = true ->
  IsStable axis lib B s acc1 com alg = Ok r1 -> IsStable axis lib B s acc2 com alg = Ok r2 -> r1 = r2.
Proof.
  intros Hs H1 H2. unfold IsStable in *. rewrite Hs in *. inv_bind H1. inv_bind H2.
  destruct (setupLibrary axis lib B s alg 0 0) as [[k c]| |]; simpl in *; congruence.
Qed.

Lemma norm_zero_iff v : Reqb (vnorm v) 0 = true <-> v = vzero.
Proof.
  rewrite Reqb_true. split; [apply vnorm_zero|]. intros ->. unfold vnorm, vnorm2, vdot; simpl.
  replace (0 * 0 + 0 * 0 + 0 * 0) with 0 by ring. apply sqrt_0.
Qed.
Lemma chosen_acc s acc : 
  (acc <> vzero \/ (rextra B < 6)%nat -> chosenAcc B s acc = Ok acc) /\
  (acc = vzero -> (6 <= rextra B)%nat -> (rconfSize B - rextra B + 6 <= length (configuration s))%nat ->
   chosenAcc B s acc = Ok (seg3 (configuration s) (rconfSize B - rextra B + 3))).
Proof.
  unfold chosenAcc. split.
  - intros [H|H].
    + destruct (Reqb (vnorm acc) 0) eqn:E; [apply norm_zero_iff in E; done|]. rewrite andb_false_r. done.
    + assert (E : (6 <=? rextra B)%nat = false) by (apply Nat.leb_gt; lia). rewrite E. done.
  - intros H1 H2 H3. apply norm_zero_iff in H1. rewrite H1.
    assert (E : (6 <=? rextra B)%nat = true) by (apply Nat.leb_le; lia). rewrite E. cbn [andb].
    assert (E2 : (rconfSize B - rextra B + 3 + 3 <=? length (configuration s))%nat = true) by (apply Nat.leb_le; lia).
    rewrite E2. done.
Qed.

Lemma cone_result s Hh : ComputeCentroidalCone axis lib B s = Ok Hh ->
  exists k c, setupLibrary axis lib B s ALG_PP 0 0 = Ok (k, c) /\
   (fst (polytope lib k) = LP_OPTIMAL -> Hh = snd (polytope lib k)) /\
   (fst (polytope lib k) <> LP_OPTIMAL -> forall w, in_polytope Hh w).
Proof.
  intros H. unfold ComputeCentroidalCone in H. inv_bind H. destruct a as [k c]. exists k, c. split; [done|].
  destruct (polytope lib k) as [st P]. cbn [fst snd].
  destruct (isOptimal st) eqn:Eo; injection H as <-.
  - split; [done|]. intros Hn. destruct st; done.
  - split; [intros ->; done|]. intros _ w. unfold in_polytope. cbn [fst snd repeat].
    assert (Z : dot6 (R6 vzero vzero) w <= 0). { unfold dot6, vdot; simpl. lra. }
    repeat (constructor; [exact Z|]). constructor.
Qed.
End I.
