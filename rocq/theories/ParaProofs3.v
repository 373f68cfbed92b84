(** Proofs about the jumps the steering method returns or refuses. *)
From Verif Require Import Maps Vec ParaModel ParaSpec ParaProofs ParaProofs2.
From Coq Require Import Psatz.
Local Open Scope R_scope.

Section jump.
Context (validate : ppath -> bool) (romNames : config -> list string) (d : device) (s : steering).
Context (Hg : 0 < s_g s) (HD : 0 < s_Dalpha s) (HV : 0 <= s_V0max s) (HW : 0 <= s_Vimpmax s).

Lemma bounds_spec X Z p m p' m' inf sup : 0 < X ->
  second_constraint s X Z = Some (p, m) -> sixth_constraint s X Z = Some (p', m') ->
  alphaBounds s (3/2) (- 2 * PI) (2 * PI) (- 2 * PI) (2 * PI) (p, m) (p', m') (2 * PI, - 2 * PI) (atan (Z / X)) = (inf, sup) ->
  (forall a, inf <= a <= sup <-> m <= a <= p /\ m' <= a <= p' /\ atan (Z / X) + s_Dalpha s <= a) /\
  (forall a, inf <= a <= sup -> - PI / 2 < a < PI / 2 /\ 0 < X * tan a - Z).
Proof.
  intros HX E2 E6 EB. pose proof PI_RGT_0 as Hpi.
  pose proof (second_range s X Z HX p m E2) as [Hp Hm]. pose proof (sixth_range s X Z HX p' m' E6) as [Hp' Hm'].
  unfold alphaBounds in EB. assert (Rltb 0 (3/2) = true) as Hn by (apply Rltb_true; lra). rewrite Hn in EB.
  assert (Rltb (- 2 * PI) (- PI / 2) = true) as Hn2 by (apply Rltb_true; lra). rewrite Hn2 in EB.
  injection EB as <- <-. pose proof (atan_bound (Z / X)) as Hb.
  assert (Hiff : forall a, Rmax (Rmax (- 2 * PI) (Rmax m m')) (Rmax (- 2 * PI) (atan (Z / X) + s_Dalpha s)) <= a <= Rmin (2 * PI) (Rmin (Rmin p p') (PI / 2))
     <-> m <= a <= p /\ m' <= a <= p' /\ atan (Z / X) + s_Dalpha s <= a).
  { intros a. unfold Rmax, Rmin. split.
    - intros [H1 H2]. repeat split; revert H1 H2; repeat (destruct Rle_dec; try lra).
    - intros ((? & ?) & (? & ?) & ?). split; repeat (destruct Rle_dec; try lra). }
  split; auto. intros a Ha. apply Hiff in Ha. destruct Ha as ((? & ?) & _ & Hi).
  assert (Hr : - PI / 2 < a < PI / 2) by lra. split; auto.
  assert (Hlt : Z / X < tan a).
  { rewrite <- (tan_atan (Z / X)). apply tan_increasing; lra. }
  apply (Rmult_lt_compat_l X) in Hlt; auto. replace (X * (Z / X)) with Z in Hlt by (field; lra). lra.
Qed.

Section ends.
Context (q1 q2 : config) (Hap : apart q1 q2).
Let X := qi q2 0 - qi q1 0.
Let Y := qi q2 1 - qi q1 1.
Let Z := qi q2 2 - qi q1 2.
Let theta := atan2 Y X.
Let x0 := cos theta * qi q1 0 + sin theta * qi q1 1.
Let x1 := cos theta * qi q2 0 + sin theta * qi q2 1.
Let L := hdist q1 q2.
Let HL : 0 < L. Proof. exact (proj1 (direction q1 q2 Hap)). Qed.
Let tryA := attempt romNames s q1 q2 theta L Z x0 x1 (qi q1 2).

(** everything about one angle *)
Definition admissible_angle (a : R) : Prop := - PI / 2 < a < PI / 2 /\ 0 < L * tan a - Z.
Lemma attempt_spec a p ok : admissible_angle a -> tryA a = (p, ok) ->
  exists T, 0 < T /\ computeTimedLength p = T /\ flight (s_g s) L Z a (vnorm (p_V0 p)) T /\
    p_init p = q1 /\ p_end p = q2 /\ p_len p = L /\ k_theta (p_coefs p) = theta /\ k_alpha (p_coefs p) = a /\ k_x0 (p_coefs p) = x0 /\
    k_xdot (p_coefs p) * T = L /\ 0 < k_xdot (p_coefs p) /\ k0 (p_coefs p) < 0 /\
    p_V0 p = V3 (k_xdot (p_coefs p) * cos theta) (k_xdot (p_coefs p) * sin theta) (k_xdot (p_coefs p) * tan a) /\
    fall (s_g s) (qpos q1) (p_V0 p) T = qpos q2 /\ p_Vimp p = fallVelocity (s_g s) (p_V0 p) T /\
    vnorm2 (p_Vimp p) = impactSpeed2 s a (vnorm (p_V0 p)) T /\
    p_roms0 p = romNames q1 /\ p_roms1 p = romNames q2 /\
    (forall t, let x := x0 + k_xdot (p_coefs p) * t in
       k0 (p_coefs p) * x * x + k1 (p_coefs p) * x + k2 (p_coefs p) = vz (fall (s_g s) (qpos q1) (p_V0 p) t)) /\
    (ok = true -> forall t, 0 <= t <= T -> vz (fall (s_g s) (qpos q1) (p_V0 p) t) <= Rmax (s_zmax s) (Rmax (qi q1 2) (qi q2 2))) /\
    (ok = false -> exists t, 0 <= t <= T /\ s_zmax s < vz (fall (s_g s) (qpos q1) (p_V0 p) t)).
Proof.
  intros [Ha Hd] E. unfold tryA, attempt in E.
  destruct (computeCoefficients s a theta L Z x0 (qi q1 2)) as [[c v0] vimp] eqn:Ec.
  injection E as <- <-. simpl.
  destruct (coefs_spec s a theta L Z x0 (qi q1 2) Hg HL Ha Hd c v0 vimp Ec) as (Hw & Ew & Et & Ea & E0 & Hf & Ev0 & Evi & Hh & Hk).
  set (w := k_xdot c) in *. pose proof (cos_pos_in a Ha) as Hc.
  destruct (direction q1 q2 Hap) as (_ & HX & HY & HXY & H1). fold X Y theta L in HX, HY, HXY, H1.
  assert (HT : 0 < L / w) by rpos.
  assert (HwT : w * (L / w) = L) by (field; lra).
  assert (Hnorm : vnorm v0 = w / cos a).
  { unfold vnorm. rewrite <- (sqrt_square (w / cos a)) by (apply Rlt_le; rpos). f_equal.
    rewrite Ev0. unfold vnorm2, vdot. simpl. pose proof (one_tan2 a ltac:(lra)) as O. pose proof (sin2cos2 theta) as S.
    transitivity (w * w * ((sin theta * sin theta + cos theta * cos theta) + tan a * tan a)); [ring|]. rewrite S.
    transitivity (w * w / (cos a * cos a) * (cos a * cos a * (1 + tan a * tan a))); [field; lra|]. rewrite O. field. lra. }
  assert (Hfin : fall (s_g s) (qpos q1) v0 (L / w) = qpos q2).
  { rewrite Ev0. destruct Hf as (_ & _ & F1 & F2). apply vec3_eq; unfold fall, vadd, vscale, qpos; simpl.
    - transitivity (qi q1 0 + (w * (L / w)) * cos theta); [ring|]. rewrite HwT, HX. unfold X. ring.
    - transitivity (qi q1 1 + (w * (L / w)) * sin theta); [ring|]. rewrite HwT, HY. unfold Y. ring.
    - assert (E : w / cos a * sin a * (L / w) = L / w * (w * tan a)) by (unfold tan; field; lra).
      rewrite E in F2. unfold Z in F2. lra. }
  assert (Hhz : forall t, k0 c * (x0 + w * t) * (x0 + w * t) + k1 c * (x0 + w * t) + k2 c = vz (fall (s_g s) (qpos q1) v0 t)).
  { intros t. rewrite Hh, Ev0. unfold fall, vadd, vscale, qpos. simpl. ring. }
  assert (Hx1 : x1 = x0 + L) by (unfold x1, x0; rewrite H1; reflexivity).
  exists (L / w). repeat split; auto; try apply Hf.
  - unfold computeTimedLength, timedLength. simpl. rewrite Et, Ea, Hnorm. fold X Y. rewrite HXY. field. split; lra.
  - rewrite Hnorm. apply Rlt_le; rpos.
  - rewrite Hnorm. apply Hf.
  - rewrite Hnorm. apply Hf.
  - unfold p_computeLength. rewrite Et. fold X Y. rewrite HXY. reflexivity.
  - rewrite Evi, Hnorm. unfold impactSpeed2, fallVelocity, vnorm2, vdot, vadd. rewrite Ev0. simpl. pose proof (sin2cos2 theta) as S.
    assert (E : w / cos a * sin a = w * tan a) by (unfold tan; field; lra).
    replace (w / cos a * cos a) with w by (field; lra). rewrite E.
    transitivity (w * w * (sin theta * sin theta + cos theta * cos theta) + (w * tan a - s_g s * (L / w)) * (w * tan a - s_g s * (L / w))); [ring|].
    rewrite S. ring.
  - intros Hok t Ht.
    pose proof (height_ok s c x0 x1 Hk Hok (x0 + w * t)) as Hq. cbv zeta beta in Hq.
    assert (0 <= w * t <= L). { split; [apply Rmult_le_pos; lra|]. rewrite <- HwT. apply Rmult_le_compat_l; lra. }
    specialize (Hq ltac:(lra)). rewrite Hhz in Hq.
    replace (k0 c * x0 * x0 + k1 c * x0 + k2 c) with (k0 c * (x0 + w * 0) * (x0 + w * 0) + k1 c * (x0 + w * 0) + k2 c) in Hq by ring.
    rewrite Hhz in Hq. rewrite Hx1 in Hq. rewrite <- HwT in Hq. rewrite Hhz, Hfin in Hq.
    replace (vz (fall (s_g s) (qpos q1) v0 0)) with (qi q1 2) in Hq by (unfold fall, vadd, vscale, qpos; simpl; field). exact Hq.
  - intros Hok. destruct (height_bad s c x0 x1 Hok) as (x & Hx & Hz). cbv zeta beta in Hz.
    exists ((x - x0) / w). split.
    + split.
      * apply (Rmult_le_reg_r w); auto. replace ((x - x0) / w * w) with (x - x0) by (field; lra). lra.
      * apply (Rmult_le_reg_r w); auto. replace ((x - x0) / w * w) with (x - x0) by (field; lra). replace (L / w * w) with L by (field; lra). lra.
    + pose proof (Hhz ((x - x0) / w)) as Ehz. replace (x0 + w * ((x - x0) / w)) with x in Ehz by (field; lra). assert (Hgo : s_zmax s < vz (fall (s_g s) (qpos q1) v0 ((x - x0) / w))) by (rewrite <- Ehz; exact Hz). exact Hgo.
Qed.

(** heights grow with the angle *)
Lemma height_grows a b t u : admissible_angle a -> admissible_angle b -> tan a <= tan b ->
  forall p okp q okq, tryA a = (p, okp) -> tryA b = (q, okq) ->
  0 <= u <= L -> t = u / k_xdot (p_coefs p) ->
  vz (fall (s_g s) (qpos q1) (p_V0 p) t) <= vz (fall (s_g s) (qpos q1) (p_V0 q) (u / k_xdot (p_coefs q))).
Proof.
  intros Ha Hb Hab p okp q okq Ep Eq Hu ->.
  destruct (attempt_spec a p okp Ha Ep) as (T & HT & _ & Hf & _ & _ & _ & _ & _ & _ & HLT & Hwp & _ & Evp & _).
  destruct (attempt_spec b q okq Hb Eq) as (T' & HT' & _ & Hf' & _ & _ & _ & _ & _ & _ & HLT' & Hwq & _ & Evq & _).
  set (w := k_xdot (p_coefs p)) in *. set (w' := k_xdot (p_coefs q)) in *.
  destruct (flight_speed _ _ _ _ _ _ Hg HL (proj1 Ha) Hf) as (_ & E & ET & Hd).
  destruct (flight_speed _ _ _ _ _ _ Hg HL (proj1 Hb) Hf') as (_ & E' & ET' & Hd').
  assert (Ecv : vnorm (p_V0 p) * cos a = w) by (apply (Rmult_eq_reg_r T); [|lra]; rewrite HLT; apply Hf).
  assert (Ecv' : vnorm (p_V0 q) * cos b = w') by (apply (Rmult_eq_reg_r T'); [|lra]; rewrite HLT'; apply Hf').
  rewrite Ecv in E. rewrite Ecv' in E'.
  assert (Eh : vz (fall (s_g s) (qpos q1) (p_V0 p) (u / w)) = qi q1 2 + tan a * u - (L * tan a - Z) * (u * u) / (L * L)).
  { rewrite Evp. unfold fall, vadd, vscale, qpos. simpl.
    assert (s_g s = 2 * (L * tan a - Z) * (w * w) / (L * L)) as -> by (rewrite E; field; lra). field. split; lra. }
  assert (Eh' : vz (fall (s_g s) (qpos q1) (p_V0 q) (u / w')) = qi q1 2 + tan b * u - (L * tan b - Z) * (u * u) / (L * L)).
  { rewrite Evq. unfold fall, vadd, vscale, qpos. simpl.
    assert (s_g s = 2 * (L * tan b - Z) * (w' * w') / (L * L)) as -> by (rewrite E'; field; lra). field. split; lra. }
  rewrite Eh, Eh'. 
  assert (0 <= (tan b - tan a) * (u * (L - u) / L)).
  { apply Rmult_le_pos; [lra|]. apply Rmult_le_pos; [apply Rmult_le_pos; lra|]. apply Rlt_le, Rinv_0_lt_compat; auto. }
  replace (qi q1 2 + tan b * u - (L * tan b - Z) * (u * u) / (L * L)) with
    (qi q1 2 + tan a * u - (L * tan a - Z) * (u * u) / (L * L) + (tan b - tan a) * (u * (L - u) / L)) by (field; lra). lra.
Qed.

Theorem jump_returned t tried : compute_3D_path validate romNames d s q1 q2 = Ok (Some t, tried) ->
  let v := p_V0 (t_para t) in let T := t_len t in
  0 < T /\ fall (s_g s) (qpos q1) v T = qpos q2 /\ p_Vimp (t_para t) = fallVelocity (s_g s) v T /\
  vnorm v <= s_V0max s /\ vnorm (p_Vimp (t_para t)) <= s_Vimpmax s /\
  (forall u, 0 <= u <= T -> vz (fall (s_g s) (qpos q1) v u) <= Rmax (s_zmax s) (Rmax (qi q1 2) (qi q2 2))) /\
  validate (t_para t) = true /\ t_para t ∈ tried /\
  p_init (t_para t) = q1 /\ p_end (t_para t) = q2 /\ p_roms0 (t_para t) = romNames q1 /\ p_roms1 (t_para t) = romNames q2 /\
  (length tried <= S (s_nLimit s))%nat /\
  exists a, admissible_angle a /\ t_para t = fst (tryA a) /\ snd (tryA a) = true /\ atan (Z / L) + s_Dalpha s <= a /\
  t = t_create
        (<[(indexEcs d + 5)%nat := - s_g s]> (<[(indexEcs d + 2)%nat := vz v]> (<[(indexEcs d + 1)%nat := vy v]> (<[indexEcs d := vx v]> q1))))
        (<[(indexEcs d + 2)%nat := vz (p_Vimp (t_para t))]> (<[(indexEcs d + 1)%nat := vy (p_Vimp (t_para t))]> (<[indexEcs d := vx (p_Vimp (t_para t))]> q2)))
        (t_para t) /\ (indexEcs d + 6 <= length q1)%nat /\ (indexEcs d + 3 <= length q2)%nat.
Proof.
  unfold compute_3D_path. destruct (direction q1 q2 Hap) as (_ & _ & _ & HXY & _). fold X Y Z. fold X Y theta L in HXY. fold theta. rewrite HXY.
  fold x0 x1.
  destruct (second_constraint s L Z) as [[lp lm]|] eqn:E2; [|discriminate].
  destruct (sixth_constraint s L Z) as [[ip im]|] eqn:E6; [|discriminate].
  unfold third_constraint.
  destruct (alphaBounds s _ _ _ _ _ (lp, lm) (ip, im) _ _) as [inf sup] eqn:EB.
  destruct (Rltb sup inf) eqn:Eis; [discriminate|]. apply Rltb_false in Eis.
  fold tryA. destruct (negb (snd (tryA inf))); [discriminate|].
  set (alpha := inf + 1 / 10 * (sup - inf)).
  destruct (tryA alpha) as [p0 ok0] eqn:E0.
  destruct (search validate tryA inf sup (s_nLimit s) 0 p0 (validate p0 && ok0)) as [[p good] tr] eqn:Es.
  destruct good; [|discriminate]. simpl.
  destruct ((indexEcs d + 6 <=? length q1)%nat) eqn:El1; [|discriminate].
  destruct ((indexEcs d + 3 <=? length q2)%nat) eqn:El2; [|discriminate].
  intros H. injection H as <- <-.
  apply Nat.leb_le in El1, El2.
  destruct (bounds_spec L Z lp lm ip im inf sup HL E2 E6 EB) as [Hiff Hin].
  destruct (search_spec validate tryA inf sup _ _ _ _ _ _ _ Es) as (HLen & _ & HT & _).
  assert (Hex : exists a, inf <= a <= sup /\ p = fst (tryA a) /\ validate p = true /\ snd (tryA a) = true /\ p ∈ p0 :: tr).
  { destruct (HT eq_refl) as [(Hgood & -> & ->)|(m & Hm & Hok & Hpin)].
    - exists alpha. rewrite E0. apply andb_true_iff in Hgood. destruct Hgood. simpl. repeat split; auto; try (unfold alpha; lra). set_solver.
    - exists (dichotomy inf sup m). unfold cand_ok in Hok. apply andb_true_iff in Hok. destruct Hok as [Ho1 Ho2].
      rewrite <- Hm in Ho1. repeat split; auto; try (apply dichotomy_between; auto). set_solver. }
  destruct Hex as (a & Hab & Hpa & Hval & Hsnd & Hpin).
  destruct (tryA a) as [pa oka] eqn:Ea. simpl in Hpa, Hsnd. subst pa oka.
  pose proof (Hin a Hab) as Hadm. pose proof (proj1 (Hiff a) Hab) as (Hl & Hi & Hinf).
  destruct (attempt_spec a p true Hadm Ea) as (T & HTpos & HTl & Hf & Hpi & Hpe & _ & _ & _ & _ & _ & _ & _ & _ & Hfall & Hvi & Him & Hr0 & Hr1 & _ & Hhe & _).
  simpl. rewrite HTl.
  pose proof (proj1 (second_some s L Z Hg HL lp lm E2 HV a (proj1 Hadm)) Hl) as (v1 & T1 & Hf1 & Hv1).
  destruct (flight_unique _ _ _ _ _ _ _ _ Hg HL (proj1 Hadm) Hf Hf1) as [<- <-].
  pose proof (proj1 (sixth_some s L Z Hg HL ip im E6 a (proj1 Hadm)) Hi) as (v2 & T2 & Hf2 & Hv2).
  destruct (flight_unique _ _ _ _ _ _ _ _ Hg HL (proj1 Hadm) Hf Hf2) as [<- <-].
  repeat split; auto.
  - apply vnorm_le; auto. rewrite Him. exact Hv2.
  - intros u Hu. exact (Hhe eq_refl u Hu).
  - lia.
  - exists a. split; [exact Hadm|]. split; [exact (eq_sym (f_equal fst Ea))|]. split; [exact (f_equal snd Ea)|].
    repeat split; auto.
Qed.

(** any launch that reaches [q2] is a flight *)
Lemma launch_flight v T : 0 < T -> fall (s_g s) (qpos q1) v T = qpos q2 ->
  let a := atan (vz v / sqrt (vx v * vx v + vy v * vy v)) in
  flight (s_g s) L Z a (vnorm v) T /\ admissible_angle a /\ impactSpeed2 s a (vnorm v) T = vnorm2 (fallVelocity (s_g s) v T) /\
  sqrt (vx v * vx v + vy v * vy v) * T = L /\ sqrt (vx v * vx v + vy v * vy v) * tan a = vz v.
Proof.
  intros HT Hf a. set (h := sqrt (vx v * vx v + vy v * vy v)).
  assert (Hh2 : h * h = vx v * vx v + vy v * vy v) by (apply sqrt_sqrt; pose proof (sqr_pos (vx v)); pose proof (sqr_pos (vy v)); lra).
  assert (E : vx (fall (s_g s) (qpos q1) v T) = qi q2 0 /\ vy (fall (s_g s) (qpos q1) v T) = qi q2 1 /\ vz (fall (s_g s) (qpos q1) v T) = qi q2 2) by (rewrite Hf; auto).
  unfold fall, vadd, vscale, qpos in E. simpl in E. destruct E as (Ex & Ey & Ez).
  assert (HhT : h * T = L).
  { unfold L, hdist, h. rewrite <- (sqrt_square T) at 1 by lra. rewrite <- sqrt_mult by (pose proof (sqr_pos (vx v)); pose proof (sqr_pos (vy v)); try nra).
    f_equal. rewrite <- Ex, <- Ey. ring. }
  assert (Hh : 0 < h). { pose proof (sqrt_pos (vx v * vx v + vy v * vy v)) as P. fold h in P. destruct P as [|P]; auto. rewrite <- P in HhT. lra. }
  assert (Ha : - PI / 2 < a < PI / 2) by (pose proof (atan_bound (vz v / h)); auto).
  pose proof (cos_pos_in a Ha) as Hc.
  assert (Ht : h * tan a = vz v) by (unfold a; rewrite tan_atan; fold h; field; lra).
  assert (Hn : vnorm v * cos a = h).
  { assert (Hv2 : vnorm v * vnorm v = h * h * (1 + tan a * tan a)).
    { unfold vnorm. rewrite sqrt_sqrt by (unfold vnorm2, vdot; pose proof (sqr_pos (vx v)); pose proof (sqr_pos (vy v)); pose proof (sqr_pos (vz v)); lra).
      unfold vnorm2, vdot. rewrite <- Ht, Rmult_plus_distr_l, Rmult_1_r, Hh2. rewrite <- Hh2. ring. }
    assert (0 <= vnorm v) by apply sqrt_pos.
    assert (E : vnorm v * cos a * (vnorm v * cos a) = h * h).
    { transitivity (vnorm v * vnorm v * (cos a * cos a)); [ring|]. rewrite Hv2.
      transitivity (h * h * (cos a * cos a * (1 + tan a * tan a))); [ring|]. rewrite one_tan2 by lra. ring. }
    assert (0 <= vnorm v * cos a) by (apply Rmult_le_pos; lra). nra. }
  assert (Hs : vnorm v * sin a = vz v).
  { rewrite <- (tan_cos a) by lra. rewrite <- Rmult_assoc, Hn. exact Ht. }
  assert (F : flight (s_g s) L Z a (vnorm v) T).
  { repeat split; auto; [apply sqrt_pos|rewrite Hn; auto|]. rewrite Hs. unfold Z. rewrite <- Ez. field. }
  destruct (flight_speed _ _ _ _ _ _ Hg HL Ha F) as (_ & _ & _ & Hd).
  repeat split; auto; try apply F; try apply Ha.
  unfold impactSpeed2. rewrite Hn, Hs, Hh2. unfold fallVelocity, vnorm2, vdot, vadd. simpl. ring.
Qed.

(** what a refusal without any validation means *)
Theorem jump_impossible : compute_3D_path validate romNames d s q1 q2 = Ok (None, []) ->
  forall v T, 0 < T -> fall (s_g s) (qpos q1) v T = qpos q2 -> vnorm v <= s_V0max s -> vnorm (fallVelocity (s_g s) v T) <= s_Vimpmax s ->
  atan (vz v / sqrt (vx v * vx v + vy v * vy v)) < atan (Z / L) + s_Dalpha s \/
  exists u, 0 <= u <= T /\ s_zmax s < vz (fall (s_g s) (qpos q1) v u).
Proof.
  intros H v T HT Hfall Hv Hvi.
  destruct (launch_flight v T HT Hfall) as (Hf & Hadm & Him & HhT & Htan).
  set (a := atan (vz v / sqrt (vx v * vx v + vy v * vy v))) in *.
  destruct (Rlt_le_dec a (atan (Z / L) + s_Dalpha s)) as [|Hinf]; [auto|]. right.
  revert H. unfold compute_3D_path. destruct (direction q1 q2 Hap) as (_ & HXd & HYd & HXY & _). fold X Y Z. fold X Y theta L in HXY, HXd, HYd. fold theta. rewrite HXY.
  fold x0 x1.
  assert (Himp : impactSpeed2 s a (vnorm v) T <= s_Vimpmax s * s_Vimpmax s) by (rewrite Him; apply le_vnorm; auto).
  destruct (second_constraint s L Z) as [[lp lm]|] eqn:E2.
  2:{ intros _. exfalso. pose proof (second_none s L Z Hg HL E2 HV a (vnorm v) T (proj1 Hadm) Hf). lra. }
  destruct (sixth_constraint s L Z) as [[ip im]|] eqn:E6.
  2:{ intros _. exfalso. pose proof (sixth_none s L Z Hg HL E6 a (vnorm v) T (proj1 Hadm) Hf). lra. }
  unfold third_constraint.
  destruct (alphaBounds s _ _ _ _ _ (lp, lm) (ip, im) _ _) as [inf sup] eqn:EB.
  destruct (bounds_spec L Z lp lm ip im inf sup HL E2 E6 EB) as [Hiff Hin].
  assert (Hia : inf <= a <= sup).
  { apply Hiff. repeat split; auto.
    - apply (second_some s L Z Hg HL lp lm E2 HV a (proj1 Hadm)); eauto.
    - apply (second_some s L Z Hg HL lp lm E2 HV a (proj1 Hadm)); eauto.
    - apply (sixth_some s L Z Hg HL ip im E6 a (proj1 Hadm)); eauto.
    - apply (sixth_some s L Z Hg HL ip im E6 a (proj1 Hadm)); eauto. }
  destruct (Rltb sup inf) eqn:Eis; [apply Rltb_true in Eis; lra|].
  fold tryA. destruct (tryA inf) as [pi oki] eqn:Ei. simpl.
  destruct oki.
  - simpl. destruct (tryA _) as [p0 ok0] eqn:E0. destruct (search _ _ _ _ _ _ _ _) as [[p good] tr]. destruct good; simpl; [|discriminate].
    destruct (_ && _)%bool; discriminate.
  - simpl. intros _. pose proof (Hin inf ltac:(lra)) as Hadmi.
    destruct (attempt_spec inf pi false Hadmi Ei) as (Ti & HTi & _ & _ & _ & _ & _ & _ & _ & _ & HLi & Hwi & _ & _ & _ & _ & _ & _ & _ & _ & _ & Hbad).
    destruct (Hbad eq_refl) as (u & Hu & Hz).
    destruct (tryA a) as [pa oka] eqn:Ea.
    destruct (attempt_spec a pa oka Hadm Ea) as (Ta & HTa & _ & Hfa & _ & _ & _ & _ & _ & _ & HLa & Hwa & _ & Eva & _).
    destruct (flight_unique _ _ _ _ _ _ _ _ Hg HL (proj1 Hadm) Hf Hfa) as [Env EnT]. subst Ta.
    set (w := k_xdot (p_coefs pa)) in *. set (wi := k_xdot (p_coefs pi)) in *.
    assert (Hwh : w = sqrt (vx v * vx v + vy v * vy v)) by (apply (Rmult_eq_reg_r T); [rewrite HLa, HhT; reflexivity|lra]).
    assert (EV : v = p_V0 pa).
    { rewrite Eva. apply vec3_eq; simpl.
      - assert (vx v * T = X). { apply (f_equal vx) in Hfall. unfold fall, vadd, vscale, qpos in Hfall. simpl in Hfall. unfold X. lra. }
        apply (Rmult_eq_reg_r T); [|lra]. rewrite H, <- HXd, <- HLa. ring.
      - assert (vy v * T = Y). { apply (f_equal vy) in Hfall. unfold fall, vadd, vscale, qpos in Hfall. simpl in Hfall. unfold Y. lra. }
        apply (Rmult_eq_reg_r T); [|lra]. rewrite H, <- HYd, <- HLa. ring.
      - rewrite Hwh. symmetry. exact Htan. }
    assert (Hle : 0 <= wi * u <= L).
    { split; [apply Rmult_le_pos; lra|]. rewrite <- HLi. apply Rmult_le_compat_l; lra. }
    exists (wi * u / w). split.
    + split; [apply Rmult_le_pos; [lra|apply Rlt_le, Rinv_0_lt_compat; auto]|].
      apply (Rmult_le_reg_r w); auto. replace (wi * u / w * w) with (wi * u) by (field; lra). rewrite (Rmult_comm T), HLa. lra.
    + rewrite EV. eapply Rlt_le_trans; [exact Hz|].
      apply (height_grows inf a u (wi * u) Hadmi Hadm) with (okp := false) (okq := oka) (p := pi) (q := pa); auto.
      * apply (tan_mono inf a); [exact (proj1 Hadmi)|exact (proj1 Hadm)|lra].
      * fold wi. field. lra.
Qed.

(** what a refusal after validations means *)
Theorem jump_refused tried : tried <> [] -> compute_3D_path validate romNames d s q1 q2 = Ok (None, tried) ->
  length tried = S (s_nLimit s) /\
  forall p, p ∈ tried -> p_init p = q1 /\ p_end p = q2 /\ vnorm (p_V0 p) <= s_V0max s /\ vnorm (p_Vimp p) <= s_Vimpmax s /\
    (exists T, 0 < T /\ fall (s_g s) (qpos q1) (p_V0 p) T = qpos q2 /\
     (validate p = false \/ exists u, 0 <= u <= T /\ s_zmax s < vz (fall (s_g s) (qpos q1) (p_V0 p) u))).
Proof.
  intros Hne. unfold compute_3D_path. destruct (direction q1 q2 Hap) as (_ & _ & _ & HXY & _). fold X Y Z. fold X Y theta L in HXY. fold theta. rewrite HXY.
  fold x0 x1.
  destruct (second_constraint s L Z) as [[lp lm]|] eqn:E2; [|intros H; injection H as <-; contradiction].
  destruct (sixth_constraint s L Z) as [[ip im]|] eqn:E6; [|intros H; injection H as <-; contradiction].
  unfold third_constraint.
  destruct (alphaBounds s _ _ _ _ _ (lp, lm) (ip, im) _ _) as [inf sup] eqn:EB.
  destruct (Rltb sup inf) eqn:Eis; [intros H; injection H as <-; contradiction|]. apply Rltb_false in Eis.
  fold tryA. destruct (negb (snd (tryA inf))); [intros H; injection H as <-; contradiction|].
  set (alpha := inf + 1 / 10 * (sup - inf)).
  destruct (tryA alpha) as [p0 ok0] eqn:E0.
  destruct (search validate tryA inf sup (s_nLimit s) 0 p0 (validate p0 && ok0)) as [[pp good] tr] eqn:Es.
  destruct good; cbn [negb]; [destruct ((indexEcs d + 6 <=? length q1)%nat && (indexEcs d + 3 <=? length q2)%nat)%bool; discriminate|].
  intros H. injection H as <-.
  destruct (bounds_spec L Z lp lm ip im inf sup HL E2 E6 EB) as [Hiff Hin].
  destruct (search_spec validate tryA inf sup _ _ _ _ _ _ _ Es) as (_ & Hcand & _ & HF).
  destruct (HF eq_refl) as (Hg0 & HLen & Hcok). split; [simpl; lia|].
  assert (Hone : forall a p ok, inf <= a <= sup -> tryA a = (p, ok) -> validate p && ok = false ->
    p_init p = q1 /\ p_end p = q2 /\ vnorm (p_V0 p) <= s_V0max s /\ vnorm (p_Vimp p) <= s_Vimpmax s /\
    (exists T, 0 < T /\ fall (s_g s) (qpos q1) (p_V0 p) T = qpos q2 /\
     (validate p = false \/ exists u, 0 <= u <= T /\ s_zmax s < vz (fall (s_g s) (qpos q1) (p_V0 p) u)))).
  { intros a p ok Hab Ea Hbad. pose proof (Hin a Hab) as Hadm. pose proof (proj1 (Hiff a) Hab) as (Hl & Hi & Hinf).
    destruct (attempt_spec a p ok Hadm Ea) as (T & HTpos & HTl & Hf & Hpi & Hpe & _ & _ & _ & _ & _ & _ & _ & _ & Hfall & Hvi & Him & _ & _ & _ & _ & Hhe).
    pose proof (proj1 (second_some s L Z Hg HL lp lm E2 HV a (proj1 Hadm)) Hl) as (v1 & T1 & Hf1 & Hv1).
    destruct (flight_unique _ _ _ _ _ _ _ _ Hg HL (proj1 Hadm) Hf Hf1) as [<- <-].
    pose proof (proj1 (sixth_some s L Z Hg HL ip im E6 a (proj1 Hadm)) Hi) as (v2 & T2 & Hf2 & Hv2).
    destruct (flight_unique _ _ _ _ _ _ _ _ Hg HL (proj1 Hadm) Hf Hf2) as [<- <-].
    repeat split; auto; [apply vnorm_le; auto; rewrite Him; exact Hv2|].
    exists T. repeat split; auto. apply andb_false_iff in Hbad. destruct Hbad as [|Hbad]; auto. }
  intros p Hp. apply elem_of_cons in Hp. destruct Hp as [->|Hp].
  - apply (Hone alpha p0 ok0); auto. unfold alpha; lra.
  - apply elem_of_list_lookup in Hp. destruct Hp as [j Hj]. pose proof (lookup_lt_Some _ _ _ Hj) as Hlt.
    pose proof (Hcand j p Hj) as ->. pose proof (Hcok j ltac:(lia)) as Hc. unfold cand_ok in Hc. rewrite Nat.add_0_l in *.
    unfold candidate in *. destruct (tryA (dichotomy inf sup j)) as [p ok] eqn:Ej. simpl in *.
    apply (Hone (dichotomy inf sup j) p ok); auto. apply dichotomy_between; auto.
Qed.
End ends.
End jump.
