(** Proofs about the heuristics. *)
From Coq Require Import Psatz.
From Verif Require Import Maps MapsProofs Vec VecProofs GeomModel GeomSpec GeomProofs3 HeurModel HeurSpec HeurProofs HeurProofs2 HeurProofs3 HeurProofs4.
Local Open Scope R_scope.

(** ** the weight of the speed *)
Lemma enlarge_ok k : forall w s b fuel, least_power w s b k -> (k < fuel)%nat -> enlarge fuel w s b = Some (w * (15 / 10) ^ k).
Proof.
  induction k as [|k IH]; intros w s b fuel [H1 H2] Hf; (destruct fuel as [|fuel]; [lia|]); cbn [enlarge].
  - destruct (Rleb _ _) eqn:E; [apply Rleb_true in E|f_equal; simpl; ring]. simpl in H1. rewrite Rmult_1_r in H1. lra.
  - destruct (Rleb _ _) eqn:E.
    + rewrite (IH (w * (15 / 10)) s b fuel).
      * f_equal. simpl. ring.
      * split; [|intros j Hj; specialize (H2 (S j) ltac:(lia))]; simpl in *; by rewrite <- !Rmult_assoc in *.
      * lia.
    + apply Rleb_false in E. specialize (H2 0%nat ltac:(lia)). simpl in H2. rewrite Rmult_1_r in H2. lra.
Qed.
Lemma least_power_exists w s b : w <> 0 -> s <> 0 -> exists k, least_power w s b k.
Proof.
  intros Hw Hs. assert (Hp : 0 < Rabs (w * s)) by (apply Rabs_pos_lt; nra).
  destruct (Pow_x_infinity (15 / 10)) with (b := Rabs b / Rabs (w * s) + 1) as [N HN].
  { rewrite Rabs_right; lra. }
  assert (HNb : Rabs b < Rabs (w * (15 / 10) ^ N * s)).
  { specialize (HN N (le_n N)). replace (w * (15 / 10) ^ N * s) with ((15 / 10) ^ N * (w * s)) by ring. rewrite Rabs_mult.
    apply Rmult_lt_reg_r with (/ Rabs (w * s)); [by apply Rinv_0_lt_compat|]. rewrite Rmult_assoc, Rinv_r, Rmult_1_r by lra. unfold Rdiv in *. lra. }
  revert HNb. clear HN. assert (G : forall n, Rabs b < Rabs (w * (15 / 10) ^ n * s) -> exists k, least_power w s b k).
  { induction n as [|n IH]; intros Hn; [exists 0%nat; split; [done|lia]|].
    destruct (Rlt_le_dec (Rabs b) (Rabs (w * (15 / 10) ^ n * s))) as [H|H]; [by apply IH|].
    exists (S n). split; [done|]. intros j Hj. apply Rle_trans with (Rabs (w * (15 / 10) ^ n * s)); [|done].
    replace (w * (15 / 10) ^ j * s) with ((15 / 10) ^ j * (w * s)) by ring. replace (w * (15 / 10) ^ n * s) with ((15 / 10) ^ n * (w * s)) by ring.
    rewrite (Rabs_mult _ (w * s)), (Rabs_mult ((15 / 10) ^ n) (w * s)). apply Rmult_le_compat_r; [apply Rabs_pos|]. assert (Hpw : forall m, 0 < (15 / 10) ^ m) by (intros m; apply pow_lt; lra).
    rewrite !Rabs_right by (apply Rle_ge, Rlt_le, Hpw). apply Rle_pow; [lra|lia]. }
  apply G.
Qed.
(** the interest point: its coordinates, for enough steps *)
Lemma neq0_true x : neq0 x = true <-> x <> 0.
Proof. unfold neq0. rewrite negb_true_iff. apply Reqb_false. Qed.
Lemma axis_weight w2 s a b : exists N k, (forall fuel, (N <= fuel)%nat ->
    (if neq0 s && neq0 (w2 * a) then enlarge fuel (-100 * w2) s (w2 * b) else Some (-100 * w2)) = Some (-100 * w2 * (15 / 10) ^ k)) /\
  (s <> 0 -> w2 * a <> 0 -> least_power (-100 * w2) s (w2 * b) k) /\ (s = 0 \/ w2 * a = 0 -> k = 0%nat).
Proof.
  destruct (neq0 s && neq0 (w2 * a)) eqn:E.
  - apply andb_true_iff in E as [E1 E2]. apply neq0_true in E1. apply neq0_true in E2.
    destruct (least_power_exists (-100 * w2) s (w2 * b)) as [k Hk]; [nra|done|]. exists (S k), k. split; [|split; [done|intros [?|?]; done]].
    intros fuel Hf. by apply enlarge_ok.
  - exists 0%nat, 0%nat. split; [intros; f_equal; simpl; ring|]. split; [|done]. intros H1 H2. apply neq0_true in H1. apply neq0_true in H2. rewrite H1, H2 in E. done.
Qed.
Theorem interest_defined {T P} (z : hparam T P) : let w2 := vz (comPosition z) / gravity in
  exists N kx ky, (forall fuel, (N <= fuel)%nat -> interest fuel z =
      Some (V3 (vx (comPosition z) + -100 * w2 * (15 / 10) ^ kx * vx (comSpeed z) + w2 * vx (comAcceleration z))
               (vy (comPosition z) + -100 * w2 * (15 / 10) ^ ky * vy (comSpeed z) + w2 * vy (comAcceleration z)) 0)) /\
    (vx (comSpeed z) <> 0 -> w2 * vx (comAcceleration z) <> 0 -> least_power (-100 * w2) (vx (comSpeed z)) (w2 * vx (comAcceleration z)) kx) /\
    (vx (comSpeed z) = 0 \/ w2 * vx (comAcceleration z) = 0 -> kx = 0%nat) /\
    (vy (comSpeed z) <> 0 -> w2 * vx (comAcceleration z) <> 0 -> least_power (-100 * w2) (vy (comSpeed z)) (w2 * vy (comAcceleration z)) ky) /\
    (vy (comSpeed z) = 0 \/ w2 * vx (comAcceleration z) = 0 -> ky = 0%nat).
Proof.
  intros w2. destruct (axis_weight w2 (vx (comSpeed z)) (vx (comAcceleration z)) (vx (comAcceleration z))) as (Nx & kx & X1 & X2 & X3).
  destruct (axis_weight w2 (vy (comSpeed z)) (vx (comAcceleration z)) (vy (comAcceleration z))) as (Ny & ky & Y1 & Y2 & Y3).
  exists (Nx + Ny)%nat, kx, ky. split; [|done]. intros fuel Hf. unfold interest. fold w2. rewrite X1, Y1 by lia. done.
Qed.
(** ** the dynamic heuristic *)
Lemma considered_nonempty {T P} (z : hparam T P) e : consideredContacts z e <> ∅.
Proof.
  unfold consideredContacts. destruct (contactPositions z !! sampleLimbName z) eqn:E; [|apply insert_non_empty].
  intros H. rewrite H in E. by rewrite lookup_empty in E.
Qed.
Lemma shift_mono thr : forall n l r, shift n thr l = Some r -> forall m, (n <= m)%nat -> shift m thr l = Some r.
Proof.
  induction n as [|n IH]; intros l r H m Hm; [done|]. destruct m as [|m]; [lia|]. destruct l as [|p l]; [done|]. cbn [shift] in *.
  destruct (Rleb _ _); [|done]. apply (IH _ _ H). lia.
Qed.
Lemma centroid_mono n l c : weightedCentroidConvex2D n l = Ok (Some c) -> forall m, (n <= m)%nat -> weightedCentroidConvex2D m l = Ok (Some c).
Proof.
  intros H m Hm. destruct l as [|p [|q [|r l]]]; [done..|]. unfold weightedCentroidConvex2D in *.
  destruct (shift n _ _) as [t|] eqn:E; [|done]. by rewrite (shift_mono _ _ _ _ E m Hm).
Qed.
Theorem dynamic_defined {P} (s : hsample) (z : hparam ((vec3 * vec3 * vec3) * vec3) P) :
  exists N i c, (forall fuel, (N <= fuel)%nat -> interest fuel z = Some i) /\
    amid (grounded (consideredContacts z (transform (effectorPosition s) (tfWorldRoot z).2 (tfWorldRoot z).1))) c /\
    forall fuel, (N <= fuel)%nat -> dynamicHeuristic fuel s z = Ok (Some (- planar_dist i c)).
Proof.
  destruct (interest_defined z) as (N & kx & ky & Hi & _). set (i := V3 _ _ 0) in Hi.
  set (contacts := consideredContacts z _).
  destruct (ground_contacts contacts (25 / 100)) as (kept & kmin & cmin & H1 & H2 & H3 & H4); [apply considered_nonempty|].
  rewrite (Rabs_right (25 / 100)) in H4 by lra.
  destruct (hull_any (computeSupportPolygon kept)) as (h & E & Hsub & Hap & Hne & _).
  assert (Hne' : computeSupportPolygon kept <> []).
  { rewrite support_polygon. assert (K : (kmin, cmin) ∈ sitems kept).
    { apply elem_of_sitems, H4. split; [done|]. rewrite Rminus_eq_0. lra. }
    destruct (sitems kept); [by apply elem_of_nil in K|done]. }
  destruct (centroid_inside h (length h)) as (c & Hw & Hc); [done|by apply Hne|done|].
  exists (N + length h)%nat, i, c. split; [intros fuel Hf; apply Hi; lia|]. split.
  - intros a b k Hall. apply (Hc a b k); [|apply elem_of_list_here]. intros q Hq. apply Hsub in Hq. rewrite support_polygon in Hq.
    apply elem_of_list_fmap in Hq as ([n p] & -> & Hin). cbn [snd vx vy]. apply Hall. apply elem_of_sitems, H4 in Hin as [Hin Hz].
    split; [by exists n|]. intros n' q Hq. specialize (H3 n' q Hq). lra.
  - intros fuel Hf. unfold dynamicHeuristic. fold contacts. rewrite H1, Hi by lia. rewrite E. by rewrite (centroid_mono _ _ _ Hw) by lia.
Qed.
Theorem dynamic_sign {P} (s : hsample) (z : hparam ((vec3 * vec3 * vec3) * vec3) P) fuel v : dynamicHeuristic fuel s z = Ok (Some v) -> v <= 0.
Proof.
  unfold dynamicHeuristic. destruct (removeNonGroundContacts _ _); [|done|done]. destruct (interest _ _); [|done].
  destruct (convexHull2D _); [|done|done]. destruct (weightedCentroidConvex2D _ _) as [[c|]| |]; [|done| |done]; intros [= <-].
  - rewrite dist_eq. pose proof (pd_pos v0 c). lra.
  - assert (0 < 2 ^ 1024) by (apply pow_lt; lra). lra.
Qed.
(** ** copies of the parameters *)
Theorem copy_param {T P} (z : hparam T P) : let c := copyParam z in
  contactPositions c = contactPositions z /\ comPosition c = comPosition z /\ comSpeed c = comSpeed z /\ comAcceleration c = comAcceleration z /\
  sampleLimbName c = sampleLimbName z /\ tfWorldRoot c = tfWorldRoot z /\ comPath c = None.
Proof. done. Qed.
Theorem assign_param {T P} (self z : hparam T P) : let c := assignParam self z in
  contactPositions c = contactPositions z /\ comPosition c = comPosition z /\ comSpeed c = comSpeed z /\ comAcceleration c = comAcceleration z /\
  sampleLimbName c = sampleLimbName z /\ tfWorldRoot c = tfWorldRoot z /\
  comPath c = comPath self /\ currentPathId c = currentPathId self /\ limbReferenceOffset c = limbReferenceOffset self.
Proof. done. Qed.
Theorem copy_dynamic {P} fuel s (z : hparam ((vec3 * vec3 * vec3) * vec3) P) rnd d n : dynamicHeuristic fuel s (copyParam z) = dynamicHeuristic fuel s z /\
  DynamicWalkHeuristic rnd s d n (copyParam z) = DynamicWalkHeuristic rnd s d n z.
Proof. done. Qed.
(** ** the fixed step heuristics *)
Theorem fixed_step_copy {T P} at_ act t s (z : hparam T P) : fixedStepHeuristic at_ act t s (copyParam z) = Ok (staticValue s).
Proof. done. Qed.
Theorem fixed_step_best {T P} at_ act t (s1 s2 : hsample) (z : hparam T P) path t0 off : comPath z = Some path -> currentPathId z = Some t0 -> limbReferenceOffset z = Some off ->
  staticValue s1 = staticValue s2 -> forall v1 v2, fixedStepHeuristic at_ act t s1 z = Ok v1 -> fixedStepHeuristic at_ act t s2 z = Ok v2 ->
  let target := act (at_ path (t0 + t)) off in
  (v1 <= v2 <-> vnorm2 (vsub (act (tfWorldRoot z) (effectorPosition s2)) target) <= vnorm2 (vsub (act (tfWorldRoot z) (effectorPosition s1)) target)).
Proof.
  intros E1 E2 E3 Hs v1 v2. unfold fixedStepHeuristic. rewrite E1, E2, E3. cbn zeta. intros H1 H2. injection H1 as <-. injection H2 as <-. rewrite Hs. split; lra.
Qed.
(** ** the other heuristics *)
Theorem manipulability_order r1 r2 s1 s2 n1 n2 : 0 <= r1 <= 1 -> 0 <= r2 <= 1 -> 0 <= staticValue s1 ->
  (vz n2 < 7 / 10 -> ManipulabilityHeuristic r2 s2 n2 = -1) /\
  (7 / 10 <= vz n1 -> vz n2 < 7 / 10 -> ManipulabilityHeuristic r2 s2 n2 < ManipulabilityHeuristic r1 s1 n1) /\
  (7 / 10 <= vz n1 -> vz n1 = vz n2 -> staticValue s2 + 2 / 1000000000 < staticValue s1 -> ManipulabilityHeuristic r2 s2 n2 < ManipulabilityHeuristic r1 s1 n1).
Proof.
  intros Hr1 Hr2 Hs. unfold ManipulabilityHeuristic. split_and!.
  - intros H. assert (Rltb (vz n2) (7 / 10) = true) as -> by by apply Rltb_true. done.
  - intros H1 H2. assert (Rltb (vz n2) (7 / 10) = true) as -> by by apply Rltb_true. assert (Rltb (vz n1) (7 / 10) = false) as -> by by apply Rltb_false.
    assert (0 <= staticValue s1 * vz n1) by (apply Rmult_le_pos; lra). lra.
  - intros H1 H2 H3. rewrite <- H2. assert (Rltb (vz n1) (7 / 10) = false) as -> by by apply Rltb_false.
    assert (2 / 1000000000 * (7 / 10) < (staticValue s1 - staticValue s2) * vz n1); [|lra].
    apply Rlt_le_trans with ((staticValue s1 - staticValue s2) * (7 / 10)); [lra|apply Rmult_le_compat_l; lra].
Qed.
Lemma sum_scale f k l : sum_of (fun c => k * f c) l = k * sum_of f l.
Proof. unfold sum_of. induction l as [|c l IH]; cbn [fold_right]; [ring|]. rewrite IH. ring. Qed.
Lemma sum_add f g l : sum_of (fun c => f c + g c) l = sum_of f l + sum_of g l.
Proof. unfold sum_of. induction l as [|c l IH]; cbn [fold_right]; [ring|]. rewrite IH. ring. Qed.
Lemma sum_ext f g l : (forall c, f c = g c) -> sum_of f l = sum_of g l.
Proof. intros H. unfold sum_of. induction l as [|c l IH]; cbn [fold_right]; [done|]. by rewrite H, IH. Qed.
Lemma sum_pos f l : (forall c, 0 <= f c) -> 0 <= sum_of f l.
Proof. intros H. unfold sum_of. induction l as [|c l IH]; cbn [fold_right]; [lra|]. specialize (H c). lra. Qed.
Theorem efort_value s cols d n : gram cols (jacobianBlock s) ->
  EFORTHeuristic s d n = sum_of (fun c => vdot d c * vdot d c) cols * vz n /\
  EFORTNormalHeuristic s d n = sum_of (fun c => vdot d c * vdot d c) cols * vdot d n /\
  0 <= sum_of (fun c => vdot d c * vdot d c) cols.
Proof.
  intros Hg. assert (HE : EFORT s d = sum_of (fun c => vdot d c * vdot d c) cols).
  { unfold EFORT, mulMat. rewrite Hg. unfold vdot, vscale. cbn [fst snd vx vy vz].
    rewrite (sum_ext (fun c => (vx d * vx c + vy d * vy c + vz d * vz c) * (vx d * vx c + vy d * vy c + vz d * vz c))
      (fun c => (vx d * vx d) * (vx c * vx c) + ((vx d * vy d) * (vx c * vy c) + ((vx d * vz d) * (vx c * vz c) +
        ((vy d * vx d) * (vy c * vx c) + ((vy d * vy d) * (vy c * vy c) + ((vy d * vz d) * (vy c * vz c) +
        ((vz d * vx d) * (vz c * vx c) + ((vz d * vy d) * (vz c * vy c) + (vz d * vz d) * (vz c * vz c))))))))))
      by (intros c; ring).
    rewrite !sum_add, !sum_scale. ring. }
  unfold EFORTHeuristic, EFORTNormalHeuristic. rewrite HE. split_and!; try done. apply sum_pos. intros c. apply Rle_0_sqr.
Qed.
Theorem forward_order r1 r2 s1 s2 d n : 0 <= r1 <= 1 -> 0 <= r2 <= 1 ->
  let foot s := effectorPositionInLimbFrame s in
  let merit s := 10 * staticValue s * vz n + (vx d * vx (foot s) + vy d * vy (foot s)) + vz (foot s) * vz (foot s) in
  merit s2 + 1 / 100 < merit s1 -> ForwardHeuristic r2 s2 d n < ForwardHeuristic r1 s1 d n.
Proof. intros H1 H2 foot merit H. unfold merit, foot, ForwardHeuristic, vdot in *. cbn [vx vy vz]. lra. Qed.
Theorem backward_order r1 r2 s1 s2 d n : 0 <= r1 <= 1 -> 0 <= r2 <= 1 ->
  let merit s := 100 * staticValue s * vz n - vdot d (effectorPosition s) in
  merit s2 + 1 / 100 < merit s1 -> BackwardHeuristic r2 s2 d n < BackwardHeuristic r1 s1 d n.
Proof. intros H1 H2 merit H. unfold merit, BackwardHeuristic, vdot in *. lra. Qed.
(** dynamicWalk: how the value depends on the side *)
Theorem dynamic_walk_null {P} rnd s d n (z : hparam ((vec3 * vec3 * vec3) * vec3) P) : d = V3 0 0 0 ->
  DynamicWalkHeuristic rnd s d n z = 100 * staticValue s + vx (comAcceleration z) * vx (effectorPositionInLimbFrame s)
    + vy (comAcceleration z) * vy (effectorPositionInLimbFrame s) + vz (effectorPositionInLimbFrame s) + rnd.
Proof.
  intros ->. unfold DynamicWalkHeuristic. assert (Reqb (vnorm2 (V3 0 0 0)) 0 = true) as ->. { apply Reqb_true. unfold vnorm2, vdot. cbn [vx vy vz]. ring. }
  unfold vdot. cbn [vx vy vz]. ring.
Qed.
Theorem dynamic_walk_level {P} rnd s dx dy n (z : hparam ((vec3 * vec3 * vec3) * vec3) P) :
  dx * dx + dy * dy = 1 -> n = V3 0 0 1 ->
  let foot := mulMat (tfWorldRoot z).1 (effectorPositionInLimbFrame s) in
  let ahead := dx * vx foot + dy * vy foot in
  let left := dx * vy foot - dy * vx foot in
  let left_limb := 0 < vy (effectorPosition s) - vy (effectorPositionInLimbFrame s) in
  let base := 100 * staticValue s + vx (comAcceleration z) * vx foot + vy (comAcceleration z) * vy foot + rnd in
  ((left_limb /\ 0 <= left) \/ (~ left_limb /\ left < 0) \/ (~ left_limb /\ left = 0 /\ 0 <= ahead) ->
     DynamicWalkHeuristic rnd s (V3 dx dy 0) n z = base + 100 * ahead) /\
  ((left_limb /\ left < 0) \/ (~ left_limb /\ 0 < left) \/ (~ left_limb /\ left = 0 /\ ahead < 0) ->
     DynamicWalkHeuristic rnd s (V3 dx dy 0) n z = base - 10 * ahead).
Proof.
  intros Hd -> foot ahead left left_limb base.
  assert (N1 : vnorm2 (V3 dx dy 0) = 1) by (unfold vnorm2, vdot; cbn [vx vy vz]; lra).
  assert (N2 : normalize0 (V3 0 0 1) = V3 0 0 1).
  { unfold normalize0. assert (vnorm2 (V3 0 0 1) = 1) as -> by (unfold vnorm2, vdot; cbn [vx vy vz]; ring).
    destruct (Reqb 1 0); [done|]. rewrite sqrt_1. unfold vscale. cbn [vx vy vz]. f_equal; field. }
  assert (N3 : normalize0 (V3 dx dy 0) = V3 dx dy 0).
  { unfold normalize0. rewrite N1. destruct (Reqb 1 0); [done|]. rewrite sqrt_1. unfold vscale. cbn [vx vy vz]. f_equal; field. }
  assert (HW : forall w, (if Rltb 0 (vy (vsub (effectorPosition s) (effectorPositionInLimbFrame s)))
     then Rltb (vdot (vcross (V3 dx dy 0) (V3 (vx foot) (vy foot) 0)) (V3 0 0 1)) 0
     else Rltb 0 (vdot (vcross (V3 dx dy 0) (V3 (vx foot) (vy foot) 0)) (V3 0 0 1)) ||
          (Reqb (vdot (vcross (V3 dx dy 0) (V3 (vx foot) (vy foot) 0)) (V3 0 0 1)) 0 && Rltb (vdot (V3 dx dy 0) (V3 (vx foot) (vy foot) 0)) 0)) = w ->
     DynamicWalkHeuristic rnd s (V3 dx dy 0) (V3 0 0 1) z = if w : bool then base - 10 * ahead else base + 100 * ahead).
  { intros w Hw. unfold DynamicWalkHeuristic. rewrite N1, N2. cbn [vx vy]. rewrite N3.
    assert (Reqb 1 0 = false) as -> by (apply Reqb_false; lra). fold foot. rewrite Hw.
    destruct w; unfold base, ahead, vdot, vscale; cbn [vx vy vz]; field. }
  assert (Hy : vdot (vcross (V3 dx dy 0) (V3 (vx foot) (vy foot) 0)) (V3 0 0 1) = left) by (unfold vdot, vcross, left; cbn [vx vy vz]; ring).
  assert (Hx : vdot (V3 dx dy 0) (V3 (vx foot) (vy foot) 0) = ahead) by (unfold vdot, ahead; cbn [vx vy vz]; ring).
  rewrite Hy, Hx in HW. unfold vsub in HW. cbn [vy] in HW. fold left_limb.
  assert (T : forall (Q : Prop) b, (Q <-> b = true) -> (Q -> b = true) /\ (~ Q -> b = false)).
  { intros Q b HQ. split; [apply HQ|]. intros Hn. destruct b; [|done]. exfalso. apply Hn. by apply HQ. }
  destruct (T left_limb (Rltb 0 (vy (effectorPosition s) - vy (effectorPositionInLimbFrame s)))) as [T1 T2]; [symmetry; apply Rltb_true|].
  split.
  - intros C. apply (HW false). destruct C as [[C1 C2]|[[C1 C2]|(C1 & C2 & C3)]].
    + rewrite T1 by done. by apply Rltb_false.
    + rewrite T2 by done. apply orb_false_iff. split; [apply Rltb_false; lra|]. apply andb_false_iff. left. apply Reqb_false. lra.
    + rewrite T2 by done. apply orb_false_iff. split; [apply Rltb_false; lra|]. apply andb_false_iff. right. by apply Rltb_false.
  - intros C. apply (HW true). destruct C as [[C1 C2]|[[C1 C2]|(C1 & C2 & C3)]].
    + rewrite T1 by done. by apply Rltb_true.
    + rewrite T2 by done. apply orb_true_iff. left. by apply Rltb_true.
    + rewrite T2 by done. apply orb_true_iff. right. apply andb_true_iff. split; [by apply Reqb_true|by apply Rltb_true].
Qed.
(** ** the registry *)
Theorem add_heuristic {H} (m : gmap string H) name f :
  (m !! name = None -> AddHeuristic m name f = (true, <[name := f]> m)) /\
  (forall g, m !! name = Some g -> AddHeuristic m name f = (false, m)).
Proof. unfold AddHeuristic. split; [by intros ->|]. intros g. by intros ->. Qed.
