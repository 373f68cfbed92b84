(** Proofs for the way points of the end effector. *)
From Coq Require Import Reals ZArith Lra Lia.
From Verif Require Import Maps MapsProofs Vec VecProofs StateModel StateReal ProjModel SampModel InterModel EffModel WayModel WaySpec.
From Verif Require Import StateModel.
Local Open Scope R_scope.

Lemma nb_31 : nbWayPoints = 31%nat.
Proof. reflexivity. Qed.
Lemma sampleLoop_is at_time inc k i t j : (j < k)%nat -> sampleLoop at_time inc k i t !! j = Some (INR (i + j), at_time (t + INR (S j) * inc)).
Proof.
  revert i t j. induction k as [|k IH]; intros i t j H; [lia|]. destruct j as [|j]; cbn [sampleLoop].
  - rewrite Nat.add_0_r. cbn. do 2 f_equal. f_equal. ring.
  - change (sampleLoop at_time inc k (S i) (t + inc) !! j = Some (INR (i + S j), at_time (t + INR (S (S j)) * inc))). rewrite IH by lia.
    do 2 f_equal; [f_equal; lia|]. f_equal. rewrite (S_INR (S j)). ring.
Qed.
Lemma sampleLoop_len at_time inc k i t : length (sampleLoop at_time inc k i t) = k.
Proof. revert i t. induction k; intros; cbn; auto. Qed.
Lemma points_len at_time t0 t1 : length (sampled_points at_time t0 t1) = 31%nat.
Proof. unfold sampled_points. rewrite nb_31. cbn [length]. rewrite app_length, sampleLoop_len. reflexivity. Qed.
Lemma points_at at_time t0 t1 i : (i <= 30)%nat -> sampled_points at_time t0 t1 !! i = Some (INR i, at_time (way_time t0 t1 i)).
Proof.
  intros H. unfold sampled_points. rewrite nb_31. destruct i as [|i].
  - cbn. unfold way_time. cbn. do 3 f_equal. ring.
  - change ((sampleLoop at_time ((t1 - t0) / INR 31) (31 - 2) 1 t0 ++ [(INR (31 - 1), at_time t1)]) !! i = Some (INR (S i), at_time (way_time t0 t1 (S i)))).
    destruct (decide (i < 29)%nat) as [Hi|Hi].
    + rewrite lookup_app_l by (rewrite sampleLoop_len; lia). rewrite sampleLoop_is by lia. do 2 f_equal. f_equal. unfold way_time.
      destruct (Nat.eqb_spec (S i) 30); [lia|]. replace (INR 31) with 31 by (rewrite INR_IZR_INZ; reflexivity). reflexivity.
    + assert (i = 29%nat) as -> by lia. rewrite lookup_app_r by (rewrite sampleLoop_len; lia). rewrite sampleLoop_len. reflexivity.
Qed.
Lemma points_form at_time t0 t1 : exists mids, sampled_points at_time t0 t1 = (0, at_time t0) :: mids ++ [(INR 30, at_time t1)] /\ length mids = 29%nat /\
  forall i, (i < 29)%nat -> mids !! i = Some (INR (S i), at_time (way_time t0 t1 (S i))).
Proof.
  exists (sampleLoop at_time ((t1 - t0) / INR 31) 29 1 t0). split; [reflexivity|]. split; [apply sampleLoop_len|]. intros i Hi.
  pose proof (points_at at_time t0 t1 (S i) ltac:(lia)) as E. unfold sampled_points in E. rewrite nb_31 in E.
  change ((sampleLoop at_time ((t1 - t0) / INR 31) 29 1 t0 ++ [(INR 30, at_time t1)]) !! i = Some (INR (S i), at_time (way_time t0 t1 (S i)))) in E.
  rewrite lookup_app_l in E by (rewrite sampleLoop_len; lia). exact E.
Qed.

(** ** Straight *)
Lemma weps_small : 0 < weps < 1.
Proof.
  unfold weps. split; [apply Rinv_0_lt_compat, pow_lt; lra|]. rewrite <- Rinv_1. apply Rinv_lt_contravar; [|apply Rlt_pow_R1; [lra|lia]].
  rewrite Rmult_1_l. apply pow_lt. lra.
Qed.
Lemma vnorm_pos a : a <> vzero -> 0 < vnorm a.
Proof. intros H. destruct (Rle_lt_or_eq_dec _ _ (vnorm_nonneg a)) as [|E]; [done|]. exfalso. by apply H, vnorm_zero. Qed.
Lemma vnorm2_sq a : vnorm2 a = vnorm a * vnorm a.
Proof. unfold vnorm. rewrite R_sqrt.sqrt_sqrt; [done|]. unfold vnorm2, vdot. destruct a; cbn. pose proof (Rle_0_sqr vx). pose proof (Rle_0_sqr vy). pose proof (Rle_0_sqr vz). unfold Rsqr in *. lra. Qed.
Lemma vnormalize_scale a : a <> vzero -> vnormalize a = vscale (/ vnorm a) a.
Proof.
  intros H. unfold vnormalize. destruct (Rlt_dec 0 (vnorm2 a)) as [|E]; [done|]. exfalso. apply E. rewrite vnorm2_sq. pose proof (vnorm_pos a H).
  by apply Rmult_lt_0_compat.
Qed.
Lemma vnormalize_zero : vnormalize vzero = vzero.
Proof. unfold vnormalize. destruct (Rlt_dec 0 (vnorm2 vzero)); [|done]. unfold vzero, vscale. cbn. f_equal; ring. Qed.
Lemma vnorm_vzero : vnorm vzero = 0.
Proof. unfold vnorm, vnorm2, vdot, vzero. cbn. replace (0 * 0 + 0 * 0 + 0 * 0) with 0 by ring. apply R_sqrt.sqrt_0. Qed.
Lemma vnorm_unit a : a <> vzero -> vnorm (vnormalize a) = 1.
Proof.
  intros H. rewrite vnormalize_scale by done. pose proof (vnorm_pos a H) as P. unfold vnorm at 1.
  replace (vnorm2 (vscale (/ vnorm a) a)) with (/ vnorm a * / vnorm a * vnorm2 a) by (destruct a; unfold vnorm2, vdot, vscale; cbn; ring).
  rewrite vnorm2_sq. replace (/ vnorm a * / vnorm a * (vnorm a * vnorm a)) with 1 by (field; lra). apply R_sqrt.sqrt_1.
Qed.
Lemma vsub_eq a b : vsub a b = vzero -> a = b.
Proof. destruct a, b. unfold vsub, vzero. cbn. intros H. injection H as H1 H2 H3. f_equal; lra. Qed.
Lemma vsub_self a : vsub a a = vzero.
Proof. destruct a. unfold vsub, vzero. cbn. f_equal; ring. Qed.

Lemma line_test a z p : z <> a -> Rltb (vdot (vnormalize (vsub z a)) (vnormalize (vsub p a))) (1 - weps * 4) = false <-> towards a z p.
Proof.
  intros Hz. assert (Hz' : vsub z a <> vzero) by (intros H; by apply Hz, vsub_eq). pose proof (vnorm_pos _ Hz') as Pz. pose proof weps_small as We.
  assert (Ew : 4 / 2 ^ 52 = weps * 4) by (unfold weps, Rdiv; ring). unfold towards. rewrite Ew.
  assert (Ws : weps * 4 < 1). { unfold weps. replace 4 with (2 ^ 2) by ring. replace 52%nat with (50 + 2)%nat by done. rewrite pow_add.
    replace (/ (2 ^ 50 * 2 ^ 2) * 2 ^ 2) with (/ 2 ^ 50) by (field; split; apply pow_nonzero; lra). rewrite <- Rinv_1. apply Rinv_lt_contravar; [|apply Rlt_pow_R1; [lra|lia]].
    rewrite Rmult_1_l. apply pow_lt. lra. }
  unfold Rltb. destruct (Req_EM_T (vnorm (vsub p a)) 0) as [E0|N0].
  - apply vnorm_zero in E0. rewrite E0, vnormalize_zero. assert (D0 : vdot (vnormalize (vsub z a)) vzero = 0) by (unfold vdot, vzero; cbn; ring). rewrite D0.
    destruct (Rlt_dec 0 (1 - weps * 4)); [|lra]. split; [done|]. intros [Hp _]. exfalso. by apply Hp, vsub_eq.
  - assert (Hp' : vsub p a <> vzero) by (intros H; apply N0; rewrite H; apply vnorm_vzero). pose proof (vnorm_pos _ Hp') as Pp.
    assert (Hp : p <> a) by (intros ->; apply Hp', vsub_self).
    rewrite !vnormalize_scale by done.
    assert (D : vdot (vscale (/ vnorm (vsub z a)) (vsub z a)) (vscale (/ vnorm (vsub p a)) (vsub p a)) = vdot (vsub p a) (vsub z a) / (vnorm (vsub p a) * vnorm (vsub z a))).
    { unfold vdot, vscale. cbn. field. lra. }
    rewrite D. assert (PP : 0 < vnorm (vsub p a) * vnorm (vsub z a)) by (by apply Rmult_lt_0_compat).
    set (N := vnorm (vsub p a) * vnorm (vsub z a)) in *. set (d := vdot (vsub p a) (vsub z a)).
    assert (G : (1 - weps * 4) * N <= d <-> 1 - weps * 4 <= d / N).
    { split; intros H.
      - apply Rmult_le_reg_r with N; [done|]. replace (d / N * N) with d by (field; lra). done.
      - apply (Rmult_le_compat_r N) in H; [|lra]. replace (d / N * N) with d in H by (field; lra). done. }
    destruct (Rlt_dec (d / N) (1 - weps * 4)); (split; [|]); try done.
    + intros [_ H]. apply G in H. lra.
    + intros _. split; [done|]. apply G. lra.
Qed.
Lemma lineLoop_throw init w : w <> [] -> lineLoop vzero init w = Throw.
Proof.
  destruct w; [done|]. intros _. cbn [lineLoop]. unfold Rltb. pose proof weps_small. destruct (Rlt_dec weps (vnorm vzero)) as [H'|]; [|done].
  rewrite vnorm_vzero in H'. lra.
Qed.
Lemma lineLoop_ok z a w : z <> a -> exists b, lineLoop (vnormalize (vsub z a)) a w = Ok b /\ (b = true <-> forall c, c ∈ w -> towards a z (snd c)).
Proof.
  intros Hz. assert (Hz' : vsub z a <> vzero) by (intros H; by apply Hz, vsub_eq). pose proof weps_small as We.
  induction w as [|c w (b & Hb & IH)]; [exists true; split; [done|]; split; [|done]; intros _ c Hc; by apply elem_of_nil in Hc|].
  cbn [lineLoop]. assert (E : Rltb weps (vnorm (vnormalize (vsub z a))) = true). { rewrite vnorm_unit by done. unfold Rltb. destruct (Rlt_dec weps 1); [done|lra]. }
  rewrite E. destruct (Rltb (vdot _ _) _) eqn:El.
  - exists false. split; [done|]. split; [done|]. intros H. specialize (H c ltac:(left)). apply line_test in H; [|done]. congruence.
  - exists b. split; [done|]. rewrite IH. apply line_test in El; [|done]. split.
    + intros H c' Hc. apply elem_of_cons in Hc as [->|Hc]; auto.
    + intros H c' Hc. apply H. by right.
Qed.

(** ** Level *)
Lemma fold_max_lt (f : waypoint -> R) w z0 b : z0 < b -> (fold_left (fun z c => Rmax z (f c)) w z0 < b <-> forall c, c ∈ w -> f c < b).
Proof.
  revert z0. induction w as [|c w IH]; intros z0 H; cbn [fold_left]; [split; [|done]; intros _ c Hc; by apply elem_of_nil in Hc|].
  assert (Hge : forall w z0, z0 <= fold_left (fun z c => Rmax z (f c)) w z0).
  { clear. induction w as [|c w IH]; intros z0; cbn [fold_left]; [lra|]. eapply Rle_trans; [apply Rmax_l|apply IH]. }
  destruct (Rlt_dec (f c) b) as [Hc|Hc].
  - rewrite IH by (by apply Rmax_lub_lt). split; intros G c' H'; [apply elem_of_cons in H' as [->|H']; auto|apply G; by right].
  - split; intros G; exfalso; apply Hc; [|apply G; left]. eapply Rle_lt_trans; [|exact G]. eapply Rle_trans; [apply Rmax_r|apply Hge].
Qed.

(** ** Ramp *)
Lemma liftLoop_at inc w current fac i t p : length w = (31 - current)%nat -> (fac = Nat.min current (30 - current))%nat ->
  w !! i = Some (t, p) ->
  liftLoop 15 inc w current fac !! i = Some (t, V3 (vx p) (vy p) (vz p + INR (Nat.min (current + i) (30 - (current + i))) * inc)).
Proof.
  revert current fac i. induction w as [|[t' p'] w IH]; intros current fac i Hl Hf Hi; [done|]. destruct w as [|c w].
  - destruct i; [|done]. cbn in Hi. injection Hi as <- <-. cbn [liftLoop]. cbn in Hl. assert (current = 30%nat) as -> by lia. cbn. do 2 f_equal. destruct p'; cbn; f_equal; ring.
  - destruct i as [|i].
    + cbn in Hi. injection Hi as <- <-. rewrite Nat.add_0_r. cbn [liftLoop]. by subst fac.
    + change (liftLoop 15 inc (c :: w) (S current) (if (15 <? current)%nat then Nat.pred fac else if (current =? 15)%nat then Nat.pred fac else S fac) !! i =
        Some (t, V3 (vx p) (vy p) (vz p + INR (Nat.min (current + S i) (30 - (current + S i))) * inc))).
      rewrite IH; [|cbn in Hl |- *; lia| |done].
      * do 4 f_equal; [..]. f_equal. f_equal. lia.
      * cbn in Hl. subst fac. destruct (Nat.ltb_spec 15 current); [lia|]. destruct (Nat.eqb_spec current 15); lia.
Qed.
(** the factor is 0 at both ends only: it does not wrap around *)
Lemma lift_no_wrap current : (15 <= current < 30)%nat -> (0 < Nat.min current (30 - current))%nat.
Proof. lia. Qed.
Lemma liftLoop_len inc w current fac : length (liftLoop 15 inc w current fac) = length w.
Proof. revert current fac. induction w as [|[t p] w IH]; intros; [done|]. destruct w; [done|]. cbn [liftLoop length] in *. f_equal. apply IH. Qed.

Lemma height_is d : lift d (wayHeight d).
Proof.
  unfold wayHeight, lift, Rltb. rewrite nb_31. destruct (Rlt_dec d (1 / 10)); [left; done|right]. split; [lra|].
  replace (INR 31) with 31 by (rewrite INR_IZR_INZ; reflexivity). rewrite Rmax_left by lra. rewrite Rmin_left by lra. done.
Qed.
Lemma Rltb_true a b : Rltb a b = true <-> a < b.
Proof. unfold Rltb. destruct (Rlt_dec a b); split; try done; lra. Qed.
Lemma removelast_snoc {A} (l : list A) x : removelast (l ++ [x]) = l.
Proof. apply removelast_last. Qed.

Lemma middle_is h a z : vadd (vadd (vscale h (V3 1 1 1)) a) (vscale (/ 2) (vsub z a)) = vadd (vscale (/ 2) (vadd a z)) (V3 h h h).
Proof. destruct a, z. unfold vadd, vscale, vsub. cbn. f_equal; field. Qed.

Lemma C158_lemma at_time t0 t1 d b0 : exists h, lift d h /\
  match getWayPoints at_time t0 t1 d b0 with
  | Ok (w, b) =>
      at_time t0 <> at_time t1 /\
      ((straight at_time t0 t1 /\ 3 / 100 < d /\ b = true /\ bridge (at_time t0) (at_time t1) h w) \/
       (~ straight at_time t0 t1 /\ level at_time t0 t1 /\ 3 / 100 < d /\ b = true /\ raised at_time t0 t1 h w) \/
       (~ (straight at_time t0 t1 /\ 3 / 100 < d) /\ ~ (level at_time t0 t1 /\ 3 / 100 < d) /\ b = b0 /\ raised at_time t0 t1 0 w))
  | Throw => at_time t0 = at_time t1
  | Ub => False
  end.
Proof.
  exists (wayHeight d). split; [apply height_is|]. unfold getWayPoints. destruct (points_form at_time t0 t1) as (mids & Hres & Hm & Hat).
  assert (Hlast : last (sampled_points at_time t0 t1) = Some (INR 30, at_time t1)). { rewrite Hres. rewrite app_comm_cons. apply last_snoc. }
  assert (HL : IsLine (sampled_points at_time t0 t1) = lineLoop (vnormalize (vsub (at_time t1) (at_time t0))) (at_time t0) mids).
  { unfold IsLine. rewrite Hlast. rewrite Hres. destruct mids as [|m mids]; [done|]. cbn [app snd tail]. rewrite app_comm_cons, removelast_snoc. done. }
  rewrite HL. clear HL.
  assert (HQ : at_time t1 <> at_time t0 \/ at_time t1 = at_time t0).
  { destruct (Req_EM_T (vnorm (vsub (at_time t1) (at_time t0))) 0) as [E|E]; [right; by apply vsub_eq, vnorm_zero|left]. intros H. apply E. rewrite H, vsub_self. apply vnorm_vzero. }
  destruct HQ as [Hz|Hz].
  2:{ rewrite Hz, vsub_self, vnormalize_zero, lineLoop_throw; [done|]. intros ->. done. }
  destruct (lineLoop_ok (at_time t1) (at_time t0) mids Hz) as (line & -> & Hline). cbn [ibind].
  assert (Hst : line = true <-> straight at_time t0 t1).
  { rewrite Hline. unfold straight. split.
    - intros H i Hi. destruct i as [|i]; [lia|]. apply (H (INR (S i), at_time (way_time t0 t1 (S i)))). apply elem_of_list_lookup. exists i. apply Hat. lia.
    - intros H c Hc. apply elem_of_list_lookup in Hc as [i Hi]. assert (i < 29)%nat by (rewrite <- Hm; by eapply lookup_lt_Some). rewrite Hat in Hi by done.
      injection Hi as <-. apply H. lia. }
  clear Hline. unfold waypoint in *.
  assert (H2 : exists flat, Is2d (sampled_points at_time t0 t1) = Ok flat /\ (flat = true <-> level at_time t0 t1)).
  { rewrite Hres. cbn [Is2d]. eexists. split; [reflexivity|]. rewrite Rltb_true. cbn [snd]. rewrite (fold_max_lt (fun c => Rabs (vz (snd c) - vz (at_time t0)))) by lra. unfold level. split.
    - intros H i Hi. apply (H (INR i, at_time (way_time t0 t1 i))). destruct (decide (i = 30%nat)) as [->|Hn].
      + apply elem_of_app. right. apply elem_of_list_singleton. reflexivity.
      + apply elem_of_app. left. destruct i as [|i]; [lia|]. apply elem_of_list_lookup. exists i. apply Hat. lia.
    - intros H c Hc. apply elem_of_app in Hc as [Hc|Hc].
      + apply elem_of_list_lookup in Hc as [i Hi]. assert (i < 29)%nat by (rewrite <- Hm; by eapply lookup_lt_Some). rewrite Hat in Hi by done. injection Hi as <-. apply H. lia.
      + apply elem_of_list_singleton in Hc as ->. apply (H 30%nat). lia. }
  destruct H2 as (flat & -> & Hfl). cbn [ibind].
  assert (Hne : at_time t0 <> at_time t1) by congruence.
  destruct (line && Rltb (3 / 100) d)%bool eqn:E1.
  - apply andb_true_iff in E1 as [-> E1]. apply Rltb_true in E1. rewrite Hres in Hlast |- *. cbn iota beta. rewrite Hlast. split; [done|]. left. split; [by apply Hst|]. split; [done|]. split; [done|].
    unfold bridge. rewrite <- middle_is. done.
  - assert (N1 : ~ (straight at_time t0 t1 /\ 3 / 100 < d)). { rewrite <- Hst, <- Rltb_true. intros [-> Hd]. rewrite Hd in E1. done. }
    destruct (flat && Rltb (3 / 100) d)%bool eqn:E2.
    + apply andb_true_iff in E2 as [-> E2]. apply Rltb_true in E2. split; [done|]. right. left. split; [tauto|]. split; [by apply Hfl|]. split; [done|]. split; [done|].
      change (nbWayPoints / 2)%nat with 15%nat. split; [rewrite liftLoop_len; apply points_len|]. intros i Hi.
      rewrite (liftLoop_at _ _ 0 0 i (INR i) (at_time (way_time t0 t1 i))); [|apply points_len|done|by apply points_at].
      do 2 f_equal. replace (INR 15) with 15 by (rewrite INR_IZR_INZ; reflexivity). cbn [Nat.add]. unfold vadd. cbn [vx vy vz].
      assert (Eh : forall x y, x + y = x + y) by done. f_equal; [ring|ring|field].
    + assert (N2 : ~ (level at_time t0 t1 /\ 3 / 100 < d)). { rewrite <- Hfl, <- Rltb_true. intros [-> Hd]. rewrite Hd in E2. done. }
      split; [done|]. right. right. split; [done|]. split; [done|]. split; [done|]. split; [apply points_len|]. intros i Hi. rewrite points_at by done.
      do 2 f_equal. destruct (at_time (way_time t0 t1 i)). unfold vadd. cbn. f_equal; ring.
Qed.

(** points on the half line *)
Lemma towards_on_line a z k : z <> a -> 0 < k -> towards a z (vadd a (vscale k (vsub z a))).
Proof.
  intros Hz Hk. assert (Hz' : vsub z a <> vzero) by (intros H; by apply Hz, vsub_eq). pose proof (vnorm_pos _ Hz') as P.
  assert (E : vsub (vadd a (vscale k (vsub z a))) a = vscale k (vsub z a)). { destruct a, z. unfold vsub, vadd, vscale. cbn. f_equal; ring. }
  assert (N : vnorm (vscale k (vsub z a)) = k * vnorm (vsub z a)).
  { unfold vnorm. replace (vnorm2 (vscale k (vsub z a))) with (k * k * vnorm2 (vsub z a)) by (unfold vnorm2, vdot, vscale; cbn; ring).
    assert (0 <= vnorm2 (vsub z a)) by (rewrite vnorm2_sq; apply Rmult_le_pos; lra).
    rewrite R_sqrt.sqrt_mult; [|apply Rmult_le_pos; lra|done]. rewrite R_sqrt.sqrt_square by lra. done. }
  split.
  - intros H. rewrite H, vsub_self in E. symmetry in E. assert (vnorm (vscale k (vsub z a)) = 0) by (rewrite E; apply vnorm_vzero).
    assert (0 < k * vnorm (vsub z a)) by (by apply Rmult_lt_0_compat). lra.
  - rewrite E, N. replace (vdot (vscale k (vsub z a)) (vsub z a)) with (k * vnorm2 (vsub z a)) by (unfold vnorm2, vdot, vscale; cbn; ring).
    rewrite vnorm2_sq. assert (Q : 0 < k * vnorm (vsub z a) * vnorm (vsub z a)) by (do 2 (apply Rmult_lt_0_compat; [|done]); done).
    assert (0 < 4 / 2 ^ 52) by (apply Rmult_lt_0_compat; [lra|apply Rinv_0_lt_compat, pow_lt; lra]).
    assert (0 < 4 / 2 ^ 52 * (k * vnorm (vsub z a) * vnorm (vsub z a))) by (by apply Rmult_lt_0_compat).
    replace ((1 - 4 / 2 ^ 52) * (k * vnorm (vsub z a) * vnorm (vsub z a))) with (k * vnorm (vsub z a) * vnorm (vsub z a) - 4 / 2 ^ 52 * (k * vnorm (vsub z a) * vnorm (vsub z a))) by ring.
    lra.
Qed.
Lemma straight_on_line at_time t0 t1 : at_time t0 <> at_time t1 ->
  (forall i, (1 <= i <= 29)%nat -> exists k, 0 < k /\ at_time (way_time t0 t1 i) = vadd (at_time t0) (vscale k (vsub (at_time t1) (at_time t0)))) -> straight at_time t0 t1.
Proof. intros H G i Hi. destruct (G i Hi) as (k & Hk & ->). apply towards_on_line; [congruence|done]. Qed.

Lemma raised_increasing at_time t0 t1 h w : raised at_time t0 t1 h w -> increasing_times w.
Proof.
  intros [Hl Hw] i j a b Hij Ha Hb. pose proof (lookup_lt_Some _ _ _ Ha). pose proof (lookup_lt_Some _ _ _ Hb). rewrite Hl in *.
  rewrite Hw in Ha, Hb by lia. injection Ha as <-. injection Hb as <-. cbn [fst]. by apply lt_INR.
Qed.
Lemma bridge_increasing a z h w : bridge a z h w -> increasing_times w.
Proof.
  intros Hw i j x y Hij Hx Hy. unfold bridge in Hw. subst w. destruct i as [|[|[|i]]], j as [|[|[|j]]]; try lia; try done; cbn in Hx, Hy; injection Hx as <-; injection Hy as <-; cbn; lra.
Qed.
Lemma C158_spline_lemma {K} (value : K -> R -> vec3) cubic at_time t0 t1 start next b0 : interpolates value cubic ->
  match splineFromEffectorTraj cubic at_time t0 t1 start next b0 with
  | Ok (c, b) => b = true /\ value c 0 = at_time t0 /\
      exists T, (T = 2 \/ T = 30) /\ value c T = at_time t1 /\ (T = 2 <-> straight at_time t0 t1 /\ 3 / 100 < effectorDistance start next)
  | Throw => at_time t0 = at_time t1
  | Ub => at_time t0 <> at_time t1 /\ contactCreations moved3 next start = []
  end.
Proof.
  intros HI. unfold splineFromEffectorTraj. destruct (C158_lemma at_time t0 t1 (effectorDistance start next) b0) as (h & _ & H).
  destruct (getWayPoints _ _ _ _ _) as [[w b]| |]; cbn [ibind]; [|done|done]. destruct H as [Hne H].
  unfold getEffectorLimb. destruct (contactCreations moved3 next start) as [|n l]; cbn [ibind]; [done|].
  destruct (getNormal n start) as [n1 f1], (getNormal n next) as [n2 f2]. split; [done|].
  assert (HR : forall h, raised at_time t0 t1 h w -> value (cubic w) 0 = at_time t0 /\ value (cubic w) 30 = at_time t1).
  { intros h' HW. pose proof (raised_increasing _ _ _ _ _ HW). destruct HW as [_ Hw]. split; (apply HI; [done|]); apply elem_of_list_lookup; [exists 0%nat|exists 30%nat]; rewrite Hw by lia; cbn [Nat.min Nat.sub]; unfold way_time; cbn [Nat.eqb]; do 2 f_equal.
    - replace (t0 + INR 0 * ((t1 - t0) / 31)) with t0 by (cbn; ring). destruct (at_time t0). unfold vadd. cbn. f_equal; field.
    - rewrite INR_IZR_INZ. reflexivity.
    - destruct (at_time t1). unfold vadd. cbn. f_equal; field. }
  destruct H as [(Hs & Hd & _ & Hw)|[(Hs & _ & _ & _ & Hw)|(Hs & _ & _ & Hw)]].
  - pose proof (bridge_increasing _ _ _ _ Hw). unfold bridge in Hw. subst w. split; [apply HI; [done|left]|]. exists 2. split; [by left|]. split; [apply HI; [done|do 2 right; left]|]. done.
  - destruct (HR _ Hw) as [R1 R2]. split; [done|]. exists 30. split; [by right|]. split; [done|]. split; [lra|]. tauto.
  - destruct (HR _ Hw) as [R1 R2]. split; [done|]. exists 30. split; [by right|]. split; [done|]. split; [lra|]. tauto.
Qed.
