(** Proofs about the shooter. *)
From Verif Require Import Maps MapsProofs Vec VecProofs GeomModel GeomSpec ShootModel ShootSpec.
Local Open Scope R_scope.

(** ** Heron's formula *)
Lemma heron a b c : let s := 1 / 2 * (a + b + c) in
  16 * (s * (s - a) * (s - b) * (s - c)) =
  2 * (a * a) * (b * b) + 2 * (b * b) * (c * c) + 2 * (c * c) * (a * a) - a * a * (a * a) - b * b * (b * b) - c * c * (c * c).
Proof. intros s. unfold s. field. Qed.
Theorem TriangleArea_ok t : TriangleArea t = parallelogram_half t.
Proof.
  destruct t as [[p1 p2] p3]. unfold TriangleArea, parallelogram_half. cbn [fst snd].
  set (a := vnorm (vsub p1 p2)). set (b := vnorm (vsub p2 p3)). set (c := vnorm (vsub p3 p1)).
  set (X := vcross (vsub p2 p1) (vsub p3 p1)).
  assert (Ha : a * a = vnorm2 (vsub p1 p2)) by apply vnorm_sqr.
  assert (Hb : b * b = vnorm2 (vsub p2 p3)) by apply vnorm_sqr.
  assert (Hc : c * c = vnorm2 (vsub p3 p1)) by apply vnorm_sqr.
  pose proof (heron a b c) as H. cbn zeta in H. rewrite Ha, Hb, Hc in H.
  set (h := _ * _ * _ * _) in H |- *.
  assert (Hh : 4 * h = vnorm2 X).
  { assert (H16 : 16 * h = 4 * vnorm2 X); [|lra]. rewrite H. unfold X, vnorm2, vdot, vcross, vsub. simpl. ring. }
  assert (h = (vnorm X / 2) * (vnorm X / 2)) as ->.
  { assert (vnorm X * vnorm X = vnorm2 X) by apply vnorm_sqr. lra. }
  apply sqrt_square. pose proof (vnorm_nonneg X). lra.
Qed.
Lemma TriangleArea_nonneg t : 0 <= TriangleArea t.
Proof. rewrite TriangleArea_ok. unfold parallelogram_half. pose proof (vnorm_nonneg (vcross (vsub t.1.2 t.1.1) (vsub t.2 t.1.1))). lra. Qed.

(** ** weights *)
Lemma fold_plus l : forall x, fold_left Rplus l x = x + total l.
Proof.
  unfold total. induction l as [|a l IH]; intros x; simpl; [lra|]. rewrite IH. lra.
Qed.
Lemma sum_first_le l : (forall a, a ∈ l -> 0 <= a) -> forall i j, (i <= j)%nat -> sum_first i l <= sum_first j l.
Proof.
  induction l as [|a l IH]; intros H i j Hij; [destruct i, j; simpl; lra|].
  assert (Ha : 0 <= a) by (apply H, elem_of_cons; by left).
  assert (H' : forall x, x ∈ l -> 0 <= x) by (intros x Hx; apply H, elem_of_cons; by right).
  destruct i, j; simpl; [lra| |lia|].
  - specialize (IH H' 0%nat j ltac:(lia)). assert (sum_first 0 l = 0) as E by (destruct l; done). lra.
  - specialize (IH H' i j ltac:(lia)). lra.
Qed.
Lemma sum_first_all l i : (length l <= i)%nat -> sum_first i l = total l.
Proof.
  unfold total. revert i. induction l as [|a l IH]; intros i Hi; [by destruct i|]. destruct i; simpl in *; [lia|]. rewrite IH; [done|lia].
Qed.
Lemma cumulate_length p s l : length (cumulate p s l) = length l.
Proof. revert p. induction l; intros p; simpl; [done|]. by rewrite IHl. Qed.
Lemma cumulate_lookup s l : forall p i w, s <> 0 -> cumulate p s l !! i = Some w -> w = p + sum_first (S i) l / s.
Proof.
  induction l as [|a l IH]; intros p i w Hs H; [done|]. cbn [cumulate] in H. destruct i.
  - simpl in H. injection H as <-. assert (sum_first 1 (a :: l) = a) as -> by (destruct l; simpl; lra). done.
  - simpl in H. rewrite (IH _ _ _ Hs H). assert (sum_first (S (S i)) (a :: l) = a + sum_first (S i) l) as -> by done. field. done.
Qed.
Lemma firstAtLeast_ok r ws : forall k,
  match firstAtLeast r ws k with
  | Some i => (k <= i)%nat /\ (exists w, ws !! (i - k)%nat = Some w /\ r <= w) /\
              (forall j w, (j < i - k)%nat -> ws !! j = Some w -> w < r)
  | None => forall w, w ∈ ws -> w < r
  end.
Proof.
  induction ws as [|w ws IH]; intros k; cbn [firstAtLeast]; [intros w Hw; by apply elem_of_nil in Hw|].
  destruct (Rleb r w) eqn:E.
  - apply Rleb_true in E. rewrite Nat.sub_diag. split; [done|]. split; [by exists w|]. intros j ? Hj. lia.
  - apply Rleb_false in E. specialize (IH (S k)). destruct (firstAtLeast r ws (S k)) as [i|].
    + destruct IH as (Hi & (w' & Hw' & Hr) & Hlt). split; [lia|]. replace (i - k)%nat with (S (i - S k)) by lia. split; [by exists w'|].
      intros j w1 Hj Hw1. destruct j; [simpl in Hw1; by injection Hw1 as <-|]. apply (Hlt j); [lia|done].
    + intros x Hx. apply elem_of_cons in Hx as [->|Hx]; [done|]. by apply IH.
Qed.
(** the choice by weights, for positive total area *)
Theorem weighted_choice l r : let areas := map (fun t : vec3 * triangle3 => TriangleArea t.2) l in
  0 < total areas -> 0 <= r <= 1 ->
  exists i, weightedIndex (mkShooter l (weightsOf areas)) r = Ok i /\ (i < length l)%nat /\
    r * total areas <= sum_first (S i) areas /\ (i = 0%nat \/ sum_first i areas < r * total areas).
Proof.
  intros areas Ht Hr. unfold weightedIndex, weightsOf. cbn [weights triangles].
  rewrite fold_plus, Rplus_0_l. assert (Reqb (total areas) 0 = false) as -> by (apply Reqb_false; lra).
  set (ws := cumulate 0 (total areas) areas).
  assert (Hlen : length ws = length l) by (unfold ws; rewrite cumulate_length; unfold areas; apply map_length).
  assert (Hval : forall i w, ws !! i = Some w -> w = sum_first (S i) areas / total areas).
  { intros i w Hw. rewrite (cumulate_lookup (total areas) areas 0 i w); [lra|lra|done]. }
  pose proof (firstAtLeast_ok r ws 0) as H. destruct (firstAtLeast r ws 0) as [i|].
  - destruct H as (_ & (w & Hw & Hle) & Hlt). rewrite Nat.sub_0_r in *. exists i. split; [done|].
    pose proof (lookup_lt_Some _ _ _ Hw) as Hi. split; [lia|]. rewrite (Hval _ _ Hw) in Hle. split.
    + apply Rmult_le_reg_r with (/ total areas); [by apply Rinv_0_lt_compat|]. rewrite Rmult_assoc, Rinv_r by lra. unfold Rdiv in Hle. lra.
    + destruct i as [|i]; [by left|]. right.
      destruct (lookup_lt_is_Some_2 ws i) as [w' Hw']; [lia|]. specialize (Hlt i w' ltac:(lia) Hw'). rewrite (Hval _ _ Hw') in Hlt.
      apply Rmult_lt_reg_r with (/ total areas); [by apply Rinv_0_lt_compat|]. rewrite Rmult_assoc, Rinv_r by lra. unfold Rdiv in Hlt. lra.
  - exfalso. destruct (length l) as [|k] eqn:El.
    + destruct l; [|done]. unfold areas, total in Ht. simpl in Ht. lra.
    + destruct (lookup_lt_is_Some_2 ws k) as [w Hw]; [lia|].
      assert (Hlast : w = 1).
      { rewrite (Hval _ _ Hw). rewrite sum_first_all; [field; lra|]. unfold areas. rewrite map_length. lia. }
      specialize (H w (elem_of_list_lookup_2 _ _ _ Hw)). lra.
Qed.
Lemma choice_unique areas r i j : (forall a, a ∈ areas -> 0 <= a) ->
  r * total areas <= sum_first (S i) areas -> (i = 0%nat \/ sum_first i areas < r * total areas) ->
  r * total areas <= sum_first (S j) areas -> (j = 0%nat \/ sum_first j areas < r * total areas) -> i = j.
Proof.
  intros Hp H1 H2 H3 H4. destruct (Nat.lt_trichotomy i j) as [Hij|[?|Hij]]; [|done|].
  - destruct H4 as [->|H4]; [lia|]. pose proof (sum_first_le areas Hp (S i) j Hij). lra.
  - destruct H2 as [->|H2]; [lia|]. pose proof (sum_first_le areas Hp (S j) i Hij). lra.
Qed.
(** the weights: cumulated shares, non-decreasing, the last is 1 *)
Theorem weights_shares areas : (forall a, a ∈ areas -> 0 <= a) -> 0 < total areas ->
  exists ws, weightsOf areas = Some ws /\ length ws = length areas /\
    (forall i w, ws !! i = Some w -> w = sum_first (S i) areas / total areas) /\
    (forall i j v w, (i <= j)%nat -> ws !! i = Some v -> ws !! j = Some w -> v <= w) /\
    (forall w, ws !! (length areas - 1)%nat = Some w -> w = 1).
Proof.
  intros Hp Ht. unfold weightsOf. rewrite fold_plus, Rplus_0_l.
  assert (Reqb (total areas) 0 = false) as -> by (apply Reqb_false; lra).
  set (ws := cumulate 0 (total areas) areas). exists ws.
  assert (Hval : forall i w, ws !! i = Some w -> w = sum_first (S i) areas / total areas).
  { intros i w Hw. rewrite (cumulate_lookup (total areas) areas 0 i w); [lra|lra|done]. }
  split_and!; [done|apply cumulate_length|done| |].
  - intros i j v w Hij Hv Hw. rewrite (Hval _ _ Hv), (Hval _ _ Hw). unfold Rdiv. apply Rmult_le_compat_r; [apply Rlt_le; by apply Rinv_0_lt_compat|].
    apply sum_first_le; [done|lia].
  - intros w Hw. rewrite (Hval _ _ Hw), sum_first_all by lia. field. lra.
Qed.
(** no area at all: always the last triangle *)
Theorem zero_area_last l r : total (map (fun t : vec3 * triangle3 => TriangleArea t.2) l) = 0 -> l <> [] ->
  weightedIndex (mkShooter l (weightsOf (map (fun t => TriangleArea t.2) l))) r = Ok (length l - 1)%nat.
Proof.
  intros Ht Hl. unfold weightedIndex, weightsOf. rewrite fold_plus, Rplus_0_l, Ht. assert (Reqb 0 0 = true) as -> by by apply Reqb_true.
  cbn [weights triangles]. destruct l; [done|]. done.
Qed.

(** ** the point drawn *)
Theorem point_in_triangle r1 r2 t : 0 <= r1 <= 1 -> 0 <= r2 <= 1 -> in_triangle3 t (pointInTriangle r1 r2 t).
Proof.
  intros H1 H2. destruct t as [[p1 p2] p3]. unfold pointInTriangle.
  assert (Hs : 0 <= sqrt r1 <= 1). { split; [apply sqrt_pos|]. rewrite <- sqrt_1. apply sqrt_le_1_alt. lra. }
  exists (1 - sqrt r1), (sqrt r1 * (1 - r2)), (sqrt r1 * r2). cbn [fst snd]. split_and!; [lra| | |ring|done]; apply Rmult_le_pos; lra.
Qed.
Theorem every_point_drawn t p : in_triangle3 t p -> exists r1 r2, 0 <= r1 <= 1 /\ 0 <= r2 <= 1 /\ pointInTriangle r1 r2 t = p.
Proof.
  destruct t as [[p1 p2] p3]. intros (u & v & w & Hu & Hv & Hw & Hs & ->). cbn [fst snd].
  unfold pointInTriangle. exists ((1 - u) * (1 - u)). rewrite sqrt_square by lra.
  destruct (Req_EM_T u 1) as [->|Hu1].
  - exists 0. assert (v = 0) as -> by lra. assert (w = 0) as -> by lra. split_and!; try lra.
    unfold vadd, vscale. simpl. f_equal; ring.
  - exists (w / (1 - u)). split.
    { split; [apply Rle_0_sqr|]. assert ((1 - u) * (1 - u) <= 1 * 1) by (apply Rmult_le_compat; lra). lra. }
    split.
    { split; [apply Rmult_le_pos; [lra|apply Rlt_le, Rinv_0_lt_compat; lra]|].
      apply Rmult_le_reg_r with (1 - u); [lra|]. unfold Rdiv. rewrite Rmult_assoc, Rinv_l by lra. lra. }
    assert (H1 : (1 - u) * (w / (1 - u)) = w) by (field; lra).
    assert (H2 : (1 - u) * (1 - w / (1 - u)) = v) by (rewrite Rmult_minus_distr_l, H1; lra).
    rewrite H1, H2. by replace (1 - (1 - u)) with u by ring.
Qed.

(** ** surfaces *)
Lemma usedOfTypes_ok {O} (aff : gmap string (list O)) types : forall added, NoDup added ->
  exists ts, usedOfTypes aff types added = (concat (map (fun t => default [] (aff !! t)) ts), added ++ ts) /\
    NoDup (added ++ ts) /\ (forall t, t ∈ ts -> t ∈ types) /\ (forall t, t ∈ types -> t ∈ added ++ ts).
Proof.
  induction types as [|t types IH]; intros added Hnd.
  - exists []. rewrite app_nil_r. split_and!; [done|done| |]; intros t Ht; by apply elem_of_nil in Ht.
  - cbn [usedOfTypes]. destruct (inb t added) eqn:E.
    + apply inb_true in E. destruct (IH added Hnd) as (ts & Heq & Hnd' & H1 & H2). exists ts. split_and!; [done|done| |].
      * intros x Hx. apply elem_of_cons. right. by apply H1.
      * intros x Hx. apply elem_of_cons in Hx as [->|Hx]; [apply elem_of_app; by left|by apply H2].
    + apply inb_false in E. destruct (IH (added ++ [t])) as (ts & Heq & Hnd' & H1 & H2).
      { apply NoDup_app. split_and!; [done| |apply NoDup_singleton]. intros x Hx Hx'. by apply elem_of_list_singleton in Hx' as ->. }
      exists (t :: ts). rewrite Heq. cbn [map concat]. rewrite <- app_assoc in *. cbn [app] in *. split_and!.
      * f_equal.
      * done.
      * intros x Hx. apply elem_of_cons in Hx as [->|Hx]; [apply elem_of_cons; by left|]. apply elem_of_cons. right. by apply H1.
      * intros x Hx. apply elem_of_cons in Hx as [->|Hx]; [|by apply H2]. apply elem_of_app. right. apply elem_of_cons. by left.
Qed.
Lemma usedOfFilters_ok {O} (aff : gmap string (list O)) filters : forall added, NoDup added ->
  exists ts, usedOfFilters aff filters added = concat (map (fun t => default [] (aff !! t)) ts) /\
    NoDup (added ++ ts) /\ (forall t, t ∈ ts -> exists r types, (r, types) ∈ filters /\ t ∈ types) /\
    (forall r types t, (r, types) ∈ filters -> t ∈ types -> t ∈ added ++ ts).
Proof.
  induction filters as [|[r types] filters IH]; intros added Hnd.
  - exists []. rewrite app_nil_r. split_and!; [done|done| |].
    + intros t Ht. by apply elem_of_nil in Ht.
    + intros r types t Ht. by apply elem_of_nil in Ht.
  - cbn [usedOfFilters]. destruct (usedOfTypes_ok aff types added Hnd) as (ts & Heq & Hnd' & H1 & H2). rewrite Heq.
    destruct (IH (added ++ ts) Hnd') as (ts' & Heq' & Hnd'' & H1' & H2'). exists (ts ++ ts'). rewrite Heq', map_app, concat_app, app_assoc. split_and!.
    + done.
    + done.
    + intros t Ht. apply elem_of_app in Ht as [Ht|Ht].
      * exists r, types. split; [apply elem_of_cons; by left|by apply H1].
      * destruct (H1' t Ht) as (r' & types' & Hin & Ht'). exists r', types'. split; [apply elem_of_cons; by right|done].
    + intros r' types' t Hin Ht. apply elem_of_cons in Hin as [Hin|Hin]; [|by apply (H2' r' types')].
      injection Hin as -> ->. specialize (H2 t Ht). apply elem_of_app. by left.
Qed.
Theorem used_surfaces {O} (aff : gmap string (list O)) (filters : gmap string (list string)) :
  exists ts, NoDup ts /\ (forall t, t ∈ ts <-> exists r types, filters !! r = Some types /\ t ∈ types) /\
    getUsedSurfaces aff filters = concat (map (fun t => default [] (aff !! t)) ts).
Proof.
  destruct (usedOfFilters_ok aff (sitems filters) [] (NoDup_nil_2)) as (ts & Heq & Hnd & H1 & H2).
  exists ts. split; [done|]. split; [|done]. intros t. split.
  - intros Ht. destruct (H1 t Ht) as (r & types & Hin & Ht'). exists r, types. split; [by apply elem_of_sitems|done].
  - intros (r & types & Hf & Ht). apply (H2 r types t); [by apply elem_of_sitems|done].
Qed.

(** ** bounds and orientation *)
Lemma bound_in l u v : l <= u -> l <= bound l u v <= u.
Proof. intros H. unfold bound. split; [apply Rmin_glb; [done|apply Rmax_l]|apply Rmin_l]. Qed.
Lemma bound_id l u v : l <= v <= u -> bound l u v = v.
Proof. intros H. unfold bound. rewrite Rmax_right by lra. by rewrite Rmin_right by lra. Qed.
Lemma bound3_in b v : proper b -> within b (bound3 b v).
Proof. intros (H1 & H2 & H3). unfold within, bound3. cbn [vx vy vz]. split_and!; by apply bound_in. Qed.
Lemma bound3_id b v : within b v -> bound3 b v = v.
Proof. intros (H1 & H2 & H3). unfold bound3. rewrite !bound_id by done. by destruct v. Qed.
(** the nearest value in the interval *)
Lemma bound_nearest l u v x : l <= x <= u -> Rabs (v - bound l u v) <= Rabs (v - x).
Proof.
  intros H. unfold bound. unfold Rmin, Rmax. repeat destruct (Rle_dec _ _); unfold Rabs; repeat destruct (Rcase_abs _); lra.
Qed.
Lemma euler_unit z y x : unit_quat (eulerZYX z y x).
Proof.
  unfold unit_quat, eulerZYX, qmul. cbn [qx qy qz qw].
  pose proof (sin2_cos2 (z / 2)) as Hz. pose proof (sin2_cos2 (y / 2)) as Hy. pose proof (sin2_cos2 (x / 2)) as Hx. unfold Rsqr in *.
  transitivity ((sin (z/2) * sin (z/2) + cos (z/2) * cos (z/2)) * (sin (y/2) * sin (y/2) + cos (y/2) * cos (y/2)) * (sin (x/2) * sin (x/2) + cos (x/2) * cos (x/2))).
  - ring.
  - rewrite Hz, Hy, Hx. ring.
Qed.
Lemma affine_between a b r : 0 <= r <= 1 -> between a b (a + (b - a) * r).
Proof.
  intros Hr. split; intros H.
  - assert (0 <= (b - a) * r) by (apply Rmult_le_pos; lra). assert ((b - a) * r <= (b - a) * 1) by (apply Rmult_le_compat_l; lra). lra.
  - assert (0 <= (a - b) * r) by (apply Rmult_le_pos; lra). assert ((a - b) * r <= (a - b) * 1) by (apply Rmult_le_compat_l; lra). lra.
Qed.

Lemma qrotate_mul a b v : qrotate (qmul a b) v = qrotate a (qrotate b v).
Proof. destruct a as [x y z w], b as [x1 y1 z1 w1], v as [a b c]. unfold qrotate, qmul. cbn [qx qy qz qw vx vy vz]. f_equal; ring. Qed.
Lemma half_cos a : cos a = cos (a / 2) * cos (a / 2) - sin (a / 2) * sin (a / 2).
Proof. rewrite <- cos_plus. f_equal. field. Qed.
Lemma half_sin a : sin a = 2 * (sin (a / 2) * cos (a / 2)).
Proof. replace (sin a) with (sin (a / 2 + a / 2)) by (f_equal; field). rewrite sin_plus. ring. Qed.
Lemma half_one a : 1 = cos (a / 2) * cos (a / 2) + sin (a / 2) * sin (a / 2).
Proof. pose proof (sin2_cos2 (a / 2)) as H. unfold Rsqr in H. lra. Qed.
Lemma euler_rotates z y x v : qrotate (eulerZYX z y x) v = about_z z (about_y y (about_x x v)).
Proof.
  unfold eulerZYX. rewrite !qrotate_mul.
  assert (Hx : forall u, qrotate (Q4 (sin (x / 2)) 0 0 (cos (x / 2))) u = about_x x u).
  { intros [a b c]. unfold qrotate, about_x. cbn [vx vy vz]. rewrite (half_cos x), (half_sin x). pose proof (half_one x). f_equal; [|ring|ring].
    transitivity ((cos (x / 2) * cos (x / 2) + sin (x / 2) * sin (x / 2)) * a); [ring|]. rewrite <- H. ring. }
  assert (Hy : forall u, qrotate (Q4 0 (sin (y / 2)) 0 (cos (y / 2))) u = about_y y u).
  { intros [a b c]. unfold qrotate, about_y. cbn [vx vy vz]. rewrite (half_cos y), (half_sin y). pose proof (half_one y). f_equal; [ring| |ring].
    transitivity ((cos (y / 2) * cos (y / 2) + sin (y / 2) * sin (y / 2)) * b); [ring|]. rewrite <- H. ring. }
  assert (Hz : forall u, qrotate (Q4 0 0 (sin (z / 2)) (cos (z / 2))) u = about_z z u).
  { intros [a b c]. unfold qrotate, about_z. cbn [vx vy vz]. rewrite (half_cos z), (half_sin z). pose proof (half_one z). f_equal; [ring|ring|].
    transitivity ((cos (z / 2) * cos (z / 2) + sin (z / 2) * sin (z / 2)) * c); [ring|]. rewrite <- H. ring. }
  by rewrite Hx, Hy, Hz.
Qed.

(** ** impl_shoot *)
Section shoot.
Context {W C : Type} (unit01 : W -> R * W) (randMod : nat -> W -> nat * W) (uniform : W -> conf C * W)
  (validate : conf C -> vreport) (bnds : bounds) (euler : list R) (ratio : R).
Hypothesis Hrand : random_ok unit01 randMod.
Hypothesis Hlim : limits_ok euler.
Hypothesis Hb : proper bnds.

Lemma SampleRotation_ok (q : conf C) (w : W) : exists q' w', SampleRotation unit01 euler q w = Ok (q', w') /\
  trans q' = trans q /\ rest q' = rest q /\ within_limits euler (orientation q') /\ (euler = [] -> q' = q).
Proof.
  destruct Hlim as [->|Hl]; [by exists q, w|].
  destruct euler as [|z0 [|z1 [|y0 [|y1 [|x0 [|x1 [|]]]]]]]; try done. unfold SampleRotation.
  pose proof (ro_unit _ _ Hrand w) as Hz. destruct (unit01 w) as [rz w1]. pose proof (ro_unit _ _ Hrand w1) as Hy.
  destruct (unit01 w1) as [ry w2]. pose proof (ro_unit _ _ Hrand w2) as Hx. destruct (unit01 w2) as [rx w3]. cbn [fst] in *.
  eexists _, _. split; [done|]. cbn [trans rest orientation]. split_and!; [done|done| |done].
  split; [apply euler_unit|]. exists (z0 + (z1 - z0) * rz), (y0 + (y1 - y0) * ry), (x0 + (x1 - x0) * rx). split_and!; [by apply affine_between..|]. intros v. apply euler_rotates.
Qed.
Definition good (q : conf C) : Prop := within bnds (trans q) /\ within_limits euler (orientation q).
Lemma randConfigAtPos_ok p w : exists q w', randConfigAtPos unit01 uniform bnds euler p w = Ok (q, w') /\
  trans q = bound3 bnds p /\ rest q = rest (uniform w).1 /\ good q /\ (euler = [] -> orientation q = orientation (uniform w).1).
Proof.
  unfold randConfigAtPos. destruct (uniform w) as [q0 w1]. destruct (SampleRotation_ok (SetConfigTranslation bnds q0 p) w1) as (q & w' & Heq & Ht & Hr & Ho & He).
  exists q, w'. split; [done|]. cbn [trans rest SetConfigTranslation fst] in *. split; [done|]. split; [done|]. split.
  - split; [rewrite Ht; by apply bound3_in|done].
  - intros E. by rewrite (He E).
Qed.
Lemma Translate_good q t : good q -> good (Translate bnds q t).
Proof. intros [_ H]. split; [by apply bound3_in|done]. Qed.

Lemma rotateLoop_ok dis : forall p dir q w n, good q ->
  exists found q' w' n', rotateLoop unit01 uniform validate bnds euler dis p dir q w n = Ok (found, q', w', n') /\
    good q' /\ (n' <= n + 2 * dis)%nat /\ (found = true -> accepted (validate q') = true).
Proof.
  induction dis as [|dis IH]; intros p dir q w n Hq; cbn [rotateLoop].
  - exists false, q, w, n. split_and!; [done|done|lia|done].
  - destruct (randConfigAtPos_ok p w) as (q1 & w1 & -> & _ & _ & Hg & _).
    assert (H2 : exists q2 w2, (if accepted (validate q1) then (q1, w1) else let '(r, w') := unit01 w1 in (Translate bnds q1 (vscale r (vscale (2 / 10) (vopp dir))), w')) = (q2, w2) /\ good q2).
    { destruct (accepted (validate q1)); [by exists q1, w1|]. destruct (unit01 w1) as [r w']. eexists _, _. split; [done|]. by apply Translate_good. }
    destruct H2 as (q2 & w2 & -> & Hg2). cbn zeta.
    destruct (accepted (validate q2)) eqn:Ea.
    { exists true, q2, w2, (n + 2)%nat. split_and!; [done|done|lia|done]. }
    destruct (trunkInCollision (validate q2)).
    { exists false, q2, w2, (n + 2)%nat. split_and!; [done|done|lia|done]. }
    destruct (IH p dir q2 w2 (n + 2)%nat Hg2) as (f & q' & w' & n' & -> & Hg' & Hn & Hf). exists f, q', w', n'. split_and!; [done|done|lia|done].
Qed.
Hypothesis Hrep : reports_ok validate.
Lemma moveLoop_ok dis : forall p dir q w n, good q ->
  exists found q' w' n', moveLoop unit01 uniform validate bnds euler dis p dir q w n = Ok (found, q', w', n') /\
    good q' /\ (n' <= n + (2 * dis + 1))%nat /\ (found = true -> accepted (validate q') = true).
Proof.
  induction dis as [|dis IH]; intros p dir q w n Hq; cbn [moveLoop].
  - exists false, q, w, n. split_and!; [done|done|lia|done].
  - destruct (accepted (validate q)) eqn:Ea.
    { exists true, q, w, (S n). split_and!; [done|done|lia|done]. }
    destruct (trunkInCollision (validate q)) eqn:Et.
    + destruct (Hrep q Ea Et) as [[nrm depth] ->].
      destruct (IH p nrm _ w (S n) (Translate_good q (vscale (depth + 3 / 100) nrm) Hq)) as (f & q' & w' & n' & -> & Hg' & Hn & Hf).
      exists f, q', w', n'. split_and!; [done|done|lia|done].
    + destruct (rotateLoop_ok (S dis) p dir q w (S n) Hq) as (f & q' & w' & n' & -> & Hg' & Hn & Hf).
      exists f, q', w', n'. split_and!; [done|done|lia|done].
Qed.
Lemma weightedIndex_lt s r : triangles s <> [] -> (forall ws, weights s = Some ws -> length ws = length (triangles s)) ->
  exists i, weightedIndex s r = Ok i /\ (i < length (triangles s))%nat.
Proof.
  intros Hne Hlen. assert (Hl : (length (triangles s) =? 0)%nat = false) by (destruct (triangles s); done).
  assert (Hp : (0 < length (triangles s))%nat) by (destruct (triangles s); [done|simpl; lia]).
  unfold weightedIndex. rewrite Hl. destruct (weights s) as [ws|]; [|eexists; split; [done|lia]].
  pose proof (firstAtLeast_ok r ws 0) as H. destruct (firstAtLeast r ws 0) as [i|]; [|eexists; split; [done|lia]].
  destruct H as (_ & (w & Hw & _) & _). rewrite Nat.sub_0_r in Hw. apply lookup_lt_Some in Hw. rewrite (Hlen ws eq_refl) in Hw. by exists i.
Qed.
Lemma pickTriangle_ok s w : triangles s <> [] -> (forall ws, weights s = Some ws -> length ws = length (triangles s)) ->
  exists t w', pickTriangle unit01 randMod ratio s w = Ok (t, w') /\ t ∈ triangles s.
Proof.
  intros Hne Hlen. unfold pickTriangle. destruct (unit01 w) as [r w1].
  assert (Hl : (length (triangles s) =? 0)%nat = false) by (destruct (triangles s); done).
  assert (Hp : (0 < length (triangles s))%nat) by (destruct (triangles s); [done|simpl; lia]).
  destruct (Rltb ratio r).
  - rewrite Hl. pose proof (ro_mod _ _ Hrand _ w1 Hp) as Hm. destruct (randMod (length (triangles s)) w1) as [i w2]. cbn [fst] in Hm.
    destruct (lookup_lt_is_Some_2 _ _ Hm) as [t Ht]. rewrite Ht. exists t, w2. split; [done|]. by eapply elem_of_list_lookup_2.
  - destruct (unit01 w1) as [r' w2]. destruct (weightedIndex_lt s r' Hne Hlen) as (i & -> & Hi).
    destruct (lookup_lt_is_Some_2 _ _ Hi) as [t Ht]. rewrite Ht. exists t, w2. split; [done|]. by eapply elem_of_list_lookup_2.
Qed.
Lemma shootLoop_ok dis limit : forall s q w n, triangles s <> [] -> (forall ws, weights s = Some ws -> length ws = length (triangles s)) ->
  exists found q' w' n', shootLoop unit01 randMod uniform validate bnds euler ratio dis limit s q w n = Ok (found, q', w', n') /\
    ((limit = 0%nat /\ q' = q) \/ good q') /\ (n' <= n + limit * (2 * dis + 1))%nat /\ (found = true -> accepted (validate q') = true).
Proof.
  induction limit as [|limit IH]; intros s q w n Hne Hlen; cbn [shootLoop].
  - exists false, q, w, n. split_and!; [done|by left|lia|done].
  - destruct (pickTriangle_ok s w Hne Hlen) as ([nrm tri] & w1 & -> & _).
    destruct (unit01 w1) as [r1 w2]. destruct (unit01 w2) as [r2 w3]. cbn zeta.
    destruct (randConfigAtPos_ok (pointInTriangle r1 r2 tri) w3) as (q1 & w4 & -> & _ & _ & Hg & _).
    destruct (moveLoop_ok dis (pointInTriangle r1 r2 tri) nrm q1 w4 n Hg) as (f & q2 & w5 & n' & -> & Hg' & Hn & Hf).
    destruct f.
    + exists true, q2, w5, n'. split_and!; [done|by right|lia|done].
    + destruct (IH s q2 w5 n' Hne Hlen) as (f' & q' & w' & n'' & -> & Hg'' & Hn' & Hf').
      exists f', q', w', n''. split_and!; [done| |lia|done]. right. by destruct Hg'' as [[_ ->]|?].
Qed.
End shoot.
Lemma allTriangles_ok objs : (forall o, o ∈ objs -> is_Some (mesh o)) -> exists l, allTriangles objs = Ok l /\
  (forall n t, (n, t) ∈ l <-> exists o ts t0, o ∈ objs /\ mesh o = Some ts /\ t0 ∈ ts /\ t = (place o t0.1.1, place o t0.1.2, place o t0.2) /\ n = TriangleNormal t).
Proof.
  induction objs as [|o objs IH]; intros H; cbn [allTriangles].
  - exists []. split; [done|]. intros n t. split; [intros Ht; by apply elem_of_nil in Ht|]. intros (o & ts & t0 & Ho & _). by apply elem_of_nil in Ho.
  - destruct (H o (elem_of_list_here _ _)) as [ts Hts]. rewrite Hts. destruct IH as (l & -> & Hl); [intros o' Ho'; apply H; by apply elem_of_list_further|].
    eexists. split; [done|]. intros n t. rewrite elem_of_app. split.
    + intros [Hin|Hin].
      * apply elem_of_list_fmap in Hin as (t0 & Heq & Ht0). injection Heq as -> ->. exists o, ts, t0. split_and!; try done. apply elem_of_list_here.
      * apply Hl in Hin as (o' & ts' & t0 & Ho' & ? & ? & ? & ?). exists o', ts', t0. split_and!; try done. by apply elem_of_list_further.
    + intros (o' & ts' & t0 & Ho' & Hm & Ht0 & Ht & Hn). apply elem_of_cons in Ho' as [->|Ho'].
      * left. rewrite Hts in Hm. injection Hm as <-. apply elem_of_list_fmap. exists t0. split; [|done]. by rewrite Hn, Ht.
      * right. apply Hl. by exists o', ts', t0.
Qed.
(** a set of triangles built by InitWeightedTriangles *)
Theorem init_triangles objs : (forall o, o ∈ objs -> is_Some (mesh o)) -> exists s, InitWeightedTriangles objs = Ok s /\
  (forall n t, (n, t) ∈ triangles s <-> exists o ts t0, o ∈ objs /\ mesh o = Some ts /\ t0 ∈ ts /\ t = (place o t0.1.1, place o t0.1.2, place o t0.2) /\ n = TriangleNormal t) /\
  weights s = weightsOf (map (fun t => TriangleArea t.2) (triangles s)).
Proof.
  intros H. destruct (allTriangles_ok objs H) as (l & Heq & Hl). unfold InitWeightedTriangles. rewrite Heq. eexists. split; [done|]. by split.
Qed.
Lemma weights_length areas ws : weightsOf areas = Some ws -> length ws = length areas.
Proof. unfold weightsOf. destruct (Reqb _ _); [done|]. intros H. injection H as <-. apply cumulate_length. Qed.
Theorem shoot_ok {W C} (unit01 : W -> R * W) randMod (uniform : W -> conf C * W) validate bnds euler ratio shootLimit dis objs s w :
  random_ok unit01 randMod -> limits_ok euler -> proper bnds -> reports_ok validate ->
  InitWeightedTriangles objs = Ok s -> triangles s <> [] ->
  exists found q w' n, impl_shoot unit01 randMod uniform validate bnds euler ratio shootLimit dis s w = Ok (found, q, w', n) /\
    (n <= shootLimit * (2 * dis + 1))%nat /\ (found = true -> accepted (validate q) = true) /\
    ((0 < shootLimit)%nat -> within bnds (trans q) /\ within_limits euler (orientation q)).
Proof.
  intros Hr Hl Hb Hrep Hs Hne. unfold impl_shoot. destruct (uniform w) as [q w1] eqn:Eu.
  destruct (shootLoop_ok unit01 randMod uniform validate bnds euler ratio Hr Hl Hb Hrep dis shootLimit s q w1 0 Hne) as (f & q' & w' & n & -> & Hg & Hn & Hf).
  { intros ws Hws. unfold InitWeightedTriangles in Hs. destruct (allTriangles objs); try done. injection Hs as <-. cbn [weights triangles] in *.
    rewrite (weights_length _ _ Hws). by rewrite map_length. }
  exists f, q', w', n. split_and!; [done|lia|done|]. intros H0. destruct Hg as [[-> _]|Hg]; [lia|]. apply Hg.
Qed.
Theorem shoot_no_triangles {W C} (unit01 : W -> R * W) randMod (uniform : W -> conf C * W) validate bnds euler ratio shootLimit dis w :
  (0 < shootLimit)%nat -> impl_shoot unit01 randMod uniform validate bnds euler ratio shootLimit dis (mkShooter [] (weightsOf [])) w = Ub.
Proof.
  intros H. unfold impl_shoot. destruct (uniform w) as [q w1]. destruct shootLimit; [lia|]. cbn [shootLoop]. unfold pickTriangle.
  destruct (unit01 w1) as [r w2]. cbn [triangles length]. destruct (Rltb ratio r); [done|]. destruct (unit01 w2) as [r' w3].
  unfold weightedIndex, weightsOf. cbn [weights triangles]. by destruct (Reqb _ _).
Qed.
Theorem init_not_mesh objs o : o ∈ objs -> mesh o = None -> InitWeightedTriangles objs = Ub.
Proof.
  intros Ho Hm. unfold InitWeightedTriangles. assert (allTriangles objs = Ub) as ->; [|done].
  induction objs as [|o' objs IH]; [by apply elem_of_nil in Ho|]. cbn [allTriangles]. apply elem_of_cons in Ho as [<-|Ho]; [by rewrite Hm|].
  rewrite (IH Ho). by destruct (mesh o').
Qed.
(** in terms of the shooter *)

Lemma areas_of_eq s : areas_of s = map (fun t : vec3 * triangle3 => TriangleArea t.2) (triangles s).
Proof. unfold areas_of. apply map_ext. intros t. by rewrite TriangleArea_ok. Qed.
Lemma init_shape objs s : InitWeightedTriangles objs = Ok s -> s = mkShooter (triangles s) (weightsOf (areas_of s)).
Proof.
  unfold InitWeightedTriangles. destruct (allTriangles objs); try done. intros H. injection H as <-. rewrite areas_of_eq. done.
Qed.
Lemma areas_nonneg s a : a ∈ areas_of s -> 0 <= a.
Proof. rewrite areas_of_eq. intros H. apply elem_of_list_fmap in H as (t & -> & _). apply TriangleArea_nonneg. Qed.
Theorem init_choice objs s r : InitWeightedTriangles objs = Ok s -> 0 < total (areas_of s) -> 0 <= r <= 1 ->
  forall i, weightedIndex s r = Ok i <->
    r * total (areas_of s) <= sum_first (S i) (areas_of s) /\ (i = 0%nat \/ sum_first i (areas_of s) < r * total (areas_of s)).
Proof.
  intros Hs Ht Hr i. pose proof (init_shape objs s Hs) as E. rewrite E. cbn [triangles].
  pose proof (weighted_choice (triangles s) r) as H. cbn zeta in H. rewrite <- areas_of_eq in H. destruct (H Ht Hr) as (k & Hk & _ & H1 & H2).
  split.
  - intros Hi. rewrite Hk in Hi. injection Hi as <-. rewrite <- E. done.
  - rewrite <- E. intros [H3 H4]. rewrite E. rewrite Hk. f_equal. apply (choice_unique (areas_of s) r); try done. intros a. apply areas_nonneg.
Qed.
Theorem init_choice_exists objs s r : InitWeightedTriangles objs = Ok s -> 0 < total (areas_of s) -> 0 <= r <= 1 ->
  exists i, weightedIndex s r = Ok i /\ (i < length (triangles s))%nat.
Proof.
  intros Hs Ht Hr. pose proof (init_shape objs s Hs) as E.
  pose proof (weighted_choice (triangles s) r) as H. cbn zeta in H. rewrite <- areas_of_eq in H. destruct (H Ht Hr) as (k & Hk & Hlt & _).
  exists k. rewrite <- E in Hk. done.
Qed.
Theorem init_weights objs s : InitWeightedTriangles objs = Ok s -> 0 < total (areas_of s) ->
  exists ws, weights s = Some ws /\ length ws = length (triangles s) /\
    (forall i w, ws !! i = Some w -> w = sum_first (S i) (areas_of s) / total (areas_of s)) /\
    (forall i j v w, (i <= j)%nat -> ws !! i = Some v -> ws !! j = Some w -> v <= w) /\
    (forall w, ws !! (length ws - 1)%nat = Some w -> w = 1).
Proof.
  intros Hs Ht. destruct (weights_shares (areas_of s) (areas_nonneg s) Ht) as (ws & Hw & Hl & H1 & H2 & H3). exists ws.
  assert (Hlen : length (areas_of s) = length (triangles s)) by apply map_length.
  split_and!; [|congruence|done|done|rewrite Hl; done]. rewrite (init_shape objs s Hs). done.
Qed.
Theorem init_zero_area objs s r : InitWeightedTriangles objs = Ok s -> total (areas_of s) = 0 -> triangles s <> [] ->
  weightedIndex s r = Ok (length (triangles s) - 1)%nat.
Proof.
  intros Hs Ht Hne. rewrite (init_shape objs s Hs). cbn [triangles]. rewrite areas_of_eq. apply zero_area_last; [|done]. by rewrite <- areas_of_eq.
Qed.
(** a number above 1: the last triangle *)
Theorem init_beyond objs s r : InitWeightedTriangles objs = Ok s -> 0 < total (areas_of s) -> 1 < r ->
  weightedIndex s r = Ok (length (triangles s) - 1)%nat.
Proof.
  intros Hs Ht Hr. destruct (init_weights objs s Hs Ht) as (ws & Hw & Hl & H1 & H2 & H3).
  unfold weightedIndex. rewrite Hw. pose proof (firstAtLeast_ok r ws 0) as H. destruct (firstAtLeast r ws 0) as [i|].
  - exfalso. destruct H as (_ & (w & Hi & Hle) & _). rewrite Nat.sub_0_r in Hi. pose proof (lookup_lt_Some _ _ _ Hi).
    destruct (lookup_lt_is_Some_2 ws (length ws - 1)) as [w' Hw']; [lia|].
    pose proof (H3 _ Hw') as ->. pose proof (H2 i (length ws - 1)%nat w 1 ltac:(lia) Hi Hw'). lra.
  - destruct (length (triangles s) =? 0)%nat eqn:E; [|done]. exfalso. apply Nat.eqb_eq in E.
    assert (areas_of s = []) as X.
    { unfold areas_of. destruct (triangles s); [done|done]. }
    rewrite X in Ht. unfold total in Ht. cbn in Ht. lra.
Qed.
(** the configuration put at a point *)
Theorem config_at_point {W C} (unit01 : W -> R * W) randMod (uniform : W -> conf C * W) bnds euler p w :
  random_ok unit01 randMod -> limits_ok euler -> proper bnds ->
  exists q w', randConfigAtPos unit01 uniform bnds euler p w = Ok (q, w') /\
    within bnds (trans q) /\ (within bnds p -> trans q = p) /\ rest q = rest (uniform w).1 /\
    (forall v, within bnds v -> Rabs (vx p - vx (trans q)) <= Rabs (vx p - vx v) /\ Rabs (vy p - vy (trans q)) <= Rabs (vy p - vy v) /\
       Rabs (vz p - vz (trans q)) <= Rabs (vz p - vz v)) /\
    within_limits euler (orientation q) /\ (euler = [] -> orientation q = orientation (uniform w).1).
Proof.
  intros Hr Hl Hb. destruct (randConfigAtPos_ok unit01 randMod uniform bnds euler Hr Hl Hb p w) as (q & w' & Heq & Ht & Hrest & [Hg1 Hg2] & He).
  exists q, w'. split; [done|]. split; [done|]. split; [intros Hp; rewrite Ht; by apply bound3_id|]. split; [done|]. split; [|done].
  intros v (H1 & H2 & H3). rewrite Ht. unfold bound3. cbn [vx vy vz]. split_and!; by apply bound_nearest.
Qed.
Theorem translated {C} bnds (q : conf C) t : proper bnds -> within bnds (trans (Translate bnds q t)) /\
  orientation (Translate bnds q t) = orientation q /\ rest (Translate bnds q t) = rest q /\
  (within bnds (vadd (trans q) t) -> trans (Translate bnds q t) = vadd (trans q) t) /\
  (let p := vadd (trans q) t in let p' := trans (Translate bnds q t) in
   forall v, within bnds v -> Rabs (vx p - vx p') <= Rabs (vx p - vx v) /\ Rabs (vy p - vy p') <= Rabs (vy p - vy v) /\ Rabs (vz p - vz p') <= Rabs (vz p - vz v)).
Proof.
  intros H. split; [by apply bound3_in|]. split; [done|]. split; [done|]. split; [intros Hw; by apply bound3_id|].
  intros p p' v (H1 & H2 & H3). cbn. split_and!; by apply bound_nearest.
Qed.
Theorem init_triangles' objs : (forall o, o ∈ objs -> is_Some (mesh o)) -> exists s, InitWeightedTriangles objs = Ok s /\
  (forall n t, (n, t) ∈ triangles s <-> exists o ts t0, o ∈ objs /\ mesh o = Some ts /\ t0 ∈ ts /\
     t = (place o t0.1.1, place o t0.1.2, place o t0.2) /\ n = TriangleNormal t).
Proof. intros H. destruct (init_triangles objs H) as (s & H1 & H2 & _). by exists s. Qed.
Theorem short_limits {W C} (unit01 : W -> R * W) euler (q : conf C) w : (0 < length euler < 6)%nat -> SampleRotation unit01 euler q w = Ub.
Proof.
  intros H. destruct euler as [|z0 [|z1 [|y0 [|y1 [|x0 [|x1 l]]]]]]; simpl in H; try lia; done.
Qed.
(** a permissive validator: the first configuration, on a triangle *)
Theorem shoot_accepting {W C} (unit01 : W -> R * W) randMod (uniform : W -> conf C * W) validate bnds euler ratio shootLimit dis objs s w :
  random_ok unit01 randMod -> limits_ok euler -> proper bnds -> (forall q, within bnds (trans q) -> accepted (validate q) = true) ->
  InitWeightedTriangles objs = Ok s -> triangles s <> [] -> (0 < shootLimit)%nat -> (0 < dis)%nat ->
  exists q w' n t p, impl_shoot unit01 randMod uniform validate bnds euler ratio shootLimit dis s w = Ok (true, q, w', 1%nat) /\
    (n, t) ∈ triangles s /\ in_triangle3 t p /\ (within bnds p -> trans q = p).
Proof.
  intros Hr Hl Hb Hacc Hs Hne Hsl Hdis. unfold impl_shoot. destruct (uniform w) as [q0 w1] eqn:Eu.
  destruct shootLimit; [lia|]. destruct dis as [|dis]; [lia|]. cbn [shootLoop].
  destruct (pickTriangle_ok unit01 randMod ratio Hr s w1 Hne) as ([nrm tri] & w2 & -> & Hin).
  { intros ws Hws. unfold InitWeightedTriangles in Hs. destruct (allTriangles objs); try done. injection Hs as <-. cbn [weights triangles] in *.
    rewrite (weights_length _ _ Hws). by rewrite map_length. }
  pose proof (ro_unit _ _ Hr w2) as H1. destruct (unit01 w2) as [r1 w3]. pose proof (ro_unit _ _ Hr w3) as H2. destruct (unit01 w3) as [r2 w4]. cbn [fst] in *. cbn zeta.
  destruct (randConfigAtPos_ok unit01 randMod uniform bnds euler Hr Hl Hb (pointInTriangle r1 r2 tri) w4) as (q1 & w5 & -> & Ht & _ & [Hg _] & _).
  cbn [moveLoop]. rewrite (Hacc q1 Hg). exists q1, w5, nrm, tri, (pointInTriangle r1 r2 tri). split_and!; [done|done|by apply point_in_triangle|].
  intros Hp. rewrite Ht. by apply bound3_id.
Qed.
Lemma rotateLoop_more {W C} (unit01 : W -> R * W) (uniform : W -> conf C * W) validate bnds euler dis : forall p dir q w n f q' w' n',
  rotateLoop unit01 uniform validate bnds euler dis p dir q w n = Ok (f, q', w', n') -> (n <= n')%nat.
Proof.
  induction dis as [|dis IH]; intros p dir q w n f q' w' n'; cbn [rotateLoop]; [intros H; by injection H as _ _ _ <-|].
  destruct (randConfigAtPos _ _ _ _ _ _) as [[q1 w1]| |]; try done. destruct (if accepted _ then _ else _) as [q2 w2]. cbn zeta.
  destruct (accepted _); [intros H; injection H as _ _ _ <-; lia|]. destruct (trunkInCollision _); [intros H; injection H as _ _ _ <-; lia|].
  intros H. apply IH in H. lia.
Qed.
Lemma moveLoop_more {W C} (unit01 : W -> R * W) (uniform : W -> conf C * W) validate bnds euler dis : forall p dir q w n f q' w' n',
  moveLoop unit01 uniform validate bnds euler dis p dir q w n = Ok (f, q', w', n') -> (n <= n')%nat /\ ((0 < dis)%nat -> (S n <= n')%nat).
Proof.
  induction dis as [|dis IH]; intros p dir q w n f q' w' n'; cbn [moveLoop]; [intros H; injection H as _ _ _ <-; lia|].
  destruct (accepted _); [intros H; injection H as _ _ _ <-; lia|]. destruct (trunkInCollision _).
  - destruct (firstContact _) as [[nrm depth]|]; [|done]. intros H. apply IH in H. lia.
  - intros H. apply rotateLoop_more in H. lia.
Qed.
Lemma shootLoop_more {W C} (unit01 : W -> R * W) randMod (uniform : W -> conf C * W) validate bnds euler ratio dis limit : forall s q w n q' w' n',
  (0 < dis)%nat -> shootLoop unit01 randMod uniform validate bnds euler ratio dis limit s q w n = Ok (false, q', w', n') -> (n + limit <= n')%nat.
Proof.
  induction limit as [|limit IH]; intros s q w n q' w' n' Hd; cbn [shootLoop]; [intros H; injection H as _ _ <-; lia|].
  destruct (pickTriangle _ _ _ _ _) as [[[nrm tri] w1]| |]; try done. destruct (unit01 w1) as [r1 w2]. destruct (unit01 w2) as [r2 w3]. cbn zeta.
  destruct (randConfigAtPos _ _ _ _ _ _) as [[q1 w4]| |]; try done. destruct (moveLoop _ _ _ _ _ _ _ _ _ _ _) as [[[[[] q2] w5] n2]| |] eqn:E; try done.
  intros H. apply IH in H; [|done]. apply moveLoop_more in E. lia.
Qed.
(** giving up: at least one configuration was rejected per try *)
Theorem shoot_gives_up {W C} (unit01 : W -> R * W) randMod (uniform : W -> conf C * W) validate bnds euler ratio shootLimit dis s w q w' n :
  (0 < dis)%nat -> impl_shoot unit01 randMod uniform validate bnds euler ratio shootLimit dis s w = Ok (false, q, w', n) -> (shootLimit <= n)%nat.
Proof. intros Hd. unfold impl_shoot. destruct (uniform w) as [q0 w1]. intros H. apply shootLoop_more in H; [lia|done]. Qed.
