(** Membership in a convex polygon. *)
From Verif Require Import Maps Vec VecProofs GeomModel GeomSpec GeomInt GeomProofs GeomProofs2.
Local Open Scope R_scope.

(** ** weighted sums *)
Lemma weighted_linear (f g k : vec3 -> R) (x y z : R) ws : forall l,
  (forall p, k p = x * f p + y * g p + z) ->
  weighted k ws l = x * weighted f ws l + y * weighted g ws l + z * weighted (fun _ => 1) ws l.
Proof.
  induction ws as [|w ws IH]; intros l Hk; [simpl; lra|]. destruct l as [|p l]; [simpl; lra|].
  cbn [weighted]. rewrite (IH l Hk), Hk. lra.
Qed.
Lemma weighted_nonpos (k : vec3 -> R) ws : forall l, Forall (fun w => 0 <= w) ws -> (forall p, p ∈ l -> k p <= 0) ->
  weighted k ws l <= 0.
Proof.
  induction ws as [|w ws IH]; intros l Hw Hk; [simpl; lra|]. destruct l as [|p l]; [simpl; lra|].
  inversion_clear Hw as [|? ? H1 H2]. cbn [weighted].
  assert (weighted k ws l <= 0) by (apply IH; [done|]; intros q Hq; apply Hk, elem_of_cons; by right).
  assert (k p <= 0) by (apply Hk, elem_of_cons; by left).
  assert (0 <= w * - k p) by (apply Rmult_le_pos; lra). lra.
Qed.
Lemma weighted_zero (k : vec3 -> R) l : weighted k (replicate (length l) 0) l = 0.
Proof. induction l as [|p l IH]; [done|]. cbn [length replicate weighted]. rewrite IH. lra. Qed.
Lemma weighted_unit l a : a ∈ l -> exists ws, length ws = length l /\ Forall (fun w => 0 <= w) ws /\
  forall k, weighted k ws l = k a.
Proof.
  induction l as [|p l IH]; intros H; [by apply elem_of_nil in H|]. destruct (decide (a = p)) as [->|Hne].
  - exists (1 :: replicate (length l) 0). split_and!.
    + simpl. by rewrite replicate_length.
    + constructor; [lra|]. apply Forall_replicate. lra.
    + intros k. cbn [weighted]. rewrite weighted_zero. lra.
  - apply elem_of_cons in H as [H|H]; [done|]. destruct (IH H) as (ws & H1 & H2 & H3).
    exists (0 :: ws). split_and!; [simpl; by rewrite H1|constructor; [lra|done]|].
    intros k. cbn [weighted]. rewrite H3. lra.
Qed.
Fixpoint comb (x y : R) (u v : list R) : list R :=
  match u, v with a :: u', b :: v' => (x * a + y * b) :: comb x y u' v' | _, _ => [] end.
Lemma comb_length x y u : forall v, length u = length v -> length (comb x y u v) = length u.
Proof. induction u as [|a u IH]; intros [|b v] H; try done. simpl in *. f_equal. apply IH. lia. Qed.
Lemma comb_nonneg x y u : forall v, 0 <= x -> 0 <= y -> Forall (fun w => 0 <= w) u -> Forall (fun w => 0 <= w) v ->
  Forall (fun w => 0 <= w) (comb x y u v).
Proof.
  induction u as [|a u IH]; intros [|b v] Hx Hy Hu Hv; try (simpl; constructor).
  - inversion_clear Hu. inversion_clear Hv.
    assert (0 <= x * a) by (by apply Rmult_le_pos). assert (0 <= y * b) by (by apply Rmult_le_pos). lra.
  - inversion_clear Hu. inversion_clear Hv. by apply IH.
Qed.
Lemma comb_weighted k x y u : forall v l, length u = length v ->
  weighted k (comb x y u v) l = x * weighted k u l + y * weighted k v l.
Proof.
  induction u as [|a u IH]; intros [|b v] l H; try done; [simpl; lra|]. destruct l as [|p l]; [simpl; lra|].
  cbn [comb weighted]. rewrite IH by (simpl in H; lia). lra.
Qed.

Lemma in_hull_comb l p q r t : in_hull l p -> in_hull l q -> 0 <= t <= 1 ->
  vx r = t * vx p + (1 - t) * vx q -> vy r = t * vy p + (1 - t) * vy q -> in_hull l r.
Proof.
  intros (u & U1 & U2 & U3 & U4 & U5) (v & W1 & W2 & W3 & W4 & W5) Ht Hx Hy.
  exists (comb t (1 - t) u v). assert (length u = length v) by congruence. split_and!.
  - by rewrite comb_length.
  - apply comb_nonneg; [lra|lra|done|done].
  - rewrite comb_weighted by done. rewrite U3, W3. lra.
  - rewrite comb_weighted by done. rewrite U4, W4. lra.
  - rewrite comb_weighted by done. rewrite U5, W5. lra.
Qed.
Lemma in_hull_elem l a : a ∈ l -> in_hull l a.
Proof.
  intros H. destruct (weighted_unit l a H) as (ws & H1 & H2 & H3). exists ws. split_and!; try done; by rewrite H3.
Qed.
Lemma in_hull_xy l a b : same_xy a b -> in_hull l a -> in_hull l b.
Proof. intros [H1 H2] (u & U1 & U2 & U3 & U4 & U5). exists u. split_and!; try done; congruence. Qed.
Lemma in_hull_comb3 l a b c p u v w : a ∈ l -> b ∈ l -> c ∈ l -> 0 <= u -> 0 <= v -> 0 <= w -> u + v + w = 1 ->
  vx p = u * vx a + v * vx b + w * vx c -> vy p = u * vy a + v * vy b + w * vy c -> in_hull l p.
Proof.
  intros Ha Hb Hc Hu Hv Hw Hs Hx Hy.
  destruct (weighted_unit l a Ha) as (wa & A1 & A2 & A3).
  destruct (weighted_unit l b Hb) as (wb & B1 & B2 & B3).
  destruct (weighted_unit l c Hc) as (wc & C1 & C2 & C3).
  assert (Hlen : length (comb v w wb wc) = length l) by (rewrite comb_length; congruence).
  exists (comb u 1 wa (comb v w wb wc)). split_and!.
  - rewrite comb_length; congruence.
  - apply comb_nonneg; [done|lra|done|]. by apply comb_nonneg.
  - rewrite comb_weighted, comb_weighted by congruence. rewrite A3, B3, C3. lra.
  - rewrite comb_weighted, comb_weighted by congruence. rewrite A3, B3, C3. lra.
  - rewrite comb_weighted, comb_weighted by congruence. rewrite A3, B3, C3. lra.
Qed.

(** a half plane that contains the points contains their hull *)
Lemma in_hull_half l a b p : right_of l a b -> in_hull l p -> isLeft a b p <= 0.
Proof.
  intros Hr (ws & H1 & H2 & H3 & H4 & H5).
  pose proof (weighted_nonpos (isLeft a b) ws l H2 Hr) as Hw.
  rewrite (weighted_linear vx vy (isLeft a b) (- (vy b - vy a)) (vx b - vx a)
    (- (vx b - vx a) * vy a + vx a * (vy b - vy a))) in Hw; [|intros q; unfold isLeft; ring].
  rewrite H3, H4, H5 in Hw. unfold isLeft. lra.
Qed.
Lemma in_hull_incl l l' p : (forall q, q ∈ l -> in_hull l' q) -> in_hull l p -> in_hull l' p.
Proof.
  intros Hin (ws & H1 & H2 & H3 & H4 & H5).
  assert (Hgen : forall ws l, length ws = length l -> Forall (fun w => 0 <= w) ws -> (forall q, q ∈ l -> in_hull l' q) ->
     exists us, length us = length l' /\ Forall (fun w => 0 <= w) us /\
       weighted (fun _ => 1) us l' = weighted (fun _ => 1) ws l /\
       weighted vx us l' = weighted vx ws l /\ weighted vy us l' = weighted vy ws l).
  { clear. induction ws as [|w ws IH]; intros l Hlen Hw Hin; destruct l as [|q l]; try done.
    - exists (replicate (length l') 0). split_and!; [apply replicate_length|apply Forall_replicate; lra| | |];
        rewrite weighted_zero; simpl; lra.
    - inversion_clear Hw as [|? ? Hw0 Hw1].
      destruct (IH l) as (us & U1 & U2 & U3 & U4 & U5); [simpl in Hlen; lia|done| |].
      { intros q' Hq'. apply Hin, elem_of_cons. by right. }
      destruct (Hin q) as (vs & V1 & V2 & V3' & V4 & V5); [apply elem_of_cons; by left|].
      exists (comb w 1 vs us). split_and!; cbn [weighted].
      + rewrite comb_length; congruence.
      + apply comb_nonneg; [done|lra|done|done].
      + rewrite comb_weighted by congruence. rewrite V3', U3. lra.
      + rewrite comb_weighted by congruence. rewrite V4, U4. lra.
      + rewrite comb_weighted by congruence. rewrite V5, U5. lra. }
  destruct (Hgen ws l H1 H2 Hin) as (us & U1 & U2 & U3 & U4 & U5). exists us.
  split_and!; try done; congruence.
Qed.

(** ** polygons *)
Lemma rightOfEdges_ok l p : rightOfEdges l p = true <-> inside_edges l p.
Proof.
  unfold inside_edges_. induction l as [|a l IH]; [split; [intros _ x y H; by apply elem_of_nil in H|done]|].
  destruct l as [|b l]; [split; [intros _ x y H; by apply elem_of_nil in H|done]|].
  cbn [rightOfEdges edges]. destruct (Rltb 0 (isLeft a b p)) eqn:E.
  - apply Rltb_true in E. split; [done|]. intros H. specialize (H a b). rewrite elem_of_cons in H.
    assert (isLeft a b p <= 0) by (apply H; by left). lra.
  - apply Rltb_false in E. rewrite IH. split.
    + intros H x y Hxy. apply elem_of_cons in Hxy as [Hxy|Hxy]; [by injection Hxy as -> ->|by apply H].
    + intros H x y Hxy. apply H, elem_of_cons. by right.
Qed.

Lemma crossing (f : vec3 -> R) (vs : list vec3) : f (front vs) <= 0 -> 0 <= f (List.last vs vzero) ->
  (2 <= length vs)%nat -> exists x y, (x, y) ∈ edges vs /\ f x <= 0 /\ 0 <= f y.
Proof.
  intros H1 H2 H3. induction vs as [|x vs IH]; [simpl in H3; lia|]. destruct vs as [|y vs]; [simpl in H3; lia|].
  change (f x <= 0) in H1. destruct (Rle_dec 0 (f y)) as [Hy|Hy].
  - exists x, y. split_and!; [cbn [edges]; apply elem_of_cons; by left|done|done].
  - destruct vs as [|z vs].
    + simpl in H2. lra.
    + destruct IH as (x' & y' & Hin & Hx & Hy'); [change (f y <= 0); lra|exact H2|simpl; lia|].
      exists x', y'. split_and!; [|done|done]. change (edges (x :: y :: z :: vs)) with ((x, y) :: edges (y :: z :: vs)).
      apply elem_of_cons. by right.
Qed.

Lemma edges_polygon v vs : vs <> [] -> edges (v :: vs ++ [v]) = (v, front vs) :: edges vs ++ [(List.last vs vzero, v)].
Proof.
  intros Hne. destruct vs as [|x vs]; [done|]. cbn [app]. change (edges (v :: x :: vs ++ [v])) with ((v, x) :: edges (x :: vs ++ [v])).
  f_equal. clear. revert x. induction vs as [|y vs IH]; intros x; [done|].
  change (edges (x :: (y :: vs) ++ [v])) with ((x, y) :: edges (y :: vs ++ [v])). rewrite IH. done.
Qed.

Lemma polygon_in_hull l p : convex_polygon l -> inside_edges l p -> in_hull l p.
Proof.
  intros [(v & vs & -> & Hlen & Hnd) Hr] Hp.
  assert (Hne : vs <> []) by (intros ->; simpl in Hlen; lia).
  unfold inside_edges_ in Hp. rewrite (edges_polygon v vs Hne) in Hp. rewrite (edges_polygon v vs Hne) in Hr.
  assert (Hfirst : isLeft v (front vs) p <= 0) by (apply Hp, elem_of_cons; by left).
  assert (Hlast : 0 <= isLeft v (List.last vs vzero) p).
  { rewrite isLeft_swap. assert (isLeft (List.last vs vzero) v p <= 0); [|lra].
    apply Hp. rewrite elem_of_cons, elem_of_app, elem_of_list_singleton. tauto. }
  destruct (crossing (fun x => isLeft v x p) vs Hfirst Hlast Hlen) as (a & b & Hab & Ha & Hb).
  assert (He : (a, b) ∈ (v, front vs) :: edges vs ++ [(List.last vs vzero, v)]).
  { rewrite elem_of_cons, elem_of_app. tauto. }
  destruct (edges_in _ _ _ Hab) as [Hain Hbin].
  assert (Hav : a <> v /\ b <> v).
  { apply NoDup_cons in Hnd as [Hnd _]. split; intros ->; done. }
  assert (Hvin : v ∈ v :: vs ++ [v]) by (apply elem_of_cons; by left).
  assert (Hain' : a ∈ v :: vs ++ [v]) by (rewrite elem_of_cons, elem_of_app; tauto).
  assert (Hbin' : b ∈ v :: vs ++ [v]) by (rewrite elem_of_cons, elem_of_app; tauto).
  destruct Hav as [Hav Hbv].
  pose proof (Hr a b v He Hvin (not_eq_sym Hav) (not_eq_sym Hbv)) as HD.
  pose proof (Hp a b He) as Hpab. simpl in Ha, Hb.
  set (D := isLeft a b v) in *.
  assert (Hsum : isLeft a b p + isLeft b v p + isLeft v a p = D).
  { unfold D, isLeft. ring. }
  assert (Hbv' : isLeft b v p <= 0) by (rewrite isLeft_swap; lra).
  apply (in_hull_comb3 _ v a b p (isLeft a b p / D) (isLeft b v p / D) (isLeft v a p / D)); try done.
  - apply Rmult_le_reg_r with (- D); [lra|]. replace (isLeft a b p / D * - D) with (- isLeft a b p) by (field; lra). lra.
  - apply Rmult_le_reg_r with (- D); [lra|]. replace (isLeft b v p / D * - D) with (- isLeft b v p) by (field; lra). lra.
  - apply Rmult_le_reg_r with (- D); [lra|]. replace (isLeft v a p / D * - D) with (- isLeft v a p) by (field; lra). lra.
  - rewrite <- Hsum. field. lra.
  - assert (H : D * vx p = isLeft a b p * vx v + isLeft b v p * vx a + isLeft v a p * vx b).
    { unfold D, isLeft. ring. }
    apply Rmult_eq_reg_l with D; [|lra]. rewrite H. field. lra.
  - assert (H : D * vy p = isLeft a b p * vy v + isLeft b v p * vy a + isLeft v a p * vy b).
    { unfold D, isLeft. ring. }
    apply Rmult_eq_reg_l with D; [|lra]. rewrite H. field. lra.
Qed.

Lemma polygon_right l a b : convex_polygon l -> (a, b) ∈ edges l -> right_of l a b.
Proof.
  intros [_ Hr] Hab p Hp. destruct (decide (p = a)) as [->|H1]; [rewrite isLeft_same1; lra|].
  destruct (decide (p = b)) as [->|H2]; [rewrite isLeft_same2; lra|]. apply Rlt_le. by apply Hr.
Qed.

Theorem polygon_membership l p : convex_polygon l -> inside_edges l p <-> in_hull l p.
Proof.
  intros Hc. split; [by apply polygon_in_hull|]. intros Hp a b Hab.
  apply (in_hull_half l); [by apply polygon_right|done].
Qed.

Theorem containsHull_ok l p eps : convex_polygon l -> containsHull l p eps = true <-> in_hull l p.
Proof.
  intros Hc. rewrite <- polygon_membership, <- rightOfEdges_ok by done.
  destruct Hc as [(v & vs & -> & Hlen & _) _]. destruct vs as [|x [|y vs]]; simpl in Hlen; [lia|lia|]. done.
Qed.

Theorem contains_ok l : general_position l ->
  (exists a b c, a ∈ l /\ b ∈ l /\ c ∈ l /\ a <> b /\ b <> c /\ a <> c) ->
  exists n, forall fuel p eps, (n <= fuel)%nat ->
  exists b, contains fuel l p eps = Some b /\ (b = true <-> in_hull l p).
Proof.
  intros Hgp H3. assert (Hne : l <> []).
  { intros ->. destruct H3 as (a & _ & _ & Ha & _). by apply elem_of_nil in Ha. }
  destruct (convexHull_terminates l Hne) as [n Hn]. exists n. intros fuel p eps Hf.
  destruct (Hn fuel Hf) as (first & m & Heq & _). unfold contains. rewrite Heq. eexists. split; [done|].
  destruct (convexHull_general l fuel _ Hgp H3 Heq) as (Hc & Hin & Hr).
  rewrite containsHull_ok by done. split.
  - apply in_hull_incl. intros q Hq. by apply in_hull_elem, Hin.
  - apply in_hull_incl. intros q Hq. apply polygon_membership; [done|]. intros a b Hab.
    destruct (decide (q = a)) as [->|H1]; [rewrite isLeft_same1; lra|].
    destruct (decide (q = b)) as [->|H2]; [rewrite isLeft_same2; lra|]. apply Rlt_le. by apply Hr.
Qed.

(** ** degenerate hulls *)
Theorem contains_one_point a p eps : 0 < eps -> forall fuel, (1 <= fuel)%nat -> contains fuel [a] p eps = Some true.
Proof.
  intros He fuel Hf. destruct fuel as [|fuel]; [lia|]. unfold contains. cbn.
  assert (veqb a a = true) as -> by by apply veqb_true. cbn.
  rewrite !Rminus_diag_eq by done. rewrite Rmult_0_l, Rplus_0_l, sqrt_0. f_equal. by apply Rltb_true.
Qed.
Theorem contains_two_points a b p eps : a <> b -> forall fuel, (2 <= fuel)%nat ->
  (vx a <= vx b) -> isLeft a b p = 0 -> contains fuel [a; b] p eps = Some true.
Proof.
  intros Hab fuel Hf Hx Hp. destruct fuel as [|[|fuel]]; [lia|lia|]. unfold contains. cbn [convexHull leftMostFrom].
  assert (Rltb (vx b) (vx a) = false) as -> by (apply Rltb_false; lra).
  cbn [hullLoop scan fold_left app].
  assert (pick a [] a b = b) as ->.
  { unfold pick. assert (veqb a a = true) as -> by by apply veqb_true. cbn [orb].
    assert (inList b [] = false) as -> by (apply inList_false, not_elem_of_nil). done. }
  assert (veqb b (front [a]) = false) as -> by (apply veqb_false; unfold front; simpl; congruence).
  assert (pick b [a] a b = a) as ->.
  { unfold pick. assert (veqb a b = false) as -> by by apply veqb_false. rewrite isLeft_same1.
    assert (Rltb 0 0 = false) as -> by (apply Rltb_false; lra). done. }
  assert (veqb a (front [a; b]) = true) as -> by by apply veqb_true.
  cbn. assert (Rltb 0 (isLeft a b p) = false) as -> by (apply Rltb_false; lra).
  assert (Rltb 0 (isLeft b a p) = false) as -> by (apply Rltb_false; rewrite isLeft_swap; lra). done.
Qed.
