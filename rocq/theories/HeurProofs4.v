(** Proofs about the weighted centre of a polygon. *)
From Coq Require Import Psatz.
From Verif Require Import Maps MapsProofs Vec VecProofs GeomModel GeomSpec GeomProofs3 HeurModel HeurSpec HeurProofs HeurProofs2 HeurProofs3.
Local Open Scope R_scope.

Lemma fold_sum f (l : list vec3) : forall a, fold_left (fun s p => s + f p) l a = a + sum_of f l.
Proof. induction l as [|p l IH]; intros a; cbn [fold_left sum_of fold_right]; [ring|]. rewrite IH. unfold sum_of. ring. Qed.
Lemma mean_ok l : vx (mean l) = average vx l /\ vy (mean l) = average vy l /\ vz (mean l) = 0.
Proof. unfold mean, average. cbn [vx vy vz]. rewrite !fold_sum, !Rplus_0_l. done. Qed.
Lemma dist_eq p q : euclideanDist p q = planar_dist p q.
Proof. done. Qed.
Lemma pd_pos p q : 0 <= planar_dist p q.
Proof. apply sqrt_pos. Qed.
Lemma pd_sym p q : planar_dist p q = planar_dist q p.
Proof. unfold planar_dist. f_equal. ring. Qed.
Lemma pd_zero p q : planar_dist p q = 0 -> same_xy p q.
Proof.
  unfold planar_dist. intros H. set (a := vx p - vx q) in *. set (b := vy p - vy q) in *.
  pose proof (Rle_0_sqr a). pose proof (Rle_0_sqr b). unfold Rsqr in *.
  apply sqrt_eq_0 in H; [|lra]. assert (a = 0) by nra. assert (b = 0) by nra. unfold a, b in *. split; lra.
Qed.
Lemma pd_same p q : same_xy p q -> planar_dist p q = 0.
Proof. intros [Hx Hy]. unfold planar_dist. rewrite Hx, Hy, !Rminus_eq_0. replace (0 * 0 + 0 * 0) with 0 by ring. apply sqrt_0. Qed.

(** ** rotations *)
Definition rot {A} (i : nat) (l : list A) : list A := drop i l ++ take i l.
Definition closing_side (l : list vec3) : R := match l with [] => 0 | p :: _ => euclideanDist (List.last l p) p end.
Lemma rot_S {A} i (p : A) l : (i <= length l)%nat -> rot i (l ++ [p]) = rot (S i) (p :: l).
Proof. intros H. unfold rot. cbn [drop take]. rewrite drop_app_le, take_app_le by done. by rewrite <- app_assoc. Qed.
Lemma shift_ok thr : forall i l, (i < length l)%nat -> thr < closing_side (rot i l) -> forall fuel, (i < fuel)%nat ->
  exists j, (j <= i)%nat /\ shift fuel thr l = Some (rot j l) /\ thr < closing_side (rot j l).
Proof.
  induction i as [|i IH]; intros l Hi Hc fuel Hf; (destruct fuel as [|fuel]; [lia|]); (destruct l as [|p l]; [simpl in Hi; lia|]).
  - exists 0%nat. split; [done|]. unfold rot in *. cbn [drop take] in *. rewrite app_nil_r in *. split; [|done]. cbn [shift].
    destruct (Rleb _ _) eqn:E; [|done]. apply Rleb_true in E. unfold closing_side in Hc. lra.
  - cbn [shift]. destruct (Rleb _ _) eqn:E.
    + rewrite <- rot_S in Hc by (simpl in Hi; lia).
      destruct (IH (l ++ [p])) with (fuel := fuel) as (j & Hj & H1 & H2); [rewrite app_length; simpl in *; lia|done|lia|].
      exists (S j). split; [lia|]. rewrite rot_S in H1, H2 by (simpl in Hi; lia). done.
    + exists 0%nat. split; [lia|]. unfold rot. cbn [drop take]. rewrite app_nil_r. split; [done|]. apply Rleb_false in E. done.
Qed.
Lemma shift_never thr : forall fuel l, (forall i, (i < length l)%nat -> closing_side (rot i l) <= thr) -> shift fuel thr l = None.
Proof.
  induction fuel as [|fuel IH]; intros l H; [done|]. destruct l as [|p l]; [done|]. cbn [shift].
  pose proof (H 0%nat ltac:(simpl; lia)) as H0. unfold rot in H0. cbn [drop take] in H0. rewrite app_nil_r in H0. unfold closing_side in H0.
  destruct (Rleb _ _) eqn:E; [|apply Rleb_false in E; lra].
  apply IH. intros i Hi. rewrite app_length in Hi. simpl in Hi. rewrite rot_S by lia.
  destruct (decide (i = length l)) as [->|Hne].
  - unfold rot. cbn [drop take]. rewrite drop_ge, take_ge by done. done.
  - apply H. simpl. lia.
Qed.

(** ** the sides *)
Lemma followed_cons {A} (p q r : A) l : followed (p :: q :: l) p q.
Proof. by exists [], (l ++ [p]). Qed.
Lemma rot_side (l : list vec3) i : (i < length l)%nat -> exists p q, followed l p q /\ closing_side (rot i l) = planar_dist p q.
Proof.
  intros Hi. destruct (drop i l) as [|q d] eqn:Ed.
  { apply (f_equal length) in Ed. rewrite drop_length in Ed. simpl in Ed. lia. }
  assert (El : l = take i l ++ q :: d) by (rewrite <- Ed; symmetry; apply take_drop).
  unfold rot. rewrite Ed. destruct i as [|i].
  - cbn [take] in *. simpl in El. subst l. exists (List.last (q :: d) q), q. rewrite app_nil_r. split; [|done].
    exists (removelast (q :: d)), []. cbn [take]. rewrite (@app_removelast_last _ (q :: d) q) at 1 by done. by rewrite <- app_assoc.
  - assert (Hne : take (S i) l <> []). { destruct l; [simpl in Hi; lia|done]. }
    set (t := take (S i) l) in *. exists (List.last t q), q. split.
    + exists (removelast t), (d ++ take 1 l). pattern l at 1. rewrite El. rewrite (@app_removelast_last _ t q Hne) at 1. by rewrite <- !app_assoc.
    + unfold closing_side. cbn [app]. f_equal. rewrite (@app_removelast_last _ t q Hne) at 1.
      rewrite app_comm_cons, app_assoc. by rewrite last_last.
Qed.
Lemma side_rot (l : list vec3) p q : (2 <= length l)%nat -> followed l p q -> exists i, (i < length l)%nat /\ closing_side (rot i l) = planar_dist p q.
Proof.
  intros Hlen (l1 & l2 & E). destruct (decide (length l1 + 1 < length l)%nat) as [Hl|Hl].
  - assert (El : l = l1 ++ p :: q :: take (length l - S (S (length l1))) l2).
    { transitivity (take (length l) (l ++ take 1 l)); [by rewrite take_app|]. rewrite E. rewrite take_app_ge by lia.
      replace (length l - length l1)%nat with (S (S (length l - S (S (length l1))))) by lia. done. }
    set (l2' := take _ l2) in *. exists (S (length l1)). split; [lia|]. unfold rot. rewrite El.
    replace (l1 ++ p :: q :: l2') with ((l1 ++ [p]) ++ q :: l2') by by rewrite <- app_assoc.
    replace (S (length l1)) with (length (l1 ++ [p])) by (rewrite app_length; simpl; lia).
    rewrite drop_app, take_app. unfold closing_side. cbn [app]. rewrite app_comm_cons, app_assoc, last_last. done.
  - destruct l as [|a l]; [simpl in Hlen; lia|]. cbn [take] in E.
    assert (l2 = []) as ->. { apply (f_equal length) in E. rewrite !app_length in E. destruct l2; [done|]. simpl in E, Hl. lia. }
    assert (E' : (a :: l) ++ [a] = (l1 ++ [p]) ++ [q]) by (rewrite <- app_assoc; exact E).
    apply app_inj_tail in E' as [E' ->]. exists 0%nat. split; [simpl; lia|]. unfold rot. cbn [drop take]. rewrite app_nil_r.
    rewrite E' at 1. unfold closing_side.
    assert (exists t, l1 ++ [p] = q :: t) as [t Et] by (exists l; by rewrite <- E'). rewrite Et. rewrite <- Et, last_last. done.
Qed.
Lemma fold_max (l : list R) : forall m0, let m := fold_left (fun m d => if Rltb m d then d else m) l m0 in
  (m = m0 \/ m ∈ l) /\ m0 <= m /\ (forall d, d ∈ l -> d <= m).
Proof.
  induction l as [|d l IH]; intros m0 m; unfold m; cbn [fold_left]; clear m.
  - split; [by left|]. split; [lra|]. intros x Hx. by apply elem_of_nil in Hx.
  - destruct (IH (if Rltb m0 d then d else m0)) as (H1 & H2 & H3). set (m := fold_left _ _ _) in *.
    destruct (Rltb m0 d) eqn:E; [apply Rltb_true in E|apply Rltb_false in E].
    + split; [destruct H1 as [->|H1]; right; [apply elem_of_list_here|by apply elem_of_list_further]|]. split; [lra|].
      intros x Hx. apply elem_of_cons in Hx as [->|Hx]; [done|by apply H3].
    + split; [destruct H1 as [->|H1]; [by left|right; by apply elem_of_list_further]|]. split; [done|].
      intros x Hx. apply elem_of_cons in Hx as [->|Hx]; [lra|by apply H3].
Qed.
Lemma consecutive_in l : forall p d, d ∈ consecutive p l <-> exists l1 a b l2, p :: l = l1 ++ a :: b :: l2 /\ d = planar_dist a b.
Proof.
  induction l as [|q l IH]; intros p d; cbn [consecutive].
  - split; [intros H; by apply elem_of_nil in H|]. intros (l1 & a & b & l2 & H & _). destruct l1 as [|? [|? ?]]; done.
  - rewrite elem_of_cons, IH. split.
    + intros [->|(l1 & a & b & l2 & E & ->)]; [exists [], p, q, l; done|]. exists (p :: l1), a, b, l2. split; [by rewrite E|done].
    + intros (l1 & a & b & l2 & E & ->). destruct l1 as [|x l1].
      * left. by injection E as <- <- _.
      * right. injection E as <- E. exists l1, a, b, l2. done.
Qed.
Lemma followed_dec {A} (p : A) l a b : followed (p :: l) a b <-> (exists l1 l2, p :: l = l1 ++ a :: b :: l2) \/ (a = List.last (p :: l) p /\ b = p).
Proof.
  unfold followed. cbn [take]. split.
  - intros (l1 & l2 & E). destruct l2 as [|z l2 _] using rev_ind.
    + right. assert (E' : (p :: l) ++ [p] = (l1 ++ [a]) ++ [b]) by (rewrite <- app_assoc; exact E).
      apply app_inj_tail in E' as [E' ->]. split; [|done]. by rewrite E', last_last.
    + left. assert (E' : (p :: l) ++ [p] = (l1 ++ a :: b :: l2) ++ [z]) by (rewrite <- app_assoc; exact E).
      apply app_inj_tail in E' as [E' _]. by exists l1, l2.
  - intros [(l1 & l2 & E)|[-> ->]].
    + exists l1, (l2 ++ [p]). rewrite E. by rewrite <- app_assoc.
    + exists (removelast (p :: l)), []. rewrite (@app_removelast_last _ (p :: l) p) at 1 by done. by rewrite <- app_assoc.
Qed.
Lemma longest_ok p l : longest_side (p :: l) (longest p l).
Proof.
  unfold longest. destruct (fold_max (consecutive p l) (euclideanDist (List.last (p :: l) p) p)) as (H1 & H2 & H3).
  set (m := fold_left _ _ _) in *. split.
  - destruct H1 as [->|H1].
    + exists (List.last (p :: l) p), p. split; [|done]. apply followed_dec. by right.
    + apply consecutive_in in H1 as (l1 & a & b & l2 & E & ->). exists a, b. split; [|done]. apply followed_dec. left. by exists l1, l2.
  - intros a b Hf. apply followed_dec in Hf as [(l1 & l2 & E)|[-> ->]]; [|exact H2]. apply H3. apply consecutive_in. exists l1, a, b, l2. done.
Qed.
(** ** the groups *)
Definition inner (thr : R) (g : list vec3) : Prop := forall l1 p q l2, g = l1 ++ p :: q :: l2 -> planar_dist p q <= thr.
Fixpoint linear (thr : R) (closing : vec3) (groups : list (list vec3)) : Prop :=
  match groups with
  | [] => False
  | g :: r => g <> [] /\ inner thr g /\
    (match r with [] => thr < planar_dist (List.last g closing) closing
                | g2 :: _ => thr < planar_dist (List.last g closing) (hd closing g2) /\ linear thr closing r end)
  end.
Lemma inner_snoc thr g p : inner thr g -> (forall q, last g = Some q -> planar_dist q p <= thr) -> inner thr (g ++ [p]).
Proof.
  intros Hi Hl l1 a b l2 E. destruct l2 as [|z l2 _] using rev_ind.
  - assert (E' : g ++ [p] = (l1 ++ [a]) ++ [b]) by (rewrite <- app_assoc; exact E). apply app_inj_tail in E' as [E' ->].
    apply Hl. by rewrite E', last_snoc.
  - assert (E' : g ++ [p] = (l1 ++ a :: b :: l2) ++ [z]) by (rewrite <- app_assoc; exact E). apply app_inj_tail in E' as [E' _]. by apply (Hi l1 a b l2).
Qed.
Lemma inner_one thr p : inner thr [p].
Proof. intros l1 a b l2 E. destruct l1 as [|? [|? ?]]; done. Qed.
Definition is_avg (c : vec3) (g : list vec3) : Prop := vx c = average vx g /\ vy c = average vy g.
Lemma gather_ok thr closing : forall l cur, l <> [] -> thr < planar_dist (List.last l closing) closing -> inner thr cur ->
  (forall q p, last cur = Some q -> head l = Some p -> planar_dist q p <= thr) ->
  exists groups, concat groups = cur ++ l /\ linear thr closing groups /\ Forall2 is_avg (gather thr cur l closing) groups.
Proof.
  induction l as [|p l IH]; intros cur Hne Hc Hi Hl; [done|]. cbn [gather].
  set (q := match l with [] => closing | q :: _ => q end).
  assert (Hsn : inner thr (cur ++ [p])) by (apply inner_snoc; [done|]; intros y Hy; by apply (Hl y p)).
  assert (Hav : is_avg (match cur with [] => p | _ => mean (cur ++ [p]) end) (cur ++ [p])).
  { destruct cur as [|c cur].
    - unfold is_avg, average, sum_of. simpl. split; field.
    - destruct (mean_ok ((c :: cur) ++ [p])) as (A & B & _). done. }
  assert (Hm : forall t, match cur with [] => p :: t | _ => mean (cur ++ [p]) :: t end = (match cur with [] => p | _ => mean (cur ++ [p]) end) :: t) by by destruct cur.
  rewrite Hm. set (c := match cur with [] => p | _ => mean (cur ++ [p]) end) in *. clearbody c.
  destruct l as [|q' l].
  - unfold q. simpl in Hc. rewrite dist_eq. destruct (Rltb _ _) eqn:E; [|apply Rltb_false in E; lra].
    exists [cur ++ [p]]. cbn [concat]. rewrite app_nil_r. split; [done|]. split; [|by constructor; [|constructor]].
    cbn [linear]. split; [by destruct cur|]. split; [done|]. by rewrite last_last.
  - destruct (Rltb thr (euclideanDist p q)) eqn:E; [apply Rltb_true in E|apply Rltb_false in E]; unfold q in E.
    + destruct (IH []) as (gs & G1 & G2 & G3); [done|done|intros l1 a b l2 H; by destruct l1|done|].
      exists ((cur ++ [p]) :: gs). cbn [concat]. rewrite G1. split; [by rewrite <- app_assoc|]. split; [|by constructor].
      cbn [linear]. split; [by destruct cur|]. split; [done|]. rewrite last_last.
      destruct gs as [|g2 gs]; [done|]. split; [|done].
      assert (hd closing g2 = q') as ->; [|done].
      destruct G2 as [Hg2 _]. destruct g2 as [|y g2]; [done|]. cbn [concat app] in G1. by injection G1 as ->.
    + destruct (IH (cur ++ [p])) as (gs & G1 & G2 & G3); [done|done|done| |].
      { intros y z Hy Hz. rewrite last_snoc in Hy. injection Hy as <-. by injection Hz as <-. }
      exists gs. split; [|done]. rewrite G1. by rewrite <- app_assoc.
Qed.
Lemma linear_facts thr closing : forall groups, linear thr closing groups -> 
  (forall g, g ∈ groups -> g <> []) /\ (forall g, g ∈ groups -> inner thr g) /\
  (forall l1 g g' l2 p q t s, groups = l1 ++ g :: g' :: l2 -> g = t ++ [p] -> g' = q :: s -> thr < planar_dist p q) /\
  (forall l1 g t p, groups = l1 ++ [g] -> g = t ++ [p] -> thr < planar_dist p closing).
Proof.
  induction groups as [|g r IH]; [done|]. cbn [linear]. intros (H1 & H2 & H3). destruct r as [|g2 r].
  - split_and!.
    + intros x Hx. by apply elem_of_list_singleton in Hx as ->.
    + intros x Hx. by apply elem_of_list_singleton in Hx as ->.
    + intros l1 a b l2 p q t s E. destruct l1 as [|? [|? ?]]; done.
    + intros l1 a t p E ->. destruct l1 as [|? [|? ?]]; [|done..]. injection E as ->. by rewrite last_last in H3.
  - destruct H3 as [H3 H4]. destruct (IH H4) as (I1 & I2 & I3 & I4). split_and!.
    + intros x Hx. apply elem_of_cons in Hx as [->|Hx]; [done|by apply I1].
    + intros x Hx. apply elem_of_cons in Hx as [->|Hx]; [done|by apply I2].
    + intros l1 a b l2 p q t s E -> ->. destruct l1 as [|x l1].
      * injection E as -> -> _. by rewrite last_last in H3.
      * injection E as <- E. by apply (I3 l1 (t ++ [p]) (q :: s) l2 p q t s).
    + intros l1 a t p E ->. destruct l1 as [|x l1]; [done|]. injection E as <- E. by apply (I4 l1 (t ++ [p]) t p).
Qed.
Lemma Forall2_avg cs groups : Forall2 is_avg cs groups -> 
  sum_of vx cs = fold_right (fun g s => average vx g + s) 0 groups /\ sum_of vy cs = fold_right (fun g s => average vy g + s) 0 groups.
Proof.
  induction 1 as [|c g cs gs [H1 H2] _ [I1 I2]]; [done|]. unfold sum_of in *. cbn [fold_right]. by rewrite H1, H2, I1, I2.
Qed.
Theorem centroid_many p l fuel : (2 <= length l)%nat -> (length l < fuel)%nat -> (exists q, q ∈ l /\ ~ same_xy p q) ->
  exists m c groups, weightedCentroidConvex2D fuel (p :: l) = Ok (Some c) /\ longest_side (p :: l) m /\
    clusters (m / 10) (p :: l) groups /\ average_of_averages groups c /\ vz c = 0.
Proof.
  intros Hlen Hf Hdiff. destruct l as [|q1 [|q2 l]]; [simpl in Hlen; lia|simpl in Hlen; lia|].
  set (L := q1 :: q2 :: l) in *. pose proof (longest_ok p L) as Hm. set (m := longest p L) in *.
  assert (Hpos : 0 < m).
  { destruct (Rle_lt_dec m 0) as [Hm0|]; [exfalso|done]. destruct Hdiff as (q & Hq & Hn).
    assert (Hz : forall a b, followed (p :: L) a b -> same_xy a b). { intros a b Hab. apply pd_zero. destruct Hm as [_ Hm]. specialize (Hm a b Hab). pose proof (pd_pos a b). lra. }
    assert (Hall : forall t x, (exists l1, p :: L = l1 ++ x :: t) -> same_xy p x -> forall y, y ∈ t -> same_xy p y).
    { induction t as [|z t IHt]; intros x [l1 E] Hx y Hy; [by apply elem_of_nil in Hy|].
      assert (Hpz : same_xy p z). { assert (same_xy x z) as [A B]; [|destruct Hx as [C D]; split; congruence]. apply Hz. apply followed_dec. left. by exists l1, t. }
      apply elem_of_cons in Hy as [->|Hy]; [done|]. apply (IHt z); [|done|done]. exists (l1 ++ [x]). by rewrite <- app_assoc. }
    apply Hn. apply (Hall L p); [by exists []|done|done]. }
  destruct Hm as [(a & b & Hab & Hd) Hmax]. destruct (side_rot (p :: L) a b) as (i & Hi & Hrot); [simpl; lia|done|].
  destruct (shift_ok (m / 10) i (p :: L) Hi) with (fuel := fuel) as (j & Hj & Hs & Hc); [rewrite Hrot, Hd; lra|change (length (p :: L)) with (S (length L)) in Hi; lia|].
  destruct (rot j (p :: L)) as [|s0 s] eqn:Er.
  { apply (f_equal length) in Er. unfold rot in Er. rewrite app_length, drop_length, take_length in Er. simpl in Er, Hi. lia. }
  destruct (gather_ok (m / 10) s0 (s0 :: s) []) as (groups & G1 & G2 & G3); [done|exact Hc|intros l1 x y l2 H; by destruct l1|done|].
  exists m, (mean (gather (m / 10) [] (s0 :: s) s0)), groups. split; [|split; [split; [by exists a, b|done]|]].
  { unfold weightedCentroidConvex2D. fold L. change (p :: q1 :: q2 :: l) with (p :: L). fold m. by rewrite Hs. }
  destruct (linear_facts _ _ _ G2) as (F1 & F2 & F3 & F4). split; [|].
  - split_and!.
    + exists (take j (p :: L)), (drop j (p :: L)). split; [by rewrite take_drop|]. rewrite G1. cbn [app]. by rewrite <- Er.
    + done.
    + intros g l1 x y l2 Hg E. by apply (F2 g Hg l1 x y l2).
    + intros g g' l1 x y l2 Hfo -> ->. destruct groups as [|g0 gs]; [done|].
      apply followed_dec in Hfo as [(t1 & t2 & E)|[E1 E2]].
      * by apply (F3 t1 (l1 ++ [x]) (y :: l2) t2 x y l1 l2).
      * assert (y = s0) as ->. { rewrite <- E2 in G1. cbn [concat app] in G1. by injection G1. }
        apply (F4 (removelast (g0 :: gs)) (l1 ++ [x]) l1 x); [|done]. rewrite E1. by apply app_removelast_last.
  - destruct (mean_ok (gather (m / 10) [] (s0 :: s) s0)) as (A & B & C). split; [|done].
    destruct (Forall2_avg _ _ G3) as [E1 E2]. unfold average in *. split; [rewrite A|rewrite B]; f_equal; try done; f_equal; f_equal; by apply Forall2_length in G3.
Qed.
Theorem centroid_stuck p l fuel : (2 <= length l)%nat -> (forall q, q ∈ l -> same_xy p q) -> weightedCentroidConvex2D fuel (p :: l) = Ok None.
Proof.
  intros Hlen Hall. destruct l as [|q1 [|q2 l]]; [simpl in Hlen; lia|simpl in Hlen; lia|].
  set (L := q1 :: q2 :: l) in *. unfold weightedCentroidConvex2D. fold L. change (p :: q1 :: q2 :: l) with (p :: L).
  pose proof (longest_ok p L) as [(a & b & Hab & Hd) _].
  assert (Hsame : forall a b, followed (p :: L) a b -> same_xy a b).
  { assert (Hin : forall x, x ∈ (p :: L) ++ [p] -> same_xy p x).
    { intros x Hx. rewrite elem_of_app, elem_of_cons, elem_of_list_singleton in Hx. destruct Hx as [[->|Hx]| ->]; [done|by apply Hall|done]. }
    intros x y (l1 & l2 & E). change ((p :: L) ++ [p] = l1 ++ x :: y :: l2) in E.
    assert (same_xy p x) as [A B] by (apply Hin; rewrite E, elem_of_app, elem_of_cons; tauto).
    assert (same_xy p y) as [C D] by (apply Hin; rewrite E, elem_of_app, !elem_of_cons; tauto). split; congruence. }
  rewrite (pd_same a b (Hsame a b Hab)) in Hd. rewrite <- Hd. rewrite shift_never; [done|].
  intros i Hi. destruct (rot_side (p :: L) i Hi) as (x & y & Hxy & ->). rewrite pd_same by by apply Hsame. lra.
Qed.
Theorem centroid_small fuel : weightedCentroidConvex2D fuel [] = Throw /\ (forall p, weightedCentroidConvex2D fuel [p] = Ok (Some p)) /\
  (forall p q, weightedCentroidConvex2D fuel [p; q] = Ok (Some (V3 ((vx p + vx q) / 2) ((vy p + vy q) / 2) 0))).
Proof. done. Qed.
(** ** the centre is inside the polygon *)
Lemma average_le f (l : list vec3) c : l <> [] -> (forall p, p ∈ l -> f p <= c) -> average f l <= c.
Proof.
  intros Hne H. unfold average. assert (Hs : sum_of f l <= INR (length l) * c).
  { clear Hne. induction l as [|p l IH]; [simpl; lra|]. cbn [length]. rewrite S_INR. unfold sum_of in *. cbn [fold_right].
    assert (f p <= c) by (apply H, elem_of_list_here). assert (fold_right (fun p s => f p + s) 0 l <= INR (length l) * c) by (apply IH; intros q Hq; apply H; by apply elem_of_list_further). lra. }
  assert (0 < INR (length l)) by (apply lt_0_INR; destruct l; [done|simpl; lia]). apply Rmult_le_reg_r with (INR (length l)); [done|]. unfold Rdiv. rewrite Rmult_assoc, Rinv_l by lra. lra.
Qed.
Lemma average_lin a b (l : list vec3) : l <> [] -> a * average vx l + b * average vy l = average (fun p => a * vx p + b * vy p) l.
Proof.
  intros Hne. unfold average. assert (sum_of (fun p => a * vx p + b * vy p) l = a * sum_of vx l + b * sum_of vy l) as ->.
  { induction l as [|p [|q l] IH]; unfold sum_of in *; cbn [fold_right] in *; [ring|ring|]. rewrite IH by done. ring. }
  field. apply not_0_INR. by destruct l.
Qed.
Lemma clusters_inside d polygon groups c : clusters d polygon groups -> groups <> [] -> average_of_averages groups c -> enclosed_by polygon [c].
Proof.
  intros ((l1 & l2 & -> & Hc) & Hne & _) Hg [Hx Hy] a b k H p Hp. apply elem_of_list_singleton in Hp as ->. rewrite Hx, Hy.
  assert (Hle : forall g, g ∈ groups -> a * average vx g + b * average vy g <= k).
  { intros g Hgi. rewrite average_lin by by apply Hne. apply average_le; [by apply Hne|]. intros q Hq. apply H.
    assert (q ∈ concat groups) as Hq'. { rewrite elem_of_list_In, in_concat. exists g. split; by apply elem_of_list_In. }
    rewrite Hc, elem_of_app in Hq'. rewrite elem_of_app. tauto. }
  assert (Hn : 0 < INR (length groups)) by (apply lt_0_INR; destruct groups; [done|simpl; lia]).
  assert (Hs : a * fold_right (fun g s => average vx g + s) 0 groups + b * fold_right (fun g s => average vy g + s) 0 groups <= INR (length groups) * k).
  { clear - Hle. induction groups as [|g gs IH]; [simpl; lra|]. cbn [length fold_right]. rewrite S_INR.
    assert (a * average vx g + b * average vy g <= k) by (apply Hle, elem_of_list_here).
    assert (a * fold_right (fun g s => average vx g + s) 0 gs + b * fold_right (fun g s => average vy g + s) 0 gs <= INR (length gs) * k) by (apply IH; intros x Hx; apply Hle; by apply elem_of_list_further). lra. }
  apply Rmult_le_reg_r with (INR (length groups)); [done|]. unfold Rdiv.
  rewrite Rmult_plus_distr_r, <- !Rmult_assoc, !Rmult_assoc, Rinv_l, !Rmult_1_r by lra. lra.
Qed.
Theorem centroid_inside polygon fuel : (length polygon <= fuel)%nat -> polygon <> [] -> apart polygon ->
  exists c, weightedCentroidConvex2D fuel polygon = Ok (Some c) /\ enclosed_by polygon [c].
Proof.
  intros Hf Hne Hap. destruct polygon as [|p [|q [|r l]]]; [done| | |].
  - exists p. split; [done|]. intros a b c H x Hx. by apply H.
  - eexists. split; [done|]. intros a b c H x Hx. apply elem_of_list_singleton in Hx as ->. cbn [vx vy].
    assert (a * vx p + b * vy p <= c) by (apply H, elem_of_list_here). assert (a * vx q + b * vy q <= c) by (apply H, elem_of_list_further, elem_of_list_here). lra.
  - destruct (centroid_many p (q :: r :: l) fuel) as (m & c & groups & H1 & H2 & H3 & H4 & H5).
    + simpl. lia.
    + simpl in *. lia.
    + exists q. split; [apply elem_of_list_here|]. intros [A B]. apply (Hap 0%nat 1%nat p q); [lia|done|done|].
      unfold near. rewrite A, B, !Rminus_eq_0, Rabs_R0. lra.
    + exists c. split; [done|]. apply (clusters_inside (m / 10) _ groups); [done| |done]. intros ->.
      destruct H3 as ((l1 & l2 & E & E') & _). simpl in E'. destruct l2, l1; done.
Qed.
