(** Proofs about the planar hull of the heuristics. *)
From Coq Require Import Psatz.
From Verif Require Import Maps MapsProofs Vec VecProofs GeomModel GeomSpec GeomProofs3 HeurModel HeurSpec HeurProofs.
Local Open Scope R_scope.

Lemma close_near a b : close a b = true <-> near a b.
Proof. unfold close, near. rewrite andb_true_iff, !Rltb_true. done. Qed.
Lemma acos_le x y : -1 <= x <= 1 -> -1 <= y <= 1 -> x <= y -> acos y <= acos x.
Proof.
  intros Hx Hy Hxy. destruct (Rle_dec (acos y) (acos x)) as [|Hn]; [done|exfalso].
  pose proof (acos_bound x). pose proof (acos_bound y).
  assert (cos (acos y) < cos (acos x)) by (apply cos_decreasing_1; lra). rewrite !cos_acos in H1 by done. lra.
Qed.
Lemma acos_lt_inv x y : -1 <= x <= 1 -> -1 <= y <= 1 -> acos x < acos y -> y < x.
Proof. intros Hx Hy H. destruct (Rlt_dec y x) as [|Hn]; [done|exfalso]. pose proof (acos_le x y Hx Hy ltac:(lra)). lra. Qed.

(** directions *)
Definition sign (s : R) : Prop := s = 1 \/ s = -1.
Lemma sqrt_unit dir : sign dir -> sqrt (dir * dir) = 1.
Proof. intros [->| ->]; [|replace (-1 * -1) with (1 * 1) by ring]; apply sqrt_square; lra. Qed.
(** the opening without the tolerance *)
Lemma opening_ok dir base p : sign dir ->
  (near (V3 (vx base + dir) (vy base) 0) p -> vy p = vy base) ->
  let u := dir * (vx p - vx base) in let v := vy p - vy base in
  opening dir base p = if Reqb (u * u + v * v) 0 then None else Some (acos (u / sqrt (u * u + v * v))).
Proof.
  intros Hd Hnear u v. unfold opening, computeAngle. cbn [vx vy].
  destruct (close (V3 (vx base + dir) (vy base) 0) p) eqn:E.
  - apply close_near in E. pose proof (Hnear E) as Hv. destruct E as [Ex _]. cbn [vx vy] in Ex.
    assert (Hu : 0 < u).
    { unfold u. destruct Hd as [->| ->]; unfold Rabs in Ex; destruct (Rcase_abs _); lra. }
    assert (v = 0) as -> by (unfold v; lra). replace (u * u + 0 * 0) with (u * u) by ring. rewrite sqrt_square by lra.
    assert (Reqb (u * u) 0 = false) as -> by (apply Reqb_false; nra). replace (u / u) with 1 by (field; lra). by rewrite acos_1.
  - cbn zeta. replace (vx base + dir - vx base) with dir by ring. replace (vy base - vy base) with 0 by ring.
    replace (dir * dir + 0 * 0) with (dir * dir) by ring. rewrite sqrt_unit by done. rewrite Rmult_1_l.
    assert (Hsq : (vx p - vx base) * (vx p - vx base) = u * u). { unfold u. destruct Hd as [->| ->]; ring. }
    rewrite Hsq. fold v. destruct (Reqb (u * u + v * v) 0) eqn:E0.
    + apply Reqb_true in E0. rewrite E0, sqrt_0. assert (Reqb 0 0 = true) as -> by by apply Reqb_true. done.
    + apply Reqb_false in E0. assert (Hpos : 0 < u * u + v * v) by (pose proof (Rle_0_sqr u); pose proof (Rle_0_sqr v); unfold Rsqr in *; lra).
      assert (Hs : 0 < sqrt (u * u + v * v)) by by apply sqrt_lt_R0.
      assert (Reqb (sqrt (u * u + v * v)) 0 = false) as -> by (apply Reqb_false; lra). f_equal. f_equal. f_equal. unfold u. ring.
Qed.
Lemma cos_range u v : 0 < u * u + v * v -> -1 <= u / sqrt (u * u + v * v) <= 1.
Proof.
  intros H. assert (Hs : 0 < sqrt (u * u + v * v)) by by apply sqrt_lt_R0.
  assert (Hq : sqrt (u * u + v * v) * sqrt (u * u + v * v) = u * u + v * v) by (apply sqrt_sqrt; lra).
  set (n := sqrt (u * u + v * v)) in *.
  assert (Hu : - n <= u <= n). { assert (0 <= v * v) by apply Rle_0_sqr. split; nra. }
  split.
  - apply Rmult_le_reg_r with n; [done|]. unfold Rdiv. rewrite Rmult_assoc, Rinv_l by lra. lra.
  - apply Rmult_le_reg_r with n; [done|]. unfold Rdiv. rewrite Rmult_assoc, Rinv_l by lra. lra.
Qed.
(** in the first quadrant a smaller cosine is a steeper slope *)
Lemma steeper u1 v1 u2 v2 : 0 <= u1 -> 0 <= v1 -> 0 <= u2 -> 0 <= v2 -> 0 < u1 * u1 + v1 * v1 -> 0 < u2 * u2 + v2 * v2 ->
  u2 / sqrt (u2 * u2 + v2 * v2) < u1 / sqrt (u1 * u1 + v1 * v1) -> u2 * v1 <= u1 * v2.
Proof.
  intros Hu1 Hv1 Hu2 Hv2 H1 H2 H. destruct (Rle_dec (u2 * v1) (u1 * v2)) as [|Hn]; [done|exfalso].
  assert (Hs1 : 0 < sqrt (u1 * u1 + v1 * v1)) by by apply sqrt_lt_R0. assert (Hs2 : 0 < sqrt (u2 * u2 + v2 * v2)) by by apply sqrt_lt_R0.
  assert (Hq1 : sqrt (u1 * u1 + v1 * v1) * sqrt (u1 * u1 + v1 * v1) = u1 * u1 + v1 * v1) by (apply sqrt_sqrt; lra).
  assert (Hq2 : sqrt (u2 * u2 + v2 * v2) * sqrt (u2 * u2 + v2 * v2) = u2 * u2 + v2 * v2) by (apply sqrt_sqrt; lra).
  set (n1 := sqrt (u1 * u1 + v1 * v1)) in *. set (n2 := sqrt (u2 * u2 + v2 * v2)) in *.
  assert (Hm : u2 * n1 < u1 * n2).
  { apply Rmult_lt_reg_r with (/ n1 * / n2); [apply Rmult_lt_0_compat; by apply Rinv_0_lt_compat|].
    replace (u2 * n1 * (/ n1 * / n2)) with (u2 / n2) by (field; lra). replace (u1 * n2 * (/ n1 * / n2)) with (u1 / n1) by (field; lra). done. }
  assert (Hsq : (u2 * n1) * (u2 * n1) < (u1 * n2) * (u1 * n2)).
  { apply Rmult_le_0_lt_compat; try done; apply Rmult_le_pos; lra. }
  assert (Hsq' : u2 * u2 * (u1 * u1 + v1 * v1) < u1 * u1 * (u2 * u2 + v2 * v2)) by (rewrite <- Hq1, <- Hq2; lra).
  assert (u2 * v1 * (u2 * v1) < u1 * v2 * (u1 * v2)) by lra.
  assert (0 <= u1 * v2) by (by apply Rmult_le_pos). assert (0 <= u2 * v1) by (by apply Rmult_le_pos). nra.
Qed.

Section chain.
Variables (dir hi : R).
Hypothesis (Hdir : sign dir) (Hhi : sign hi).
Variable all : list vec3.
Hypothesis Hnc : no_confusion all.
Lemma level base p : base ∈ all -> p ∈ all -> near (V3 (vx base + dir) (vy base) 0) p -> vy p = vy base.
Proof.
  intros Hb Hp. destruct (Hnc base p Hb Hp) as (_ & H1 & H2). destruct Hdir as [->| ->]; [done|].
  replace (vx base + -1) with (vx base - 1) by ring. done.
Qed.
(** [q] is further in the direction of the scan, and not less high *)
Definition after (p q : vec3) : Prop := 0 <= dir * (vx q - vx p) /\ 0 <= hi * (vy q - vy p).
Lemma after_trans p q r : after p q -> after q r -> after p r.
Proof. unfold after. intros [? ?] [? ?]. split; lra. Qed.
Lemma hi_sqr v : hi * v * (hi * v) = v * v.
Proof. destruct Hhi as [->| ->]; ring. Qed.
Lemma opening_cases base p : base ∈ all -> p ∈ all ->
  let u := dir * (vx p - vx base) in let v := hi * (vy p - vy base) in
  (same_xy base p /\ opening dir base p = None) \/
  (0 < u * u + v * v /\ opening dir base p = Some (acos (u / sqrt (u * u + v * v)))).
Proof.
  intros Hb Hp u v. rewrite (opening_ok dir base p Hdir (level base p Hb Hp)). fold u.
  assert (Hv : v * v = (vy p - vy base) * (vy p - vy base)) by apply hi_sqr. rewrite <- Hv.
  destruct (Reqb (u * u + v * v) 0) eqn:E; [apply Reqb_true in E|apply Reqb_false in E].
  - left. split; [|done]. assert (u = 0) by nra. assert (v = 0) by nra. unfold u, v in *. split.
    + destruct Hdir as [->| ->]; lra.
    + destruct Hhi as [->| ->]; lra.
  - right. split; [|done]. pose proof (Rle_0_sqr u). pose proof (Rle_0_sqr v). unfold Rsqr in *. lra.
Qed.
(** value of a point in a direction of the outer quadrant *)
Definition val (a b : R) (p : vec3) : R := b * (hi * vy p) - a * (dir * vx p).
Definition covers (h l : list vec3) : Prop :=
  forall a b c, 0 <= a -> 0 <= b -> (forall q, q ∈ h -> val a b q <= c) -> forall p, p ∈ l -> val a b p <= c.
Lemma covers_refl l : covers l l.
Proof. intros a b c _ _ H p Hp. by apply H. Qed.
Lemma covers_trans h1 h2 l : covers h1 h2 -> covers h2 l -> covers h1 l.
Proof. intros H1 H2 a b c Ha Hb H p Hp. apply (H2 a b c Ha Hb); [|done]. intros q Hq. by apply (H1 a b c Ha Hb). Qed.
Lemma covers_incl h l : (forall p, p ∈ l -> p ∈ h) -> covers h l.
Proof. intros Hi a b c _ _ H p Hp. by apply H, Hi. Qed.
(** a point under the segment from [m] to [p] is not needed *)
Lemma covers_under m q p : after m q -> after q p ->
  (dir * (vx p - vx q)) * (hi * (vy q - vy m)) <= (dir * (vx q - vx m)) * (hi * (vy p - vy q)) ->
  forall a b c, 0 <= a -> 0 <= b -> val a b m <= c -> val a b p <= c -> val a b q <= c.
Proof.
  intros [Hu1 Hv1] [Hu2 Hv2] Hs a b c Ha Hb Hm Hp. unfold val in *.
  set (u1 := dir * (vx q - vx m)) in *. set (v1 := hi * (vy q - vy m)) in *. set (u2 := dir * (vx p - vx q)) in *. set (v2 := hi * (vy p - vy q)) in *.
  assert (E1 : b * (hi * vy m) - a * (dir * vx m) = b * (hi * vy q) - a * (dir * vx q) - b * v1 + a * u1) by (unfold u1, v1; ring).
  assert (E2 : b * (hi * vy p) - a * (dir * vx p) = b * (hi * vy q) - a * (dir * vx q) + b * v2 - a * u2) by (unfold u2, v2; ring).
  rewrite E1 in Hm. rewrite E2 in Hp. set (V := b * (hi * vy q) - a * (dir * vx q)) in *.
  destruct (Rle_dec V c) as [|Hn]; [done|exfalso].
  assert (A1 : a * u1 < b * v1) by lra. assert (A2 : b * v2 < a * u2) by lra.
  assert (B1 : (a * u1) * (b * v2) <= (b * v1) * (b * v2)) by (apply Rmult_le_compat_r; [by apply Rmult_le_pos|lra]).
  assert (0 <= a * u1) by by apply Rmult_le_pos. assert (0 <= b * v2) by by apply Rmult_le_pos.
  assert (C1 : (a * u1) * (b * v2) < (b * v1) * (a * u2)) by (apply Rmult_le_0_lt_compat; done).
  assert (C2 : a * b * (u2 * v1) <= a * b * (u1 * v2)) by (apply Rmult_le_compat_l; [by apply Rmult_le_pos|done]). lra.
Qed.
Lemma val_same a b p q : same_xy p q -> val a b p = val a b q.
Proof. intros [Hx Hy]. unfold val. by rewrite Hx, Hy. Qed.
(** the last point is popped: it was under the segment, or equal to an end *)
Lemma popped m q p : m ∈ all -> q ∈ all -> p ∈ all -> after m q -> after q p ->
  oleb (opening dir q p) (opening dir m q) = false \/ oltb (opening dir m q) (opening dir q p) = true ->
  forall a b c, 0 <= a -> 0 <= b -> val a b m <= c -> val a b p <= c -> val a b q <= c.
Proof.
  intros Hm Hq Hp A1 A2 H a b c Ha Hb Hvm Hvp.
  destruct (opening_cases m q Hm Hq) as [[Hs E1]|[N1 E1]]; [by rewrite <- (val_same a b m q Hs)|].
  destruct (opening_cases q p Hq Hp) as [[Hs E2]|[N2 E2]]; [by rewrite (val_same a b q p Hs)|].
  apply (covers_under m q p A1 A2); try done.
  destruct A1 as [Hu1 Hv1], A2 as [Hu2 Hv2].
  assert (Hlt : acos (dir * (vx q - vx m) / sqrt (dir * (vx q - vx m) * (dir * (vx q - vx m)) + hi * (vy q - vy m) * (hi * (vy q - vy m)))) <
                acos (dir * (vx p - vx q) / sqrt (dir * (vx p - vx q) * (dir * (vx p - vx q)) + hi * (vy p - vy q) * (hi * (vy p - vy q))))).
  { rewrite E1, E2 in H. cbn [oleb oltb] in H. destruct H as [H|H]; [by apply Rleb_false in H|by apply Rltb_true in H]. }
  apply steeper; try done. apply acos_lt_inv; [by apply cos_range|by apply cos_range|done].
Qed.
(** the chain kept, last point first *)
Fixpoint chain (l : list vec3) : Prop :=
  match l with
  | q :: (m :: _) as l' => after m q /\ chain l'
  | _ => True
  end.
Lemma chain_tail q l : chain (q :: l) -> chain l.
Proof. destruct l; [done|]. cbn [chain]. tauto. Qed.
Lemma popWhile_ok p : p ∈ all -> forall l q, (forall x, x ∈ q :: l -> x ∈ all) -> chain (q :: l) -> after q p ->
  forall op, op = opening dir q p ->
  exists q' l' op', popWhile dir p (q :: l) op = (q' :: l', op') /\ op' = opening dir q' p /\
    chain (q' :: l') /\ after q' p /\ (forall x, x ∈ q' :: l' -> x ∈ q :: l) /\
    List.last (q' :: l') p = List.last (q :: l) p /\ covers (p :: q' :: l') (q :: l).
Proof.
  intros Hp. induction l as [|m l IH]; intros q Hall Hch Hap op Hop.
  - exists q, [], op. split; [done|]. split_and!; try done. apply covers_incl. intros x Hx. by apply elem_of_list_further.
  - cbn [popWhile]. destruct (oltb (opening dir m q) op) eqn:E.
    + destruct Hch as [Hmq Hch]. destruct (IH m) with (op := opening dir m p) as (q' & l' & op' & E1 & E2 & H1 & H2 & H3 & H4 & H5); try done.
      { intros x Hx. apply Hall. by apply elem_of_list_further. }
      { by apply (after_trans m q p). }
      exists q', l', op'. split; [done|]. split; [done|]. split; [done|]. split; [done|]. split; [intros x Hx; apply elem_of_list_further; by apply H3|].
      split; [rewrite H4; destruct l; done|].
      intros a b c Ha Hb H x Hx. apply elem_of_cons in Hx as [->|Hx]; [|by apply (H5 a b c)].
      apply (popped m q p); try done.
      * apply Hall. apply elem_of_list_further, elem_of_list_here.
      * apply Hall. apply elem_of_list_here.
      * right. by rewrite <- Hop.
      * apply (H5 a b c Ha Hb H). apply elem_of_list_here.
      * apply H. apply elem_of_list_here.
    + exists q, (m :: l), op. split; [done|]. split_and!; try done. apply covers_incl. intros x Hx. by apply elem_of_list_further.
Qed.
(** one step of the scan *)
Lemma scanning_ok base p subset angle : p ∈ all -> (forall x, x ∈ subset -> x ∈ all) -> chain subset ->
  (exists m, subset = m ++ [base]) ->
  (match subset with q :: m :: _ => angle = opening dir m q | _ => True end) ->
  (forall x, x ∈ subset -> 0 <= dir * (vx p - vx x)) -> 0 <= hi * (vy p - vy base) ->
  exists subset' angle', scanningProcess base hi dir (subset, angle) p = Ok (subset', angle') /\
    (forall x, x ∈ subset' -> x ∈ p :: subset) /\ chain subset' /\ (exists m, subset' = m ++ [base]) /\
    (match subset' with q :: m :: _ => angle' = opening dir m q | _ => True end) /\ covers subset' (p :: subset).
Proof.
  intros Hp Hall Hch [mm Hbase] Hang Hx Hy. destruct subset as [|q [|m rest]].
  - by destruct mm.
  - assert (q = base) as -> by (destruct mm as [|? [|]]; [by injection Hbase|done|done]).
    exists [p; base], (opening dir base p). cbn [scanningProcess]. split; [done|]. split; [done|]. split.
    { cbn [chain]. split; [|done]. split; [apply Hx; apply elem_of_list_here|done]. }
    split; [by exists [p]|]. split; [done|]. apply covers_refl.
  - cbn [scanningProcess]. destruct (Rleb (hi * vy q) (hi * vy p)) eqn:Ey; [apply Rleb_true in Ey|apply Rleb_false in Ey].
    + assert (Haq : after q p) by (split; [apply Hx; apply elem_of_list_here|lra]).
      destruct (oleb (opening dir q p) angle) eqn:Eo.
      * exists (p :: q :: m :: rest), (opening dir q p). split; [done|]. split; [done|]. split; [cbn [chain] in *; tauto|].
        split; [exists (p :: mm); by rewrite Hbase|]. split; [done|]. apply covers_refl.
      * destruct Hch as [Hmq Hch].
        assert (Ham : after m p) by by apply (after_trans m q p).
        destruct (popWhile_ok p Hp rest m) with (op := opening dir m p) as (q' & l' & op' & E1 & E2 & H1 & H2 & H3 & H4 & H5); try done.
        { intros x Hx'. apply Hall. by apply elem_of_list_further. }
        rewrite E1. exists (p :: q' :: l'), op'. split; [done|]. split.
        { intros x Hx'. apply elem_of_cons in Hx' as [->|Hx']; [apply elem_of_list_here|]. do 2 apply elem_of_list_further. by apply H3. }
        split; [cbn [chain]; by split|]. split.
        { assert (Hl : List.last (m :: rest) p = base).
          { destruct mm as [|q0 mm]; [done|]. injection Hbase as _ Hb. rewrite Hb. apply List.last_last. }
          rewrite <- H4 in Hl. exists (p :: removelast (q' :: l')). cbn [app]. f_equal.
          rewrite <- Hl. apply app_removelast_last. done. }
        split; [done|].
        intros a b c Ha Hb H x Hx'. apply elem_of_cons in Hx' as [->|Hx']; [apply H, elem_of_list_here|].
        apply elem_of_cons in Hx' as [->|Hx']; [|by apply (H5 a b c)].
        apply (popped m q p); try done.
        -- apply Hall. apply elem_of_list_further, elem_of_list_here.
        -- apply Hall. apply elem_of_list_here.
        -- left. by rewrite <- Hang.
        -- apply (H5 a b c Ha Hb H). apply elem_of_list_here.
        -- apply H. apply elem_of_list_here.
    + exists (q :: m :: rest), angle. split; [done|]. split; [intros x Hx'; by apply elem_of_list_further|]. split; [done|]. split; [by exists mm|]. split; [done|].
      intros a b c Ha Hb H x Hx'. apply elem_of_cons in Hx' as [->|Hx']; [|by apply H].
      assert (Hq : val a b q <= c) by (apply H; apply elem_of_list_here). apply Rle_trans with (2 := Hq).
      assert (Hxq : 0 <= dir * (vx p - vx q)) by (apply Hx; apply elem_of_list_here). unfold val.
      assert (0 <= a * (dir * (vx p - vx q))) by by apply Rmult_le_pos. assert (0 <= b * (hi * vy q - hi * vy p)) by (apply Rmult_le_pos; lra). lra.
Qed.
End chain.
