(** Proofs about the centroid. *)
From Coq Require Import Reals Lra Lia.
From Verif Require Import Maps MapsProofs Vec VecProofs GeomModel GeomSpec GeomInt GeomProofs GeomProofs2 GeomProofs3 CentModel CentSpec.
Local Open Scope R_scope.

Definition X (p q : vec3) : R := vx p * vy q - vx q * vy p.
Definition sum_edges (f : vec3 -> vec3 -> R) (l : list vec3) : R := fold_right (fun (e : vec3 * vec3) s => f e.1 e.2 + s) 0 (edges l).
Lemma sum_edges_cons f p q l : sum_edges f (p :: q :: l) = f p q + sum_edges f (q :: l).
Proof. reflexivity. Qed.
Lemma sums_step a cx cy p q l : centroidSums a cx cy (p :: q :: l) =
  centroidSums (a + (vx p * vy q - vx q * vy p)) (cx + (vx p + vx q) * (vx p * vy q - vx q * vy p)) (cy + (vy p + vy q) * (vx p * vy q - vx q * vy p)) (q :: l).
Proof. reflexivity. Qed.
Lemma sums_ok l : forall a cx cy, centroidSums a cx cy l =
  (a + sum_edges X l, cx + sum_edges (fun p q => (vx p + vx q) * X p q) l, cy + sum_edges (fun p q => (vy p + vy q) * X p q) l).
Proof.
  induction l as [|p [|q l] IH]; intros a cx cy.
  - cbn. unfold sum_edges. cbn. f_equal; [f_equal|]; ring.
  - cbn. unfold sum_edges. cbn. f_equal; [f_equal|]; ring.
  - rewrite sums_step, IH, !sum_edges_cons. unfold X. f_equal; [f_equal|]; ring.
Qed.
(** the sum around a closed polyline is that of the fan *)
Lemma sum_closed (F : vec3 -> vec3 -> R) v : (forall p q, F q p = - F p q) -> F v v = 0 -> forall vs, sum_edges F (v :: vs ++ [v]) =
  fold_right (fun (e : vec3 * vec3) s => F v e.1 + F e.1 e.2 + F e.2 v + s) 0 (edges vs).
Proof.
  intros Ha H0 vs. destruct vs as [|w vs]; [cbn; unfold sum_edges; cbn; lra|].
  cbn [app]. rewrite sum_edges_cons.
  assert (G : forall vs w, F v w + sum_edges F (w :: vs ++ [v]) = fold_right (fun (e : vec3 * vec3) s => F v e.1 + F e.1 e.2 + F e.2 v + s) 0 (edges (w :: vs))).
  { clear w vs. induction vs as [|x vs IH]; intros w.
    - unfold sum_edges. cbn. rewrite (Ha v w). lra.
    - cbn [app]. rewrite sum_edges_cons. rewrite (eq_refl : edges (w :: x :: vs) = (w, x) :: edges (x :: vs)). cbn [fold_right foldr fst snd]. rewrite <- IH. rewrite (Ha v x). lra. }
  apply G.
Qed.
Lemma sum_ext {A} (f g : A -> R) l : (forall x, f x = g x) -> fold_right (fun x s => f x + s) 0 l = fold_right (fun x s => g x + s) 0 l.
Proof. intros H. induction l as [|x l IH]; cbn; [reflexivity|]. by rewrite H, IH. Qed.
Lemma fold_map {A B} (h : A -> B) (f : B -> R) l : fold_right (fun x s => f x + s) 0 (map h l) = fold_right (fun x s => f (h x) + s) 0 l.
Proof. induction l as [|x l IH]; cbn; [reflexivity|]. by rewrite IH. Qed.
Lemma fold_scale {A} (f : A -> R) k l : k * fold_right (fun x s => f x + s) 0 l = fold_right (fun x s => k * f x + s) 0 l.
Proof. induction l as [|x l IH]; cbn; [ring|]. rewrite Rmult_plus_distr_l, IH. reflexivity. Qed.
Lemma area_closed v vs : sum_edges X (v :: vs ++ [v]) = 2 * total_area (fan v vs).
Proof.
  rewrite sum_closed by (intros; unfold X; ring). unfold total_area, fan. rewrite fold_map, fold_scale. apply sum_ext.
  intros [a b]. unfold signed_area, orient, X. cbn. field.
Qed.
Lemma moment_closed (f : vec3 -> R) v vs : (f = vx \/ f = vy) ->
  sum_edges (fun p q => (f p + f q) * X p q) (v :: vs ++ [v]) = 6 * moment f (fan v vs).
Proof.
  intros Hf. rewrite sum_closed by (intros; unfold X; ring). unfold moment, fan. rewrite fold_map, fold_scale. apply sum_ext.
  intros [a b]. unfold signed_area, orient, X. cbn. destruct Hf as [-> | ->]; field.
Qed.
Theorem centroid_fan v vs : let ts := fan v vs in
  (total_area ts = 0 -> centroid (v :: vs ++ [v]) = Ok (0, None)) /\
  (total_area ts <> 0 -> exists c, centroid (v :: vs ++ [v]) = Ok (total_area ts, Some c) /\
     total_area ts * vx c = moment vx ts /\ total_area ts * vy c = moment vy ts /\ vz c = 0).
Proof.
  intros ts. unfold centroid. rewrite sums_ok, area_closed, (moment_closed vx), (moment_closed vy) by auto. fold ts. rewrite !Rplus_0_l.
  replace (2 * total_area ts / 2) with (total_area ts) by field. split; intros H.
  - rewrite H. assert (Reqb 0 0 = true) as -> by (by apply Reqb_true). reflexivity.
  - assert (Reqb (total_area ts) 0 = false) as -> by (by apply Reqb_false). eexists. split; [reflexivity|]. cbn. split; [field|split; [field|]]; auto.
Qed.
(** convex polygons *)
Lemma edges_in p q l : (p, q) ∈ edges l -> p ∈ l /\ q ∈ l.
Proof.
  induction l as [|a [|b l] IH]; cbn [edges]; intros H; try by apply elem_of_nil in H.
  apply elem_of_cons in H as [[= -> ->]|H]; [split; [left|right; left]|]. destruct (IH H). split; by right.
Qed.
Lemma edges_more p q v vs : (p, q) ∈ edges vs -> (p, q) ∈ edges (v :: vs ++ [v]).
Proof.
  revert v. assert (G : forall w, (p, q) ∈ edges vs -> (p, q) ∈ edges (vs ++ [w])).
  { intros w. induction vs as [|a [|b l] IH]; cbn [edges app]; intros H; try by apply elem_of_nil in H.
    apply elem_of_cons in H as [[= -> ->]|H]; [left|right]. by apply IH. }
  intros v H. apply (G v) in H. destruct vs as [|a l]; [by apply elem_of_nil in H|]. cbn [app edges]. by right.
Qed.
Lemma fan_negative v vs : convex_polygon_ orient (v :: vs ++ [v]) -> forall e, e ∈ edges vs -> signed_area v e.1 e.2 < 0.
Proof.
  intros Hc [p q] He. cbn. destruct Hc as [(v' & vs' & Heq & Hlen & Hnd) Hr].
  assert (Hvs : vs = vs'). { injection Heq as <- H. by apply app_inj_tail in H as [-> _]. } subst vs'. injection Heq as <- _.
  apply NoDup_cons in Hnd as [Hv Hnd]. apply edges_in in He as Hin. destruct Hin as [Hp Hq].
  assert (H := Hr p q v (edges_more _ _ _ _ He) ltac:(left) ltac:(congruence) ltac:(congruence)).
  unfold signed_area, orient in *. lra.
Qed.
Lemma edges_some (vs : list vec3) : (2 <= length vs)%nat -> exists e es, edges vs = e :: es.
Proof. destruct vs as [|a [|b l]]; cbn; intros; try lia. eauto. Qed.
Lemma total_negative v vs : convex_polygon_ orient (v :: vs ++ [v]) -> total_area (fan v vs) < 0.
Proof.
  intros Hc. assert (Hn := fan_negative v vs Hc). destruct Hc as [(v' & vs' & Heq & Hlen & _) _].
  assert (Hl : (2 <= length vs)%nat). { injection Heq as <- H. apply app_inj_tail in H as [-> _]. exact Hlen. }
  destruct (edges_some vs Hl) as (e & es & He). unfold total_area, fan. rewrite fold_map, He in *. cbn [fold_right fst snd].
  assert (H1 := Hn e ltac:(left)).
  assert (H2 : fold_right (fun (x : vec3 * vec3) s => signed_area v x.1 x.2 + s) 0 es <= 0).
  { assert (Hn' : forall e', e' ∈ es -> signed_area v e'.1 e'.2 < 0) by (intros e' H'; apply Hn; by right). clear -Hn'.
    induction es as [|x es IH]; cbn; [lra|]. assert (H := Hn' x ltac:(left)). assert (H' := IH ltac:(intros; apply Hn'; by right)). lra. }
  lra.
Qed.
Theorem centroid_convex v vs : convex_polygon_ orient (v :: vs ++ [v]) ->
  exists a c, centroid (v :: vs ++ [v]) = Ok (a, Some c) /\ a = - fan_area_ orient v vs /\ a < 0 /\ in_hull (v :: vs ++ [v]) c.
Proof.
  intros Hc. assert (Ht := total_negative v vs Hc). destruct (centroid_fan v vs) as [_ H].
  destruct (H ltac:(lra)) as (c & E & Hx & Hy & _). exists (total_area (fan v vs)), c. split; [exact E|].
  assert (Hn := fan_negative v vs Hc). split; [|split; [exact Ht|]].
  - unfold total_area, fan_area_, fan. rewrite fold_map. clear -Hn. cbn [fst snd]. induction (edges vs) as [|x es IH]; [cbn; ring|]. cbn [foldr fold_right map].
    rewrite IH by (intros; apply Hn; by right). assert (H := Hn x ltac:(left)). unfold signed_area, triangle_area_ in *. rewrite Rabs_left by lra. cbn. field.
  - assert (PM := polygon_membership). rewrite isLeft_is_orient in PM. apply PM; [exact Hc|]. clear PM. intros a b Hab.
    assert (Hv : forall p, p ∈ v :: vs ++ [v] -> orient a b p <= 0).
    { intros p Hp. destruct Hc as [_ Hr]. destruct (decide (p = a)) as [->|]; [unfold orient; lra|]. destruct (decide (p = b)) as [->|]; [unfold orient; lra|].
      left. by apply Hr. }
    assert (G : forall es : list (vec3 * vec3), (forall e, e ∈ es -> signed_area v e.1 e.2 < 0 /\ e.1 ∈ v :: vs ++ [v] /\ e.2 ∈ v :: vs ++ [v]) ->
      let ts := map (fun e : vec3 * vec3 => (v, e.1, e.2)) es in
      0 <= (vx b - vx a) * (moment vy ts - total_area ts * vy a) - (vy b - vy a) * (moment vx ts - total_area ts * vx a)).
    { clear -Hv. induction es as [|[p q] es IH]; intros He ts; [cbn; lra|].
      destruct (He (p, q) ltac:(left)) as (H1 & H2 & H3). cbn [fst snd] in H1, H2, H3. assert (IH' := IH ltac:(intros; apply He; by right)). cbn zeta in IH'.
      unfold ts. cbn [map]. unfold moment, total_area in *. cbn [fold_right fst snd].
      set (m1 := fold_right _ 0 _) in *. set (m2 := fold_right (fun t s => signed_area _ _ _ + s) 0 _) in *. set (m3 := fold_right _ 0 _) in *.
      assert (Hvv := Hv v ltac:(left)). assert (Hp := Hv p H2). assert (Hq := Hv q H3).
      assert (Hs : 0 <= signed_area v p q * (orient a b v + orient a b p + orient a b q)).
      { assert (0 <= - signed_area v p q * - (orient a b v + orient a b p + orient a b q)); [apply Rmult_le_pos; lra|lra]. }
      set (s := signed_area v p q) in *. unfold orient in Hs. lra. }
    specialize (G (edges vs)). cbn zeta in G. fold (fan v vs) in G.
    assert (G' := G ltac:(intros [p q] He; split; [by apply Hn|]; apply edges_in in He as [H1 H2]; split; right; apply elem_of_app; by left)).
    rewrite <- Hx, <- Hy in G'. unfold orient.
    set (o := (vx b - vx a) * (vy c - vy a) - (vy b - vy a) * (vx c - vx a)). set (T := total_area (fan v vs)) in *.
    assert (E2 : 0 <= T * o) by (unfold o; lra). destruct (Rle_or_lt o 0) as [|Hpos]; [assumption|].
    assert (0 < - T * o) by (apply Rmult_lt_0_compat; lra). lra.
Qed.
(** the other way round *)
Lemma edges_snoc2 (a b : vec3) l : edges (l ++ [a; b]) = edges (l ++ [a]) ++ [(a, b)].
Proof. induction l as [|x [|y l] IH]; [reflexivity|reflexivity|]. cbn [app edges] in *. by rewrite IH. Qed.
Lemma sum_edges_rev F : (forall p q, F q p = - F p q) -> forall l, sum_edges F (rev l) = - sum_edges F l.
Proof.
  intros Ha. assert (Happ : forall l (e : vec3 * vec3), fold_right (fun (e : vec3 * vec3) s => F e.1 e.2 + s) 0 (l ++ [e]) = fold_right (fun (e : vec3 * vec3) s => F e.1 e.2 + s) 0 l + F e.1 e.2).
  { induction l as [|x l IH]; intros e; cbn; [ring|]. rewrite IH. ring. }
  induction l as [|p [|q l] IH]; [unfold sum_edges; cbn; lra|unfold sum_edges; cbn; lra|].
  rewrite sum_edges_cons. cbn [rev] in *. rewrite <- app_assoc. cbn [app]. unfold sum_edges at 1. rewrite edges_snoc2, Happ. cbn [fst snd].
  change (fold_right _ 0 (edges (rev l ++ [q]))) with (sum_edges F (rev l ++ [q])). rewrite IH, Ha. ring.
Qed.
Theorem centroid_rev l a c : centroid l = Ok (a, c) -> centroid (rev l) = Ok (- a, c).
Proof.
  intros H. assert (Hl : l <> []) by (destruct l; [discriminate|congruence]). unfold centroid in *. destruct l as [|p l]; [congruence|].
  destruct (rev (p :: l)) as [|p' l'] eqn:E. { apply (f_equal (@length vec3)) in E. rewrite rev_length in E. discriminate. }
  rewrite <- E. clear E. rewrite sums_ok in *. rewrite !sum_edges_rev by (intros; unfold X; ring). rewrite !Rplus_0_l in *.
  set (A := sum_edges X (p :: l)) in *. set (B := sum_edges _ (p :: l)) in *. set (C := sum_edges (fun p q => (vy p + vy q) * X p q) (p :: l)) in *.
  injection H as <- <-. replace (- A / 2) with (- (A / 2)) by field. destruct (Req_dec A 0) as [->|HA].
  - replace (- (0 / 2)) with 0 by field. replace (0 / 2) with 0 by field. assert (Reqb 0 0 = true) as -> by (by apply Reqb_true). reflexivity.
  - assert (Reqb (- (A / 2)) 0 = false) as -> by (apply Reqb_false; lra). assert (Reqb (A / 2) 0 = false) as -> by (apply Reqb_false; lra).
    do 3 f_equal. f_equal; field; lra.
Qed.
