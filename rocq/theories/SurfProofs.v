(** Proofs about the contact surface. *)
From Verif Require Import VecProofs NodeModel ProjModel GeomModel GeomSpec GeomInt GeomProofs GeomProofs2 GeomProofs3 GeomProofs4 GeomProofs5 GeomProofs6 GeomProofs7 SurfModel SurfSpec.
Local Open Scope R_scope.

(** * Convex predicates *)
Definition convex_pred (P : vec3 -> Prop) : Prop := forall s e t, 0 <= t <= 1 -> P s -> P e -> P (vadd s (vscale t (vsub e s))).

Lemma in_hull3_convex l : convex_pred (in_hull3 l).
Proof.
  intros s e t Ht (u & U1 & U2 & U3 & U4 & U5 & U6) (v & W1 & W2 & W3 & W4 & W5 & W6).
  exists (comb (1 - t) t u v). assert (length u = length v) by congruence. split_and!.
  - by rewrite comb_length.
  - apply comb_nonneg; [lra|lra|done|done].
  - rewrite comb_weighted by done. rewrite U3, W3. lra.
  - rewrite comb_weighted by done. rewrite U4, W4. cbn. lra.
  - rewrite comb_weighted by done. rewrite U5, W5. cbn. lra.
  - rewrite comb_weighted by done. rewrite U6, W6. cbn. lra.
Qed.
Lemma in_hull3_elem l a : a ∈ l -> in_hull3 l a.
Proof.
  intros H. destruct (weighted_unit l a H) as (ws & H1 & H2 & H3). exists ws. split_and!; try done; by rewrite H3.
Qed.
Lemma in_hull3_hull l p : in_hull3 l p -> in_hull l p.
Proof. intros (u & U1 & U2 & U3 & U4 & U5 & U6). by exists u. Qed.
Lemma half_convex a b : convex_pred (fun p => isLeft a b p <= 0).
Proof.
  intros s e t Ht Hs He. rewrite (isLeft_comb a b e s _ t) by (cbn; ring).
  assert (0 <= t * - isLeft a b e) by (apply Rmult_le_pos; lra).
  assert (0 <= (1 - t) * - isLeft a b s) by (apply Rmult_le_pos; lra). lra.
Qed.
Lemma near_convex n a k : convex_pred (fun p => Rabs (vdot n (vsub p a)) < k).
Proof.
  intros s e t Ht Hs He. apply Rabs_def2 in Hs as [Hs1 Hs2]. apply Rabs_def2 in He as [He1 He2].
  assert (E : vdot n (vsub (vadd s (vscale t (vsub e s))) a) = (1 - t) * vdot n (vsub s a) + t * vdot n (vsub e a)).
  { unfold vdot, vsub, vadd, vscale. cbn. ring. }
  rewrite E. set (x := vdot n (vsub s a)) in *. set (y := vdot n (vsub e a)) in *.
  destruct (Req_EM_T t 0) as [->|Hn]; [apply Rabs_def1; lra|].
  assert (0 < t * (k - y)) by (apply Rmult_lt_0_compat; lra).
  assert (0 < t * (y + k)) by (apply Rmult_lt_0_compat; lra).
  assert (0 <= (1 - t) * (k - x)) by (apply Rmult_le_pos; lra).
  assert (0 <= (1 - t) * (x + k)) by (apply Rmult_le_pos; lra).
  apply Rabs_def1; lra.
Qed.

(** * Clipping keeps convex predicates and enters the half planes *)
Lemma sect_between a b s e i : isLeft a b e <= 0 /\ 0 < isLeft a b s \/ isLeft a b s <= 0 /\ 0 < isLeft a b e ->
  lineSect3D s e a b = Some i -> (exists t, 0 <= t <= 1 /\ i = vadd s (vscale t (vsub e s))) /\ isLeft a b i = 0.
Proof.
  intros H Hi. assert (Hne : isLeft a b s <> isLeft a b e) by lra.
  rewrite lineSect3D_segment in Hi by done. injection Hi as <-.
  set (x := isLeft a b s) in *. set (y := isLeft a b e) in *. split.
  - exists (x / (x - y)). split; [|done]. destruct H as [[H1 H2]|[H1 H2]].
    + assert (0 < / (x - y)) by (apply Rinv_0_lt_compat; lra). split.
      * apply Rmult_le_pos; lra.
      * apply Rmult_le_reg_r with (x - y); [lra|]. unfold Rdiv. rewrite Rmult_assoc, Rinv_l by lra. lra.
    + assert (Hq : x / (x - y) = - x / (y - x)) by (field; lra). rewrite Hq.
      assert (0 < / (y - x)) by (apply Rinv_0_lt_compat; lra). split.
      * apply Rmult_le_pos; lra.
      * apply Rmult_le_reg_r with (y - x); [lra|]. unfold Rdiv. rewrite Rmult_assoc, Rinv_l by lra. lra.
  - rewrite (isLeft_comb a b e s _ (x / (x - y))) by (cbn; ring). fold x y. field. lra.
Qed.
Lemma clipLoop_convex a b (P : vec3 -> Prop) l : convex_pred P -> forall s out, clipLoop lineSect3D a b s l = Some out ->
  P s -> (forall p, p ∈ l -> P p) -> forall p, p ∈ out -> P p /\ isLeft a b p <= 0.
Proof.
  intros HP. induction l as [|e l IH]; intros s out H Hs Hl p Hp.
  - injection H as <-. by apply elem_of_nil in Hp.
  - cbn [clipLoop] in H. destruct (clipLoop lineSect3D a b e l) as [out'|] eqn:E; [|done].
    assert (He : P e) by (apply Hl, elem_of_cons; by left).
    assert (IH' : forall p, p ∈ out' -> P p /\ isLeft a b p <= 0).
    { apply (IH e); [done|done|]. intros q Hq. apply Hl, elem_of_cons. by right. }
    assert (Hsect : forall i, isLeft a b e <= 0 /\ 0 < isLeft a b s \/ isLeft a b s <= 0 /\ 0 < isLeft a b e ->
      lineSect3D s e a b = Some i -> P i /\ isLeft a b i <= 0).
    { intros i Hd Hi. destruct (sect_between _ _ _ _ _ Hd Hi) as [(t & Ht & ->) Hz]. split; [by apply HP|lra]. }
    destruct (Rleb (isLeft a b e) 0) eqn:E1.
    + apply Rleb_true in E1. destruct (Rltb 0 (isLeft a b s)) eqn:E2.
      * apply Rltb_true in E2. destruct (lineSect3D s e a b) as [i|]; [|done]. injection H as <-.
        apply elem_of_cons in Hp as [->|Hp]; [by apply Hsect; [left|]|]. apply elem_of_cons in Hp as [->|Hp]; [done|]. by apply IH'.
      * injection H as <-. apply elem_of_cons in Hp as [->|Hp]; [done|]. by apply IH'.
    + apply Rleb_false in E1. destruct (Rleb (isLeft a b s) 0) eqn:E2.
      * apply Rleb_true in E2. destruct (lineSect3D s e a b) as [i|]; [|done]. injection H as <-.
        apply elem_of_cons in Hp as [->|Hp]; [apply Hsect; [right; split; lra|done]|]. by apply IH'.
      * injection H as <-. by apply IH'.
Qed.
Lemma clipEdges_convex clip : forall (P : vec3 -> Prop) l out, convex_pred P -> clipEdges lineSect3D clip l = Ok (Some out) ->
  (forall p, p ∈ l -> P p) -> forall p, p ∈ out -> P p /\ inside_edges clip p.
Proof.
  induction clip as [|a clip IH]; intros P l out HP H Hl p Hp.
  - injection H as <-. split; [by apply Hl|]. intros x y Hxy. by apply elem_of_nil in Hxy.
  - destruct clip as [|b clip].
    { injection H as <-. split; [by apply Hl|]. intros x y Hxy. by apply elem_of_nil in Hxy. }
    cbn [clipEdges] in H.
    unfold clipEdge in H. destruct l as [|x l]; [done|].
    destruct (clipLoop lineSect3D a b (List.last (x :: l) vzero) (x :: l)) as [o|] eqn:E; [|done].
    assert (HP' : convex_pred (fun p => P p /\ isLeft a b p <= 0)).
    { intros s e t Ht [? ?] [? ?]. split; [by apply HP|by apply half_convex]. }
    assert (Ho : forall p, p ∈ o -> P p /\ isLeft a b p <= 0).
    { apply (clipLoop_convex a b P _ HP _ _ E); [|done]. by apply Hl, last_in. }
    destruct (IH _ o out HP' H Ho p Hp) as [[H1 H2] H3]. split; [done|].
    intros u v Huv. change (edges (a :: b :: clip)) with ((a, b) :: edges (b :: clip)) in Huv.
    apply elem_of_cons in Huv as [Huv|Huv]; [by injection Huv as -> ->|]. by apply H3.
Qed.

(** * The hull, for any fuel *)
Lemma hullLoop_in fuel : forall p0 l res h hull, hullLoop fuel p0 l res h = Some hull ->
  h ∈ p0 :: l -> (forall p, p ∈ res -> p ∈ p0 :: l) ->
  (forall p, p ∈ hull -> p ∈ p0 :: l) /\ exists m, hull = res ++ h :: m ++ [front (res ++ [h])].
Proof.
  induction fuel as [|fuel IH]; intros p0 l res h hull H Hh Hres; [done|]. cbn [hullLoop] in H.
  set (last := scan h res p0 l) in *.
  assert (Hlast : last ∈ p0 :: l).
  { destruct (scan_cases h res l p0) as [Hc|[Hc _]]; apply elem_of_cons; [by left|by right]. }
  assert (Hres' : forall p, p ∈ res ++ [h] -> p ∈ p0 :: l).
  { intros p Hp. apply elem_of_app in Hp as [Hp|Hp]; [by apply Hres|]. by apply elem_of_list_singleton in Hp as ->. }
  destruct (veqb last (front (res ++ [h]))) eqn:E.
  - apply veqb_true in E. injection H as <-. split.
    + intros p Hp. apply elem_of_app in Hp as [Hp|Hp]; [by apply Hres'|]. by apply elem_of_list_singleton in Hp as ->.
    + exists []. rewrite E, <- app_assoc. done.
  - destruct (IH _ _ _ _ _ H Hlast Hres') as [H1 [m Hm]]. split; [done|]. exists (last :: m). rewrite Hm.
    rewrite front_app by (destruct res; done). rewrite <- app_assoc. done.
Qed.
Lemma convexHull_any fuel l hull : convexHull fuel l = Some hull ->
  (forall p, p ∈ hull -> p ∈ l) /\ (l <> [] -> exists v vs, hull = v :: vs ++ [v]).
Proof.
  destruct l as [|p0 l]; cbn [convexHull]; intros H.
  - injection H as <-. done.
  - destruct (hullLoop_in _ _ _ _ _ _ H) as [H1 [m Hm]]; [apply leftMost_in|intros p Hp; by apply elem_of_nil in Hp|].
    split; [done|]. intros _. eexists _, m. simpl in Hm. exact Hm.
Qed.

(** * Meshes *)
Lemma triPoints_corners T m t p : triPoints (verts (GetModel T m)) t = Ok p -> corners T m t (fst (fst p)) (snd (fst p)) (snd p).
Proof.
  destruct t as [[i j] k], p as [[a b] c]. unfold triPoints, corners. cbn [fst snd GetModel verts]. rewrite !nth_error_map.
  destruct (nth_error (verts m) i) as [u|], (nth_error (verts m) j) as [v|], (nth_error (verts m) k) as [w|]; cbn [option_map]; intros H; try done.
  injection H as <- <- <-. exists u, v, w. done.
Qed.
Lemma corners_triPoints T m t a b c : corners T m t a b c -> triPoints (verts (GetModel T m)) t = Ok (a, b, c).
Proof.
  destruct t as [[i j] k]. intros (u & v & w & H1 & H2 & H3 & -> & -> & ->). unfold triPoints. cbn [fst snd GetModel verts].
  rewrite !nth_error_map, H1, H2, H3. done.
Qed.
Lemma allTriangles_in T m ts : forall r, allTriangles (verts (GetModel T m)) ts = Ok r ->
  forall a b c, (a, b, c) ∈ r <-> exists t, t ∈ ts /\ corners T m t a b c.
Proof.
  induction ts as [|t ts IH]; intros r H a b c.
  - injection H as <-. split; [intros Hx; by apply elem_of_nil in Hx|intros (t & Ht & _); by apply elem_of_nil in Ht].
  - cbn [allTriangles] in H. destruct (triPoints (verts (GetModel T m)) t) as [p| |] eqn:E; [|done|done]. cbn [nbind] in H.
    destruct (allTriangles (verts (GetModel T m)) ts) as [l| |] eqn:E2; [|done|done]. cbn [nbind] in H. injection H as <-.
    rewrite elem_of_cons. rewrite (IH l eq_refl). split.
    + intros [Hp|(t' & Ht & Hc)].
      * exists t. split; [apply elem_of_cons; by left|]. apply triPoints_corners in E. by rewrite <- Hp in E.
      * exists t'. split; [apply elem_of_cons; by right|done].
    + intros (t' & Ht & Hc). apply elem_of_cons in Ht as [->|Ht]; [|right; eauto]. left.
      apply corners_triPoints in Hc. congruence.
Qed.
Lemma corners_exist T m i j k : (i < length (verts m))%nat -> (j < length (verts m))%nat -> (k < length (verts m))%nat ->
  exists a b c, corners T m (i, j, k) a b c.
Proof.
  intros Hi Hj Hk. unfold corners.
  destruct (nth_error (verts m) i) as [u|] eqn:Ei; [|apply nth_error_None in Ei; lia].
  destruct (nth_error (verts m) j) as [v|] eqn:Ej; [|apply nth_error_None in Ej; lia].
  destruct (nth_error (verts m) k) as [w|] eqn:Ek; [|apply nth_error_None in Ek; lia].
  exists (se3act T u), (se3act T v), (se3act T w), u, v, w. done.
Qed.
Lemma allTriangles_ok T m ts : (forall i j k, (i, j, k) ∈ ts -> (i < length (verts m))%nat /\ (j < length (verts m))%nat /\ (k < length (verts m))%nat) ->
  exists r, allTriangles (verts (GetModel T m)) ts = Ok r.
Proof.
  induction ts as [|[[i j] k] ts IH]; intros H; [by exists []|]. cbn [allTriangles].
  destruct (H i j k) as (Hi & Hj & Hk); [apply elem_of_cons; by left|].
  destruct (corners_exist T m i j k Hi Hj Hk) as (a & b & c & Hc). rewrite (corners_triPoints _ _ _ _ _ _ Hc). cbn [nbind].
  destruct IH as [r Hr]; [intros x y z Hx; apply H, elem_of_cons; by right|]. rewrite Hr. cbn [nbind]. eauto.
Qed.
Lemma mesh_edge_side T m r s e : allTriangles (verts (GetModel T m)) (tris m) = Ok r -> mesh_edge r s e <-> side_of T m s e.
Proof.
  intros H. unfold mesh_edge, side_of. split.
  - intros (a & b & c & Hin & Hse). apply (allTriangles_in _ _ _ _ H) in Hin as (t & Ht & Hc). by exists t, a, b, c.
  - intros (t & a & b & c & Ht & Hc & Hse). exists a, b, c. split; [|done]. apply (allTriangles_in _ _ _ _ H). eauto.
Qed.
Lemma corners_in T m t a b c : corners T m t a b c -> a ∈ points_of T m /\ b ∈ points_of T m /\ c ∈ points_of T m.
Proof.
  destruct t as [[i j] k]. intros (u & v & w & H1 & H2 & H3 & -> & -> & ->). unfold points_of.
  apply nth_error_In in H1. apply nth_error_In in H2. apply nth_error_In in H3.
  split_and!; apply elem_of_list_In, in_map; done.
Qed.
Lemma side_in T m s e : side_of T m s e -> s ∈ points_of T m /\ e ∈ points_of T m.
Proof.
  intros (t & a & b & c & Ht & Hc & Hse). apply corners_in in Hc as (Ha & Hb & Hc').
  destruct Hse as [Hse|[Hse|Hse]]; injection Hse as -> ->; done.
Qed.
