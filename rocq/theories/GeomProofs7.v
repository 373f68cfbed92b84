(** Clipping in space, projection into a polygon, meshes and planes, pairs of triangles. *)
From Verif Require Import Maps Vec VecProofs GeomModel GeomSpec GeomInt GeomProofs GeomProofs2 GeomProofs3 GeomProofs4 GeomProofs5 GeomProofs6.
Local Open Scope R_scope.

Lemma plane_line n P0 s e t : in_plane n P0 s -> in_plane n P0 e -> in_plane n P0 (vadd s (vscale t (vsub e s))).
Proof.
  unfold in_plane. intros Hs He.
  assert (H : vdot n (vsub (vadd s (vscale t (vsub e s))) P0) = (1 - t) * vdot n (vsub s P0) + t * vdot n (vsub e P0))
    by (unfold vdot, vsub, vadd, vscale; simpl; ring).
  rewrite H, Hs, He. ring.
Qed.
Lemma lineSect3D_on_line s e a b i : lineSect3D s e a b = Some i -> exists t, i = vadd s (vscale t (vsub e s)).
Proof.
  intros H. destruct (Req_EM_T (isLeft a b s) (isLeft a b e)) as [Heq|Hne].
  - exfalso. unfold lineSect3D, lineSect in H.
    assert (Hz : (vx s - vx e) * (vy a - vy b) - (vy s - vy e) * (vx a - vx b) = 0) by (unfold isLeft in Heq; lra).
    rewrite Hz in H. assert (Reqb 0 0 = true) as Hr by (by apply Reqb_true). by rewrite Hr in H.
  - rewrite lineSect3D_segment in H by done. injection H as <-. eauto.
Qed.

(** ** clipping in space *)
Lemma clipLoop_plane a b n P0 l : forall s out, clipLoop lineSect3D a b s l = Some out ->
  in_plane n P0 s -> (forall p, p ∈ l -> in_plane n P0 p) -> forall p, p ∈ out -> in_plane n P0 p.
Proof.
  induction l as [|e l IH]; intros s out H Hs Hl p Hp.
  - injection H as <-. by apply elem_of_nil in Hp.
  - cbn [clipLoop] in H. destruct (clipLoop lineSect3D a b e l) as [out'|] eqn:E; [|done].
    assert (He : in_plane n P0 e) by (apply Hl, elem_of_cons; by left).
    assert (IH' : forall p, p ∈ out' -> in_plane n P0 p).
    { apply (IH e); [done|done|]. intros q Hq. apply Hl, elem_of_cons. by right. }
    assert (Hsect : forall i, lineSect3D s e a b = Some i -> in_plane n P0 i).
    { intros i Hi. destruct (lineSect3D_on_line _ _ _ _ _ Hi) as [t ->]. by apply plane_line. }
    destruct (Rleb (isLeft a b e) 0).
    + destruct (Rltb 0 (isLeft a b s)).
      * destruct (lineSect3D s e a b) as [i|]; [|done]. injection H as <-.
        apply elem_of_cons in Hp as [->|Hp]; [by apply Hsect|]. apply elem_of_cons in Hp as [->|Hp]; [done|]. by apply IH'.
      * injection H as <-. apply elem_of_cons in Hp as [->|Hp]; [done|]. by apply IH'.
    + destruct (Rleb (isLeft a b s) 0).
      * destruct (lineSect3D s e a b) as [i|]; [|done]. injection H as <-.
        apply elem_of_cons in Hp as [->|Hp]; [by apply Hsect|]. by apply IH'.
      * injection H as <-. by apply IH'.
Qed.
Lemma clipEdges_plane n P0 clip : forall l out, clipEdges lineSect3D clip l = Ok (Some out) ->
  (forall p, p ∈ l -> in_plane n P0 p) -> forall p, p ∈ out -> in_plane n P0 p.
Proof.
  induction clip as [|a clip IH]; intros l out H Hl.
  - injection H as <-. done.
  - destruct clip as [|b clip]; [injection H as <-; done|]. cbn [clipEdges] in H.
    unfold clipEdge in H. destruct l as [|x l]; [done|].
    destruct (clipLoop lineSect3D a b (List.last (x :: l) vzero) (x :: l)) as [o|] eqn:E; [|done].
    apply (IH o out H). apply (clipLoop_plane a b n P0 _ _ _ E); [|done]. by apply Hl, last_in.
Qed.
(** the result of the version in space: points common to both, in every plane that holds the
    subject; nothing only if nothing is common *)
Theorem compute3D_ok sub clip : weakly_convex sub -> clip <> [] ->
  (exists n, forall fuel, (n <= fuel)%nat -> exists out, compute3DIntersection fuel sub clip = Ok (Some out) /\
     (forall p, p ∈ out -> in_hull sub p /\ inside_edges clip p) /\
     (forall p nn P0, p ∈ out -> (forall q, q ∈ sub -> in_plane nn P0 q) -> in_plane nn P0 p) /\
     (out = [] <-> forall p, ~ (in_hull sub p /\ inside_edges clip p))) \/
  ((forall fuel, compute3DIntersection fuel sub clip = Ub) /\ forall p, ~ (in_hull sub p /\ inside_edges clip p)).
Proof.
  intros Hc Hne. destruct (clipPolygon_ok lineSect3D lineSect3D_ok sub clip Hc Hne) as [(out & H & Hw & Hin)|[H Hno]].
  - left. unfold compute3DIntersection. rewrite H.
    assert (Hpl : forall p nn P0, p ∈ out -> (forall q, q ∈ sub -> in_plane nn P0 q) -> in_plane nn P0 p).
    { intros p nn P0 Hp Hq. revert p Hp. unfold clipPolygon in H. destruct clip as [|a clip]; [done|].
      by apply (clipEdges_plane nn P0 _ _ _ H). }
    destruct (decide (out = [])) as [->|Hout].
    + exists 0%nat. intros fuel _. exists []. split; [done|]. split_and!.
      * intros p Hp. by apply elem_of_nil in Hp.
      * intros p ? ? Hp. by apply elem_of_nil in Hp.
      * split; [|done]. intros _ p Hp. apply Hin in Hp. by apply in_hull_nil in Hp.
    + destruct (convexHull_terminates out Hout) as [n Hn]. exists n. intros fuel Hf.
      destruct (Hn fuel Hf) as (first & m & Hh & Hfirst & Hm & _). exists (first :: m ++ [first]). rewrite Hh.
      assert (Hsub : forall p, p ∈ first :: m ++ [first] -> p ∈ out).
      { intros p Hp. apply elem_of_cons in Hp as [->|Hp]; [done|]. apply elem_of_app in Hp as [Hp|Hp]; [by apply Hm|].
        by apply elem_of_list_singleton in Hp as ->. }
      split; [done|]. split_and!.
      * intros p Hp. apply Hin, in_hull_elem. by apply Hsub.
      * intros p nn P0 Hp Hq. apply Hpl; [by apply Hsub|done].
      * split; [done|]. intros Hno. exfalso. apply (Hno first). by apply Hin, in_hull_elem.
  - right. split; [|done]. intros fuel. unfold compute3DIntersection. by rewrite H.
Qed.

(** ** projection into a polygon *)
Lemma bestOnEdges_spec point proj c n P0 plan : forall best res,
  in_plane n P0 proj -> in_plane n P0 c ->
  (forall d q, best = Some (d, q) -> in_plane n P0 q /\ d = dist3 q point) ->
  bestOnEdges point proj c plan best = res ->
  (forall d q, res = Some (d, q) -> in_plane n P0 q /\ d = dist3 q point).
Proof.
  induction plan as [|a plan IH]; intros best res Hp Hc Hb H.
  - simpl in H. by subst.
  - destruct plan as [|b plan]; [simpl in H; by subst|].
    cbn [bestOnEdges] in H. refine (IH _ res Hp Hc _ H).
    destruct (lineSect3D proj c a b) as [i|] eqn:E; [|done].
    assert (Hi : in_plane n P0 i /\ Rabs (vnorm (vsub i point)) = dist3 i point).
    { split; [destruct (lineSect3D_on_line _ _ _ _ _ E) as [t ->]; by apply plane_line|].
      unfold dist3. apply Rabs_pos_eq. unfold vnorm. apply sqrt_pos. }
    intros d q Hdq. destruct best as [[dm qm]|].
    + destruct (Rltb _ dm); [injection Hdq as <- <-; done|]. by apply Hb.
    + injection Hdq as <- <-. done.
Qed.
Theorem projectInside_plane plan point n P0 d q : vnorm2 n = 1 ->
  (forall v, v ∈ plan -> in_plane n P0 v) ->
  projectPointInsidePlan plan point n P0 = Ok (Some (d, q)) ->
  in_plane n P0 q /\ d = dist3 q point /\ distanceToPlane point n P0 <= d.
Proof.
  intros Hn Hplan H.
  assert (Hall : in_plane n P0 q /\ d = dist3 q point).
  { unfold projectPointInsidePlan in H.
    destruct (containsHull plan _ _).
    - injection H as <- <-. split; [by apply project_in_plane|]. apply Rabs_pos_eq. apply sqrt_pos.
    - destruct (center plan) as [[c|]| |] eqn:E; [|by injection H as H|done|done]. injection H as H.
      refine (bestOnEdges_spec point (projectPointOnPlane point n P0) c n P0 plan None _ _ _ _ H _ _ eq_refl).
      + by apply project_in_plane.
      + destruct plan as [|v [|w vs]]; [done|done|]. by apply (center_in_hull v (w :: vs) c).
      + done. }
  destruct Hall as [Hq ->]. split; [done|]. split; [done|].
  assert (Hsym : dist3 q point = dist3 point q).
  { unfold dist3, vnorm. f_equal. unfold vnorm2, vdot, vsub. simpl. ring. }
  rewrite Hsym, <- (project_distance n P0 Hn). by apply project_nearest.
Qed.
Theorem projectInside_inside plan point n P0 : vnorm2 n = 1 -> convex_polygon plan ->
  in_hull plan (projectPointOnPlane point n P0) ->
  projectPointInsidePlan plan point n P0 = Ok (Some (distanceToPlane point n P0, projectPointOnPlane point n P0)).
Proof.
  intros Hn Hc Hin. unfold projectPointInsidePlan.
  assert (containsHull plan (projectPointOnPlane point n P0) (1 / 10000) = true) as -> by by apply containsHull_ok.
  f_equal. f_equal. f_equal. rewrite <- (project_distance n P0 Hn). rewrite Rabs_pos_eq by apply sqrt_pos.
  unfold dist3, vnorm. f_equal. unfold vnorm2, vdot, vsub. simpl. ring.
Qed.
(** whenever the polygon has a centre different from the projection the search writes a
    result: a closed polygon has an edge whose line is not parallel to the direction *)
Lemma bestOnEdges_some point proj c plan : forall best, is_Some best -> is_Some (bestOnEdges point proj c plan best).
Proof.
  induction plan as [|a plan IH]; intros best Hb; [done|]. destruct plan as [|b plan]; [done|].
  cbn [bestOnEdges]. apply IH. destruct (lineSect3D proj c a b); [|done]. destruct best as [[? ?]|]; [|done]. by destruct (Rltb _ _).
Qed.
Lemma bestOnEdges_none point proj c plan : bestOnEdges point proj c plan None = None ->
  forall a b, (a, b) ∈ edges plan -> lineSect3D proj c a b = None.
Proof.
  induction plan as [|x plan IH]; intros H a b Hab; [by apply elem_of_nil in Hab|].
  destruct plan as [|y plan]; [by apply elem_of_nil in Hab|].
  cbn [bestOnEdges] in H. cbn [edges] in Hab. destruct (lineSect3D proj c x y) as [i|] eqn:E.
  - exfalso. destruct (bestOnEdges_some point proj c (y :: plan) (Some (Rabs (vnorm (vsub i point)), i))) as [? Hs]; [eauto|].
    assert (H' : bestOnEdges point proj c (y :: plan) (Some (Rabs (vnorm (vsub i point)), i)) = None) by exact H.
    by rewrite Hs in H'.
  - apply elem_of_cons in Hab as [Hab|Hab]; [by injection Hab as -> ->|]. by apply IH.
Qed.
Lemma lineSect3D_none s e a b : lineSect3D s e a b = None -> isLeft a b s = isLeft a b e.
Proof.
  intros H. destruct (Req_EM_T (isLeft a b s) (isLeft a b e)) as [|Hne]; [done|].
  by rewrite lineSect3D_segment in H.
Qed.
Theorem projectInside_defined plan point n P0 : convex_polygon plan ->
  exists d q, projectPointInsidePlan plan point n P0 = Ok (Some (d, q)).
Proof.
  intros Hc. unfold projectPointInsidePlan. set (proj := projectPointOnPlane point n P0).
  destruct (containsHull plan proj (1 / 10000)) eqn:Econt; [eauto|].
  assert (Hnot : ~ in_hull plan proj) by (rewrite <- (containsHull_ok plan proj (1/10000)) by done; by rewrite Econt).
  pose proof Hc as [(v & vs & Hplan & Hlen & Hnd) Hright].
  assert (Hcen : exists c, center plan = Ok (Some c)).
  { rewrite Hplan. unfold center. assert (Hr : removelast (v :: vs ++ [v]) = v :: vs) by (rewrite app_comm_cons; apply removelast_last).
    rewrite Hr. cbn [length Nat.eqb]. eauto. }
  destruct Hcen as [c Hcen]. rewrite Hcen.
  assert (Hcin : in_hull plan c). { rewrite Hplan in Hcen |- *. apply (center_in_hull v (vs ++ [v])); [by destruct vs|done]. }
  destruct (bestOnEdges point proj c plan None) as [[d q]|] eqn:E; [eauto|]. exfalso.
  pose proof (bestOnEdges_none _ _ _ _ E) as Hnone. apply Hnot. apply polygon_membership; [done|].
  intros a b Hab. rewrite (lineSect3D_none _ _ _ _ (Hnone a b Hab)).
  by apply polygon_membership in Hcin; [apply Hcin|done].
Qed.

(** ** a mesh and a plane *)
Lemma planePoints_in tris Pn P0 p : p ∈ planePoints tris Pn P0 <->
  exists s e, mesh_edge tris s e /\ p ∈ intersectSegmentPlane s e Pn P0.
Proof.
  unfold planePoints. rewrite elem_of_list_In, in_concat. split.
  - intros (l & Hl & Hp). apply in_map_iff in Hl as ([[a b] c] & <- & Ht). apply elem_of_list_In in Ht, Hp.
    rewrite !elem_of_app in Hp. destruct Hp as [Hp|[Hp|Hp]]; [exists a, b|exists b, c|exists c, a]; (split; [|done]); exists a, b, c; auto.
  - intros (s & e & (a & b & c & Ht & Hse) & Hp). eexists. split.
    + apply in_map_iff. exists (a, b, c). split; [done|by apply elem_of_list_In].
    + apply elem_of_list_In. rewrite !elem_of_app.
      destruct Hse as [Hse|[Hse|Hse]]; injection Hse as -> ->; auto.
Qed.
Theorem intersectPolygonePlane_ok polygone a b c rest : vcross (vsub b a) (vsub c a) <> vzero ->
  exists n, forall fuel, (n <= fuel)%nat -> exists out, intersectPolygonePlane fuel polygone ((a, b, c) :: rest) = Ok (Some out) /\
    (forall p, p ∈ out -> exists s e, mesh_edge polygone s e /\ on_segment s e p /\
       let N := normalize (vcross (vsub b a) (vsub c a)) in
       vnorm2 N = 1 /\ distanceToPlane p N a < 2 * EPSILON) /\
    (forall s e p, mesh_edge polygone s e -> on_segment s e p ->
       in_plane (normalize (vcross (vsub b a) (vsub c a))) a p -> out <> []) /\
    (out <> [] -> exists first m, out = first :: m ++ [first]).
Proof.
  intros Hn. unfold intersectPolygonePlane, computePlanEquation, TriangleNormal. cbn [fst].
  set (N := normalize (vcross (vsub b a) (vsub c a))).
  assert (HN : vnorm2 N = 1) by by apply normalize_unit.
  assert (Hpt : forall p, p ∈ planePoints polygone N a -> exists s e, mesh_edge polygone s e /\ on_segment s e p /\ vnorm2 N = 1 /\ distanceToPlane p N a < 2 * EPSILON).
  { intros p Hp. apply planePoints_in in Hp as (s & e & He & Hp). exists s, e. split; [done|]. split; [by apply (segment_plane_on_segment _ _ _ _ _ Hp)|].
    split; [done|]. destruct (segment_plane_near _ _ _ _ _ Hp) as [H _]. unfold distanceToPlane.
    assert (vdot (vsub p a) N = vdot N (vsub p a)) as -> by (unfold vdot; ring). done. }
  assert (Hcomp : forall s e p, mesh_edge polygone s e -> on_segment s e p -> in_plane N a p -> planePoints polygone N a <> []).
  { intros s e p He Hp Hpl Hnil. pose proof (segment_plane_complete _ _ _ _ _ Hp Hpl) as Hc.
    destruct (intersectSegmentPlane s e N a) as [|x ?] eqn:E; [done|].
    assert (Hx : x ∈ planePoints polygone N a).
    { apply planePoints_in. exists s, e. split; [done|]. rewrite E. apply elem_of_cons. by left. }
    rewrite Hnil in Hx. by apply elem_of_nil in Hx. }
  destruct (planePoints polygone N a) as [|x pts] eqn:E.
  - exists 0%nat. intros fuel _. exists []. split; [done|]. split_and!; [intros p Hp; by apply elem_of_nil in Hp|done|done].
  - destruct (convexHull_terminates (x :: pts)) as [n Hh]; [done|]. exists n. intros fuel Hf.
    destruct (Hh fuel Hf) as (first & m & Heq & Hfirst & Hm & _). exists (first :: m ++ [first]). rewrite Heq.
    split; [done|]. split_and!; [|done|eauto].
    intros p Hp. apply Hpt. apply elem_of_cons in Hp as [->|Hp]; [done|]. apply elem_of_app in Hp as [Hp|Hp]; [by apply Hm|].
    by apply elem_of_list_singleton in Hp as ->.
Qed.

(** ** two triangles *)
Lemma separate_ok dt n p1 p2 : separate dt = Ok (n, p1, p2) ->
  n ∈ dt /\ p1 ∈ dt /\ p2 ∈ dt /\ fst n < 0 /\ 0 <= fst p1 /\ 0 <= fst p2.
Proof.
  unfold separate. set (pos := List.filter _ dt). set (neg := List.filter _ dt).
  assert (Hneg : forall x, x ∈ neg -> x ∈ dt /\ fst x < 0).
  { intros x Hx. apply elem_of_list_In, filter_In in Hx as [Hx Hlt]. split; [by apply elem_of_list_In|by apply Rltb_true in Hlt]. }
  assert (Hpos : forall x, x ∈ pos -> x ∈ dt /\ 0 <= fst x).
  { intros x Hx. apply elem_of_list_In, filter_In in Hx as [Hx Hlt]. split; [by apply elem_of_list_In|].
    apply negb_true_iff, Rltb_false in Hlt. lra. }
  destruct pos as [|q1 [|q2 [|? ?]]]; [done|done| |done].
  destruct (List.last (map Some neg) None) as [x|] eqn:E; [|done]. intros H. injection H as <- <- <-.
  assert (Hx : x ∈ neg).
  { destruct neg as [|y neg'] eqn:En; [done|]. rewrite <- En in E |- *.
    assert (Hin : In (List.last (map Some neg) None) (map Some neg)).
    { destruct (exists_last (l := map Some neg)) as (l' & z & Hz); [rewrite En; done|]. rewrite Hz, last_last. apply in_or_app. right. by left. }
    rewrite E in Hin. apply in_map_iff in Hin as (z & Hz & Hin). injection Hz as ->. by apply elem_of_list_In. }
  destruct (Hneg x Hx). destruct (Hpos q1) as [? ?]; [apply elem_of_cons; by left|].
  destruct (Hpos q2) as [? ?]; [apply elem_of_cons; right; apply elem_of_list_singleton; done|]. done.
Qed.
Lemma crossing_point N T p q dp dq : dp < 0 -> 0 <= dq ->
  (dp = vdot N p - T /\ dq = vdot N q - T \/ dp = - (vdot N p - T) /\ dq = - (vdot N q - T)) ->
  let i := vadd p (vscale (dp / (dp - dq)) (vsub q p)) in
  on_segment p q i /\ vdot N i = T.
Proof.
  intros Hp Hq Hd i. assert (Hne : dp - dq < 0) by lra. split.
  - exists (dp / (dp - dq)). split; [|done].
    assert (Ht : dp / (dp - dq) = - dp / (dq - dp)) by (field; lra). rewrite Ht. split.
    + apply Rmult_le_pos; [lra|]. apply Rlt_le, Rinv_0_lt_compat. lra.
    + apply Rmult_le_reg_r with (dq - dp); [lra|]. unfold Rdiv. rewrite Rmult_assoc, Rinv_l by lra. lra.
  - assert (Hi : vdot N i = vdot N p + dp / (dp - dq) * (vdot N q - vdot N p)).
    { unfold i, vdot, vadd, vscale, vsub. simpl. ring. }
    rewrite Hi. destruct Hd as [[H1 H2]|[H1 H2]].
    + assert (vdot N p = dp + T) as -> by lra. assert (vdot N q = dq + T) as -> by lra. field. lra.
    + assert (vdot N p = T - dp) as -> by lra. assert (vdot N q = T - dq) as -> by lra. field. lra.
Qed.
Theorem intersectTriangles_sound tri tri2 res p : intersectTriangles tri tri2 = Ok res -> p ∈ res ->
  (exists s e, triangle_edge tri s e /\ on_segment s e p) /\
  in_plane (TriangleNormal tri2) (tri2.1.1) p /\ insideTriangle tri2.1.1 tri2.1.2 tri2.2 p = true.
Proof.
  destruct tri as [[a b] c], tri2 as [[a2 b2] c2]. unfold intersectTriangles. cbn [fst snd].
  set (N := TriangleNormal (a2, b2, c2)). set (T := vdot N a2).
  set (dist := map (distanceToPlaneOffset N T) [a; b; c]).
  destruct (2 <? penetrating dist)%nat; [intros H; injection H as <-; intros Hp; by apply elem_of_nil in Hp|].
  set (dist' := if (penetrating dist =? 2)%nat then map Ropp dist else dist).
  destruct (separate (zip dist' [a; b; c])) as [[[[dneg pneg] [dp1 pp1]] [dp2 pp2]]| |] eqn:E; [|done|done].
  destruct (separate_ok _ _ _ _ E) as (H1 & H2 & H3 & Hn & Hp1 & Hp2). cbn [fst] in Hn, Hp1, Hp2.
  set (i1 := vadd pneg _). set (i2 := vadd pneg _). intros H Hp. injection H as <-.
  assert (Hz : exists sg, (sg = 1 \/ sg = -1) /\ forall d v, (d, v) ∈ zip dist' [a; b; c] ->
    v ∈ [a; b; c] /\ d = sg * (vdot N v - T)).
  { unfold dist', dist. destruct (_ =? 2)%nat; [exists (-1)|exists 1]; (split; [tauto|]);
      intros d v Hin; cbn [map zip_with] in Hin; unfold distanceToPlaneOffset in Hin;
      repeat (apply elem_of_cons in Hin as [Hin|Hin]; [injection Hin as -> ->; split; [rewrite !elem_of_cons; tauto|ring]|]);
      by apply elem_of_nil in Hin. }
  destruct Hz as (sg & Hsg & Hz).
  destruct (Hz _ _ H1) as [Hv1 Hd1]. destruct (Hz _ _ H2) as [Hv2 Hd2]. destruct (Hz _ _ H3) as [Hv3 Hd3].
  assert (Hin : (p = i1 /\ insideTriangle a2 b2 c2 i1 = true) \/ (p = i2 /\ insideTriangle a2 b2 c2 i2 = true)).
  { apply elem_of_app in Hp as [Hp|Hp].
    - destruct (insideTriangle a2 b2 c2 i1); [left|by apply elem_of_nil in Hp]. by apply elem_of_list_singleton in Hp.
    - destruct (insideTriangle a2 b2 c2 i2); [right|by apply elem_of_nil in Hp]. by apply elem_of_list_singleton in Hp. }
  assert (Hplane : forall v, vdot N v = T -> in_plane N a2 v).
  { intros v Hv. unfold in_plane. assert (vdot N (vsub v a2) = vdot N v - T) as -> by (unfold T, vdot, vsub; simpl; ring). lra. }
  destruct Hin as [[-> Hin]|[-> Hin]].
  - destruct (crossing_point N T pneg pp1 dneg dp1 Hn Hp1) as [Hs Hd]; [destruct Hsg as [->| ->]; [left|right]; split; lra|].
    split; [exists pneg, pp1; split; [split; done|done]|]. split; [by apply Hplane|done].
  - destruct (crossing_point N T pneg pp2 dneg dp2 Hn Hp2) as [Hs Hd]; [destruct Hsg as [->| ->]; [left|right]; split; lra|].
    split; [exists pneg, pp2; split; [split; done|done]|]. split; [by apply Hplane|done].
Qed.
(** all vertices well over the plane of the other triangle: a fourth array element is written *)
Theorem intersectTriangles_apart a b c tri2 : 
  (forall v, v ∈ [a; b; c] -> EPSILON <= distanceToPlaneOffset (TriangleNormal tri2) (vdot (TriangleNormal tri2) tri2.1.1) v) ->
  intersectTriangles (a, b, c) tri2 = Ub.
Proof.
  destruct tri2 as [[a2 b2] c2]. intros H. cbn [fst] in H. unfold intersectTriangles.
  set (N := TriangleNormal (a2, b2, c2)) in *. set (T := vdot N a2) in *.
  assert (He : 0 < EPSILON) by (unfold EPSILON; lra).
  pose proof (H a ltac:(rewrite !elem_of_cons; tauto)) as Ha. pose proof (H b ltac:(rewrite !elem_of_cons; tauto)) as Hb.
  pose proof (H c ltac:(rewrite !elem_of_cons; tauto)) as Hc.
  assert (Hf : forall x y, y <= x -> Rltb x y = false) by (intros; by apply Rltb_false).
  assert (penetrating (map (distanceToPlaneOffset N T) [a; b; c]) = 0%nat) as ->.
  { unfold penetrating. cbn [map List.filter]. rewrite !Hf by lra. done. }
  cbn [Nat.ltb Nat.leb Nat.eqb]. unfold separate. cbn [map zip_with List.filter fst].
  rewrite !Hf by lra. done.
Qed.
(** strictly on both sides of the plane: all points where its sides meet the other triangle
    are reported *)
Lemma triangle_in_plane a b c p : in_triangle3 (a, b, c) p ->
  vdot (TriangleNormal (a, b, c)) p = vdot (TriangleNormal (a, b, c)) a.
Proof.
  intros (u & v & w & _ & _ & _ & Hs & ->). cbn [fst snd]. cbn [TriangleNormal].
  assert (Hu : u = 1 - v - w) by lra. subst u. unfold normalize. destruct (Rltb 0 _);
    unfold vdot, vadd, vscale, vcross, vsub; simpl; ring.
Qed.
Lemma cross_unique N T s e t ds de : ds = vdot N s - T -> de = vdot N e - T ->
  vdot N (vadd s (vscale t (vsub e s))) = T -> ds <> de ->
  vadd s (vscale t (vsub e s)) = vadd s (vscale (ds / (ds - de)) (vsub e s)) /\
  vadd s (vscale t (vsub e s)) = vadd e (vscale (de / (de - ds)) (vsub s e)).
Proof.
  intros Hs He Hp Hne.
  assert (Hd : (1 - t) * ds + t * de = 0).
  { assert (vdot N (vadd s (vscale t (vsub e s))) = (1 - t) * vdot N s + t * vdot N e) as Heq
      by (unfold vdot, vadd, vscale, vsub; simpl; ring). rewrite Heq in Hp. subst ds de. lra. }
  assert (Ht : t = ds / (ds - de)).
  { apply Rmult_eq_reg_r with (ds - de); [|lra]. unfold Rdiv. rewrite Rmult_assoc, Rinv_l by lra. lra. }
  assert (Ht' : 1 - t = de / (de - ds)).
  { apply Rmult_eq_reg_r with (de - ds); [|lra]. unfold Rdiv. rewrite Rmult_assoc, Rinv_l by lra. lra. }
  split; [by rewrite <- Ht|]. rewrite <- Ht'. unfold vadd, vscale, vsub. f_equal; simpl; ring.
Qed.
Theorem intersectTriangles_complete a b c tri2 : 
  let d := distanceToPlaneOffset (TriangleNormal tri2) (vdot (TriangleNormal tri2) tri2.1.1) in
  straddles (d a) (d b) (d c) ->
  exists res, intersectTriangles (a, b, c) tri2 = Ok res /\
    forall s e p, triangle_edge (a, b, c) s e -> on_segment s e p -> in_triangle3 tri2 p -> p ∈ res.
Proof.
  destruct tri2 as [[a2 b2] c2]. cbn [fst]. set (N := TriangleNormal (a2, b2, c2)). set (T := vdot N a2).
  intros Hst. unfold straddles in Hst. change (1 / 100000) with EPSILON in Hst. set (d := distanceToPlaneOffset N T) in *. assert (He : 0 < EPSILON) by (unfold EPSILON; lra).
  assert (Hf : forall x y, y <= x -> Rltb x y = false) by (intros; by apply Rltb_false).
  assert (Ht : forall x y, x < y -> Rltb x y = true) by (intros; by apply Rltb_true).
  assert (Hgen : forall P q1 q2, 
    (forall v, v ∈ [a; b; c] -> v = P \/ v = q1 \/ v = q2) ->
    (d P < 0 /\ 0 < d q1 /\ 0 < d q2 \/ 0 < d P /\ d q1 < 0 /\ d q2 < 0) ->
    forall s e p, triangle_edge (a, b, c) s e -> on_segment s e p -> vdot N p = T ->
    p = vadd P (vscale (d P / (d P - d q1)) (vsub q1 P)) \/ p = vadd P (vscale (d P / (d P - d q2)) (vsub q2 P))).
  { intros P q1 q2 Hcov Hsign s e p [Hs Hee] (t & Htt & ->) Hp. cbn [fst snd] in Hs, Hee.
    pose proof (Hcov s Hs) as Hs'. pose proof (Hcov e Hee) as He'.
    assert (Hlin : (1 - t) * d s + t * d e = 0).
    { assert (vdot N (vadd s (vscale t (vsub e s))) = (1 - t) * vdot N s + t * vdot N e) as Heq
        by (unfold vdot, vadd, vscale, vsub; simpl; ring). rewrite Heq in Hp. unfold d, distanceToPlaneOffset. lra. }
    assert (Hpos : forall x y, 0 < x -> 0 < y -> (1 - t) * x + t * y <> 0).
    { intros x y Hx Hy. destruct (Rle_dec t (1/2)).
      - assert (1/2 * x <= (1 - t) * x) by (apply Rmult_le_compat_r; lra). assert (0 <= t * y) by (apply Rmult_le_pos; lra). lra.
      - assert (1/2 * y <= t * y) by (apply Rmult_le_compat_r; lra). assert (0 <= (1 - t) * x) by (apply Rmult_le_pos; lra). lra. }
    assert (Hneg : forall x y, x < 0 -> y < 0 -> (1 - t) * x + t * y <> 0).
    { intros x y Hx Hy Hz. apply (Hpos (- x) (- y)); lra. }
    assert (Hcase : forall q, q = q1 \/ q = q2 -> s = P /\ e = q \/ s = q /\ e = P ->
      vadd s (vscale t (vsub e s)) = vadd P (vscale (d P / (d P - d q)) (vsub q P))).
    { intros q Hq Hse. assert (Hdne : d P <> d q) by (destruct Hq as [-> | ->]; destruct Hsign; lra).
      destruct Hse as [[-> ->]|[-> ->]].
      - by apply (cross_unique N T P q t (d P) (d q)).
      - apply (cross_unique N T q P t (d q) (d P)); auto. }
    assert (Hsame : forall x y, (x = s /\ y = e) -> (0 < d x /\ 0 < d y) \/ (d x < 0 /\ d y < 0) -> False).
    { intros x y [-> ->] [[H1 H2]|[H1 H2]]; [by apply (Hpos _ _ H1 H2)|by apply (Hneg _ _ H1 H2)]. }
    destruct Hs' as [Es|[Es|Es]], He' as [Ee|[Ee|Ee]];
      try (left; apply Hcase; auto; fail); try (right; apply Hcase; auto; fail);
      exfalso; apply (Hsame s e); [done| | done | | done | | done | | done |]; rewrite Es, Ee; destruct Hsign; tauto. }
  assert (Hres : forall P q1 q2 res, 
    (forall v, v ∈ [a; b; c] -> v = P \/ v = q1 \/ v = q2) ->
    (d P < 0 /\ 0 < d q1 /\ 0 < d q2 \/ 0 < d P /\ d q1 < 0 /\ d q2 < 0) ->
    (forall i1 i2, i1 = vadd P (vscale (d P / (d P - d q1)) (vsub q1 P)) -> i2 = vadd P (vscale (d P / (d P - d q2)) (vsub q2 P)) ->
      res = (if insideTriangle a2 b2 c2 i1 then [i1] else []) ++ (if insideTriangle a2 b2 c2 i2 then [i2] else [])) ->
    forall s e p, triangle_edge (a, b, c) s e -> on_segment s e p -> in_triangle3 (a2, b2, c2) p -> p ∈ res).
  { intros P q1 q2 res Hcov Hsign Hr s e p Hse Hp Hin.
    rewrite (Hr _ _ eq_refl eq_refl).
    pose proof (insideTriangle_complete _ _ _ _ Hin) as Hins.
    destruct (Hgen P q1 q2 Hcov Hsign s e p Hse Hp (triangle_in_plane _ _ _ _ Hin)) as [<-|<-]; rewrite Hins;
      apply elem_of_app; [left|right]; by apply elem_of_list_singleton. }
  unfold intersectTriangles. fold N. fold T.
  change (map (distanceToPlaneOffset N T) [a; b; c]) with [d a; d b; d c].
  assert (Hopp : forall x y, x <> y -> - x / (- x - - y) = x / (x - y)) by (intros; field; split; lra).
  unfold penetrating. cbn [List.filter].
  destruct Hst as [(H1 & H2 & H3)|[(H1 & H2 & H3)|[(H1 & H2 & H3)|[(H1 & H2 & H3)|[(H1 & H2 & H3)|(H1 & H2 & H3)]]]]];
    repeat first [rewrite Hf by lra | rewrite Ht by lra];
    cbn [length Nat.ltb Nat.leb Nat.eqb map zip_with]; unfold separate; cbn [List.filter fst];
    repeat first [rewrite Hf by lra | rewrite Ht by lra]; cbn [negb List.last map];
    (eexists; split; [reflexivity|]).
  - apply (Hres a b c); [intros v; rewrite !elem_of_cons, elem_of_nil; tauto|left; lra|by intros i1 i2 -> ->].
  - apply (Hres b a c); [intros v; rewrite !elem_of_cons, elem_of_nil; tauto|left; lra|by intros i1 i2 -> ->].
  - apply (Hres c a b); [intros v; rewrite !elem_of_cons, elem_of_nil; tauto|left; lra|by intros i1 i2 -> ->].
  - apply (Hres a b c); [intros v; rewrite !elem_of_cons, elem_of_nil; tauto|right; lra|intros i1 i2 -> ->; by rewrite !Hopp by lra].
  - apply (Hres b a c); [intros v; rewrite !elem_of_cons, elem_of_nil; tauto|right; lra|intros i1 i2 -> ->; by rewrite !Hopp by lra].
  - apply (Hres c a b); [intros v; rewrite !elem_of_cons, elem_of_nil; tauto|right; lra|intros i1 i2 -> ->; by rewrite !Hopp by lra].
Qed.
