(** Proofs about the contact surface: sections inside the obstacle, the contact point. *)
From Verif Require Import VecProofs NodeModel NodeSpec NodeProofs3 ProjModel GeomModel GeomSpec GeomInt GeomProofs GeomProofs2 GeomProofs3 GeomProofs4 GeomProofs5 GeomProofs6 GeomProofs7 GeomExamples SurfModel SurfSpec SurfProofs SurfProofs2.
Local Open Scope R_scope.

Lemma surface_step fuel Trom rom Tenv env n a r plane hull : support Tenv env n a ->
  allTriangles (verts (GetModel Trom rom)) (tris rom) = Ok r -> planePoints r n a <> [] ->
  convexHull fuel (planePoints r n a) = Some plane -> convexHull fuel (points_of Tenv env) = Some hull ->
  computeIntersectionSurface fuel Trom rom Tenv env =
    match compute3DIntersection fuel plane hull with Ok (Some inter) => Ok (Some (n, inter)) | Ok None => Ok None | Throw => Throw | Ub => Ub end.
Proof.
  intros Hs Hr Hne H1 H2. destruct (support_normal _ _ _ _ Hs) as (t & ts & b & c & Ht & Htp & HN & Hc & Hx).
  unfold computeIntersectionSurface. cbn zeta. change (tris (GetModel Tenv env)) with (tris env).
  change (tris (GetModel Trom rom)) with (tris rom). rewrite Hr. cbn [nbind]. rewrite Ht, Htp. cbn [nbind]. rewrite HN.
  unfold intersectPolygonePlane, computePlanEquation. rewrite HN. cbn [fst].
  destruct (convexHull_any _ _ _ H1) as [_ Hcl]. destruct (Hcl Hne) as (v & vs & Hv).
  destruct (planePoints r n a) as [|x pts]; [done|]. rewrite H1. unfold convertBVH.
  change (verts (GetModel Tenv env)) with (points_of Tenv env). rewrite H2. rewrite Hv. done.
Qed.
Lemma hullLoop_det f1 : forall f2 p0 l res h h1 h2, hullLoop f1 p0 l res h = Some h1 -> hullLoop f2 p0 l res h = Some h2 -> h1 = h2.
Proof.
  induction f1 as [|f1 IH]; intros f2 p0 l res h h1 h2 E1 E2; [done|]. destruct f2 as [|f2]; [done|]. cbn [hullLoop] in E1, E2.
  destruct (veqb _ _); [congruence|]. by eapply IH.
Qed.
Lemma hull_det f1 f2 l h1 h2 : convexHull f1 l = Some h1 -> convexHull f2 l = Some h2 -> h1 = h2.
Proof. destruct l as [|p0 l]; cbn [convexHull]; [congruence|]. apply hullLoop_det. Qed.

(** the section is inside the obstacle: the surface is the section *)
Theorem surface_whole Trom rom Tenv env n a S : support Tenv env n a -> well_formed rom -> transversal Trom rom n a ->
  (forall p, p ∈ S <-> crossing Trom rom n a p) ->
  general_position S -> three_points S -> general_position (points_of Tenv env) -> three_points (points_of Tenv env) ->
  (forall p, p ∈ S -> in_hull (points_of Tenv env) p) ->
  exists N out, convex_polygon out /\ (forall p, p ∈ out -> p ∈ S) /\ (forall p, in_hull out p <-> in_hull S p) /\
    forall fuel, (N <= fuel)%nat -> computeIntersectionSurface fuel Trom rom Tenv env = Ok (Some (n, out)).
Proof.
  intros Hs Hw Htr HS HgS H3S HgE H3E Hin.
  destruct (allTriangles_ok Trom rom (tris rom)) as [r Hr]; [exact Hw|].
  set (pts := planePoints r n a).
  assert (HP : forall p, p ∈ S <-> p ∈ pts) by (intros p; rewrite HS; unfold pts; by rewrite (section_points _ _ _ _ _ _ Hr Htr)).
  assert (Hne : pts <> []).
  { destruct H3S as (p & _ & _ & Hp & _). apply HP in Hp. intros E. rewrite E in Hp. by apply elem_of_nil in Hp. }
  pose proof (gp_ext _ _ HP HgS) as HgP. pose proof (three_ext _ _ HP H3S) as H3P.
  destruct (hull_encloses pts HgP H3P) as [N1 H1]. destruct (hull_encloses (points_of Tenv env) HgE H3E) as [N2 H2].
  destruct (H1 N1 (le_n _)) as (plane & Hp1 & Hcv1 & Hsub1 & _ & Heq1).
  destruct (H2 N2 (le_n _)) as (hull & Hp2 & Hcv2 & Hsub2 & _ & Heq2).
  assert (Hclip : hull <> []) by (destruct Hcv2 as [(v & vs & -> & _) _]; done).
  assert (Hpne : plane <> []) by (destruct Hcv1 as [(v & vs & -> & _) _]; done).
  assert (HgQ : general_position plane).
  { destruct HgP as [G1 G2]. split; [intros x y Hx Hy; apply G1; by apply Hsub1|]. intros x y z Hx Hy Hz. apply G2; by apply Hsub1. }
  assert (H3Q : three_points plane).
  { destruct Hcv1 as [(v & vs & -> & Hlen & Hnd) _]. destruct vs as [|x [|y vs]]; [simpl in Hlen; lia|simpl in Hlen; lia|].
    apply NoDup_cons in Hnd as [Hv Hnd]. apply NoDup_cons in Hnd as [Hx _].
    rewrite !elem_of_cons in Hv. rewrite elem_of_cons in Hx.
    exists v, x, y. split_and!.
    - apply elem_of_cons. by left.
    - apply elem_of_cons. right. apply elem_of_cons. by left.
    - apply elem_of_cons. right. apply elem_of_cons. right. apply elem_of_cons. by left.
    - intros ->. apply Hv. by left.
    - intros ->. apply Hx. by left.
    - intros ->. apply Hv. right. by left. }
  destruct (hull_encloses plane HgQ H3Q) as [N3 H3]. destruct (H3 N3 (le_n _)) as (out & Hp3 & Hcv3 & Hsub3 & _ & Heq3).
  exists (N1 + N2 + N3)%nat, out. split; [done|]. split; [intros p Hp; by apply HP, Hsub1, Hsub3|]. split.
  { intros p. rewrite Heq3, Heq1. split; apply hull_ext; intros q; by rewrite HP. }
  intros fuel Hf.
  destruct (H1 fuel ltac:(lia)) as (plane' & Hp1' & _). assert (plane' = plane) as -> by (by eapply hull_det).
  destruct (H2 fuel ltac:(lia)) as (hull' & Hp2' & _). assert (hull' = hull) as -> by (by eapply hull_det).
  destruct (H3 fuel ltac:(lia)) as (out' & Hp3' & _). assert (out' = out) as -> by (by eapply hull_det).
  rewrite (surface_step _ _ _ _ _ _ _ _ _ _ Hs Hr Hne Hp1' Hp2'). unfold compute3DIntersection.
  rewrite (clipPolygon_unchanged lineSect3D plane hull Hpne Hclip).
  - by rewrite Hp3'.
  - intros p Hp. apply polygon_membership; [done|]. apply Heq2, Hin, HP, Hsub1, Hp.
Qed.

(** one point of contact *)
Lemma hull_of_one fuel (v : vec3) l : l <> [] -> (forall p, p ∈ l -> p = v) -> convexHull (S fuel) l = Some [v; v].
Proof.
  intros Hne H. destruct l as [|p0 l]; [done|]. cbn [convexHull].
  assert (p0 = v) as -> by (apply H, elem_of_cons; by left).
  assert (Hm : leftMostFrom v l = v).
  { pose proof (leftMost_in v l) as Hi. by apply H. }
  rewrite Hm. cbn [hullLoop].
  assert (Hs : scan v [] v l = v).
  { destruct (scan_cases v [] l v) as [E|[E _]]; [done|]. apply H, elem_of_cons. by right. }
  rewrite Hs. assert (veqb v (front ([] ++ [v])) = true) as -> by (apply veqb_true; reflexivity). done.
Qed.
Theorem surface_one Trom rom Tenv env n a v : support Tenv env n a -> well_formed rom -> transversal Trom rom n a ->
  (forall p, crossing Trom rom n a p <-> p = v) ->
  general_position (points_of Tenv env) -> three_points (points_of Tenv env) -> in_hull (points_of Tenv env) v ->
  exists N, forall fuel, (N <= fuel)%nat -> computeIntersectionSurface fuel Trom rom Tenv env = Ok (Some (n, [v; v])).
Proof.
  intros Hs Hw Htr HS HgE H3E Hin.
  destruct (allTriangles_ok Trom rom (tris rom)) as [r Hr]; [exact Hw|].
  assert (HP : forall p, p ∈ planePoints r n a <-> p = v) by (intros p; by rewrite (section_points _ _ _ _ _ _ Hr Htr)).
  assert (Hne : planePoints r n a <> []).
  { intros E. assert (Hv : v ∈ planePoints r n a) by by apply HP. rewrite E in Hv. by apply elem_of_nil in Hv. }
  destruct (hull_encloses (points_of Tenv env) HgE H3E) as [N2 H2]. exists (S N2). intros fuel Hf. destruct fuel as [|fuel]; [lia|].
  destruct (H2 (S fuel) ltac:(lia)) as (hull & Hp2 & Hcv2 & Hsub2 & _ & Heq2).
  assert (Hclip : hull <> []) by (destruct Hcv2 as [(x & vs & -> & _) _]; done).
  assert (H1 : convexHull (S fuel) (planePoints r n a) = Some [v; v]) by (apply hull_of_one; [done|intros p Hp; by apply HP]).
  rewrite (surface_step _ _ _ _ _ _ _ _ _ _ Hs Hr Hne H1 Hp2). unfold compute3DIntersection.
  assert (Hall : forall p, p ∈ [v; v] -> p = v).
  { intros p Hp. apply elem_of_cons in Hp as [->|Hp]; [done|]. by apply elem_of_list_singleton in Hp. }
  rewrite (clipPolygon_unchanged lineSect3D [v; v] hull); [|done|done|].
  - by rewrite (hull_of_one _ v).
  - intros p Hp. rewrite (Hall p Hp). apply polygon_membership; [done|]. by apply Heq2.
Qed.

(** * The contact point *)
(** the reference projects inside the surface *)
Theorem contact_inside fuel ref q Trom rom Tenv env n v vs r p : ref <> vzero -> reference_at q ref r ->
  computeIntersectionSurface fuel Trom rom Tenv env = Ok (Some (n, v :: vs ++ [v])) ->
  vnorm2 n = 1 -> convex_polygon (v :: vs ++ [v]) ->
  in_plane n v p -> (exists d, vsub r p = vscale d n) -> in_hull (v :: vs ++ [v]) p ->
  approximateContactPoint fuel ref q Trom rom Tenv env = Ok (Some (Guess n (Some p))) /\
  surfaceDistance fuel ref q Trom rom Tenv env = Ok (Some (Some (dist3 p r))) /\
  forall x, in_plane n v x -> dist3 r p <= dist3 r x.
Proof.
  intros Hr Ha H Hn Hc Hp (d & Hd) Hin.
  assert (Hproj : projectPointOnPlane r n v = p).
  { assert (Er : r = vadd p (vscale d n)).
    { assert (Hx : vx r - vx p = d * vx n) by (change (vx (vsub r p) = vx (vscale d n)); by rewrite Hd).
      assert (Hy : vy r - vy p = d * vy n) by (change (vy (vsub r p) = vy (vscale d n)); by rewrite Hd).
      assert (Hz : vz r - vz p = d * vz n) by (change (vz (vsub r p) = vz (vscale d n)); by rewrite Hd).
      destruct r, p, n. unfold vadd, vscale. cbn in *. f_equal; lra. }
    unfold projectPointOnPlane. assert (E : vdot (vsub r v) n = d).
    { rewrite Er. replace (vdot (vsub (vadd p (vscale d n)) v) n) with (vdot n (vsub p v) + d * vnorm2 n)
        by (unfold vnorm2, vdot, vsub, vadd, vscale; cbn; ring). unfold in_plane in Hp. rewrite Hp, Hn. ring. }
    rewrite E, Er. destruct p, n. unfold vsub, vadd, vscale. cbn. f_equal; ring. }
  assert (E : projectPointInsidePlan (v :: vs ++ [v]) r n v = Ok (Some (distanceToPlane r n v, p))).
  { rewrite <- Hproj. rewrite (projectInside_inside _ r n v Hn Hc); [done|by rewrite Hproj]. }
  destruct (projection_all n v Hn r) as (_ & _ & Hdist & Hmin & _). rewrite Hproj in Hdist, Hmin.
  split; [rewrite (approx_step _ _ _ _ _ _ _ _ _ _ _ Hr Ha H), E; done|]. split; [|done].
  rewrite (distance_step _ _ _ _ _ _ _ _ _ _ _ Ha H), E. cbn [nbind]. rewrite <- Hdist. do 3 f_equal.
  unfold dist3, vnorm. f_equal. unfold vnorm2, vdot, vsub. cbn. ring.
Qed.
(** it projects outside: towards the centre of the surface *)
Theorem contact_outside fuel ref q Trom rom Tenv env n v vs r : ref <> vzero -> reference_at q ref r ->
  computeIntersectionSurface fuel Trom rom Tenv env = Ok (Some (n, v :: vs ++ [v])) ->
  convex_polygon (v :: vs ++ [v]) -> ~ in_hull (v :: vs ++ [v]) (vsub r (vscale (vdot (vsub r v) n) n)) ->
  exists c p, approximateContactPoint fuel ref q Trom rom Tenv env = Ok (Some (Guess n (Some p))) /\
    surfaceDistance fuel ref q Trom rom Tenv env = Ok (Some (Some (dist3 p r))) /\
    vscale (INR (S (length vs))) c = vsum (v :: vs) /\
    line_crossing (v :: vs ++ [v]) (vsub r (vscale (vdot (vsub r v) n) n)) c p /\
    forall p', line_crossing (v :: vs ++ [v]) (vsub r (vscale (vdot (vsub r v) n) n)) c p' -> dist3 p r <= dist3 p' r.
Proof.
  intros Hr Ha H Hc Hout. destruct (projectInside_crossing v vs r n v Hc Hout) as (c & d & p & E & Hce & Hd & Hl & Hmin).
  exists c, p. rewrite (approx_step _ _ _ _ _ _ _ _ _ _ _ Hr Ha H), (distance_step _ _ _ _ _ _ _ _ _ _ _ Ha H), E. cbn [nbind].
  rewrite <- Hd. split_and!; done.
Qed.
(** a surface of one point: the projection on the plane, wherever it is *)
Theorem contact_one fuel ref q Trom rom Tenv env n v r : ref <> vzero -> reference_at q ref r ->
  computeIntersectionSurface fuel Trom rom Tenv env = Ok (Some (n, [v; v])) ->
  approximateContactPoint fuel ref q Trom rom Tenv env = Ok (Some (Guess n (Some (vsub r (vscale (vdot (vsub r v) n) n))))).
Proof.
  intros Hr Ha H. rewrite (approx_step _ _ _ _ _ _ _ _ v [] _ Hr Ha H). unfold projectPointInsidePlan. cbn [app containsHull].
  assert (Rltb (sqrt ((vx v - vx v) * (vx v - vx v) + (vy v - vy v) * (vy v - vy v))) (1 / 10000) = true) as ->.
  { apply Rltb_true. replace ((vx v - vx v) * (vx v - vx v) + (vy v - vy v) * (vy v - vy v)) with 0 by ring. rewrite sqrt_0. lra. }
  done.
Qed.

(** * The choice among the surfaces *)
Lemma approx_distance fuel ref q Trom rom Tenv env n p r : ref <> vzero -> reference_at q ref r ->
  approximateContactPoint fuel ref q Trom rom Tenv env = Ok (Some (Guess n (Some p))) ->
  surfaceDistance fuel ref q Trom rom Tenv env = Ok (Some (Some (dist3 p r))).
Proof.
  intros Hr Ha H. unfold approximateContactPoint in H. unfold surfaceDistance. rewrite (reference_nonzero _ Hr) in H. cbn [negb] in H.
  rewrite (refPoint_ok _ _ _ Ha) in *.
  destruct (computeIntersectionSurface fuel Trom rom Tenv env) as [[[pn [|x hull]]|]| |]; try done.
  destruct (projectPointInsidePlan (x :: hull) r pn (front (x :: hull))) as [o| |] eqn:E; cbn [nbind] in *; try done.
  destruct o as [[d p']|]; [|done]. injection H as -> ->. do 3 f_equal.
  unfold projectPointInsidePlan in E. destruct (containsHull _ _ _).
  - injection E as <- <-. unfold dist3. apply Rabs_pos_eq. unfold vnorm. apply sqrt_pos.
  - destruct (center (x :: hull)) as [[c|]| |]; try done. injection E as E.
    assert (Hgen : forall plan best, (forall d q, best = Some (d, q) -> d = dist3 q r) ->
      forall d q, bestOnEdges r (projectPointOnPlane r n (front (x :: hull))) c plan best = Some (d, q) -> d = dist3 q r).
    { induction plan as [|a plan IH]; intros best Hb d0 q0 H0; [by apply Hb|]. destruct plan as [|b plan]; [by apply Hb|].
      cbn [bestOnEdges] in H0. refine (IH _ _ d0 q0 H0). clear H0 d0 q0.
      destruct (lineSect3D _ c a b) as [i|]; [|done]. intros d0 q0 H0. 
      assert (Hi : Rabs (vnorm (vsub i r)) = dist3 i r) by (unfold dist3; apply Rabs_pos_eq; unfold vnorm; apply sqrt_pos).
      destruct best as [[dm qm]|]; [destruct (Rltb _ dm)|]; try (injection H0 as <- <-; done). by apply Hb. }
    refine (Hgen (x :: hull) None _ d p _); [done|exact E].
Qed.
Lemma distance_approx fuel ref q Trom rom Tenv env d r : ref <> vzero -> reference_at q ref r ->
  surfaceDistance fuel ref q Trom rom Tenv env = Ok (Some (Some d)) ->
  exists n p, approximateContactPoint fuel ref q Trom rom Tenv env = Ok (Some (Guess n (Some p))) /\ d = dist3 p r.
Proof.
  intros Hr Ha H.
  assert (exists n p, approximateContactPoint fuel ref q Trom rom Tenv env = Ok (Some (Guess n (Some p)))) as (n & p & E).
  { unfold surfaceDistance in H. unfold approximateContactPoint. rewrite (reference_nonzero _ Hr). cbn [negb].
    destruct (computeIntersectionSurface fuel Trom rom Tenv env) as [[[pn [|x hull]]|]| |]; try done.
    destruct (projectPointInsidePlan (x :: hull) (refPoint q ref) pn (front (x :: hull))) as [o| |]; cbn [nbind] in *; try done.
    destruct o as [[d' p']|]; [|done]. eauto. }
  exists n, p. split; [done|]. rewrite (approx_distance _ _ _ _ _ _ _ _ _ _ Hr Ha E) in H. by injection H as <-.
Qed.
(** chooseBestContactSurface with this ranking: the surface with the approximate contact
    point nearest to the reference *)
Theorem nearest_surface fuel (ref : string -> vec3) q (Trom : string -> se3) (rom : string -> mesh) cur l r name :
  ref name <> vzero -> reference_at q (ref name) r -> (1 < length l)%nat ->
  (forall s, s ∈ l -> exists g, surfaceDistance fuel (ref name) q (Trom name) (rom name) (fst s) (snd s) = Ok (Some g)) ->
  exists s, s ∈ l /\
  chooseBest (se3 * mesh) (fun k s => match surfaceDistance fuel (ref k) q (Trom k) (rom k) (fst s) (snd s) with Ok (Some d) => d | _ => None end)
    [(name, (cur, Some l))] = [(name, (s, Some l))] /\
  forall s' n' p', s' ∈ l -> approximateContactPoint fuel (ref name) q (Trom name) (rom name) (fst s') (snd s') = Ok (Some (Guess n' (Some p'))) ->
  exists n p, approximateContactPoint fuel (ref name) q (Trom name) (rom name) (fst s) (snd s) = Ok (Some (Guess n (Some p))) /\ dist3 p r <= dist3 p' r.
Proof.
  intros Hr Ha Hl Hok. set (inter := fun k s => _).
  destruct (chooseBest_parts inter [(name, (cur, Some l))]) as (dn & dn' & rest & E1 & E2 & H & Hrest).
  assert (Hrs : dn = [(name, (cur, Some l))] /\ rest = []).
  { destruct dn as [|x dn]; [cbn in E1; subst rest; done|]. cbn in E1. injection E1 as <- E1. symmetry in E1. apply app_eq_nil in E1 as [-> ->]. done. }
  destruct Hrs as [-> ->]. rewrite app_nil_r in E2. inversion H as [|? [k' [s lo]] ? dn2 Hr1 Hr2 EA EB]. inversion Hr2 as [EC|]. subst dn2. rewrite <- EB in E2. clear H Hr2 EA EB.
  destruct Hr1 as (Hk & Hlo & l1 & Hl0 & Hcase). cbn [fst snd] in *. subst k'. subst lo. injection Hl0 as <-.
  destruct Hcase as [[Hlen _]|[_ Hb]]; [lia|].
  assert (Hins : s ∈ l).
  { destruct Hb as [(i & d & Hi & _)|[_ Hh]]; [by eapply elem_of_list_lookup_2|]. destruct l; [done|]. injection Hh as ->. apply elem_of_cons. by left. }
  exists s. split; [done|]. split; [by rewrite E2|]. intros s' n' p' Hs' Hp'.
  pose proof (approx_distance _ _ _ _ _ _ _ _ _ _ Hr Ha Hp') as Hd'.
  assert (Hi' : inter name s' = Some (dist3 p' r)) by (unfold inter; by rewrite Hd').
  destruct Hb as [(i & d & Hi & Hd & Hmin)|[Hno _]]; [|by rewrite (Hno s' Hs') in Hi'].
  apply elem_of_list_lookup in Hs' as [j Hj]. destruct (Hmin j s' _ Hj Hi') as [Hle _].
  unfold inter in Hd. destruct (Hok s Hins) as [g Hg]. rewrite Hg in Hd. subst g.
  destruct (distance_approx _ _ _ _ _ _ _ _ _ Hr Ha Hg) as (n & p & Hp & ->). eauto.
Qed.
