(** Concrete contact surfaces. *)
From Verif Require Import VecProofs NodeModel NodeSpec ProjModel GeomModel GeomSpec GeomInt GeomProofs GeomProofs2 GeomProofs3 GeomProofs4 GeomProofs5 GeomProofs6 GeomProofs7 GeomExamples SurfModel SurfSpec SurfProofs SurfProofs2 SurfProofs3.
Local Open Scope R_scope.

(** a tetrahedron standing on its apex, and a triangle of ground *)
Definition tetra : mesh := mkMesh [V3 0 0 (-4); V3 2 0 (-2); V3 (-1) 2 (-2); V3 (-1) (-2) (-2)]
  [(0, 1, 2); (0, 2, 3); (0, 3, 1); (1, 2, 3)]%nat.
Definition ground : mesh := mkMesh [V3 (-6) (-6) (-5); V3 6 (-6) (-5); V3 0 8 (-5)] [(0, 1, 2)%nat].
Definition lift (h : R) : se3 := SE3 mid (V3 0 0 h).
Definition tA : vec3 := V3 1 0 0. Definition tB : vec3 := V3 (-1/2) 1 0. Definition tC : vec3 := V3 (-1/2) (-1) 0.

Ltac veq := unfold lift, se3act, mapp, mid, vadd, vsub, vscale, vdot, vcross; cbn; f_equal; lra.
Lemma lift_act h x y z : se3act (lift h) (V3 x y z) = V3 x y (z + h).
Proof. veq. Qed.
Lemma ground_points : points_of (lift 5) ground = [V3 (-6) (-6) 0; V3 6 (-6) 0; V3 0 8 0].
Proof. unfold points_of, ground. cbn [verts map]. rewrite !lift_act. repeat f_equal; lra. Qed.
Lemma ground_support : support (lift 5) ground (V3 0 0 1) (V3 (-6) (-6) 0).
Proof.
  exists (0, 1, 2)%nat, [], (V3 6 (-6) 0), (V3 0 8 0), 168. split; [done|]. split; [|split; [lra|split; [veq|unfold vnorm2, vdot; cbn; lra]]].
  exists (V3 (-6) (-6) (-5)), (V3 6 (-6) (-5)), (V3 0 8 (-5)). rewrite !lift_act. split_and!; try done; f_equal; lra.
Qed.
Lemma ground_gp : general_position (points_of (lift 5) ground) /\ three_points (points_of (lift 5) ground).
Proof.
  rewrite ground_points. split; [split|].
  - intros a b Ha Hb [Hx Hy].
    repeat (apply elem_of_cons in Ha as [->|Ha]; [repeat (apply elem_of_cons in Hb as [->|Hb]; [first [reflexivity | simpl in Hx, Hy; lra]|]); by apply elem_of_nil in Hb|]).
    by apply elem_of_nil in Ha.
  - intros a b c Ha Hb Hc Hab Hbc Hac.
    repeat (apply elem_of_cons in Ha as [->|Ha]; [repeat (apply elem_of_cons in Hb as [->|Hb]; [repeat (apply elem_of_cons in Hc as [->|Hc]; [first [done | unfold isLeft; simpl; lra]|]); by apply elem_of_nil in Hc|]); by apply elem_of_nil in Hb|]).
    by apply elem_of_nil in Ha.
  - exists (V3 (-6) (-6) 0), (V3 6 (-6) 0), (V3 0 8 0). split_and!; [rewrite ?elem_of_cons; tauto..|vneq|vneq|vneq].
Qed.
Lemma ground_in x y z : -1 <= x <= 1 -> -2 <= y <= 2 -> in_hull (points_of (lift 5) ground) (V3 x y z).
Proof.
  intros Hx Hy. rewrite ground_points.
  set (w := (y + 6) / 14). set (u := (1 - w) / 2 - x / 12). set (v := (1 - w) / 2 + x / 12).
  exists [u; v; w]. cbn [weighted length vx vy]. unfold u, v, w. split_and!; try lra; [done|].
  repeat constructor; lra.
Qed.

Definition tetra_at (h : R) : list vec3 := [V3 0 0 (-4 + h); V3 2 0 (-2 + h); V3 (-1) 2 (-2 + h); V3 (-1) (-2) (-2 + h)].
Lemma tetra_wf : well_formed tetra.
Proof.
  intros i j k H. unfold tetra in H. cbn [tris verts length] in *.
  repeat (apply elem_of_cons in H as [H|H]; [injection H as -> -> ->; cbn; lia|]). by apply elem_of_nil in H.
Qed.
Lemma tetra_corners h t a b c : t ∈ tris tetra -> corners (lift h) tetra t a b c ->
  let D := V3 0 0 (-4 + h) in let A := V3 2 0 (-2 + h) in let B := V3 (-1) 2 (-2 + h) in let C := V3 (-1) (-2) (-2 + h) in
  (a, b, c) = (D, A, B) \/ (a, b, c) = (D, B, C) \/ (a, b, c) = (D, C, A) \/ (a, b, c) = (A, B, C).
Proof.
  intros H Hc. unfold tetra in H. cbn [tris] in H.
  repeat (apply elem_of_cons in H as [->|H]; [destruct Hc as (u & v & w & H1 & H2 & H3 & -> & -> & ->); cbn in H1, H2, H3;
    injection H1 as <-; injection H2 as <-; injection H3 as <-; rewrite !lift_act; tauto|]). by apply elem_of_nil in H.
Qed.
Lemma tetra_side h s e : side_of (lift h) tetra s e ->
  let D := V3 0 0 (-4 + h) in let A := V3 2 0 (-2 + h) in let B := V3 (-1) 2 (-2 + h) in let C := V3 (-1) (-2) (-2 + h) in
  (s = D /\ (e = A \/ e = B \/ e = C)) \/ (e = D /\ (s = A \/ s = B \/ s = C)) \/ (vz s = -2 + h /\ vz e = -2 + h).
Proof.
  intros (t & a & b & c & Ht & Hc & Hse). cbn zeta.
  destruct (tetra_corners _ _ _ _ _ Ht Hc) as [E|[E|[E|E]]]; injection E as -> -> ->;
    destruct Hse as [Hse|[Hse|Hse]]; injection Hse as -> ->; cbn [vz]; tauto.
Qed.
Lemma tetra_is_side h (t : nat * nat * nat) a b c s e : t ∈ tris tetra -> corners (lift h) tetra t a b c -> (s, e) = (a, b) \/ (s, e) = (b, c) \/ (s, e) = (c, a) ->
  side_of (lift h) tetra s e.
Proof. intros H1 H2 H3. by exists t, a, b, c. Qed.
Lemma dot_up p q : vdot (V3 0 0 1) (vsub p q) = vz p - vz q.
Proof. unfold vdot, vsub. cbn. lra. Qed.
Lemma tetra_transversal h : h = 3 \/ h = 4 -> transversal (lift h) tetra (V3 0 0 1) (V3 (-6) (-6) 0).
Proof.
  intros Hh s e Hse. rewrite !dot_up. cbn [vz].
  destruct (tetra_side _ _ _ Hse) as [(-> & He)|[(-> & He)|(H1 & H2)]].
  - left. destruct He as [He|[He|He]]; subst; cbn [vz]; rewrite Rabs_pos_eq; lra.
  - left. destruct He as [He|[He|He]]; subst; cbn [vz]; rewrite Rabs_left1; lra.
  - right. rewrite H1. rewrite Rabs_pos_eq; destruct Hh; lra.
Qed.
(** the sides from the apex *)
Lemma apex_sides h : let D := V3 0 0 (-4 + h) in
  side_of (lift h) tetra D (V3 2 0 (-2 + h)) /\ side_of (lift h) tetra D (V3 (-1) 2 (-2 + h)) /\ side_of (lift h) tetra D (V3 (-1) (-2) (-2 + h)).
Proof.
  cbn zeta. split_and!.
  - apply (tetra_is_side h (0, 1, 2)%nat (V3 0 0 (-4 + h)) (V3 2 0 (-2 + h)) (V3 (-1) 2 (-2 + h))); [unfold tetra; cbn; rewrite ?elem_of_cons; tauto| |tauto].
    eexists _, _, _. cbn. split_and!; try reflexivity; by rewrite lift_act.
  - apply (tetra_is_side h (0, 2, 3)%nat (V3 0 0 (-4 + h)) (V3 (-1) 2 (-2 + h)) (V3 (-1) (-2) (-2 + h))); [unfold tetra; cbn; rewrite ?elem_of_cons; tauto| |tauto].
    eexists _, _, _. cbn. split_and!; try reflexivity; by rewrite lift_act.
  - apply (tetra_is_side h (0, 3, 1)%nat (V3 0 0 (-4 + h)) (V3 (-1) (-2) (-2 + h)) (V3 2 0 (-2 + h))); [unfold tetra; cbn; rewrite ?elem_of_cons; tauto| |tauto].
    eexists _, _, _. cbn. split_and!; try reflexivity; by rewrite lift_act.
Qed.
Lemma tetra_crossing p : p ∈ [tA; tB; tC] <-> crossing (lift 3) tetra (V3 0 0 1) (V3 (-6) (-6) 0) p.
Proof.
  destruct (apex_sides 3) as (SA & SB & SC). split.
  - intros Hp. unfold crossing, in_plane.
    apply elem_of_cons in Hp as [->|Hp]; [|apply elem_of_cons in Hp as [->|Hp]; [|apply elem_of_list_singleton in Hp as ->]].
    + eexists _, _. split; [exact SA|]. split; [exists (1/2); split; [lra|]; unfold tA; veq|rewrite dot_up; cbn; lra].
    + eexists _, _. split; [exact SB|]. split; [exists (1/2); split; [lra|]; unfold tB; veq|rewrite dot_up; cbn; lra].
    + eexists _, _. split; [exact SC|]. split; [exists (1/2); split; [lra|]; unfold tC; veq|rewrite dot_up; cbn; lra].
  - intros (s & e & Hse & (t & Ht & ->) & Hpl). unfold in_plane in Hpl. rewrite dot_up in Hpl. cbn in Hpl.
    destruct (tetra_side _ _ _ Hse) as [(-> & He)|[(-> & He)|(H1 & H2)]].
    + assert (t = 1/2) as -> by (destruct He as [He|[He|He]]; subst; cbn in Hpl; lra).
      rewrite !elem_of_cons. destruct He as [He|[He|He]]; subst; [left|right; left|right; right; left]; unfold tA, tB, tC; veq.
    + assert (t = 1/2) as -> by (destruct He as [He|[He|He]]; subst; cbn in Hpl; lra).
      rewrite !elem_of_cons. destruct He as [He|[He|He]]; subst; [left|right; left|right; right; left]; unfold tA, tB, tC; veq.
    + rewrite H1, H2 in Hpl. lra.
Qed.
Lemma touch_crossing p : crossing (lift 4) tetra (V3 0 0 1) (V3 (-6) (-6) 0) p <-> p = vzero.
Proof.
  destruct (apex_sides 4) as (SA & _ & _). split.
  - intros (s & e & Hse & (t & Ht & ->) & Hpl). unfold in_plane in Hpl. rewrite dot_up in Hpl. cbn in Hpl.
    destruct (tetra_side _ _ _ Hse) as [(-> & He)|[(-> & He)|(H1 & H2)]].
    + assert (t = 0) as -> by (destruct He as [He|[He|He]]; subst; cbn in Hpl; lra). unfold vzero. veq.
    + assert (t = 1) as -> by (destruct He as [He|[He|He]]; subst; cbn in Hpl; lra). destruct He as [He|[He|He]]; subst; unfold vzero; veq.
    + rewrite H1, H2 in Hpl. lra.
  - intros ->. eexists _, _. split; [exact SA|]. split; [exists 0; split; [lra|]; unfold vzero; veq|]. unfold in_plane. rewrite dot_up. cbn. lra.
Qed.
Lemma section_gp : general_position [tA; tB; tC] /\ three_points [tA; tB; tC].
Proof.
  unfold tA, tB, tC. split; [split|].
  - intros a b Ha Hb [Hx Hy].
    repeat (apply elem_of_cons in Ha as [->|Ha]; [repeat (apply elem_of_cons in Hb as [->|Hb]; [first [reflexivity | simpl in Hx, Hy; lra]|]); by apply elem_of_nil in Hb|]).
    by apply elem_of_nil in Ha.
  - intros a b c Ha Hb Hc Hab Hbc Hac.
    repeat (apply elem_of_cons in Ha as [->|Ha]; [repeat (apply elem_of_cons in Hb as [->|Hb]; [repeat (apply elem_of_cons in Hc as [->|Hc]; [first [done | unfold isLeft; simpl; lra]|]); by apply elem_of_nil in Hc|]); by apply elem_of_nil in Hb|]).
    by apply elem_of_nil in Ha.
  - exists (V3 1 0 0), (V3 (-1/2) 1 0), (V3 (-1/2) (-1) 0). split_and!; [rewrite ?elem_of_cons; tauto..|vneq|vneq|vneq].
Qed.
Lemma section_in p : p ∈ [tA; tB; tC] -> in_hull (points_of (lift 5) ground) p.
Proof.
  intros Hp. apply elem_of_cons in Hp as [->|Hp]; [apply ground_in; lra|]. apply elem_of_cons in Hp as [->|Hp]; [apply ground_in; lra|].
  apply elem_of_list_singleton in Hp as ->. apply ground_in; lra.
Qed.
(** the surface of the example *)
Lemma example_surface : exists N out, convex_polygon out /\ (forall p, p ∈ out -> p ∈ [tA; tB; tC]) /\ (forall p, in_hull out p <-> in_hull [tA; tB; tC] p) /\
  forall fuel, (N <= fuel)%nat -> computeIntersectionSurface fuel (lift 3) tetra (lift 5) ground = Ok (Some (V3 0 0 1, out)).
Proof.
  destruct ground_gp, section_gp.
  apply (surface_whole _ _ _ _ _ _ [tA; tB; tC] ground_support tetra_wf (tetra_transversal 3 (or_introl eq_refl)) tetra_crossing); try done. apply section_in.
Qed.
Definition home7 : list R := [0; 0; 0; 0; 0; 0; 1].
Lemma home7_reference ref : reference_at home7 ref ref.
Proof.
  exists 0, 0, 0, 0, 0, 0, 1, []. split; [done|]. split; [lra|]. destruct ref. unfold rotated, vadd, vscale, vcross. cbn. f_equal; ring.
Qed.
Lemma origin_in : in_hull [tA; tB; tC] vzero.
Proof.
  exists [1/3; 1/3; 1/3]. unfold tA, tB, tC, vzero. cbn [weighted length vx vy]. split_and!; try lra; [done|]. repeat constructor; lra.
Qed.
(** the reference above the surface: the point below it *)
Lemma example_contact : exists N, forall fuel, (N <= fuel)%nat ->
  approximateContactPoint fuel (V3 0 0 1) home7 (lift 3) tetra (lift 5) ground = Ok (Some (Guess (V3 0 0 1) (Some vzero))).
Proof.
  destruct example_surface as (N & out & Hc & Hin & Heq & H). exists N. intros fuel Hf. specialize (H fuel Hf).
  pose proof Hc as [(v & vs & -> & _ & _) _].
  assert (Hv : vz v = 0).
  { assert (Hi : v ∈ [tA; tB; tC]) by (apply Hin, elem_of_cons; by left).
    apply elem_of_cons in Hi as [->|Hi]; [done|]. apply elem_of_cons in Hi as [->|Hi]; [done|]. by apply elem_of_list_singleton in Hi as ->. }
  destruct (contact_inside fuel (V3 0 0 1) home7 (lift 3) tetra (lift 5) ground (V3 0 0 1) v vs (V3 0 0 1) vzero) as [E _].
  - intros E. injection E as E. lra.
  - apply home7_reference.
  - exact H.
  - unfold vnorm2, vdot. cbn. lra.
  - exact Hc.
  - unfold in_plane. rewrite dot_up, Hv. unfold vzero. cbn. lra.
  - exists 1. unfold vzero. veq.
  - apply Heq, origin_in.
  - exact E.
Qed.

(** touching by the apex: the contact point is under the reference, ten metres away *)
Lemma touch_far : exists N, forall fuel, (N <= fuel)%nat ->
  computeIntersectionSurface fuel (lift 4) tetra (lift 5) ground = Ok (Some (V3 0 0 1, [vzero; vzero])) /\
  approximateContactPoint fuel (V3 10 0 1) home7 (lift 4) tetra (lift 5) ground = Ok (Some (Guess (V3 0 0 1) (Some (V3 10 0 0)))).
Proof.
  destruct ground_gp.
  destruct (surface_one (lift 4) tetra (lift 5) ground _ _ vzero ground_support tetra_wf (tetra_transversal 4 (or_intror eq_refl)) touch_crossing) as [N HN]; try done.
  { apply ground_in; lra. }
  exists N. intros fuel Hf. split; [by apply HN|].
  rewrite (contact_one fuel (V3 10 0 1) home7 _ _ _ _ (V3 0 0 1) vzero (V3 10 0 1)); [|intros E; injection E as E; lra|apply home7_reference|by apply HN].
  do 4 f_equal. unfold vzero. veq.
Qed.
Lemma hull3_one (v p : vec3) vs : (forall x, x ∈ vs -> x = v) -> in_hull3 vs p -> p = v.
Proof.
  intros Hv (ws & H1 & H2 & H3 & H4 & H5 & H6).
  assert (Hg : forall ws l (f : vec3 -> R), (forall x, x ∈ l -> x = v) -> weighted f ws l = f v * weighted (fun _ => 1) ws l).
  { clear. induction ws as [|w ws IH]; intros l f Hl; [simpl; lra|]. destruct l as [|x l]; [simpl; lra|]. cbn [weighted].
    rewrite (Hl x) by (apply elem_of_cons; by left). rewrite (IH l f) by (intros y Hy; apply Hl, elem_of_cons; by right). lra. }
  rewrite Hg in H4 by done. rewrite Hg in H5 by done. rewrite Hg in H6 by done. rewrite H3 in H4, H5, H6.
  destruct p, v. cbn in *. f_equal; lra.
Qed.
Theorem contact_near_surface_refuted : ~ forall fuel ref q Trom rom Tenv env n out p,
  computeIntersectionSurface fuel Trom rom Tenv env = Ok (Some (n, out)) ->
  approximateContactPoint fuel ref q Trom rom Tenv env = Ok (Some (Guess n (Some p))) ->
  exists x, in_hull3 out x /\ dist3 p x <= 1.
Proof.
  intros H. destruct touch_far as [N HN]. destruct (HN N (le_n _)) as [H1 H2].
  destruct (H _ _ _ _ _ _ _ _ _ _ H1 H2) as (x & Hx & Hd).
  apply (hull3_one vzero) in Hx as ->.
  - unfold dist3, vnorm in Hd. assert (E : vnorm2 (vsub (V3 10 0 0) vzero) = 10 * 10) by (unfold vnorm2, vdot, vsub, vzero; cbn; lra).
    rewrite E, sqrt_square in Hd by lra. lra.
  - intros y Hy. apply elem_of_cons in Hy as [->|Hy]; [done|]. by apply elem_of_list_singleton in Hy.
Qed.

(** a wall: the surface goes beyond its top *)
Definition wall : mesh := mkMesh [V3 0 0 0; V3 0 1 0; V3 0 0 1] [(0, 1, 2)%nat].
Definition blade : mesh := mkMesh [V3 (-1) (1/4) (1/2); V3 1 (1/4) (1/2); V3 1 (1/2) 12] [(0, 1, 2)%nat].
Definition wL : vec3 := V3 0 (1/4) (1/2). Definition wH : vec3 := V3 0 (3/8) (25/4).
Lemma act_id p : se3act se3id p = p.
Proof. destruct p. unfold se3id, se3act, mapp, mid, vadd, vdot, vzero. cbn. f_equal; ring. Qed.
Lemma points_id m : points_of se3id m = verts m.
Proof. unfold points_of. induction (verts m) as [|p l IH]; [done|]. cbn [map]. by rewrite act_id, IH. Qed.
Lemma wall_support : support se3id wall (V3 1 0 0) (V3 0 0 0).
Proof.
  exists (0, 1, 2)%nat, [], (V3 0 1 0), (V3 0 0 1), 1. split; [done|]. split; [|split; [lra|split; [veq|unfold vnorm2, vdot; cbn; lra]]].
  exists (V3 0 0 0), (V3 0 1 0), (V3 0 0 1). by rewrite !act_id.
Qed.
Lemma blade_section : planePoints [(V3 (-1) (1/4) (1/2), V3 1 (1/4) (1/2), V3 1 (1/2) 12)] (V3 1 0 0) (V3 0 0 0) = [wL; wH].
Proof.
  unfold planePoints. cbn [map concat]. unfold intersectSegmentPlane, EPSILON, vdot, vsub, vadd, vscale. cbn [vx vy vz]. rewrite app_nil_r.
  assert (Rltb (Rabs (1 * (1 - -1) + 0 * (1 / 4 - 1 / 4) + 0 * (1 / 2 - 1 / 2))) (1 / 100000) = false) as ->
    by (apply Rltb_false; rewrite Rabs_pos_eq; lra).
  assert (Rltb (Rabs (1 * (1 - 1) + 0 * (1 / 2 - 1 / 4) + 0 * (12 - 1 / 2))) (1 / 100000) = true) as ->
    by (apply Rltb_true; rewrite Rabs_pos_eq; lra).
  assert (Rltb (Rabs (- (1 * (1 - 0) + 0 * (1 / 4 - 0) + 0 * (1 / 2 - 0)))) (1 / 100000) = false) as ->
    by (apply Rltb_false; rewrite Rabs_Ropp, Rabs_pos_eq; lra).
  assert (Rltb (Rabs (1 * (-1 - 1) + 0 * (1 / 4 - 1 / 2) + 0 * (1 / 2 - 12))) (1 / 100000) = false) as ->
    by (apply Rltb_false; rewrite Rabs_left1; lra).
  assert (Ha : - (1 * (-1 - 0) + 0 * (1 / 4 - 0) + 0 * (1 / 2 - 0)) / (1 * (1 - -1) + 0 * (1 / 4 - 1 / 4) + 0 * (1 / 2 - 1 / 2)) = 1/2) by field.
  assert (Hb : - (1 * (1 - 0) + 0 * (1 / 2 - 0) + 0 * (12 - 0)) / (1 * (-1 - 1) + 0 * (1 / 4 - 1 / 2) + 0 * (1 / 2 - 12)) = 1/2) by (field; lra).
  rewrite Ha, Hb. rcalc. cbn [app]. unfold wL, wH. repeat f_equal; lra.
Qed.
Lemma blade_hull fuel : convexHull (2 + fuel) [wL; wH] = Some [wL; wH; wL].
Proof.
  unfold convexHull, wL, wH. cbn [leftMostFrom]. rcalc. cbn [Nat.add].
  erewrite hullLoop_next; [|repeat scan1; cbn [scan fold_left]; reflexivity|vneq]. cbn [app].
  erewrite hullLoop_end; [|repeat scan1; reflexivity|reflexivity]. done.
Qed.
Lemma blade_hull2 fuel : convexHull (2 + fuel) [wL; wH; wL] = Some [wL; wH; wL].
Proof.
  unfold convexHull, wL, wH. cbn [leftMostFrom]. rcalc. cbn [Nat.add].
  erewrite hullLoop_next; [|repeat scan1; cbn [scan fold_left]; reflexivity|vneq]. cbn [app].
  erewrite hullLoop_end; [|repeat scan1; reflexivity|reflexivity]. done.
Qed.
Lemma wall_surface : exists fuel, computeIntersectionSurface fuel se3id blade se3id wall = Ok (Some (V3 1 0 0, [wL; wH; wL])).
Proof.
  destruct (convexHull_terminates (points_of se3id wall)) as [N HN]; [done|].
  destruct (HN (2 + N)%nat ltac:(lia)) as (first & m & Hh & Hf & Hm & _). exists (2 + N)%nat.
  assert (Hr : allTriangles (verts (GetModel se3id blade)) (tris blade) = Ok [(V3 (-1) (1/4) (1/2), V3 1 (1/4) (1/2), V3 1 (1/2) 12)]).
  { unfold blade. cbn [GetModel verts tris map]. rewrite !act_id. done. }
  pose proof blade_section as Hs.
  rewrite (surface_step (2 + N) se3id blade se3id wall _ _ _ [wL; wH; wL] (first :: m ++ [first]) wall_support Hr); [|by rewrite Hs|rewrite Hs; apply blade_hull|exact Hh].
  unfold compute3DIntersection. rewrite (clipPolygon_unchanged lineSect3D); [by rewrite blade_hull2|done|done|].
  intros p Hp a b Hab.
  assert (Hx0 : forall q, q ∈ points_of se3id wall -> vx q = 0).
  { intros q Hq. rewrite points_id in Hq. unfold wall in Hq. cbn [verts] in Hq.
    repeat (apply elem_of_cons in Hq as [->|Hq]; [done|]). by apply elem_of_nil in Hq. }
  assert (Hx1 : forall q, q ∈ first :: m ++ [first] -> vx q = 0).
  { intros q Hq. apply Hx0. apply elem_of_cons in Hq as [->|Hq]; [done|]. apply elem_of_app in Hq as [Hq|Hq]; [by apply Hm|]. by apply elem_of_list_singleton in Hq as ->. }
  assert (Hpx : vx p = 0).
  { repeat (apply elem_of_cons in Hp as [->|Hp]; [done|]). by apply elem_of_nil in Hp. }
  assert (Hed : forall l (x y : vec3), (x, y) ∈ edges l -> x ∈ l /\ y ∈ l).
  { clear. induction l as [|u l IH]; intros x y Hxy; [by apply elem_of_nil in Hxy|]. destruct l as [|w l]; [by apply elem_of_nil in Hxy|].
    change (edges (u :: w :: l)) with ((u, w) :: edges (w :: l)) in Hxy. apply elem_of_cons in Hxy as [E|Hxy].
    - injection E as -> ->. split; [apply elem_of_cons; by left|apply elem_of_cons; right; apply elem_of_cons; by left].
    - destruct (IH _ _ Hxy). split; apply elem_of_cons; by right. }
  destruct (Hed _ _ _ Hab) as [Ha Hb]. unfold isLeft. rewrite (Hx1 a Ha), (Hx1 b Hb), Hpx. lra.
Qed.
Theorem surface_on_obstacle_refuted : ~ forall fuel Trom rom Tenv env n a out p, support Tenv env n a ->
  computeIntersectionSurface fuel Trom rom Tenv env = Ok (Some (n, out)) -> p ∈ out ->
  exists x, in_hull3 (points_of Tenv env) x /\ dist3 p x <= 1.
Proof.
  intros H. destruct wall_surface as [fuel HF].
  destruct (H _ _ _ _ _ _ _ _ wH wall_support HF) as (x & Hx & Hd); [rewrite ?elem_of_cons; tauto|].
  rewrite points_id in Hx. destruct Hx as (ws & H1 & H2 & H3 & _ & _ & H6). unfold wall in *. cbn [verts] in *.
  destruct ws as [|w1 [|w2 [|w3 [|? ?]]]]; try done. cbn in *. inversion_clear H2 as [|? ? P1 P2]. inversion_clear P2 as [|? ? P3 P4]. inversion_clear P4.
  assert (Hz : vz x <= 1) by lra. unfold dist3, vnorm in Hd. 
  assert (Hle : sqrt (5 * 5) <= sqrt (vnorm2 (vsub wH x))).
  { apply sqrt_le_1_alt. unfold vnorm2, vdot, vsub, wH. cbn.
    assert (0 <= (0 - vx x) * (0 - vx x)) by apply Rle_0_sqr. assert (0 <= (3 / 8 - vy x) * (3 / 8 - vy x)) by apply Rle_0_sqr.
    assert (21 / 4 * (21 / 4) <= (25 / 4 - vz x) * (25 / 4 - vz x)) by (apply Rmult_le_compat; lra). lra. }
  rewrite sqrt_square in Hle by lra. lra.
Qed.
(** a ground out of reach *)
Lemma high_none fuel : computeIntersectionSurface fuel (lift 3) tetra (lift 9) ground = Ok (Some (V3 0 0 1, [])).
Proof.
  apply (surface_none (lift 3) tetra (lift 9) ground (V3 0 0 1) (V3 (-6) (-6) 4)); [|exact tetra_wf| |].
  - exists (0, 1, 2)%nat, [], (V3 6 (-6) 4), (V3 0 8 4), 168. split; [done|]. split; [|split; [lra|split; [veq|unfold vnorm2, vdot; cbn; lra]]].
    exists (V3 (-6) (-6) (-5)), (V3 6 (-6) (-5)), (V3 0 8 (-5)). rewrite !lift_act. split_and!; try done; f_equal; lra.
  - intros s e Hse. rewrite !dot_up. cbn [vz]. right.
    assert (Hz : vz s <= 1) by (destruct (tetra_side _ _ _ Hse) as [(-> & He)|[(-> & He)|(H1 & H2)]];
      [cbn; lra|destruct He as [He|[He|He]]; subst; cbn; lra|lra]).
    rewrite Rabs_left1; lra.
  - intros p (s & e & Hse & (t & Ht & ->) & Hpl). unfold in_plane in Hpl. rewrite dot_up in Hpl. cbn in Hpl.
    assert (Hz : vz s <= 1 /\ vz e <= 1) by (destruct (tetra_side _ _ _ Hse) as [(-> & He)|[(-> & He)|(H1 & H2)]];
      [destruct He as [He|[He|He]]; subst; cbn; lra|destruct He as [He|[He|He]]; subst; cbn; lra|lra]).
    assert (0 <= t * (1 - vz e)) by (apply Rmult_le_pos; lra). assert (0 <= (1 - t) * (1 - vz s)) by (apply Rmult_le_pos; lra). lra.
Qed.
Lemma choice_case : exists fuel, forall s, s ∈ [(lift 9, ground); (lift 5, ground)] ->
  exists g, surfaceDistance fuel (V3 0 0 1) home7 (lift 3) tetra (fst s) (snd s) = Ok (Some g).
Proof.
  destruct example_contact as [N HN]. exists N. intros s Hs. apply elem_of_cons in Hs as [->|Hs].
  - unfold surfaceDistance. cbn [fst snd]. rewrite high_none. by eexists.
  - apply elem_of_list_singleton in Hs as ->. cbn [fst snd]. eexists.
    apply (approx_distance N (V3 0 0 1) home7 _ _ _ _ _ _ (V3 0 0 1)) with (3 := HN N (le_n _)); [intros E; injection E as E; lra|apply home7_reference].
Qed.
Lemma rotation_case : reference_at [0; 0; 1; 0; 0; 1; 0] (V3 2 3 4) (V3 (-2) (-3) 5).
Proof. exists 0, 0, 1, 0, 0, 1, 0, []. split; [done|]. split; [lra|]. unfold rotated. veq. Qed.
