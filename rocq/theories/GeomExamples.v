(** Concrete cases for the geometry. *)
From Verif Require Import Maps Vec VecProofs GeomModel GeomSpec GeomInt GeomProofs GeomProofs2 GeomProofs3 GeomProofs4 GeomProofs5 GeomProofs6 GeomProofs7 GeomProofs8.
Local Open Scope R_scope.

Lemma veq_neq a b : vx a <> vx b \/ vy a <> vy b -> a <> b.
Proof. intros [H|H] ->; done. Qed.
Ltac vneq := apply veq_neq; simpl; lra.
Ltac rstep := first
  [ match goal with |- context [Rltb ?a ?b] =>
      first [ assert (Rltb a b = true) as -> by (apply Rltb_true; simpl; lra)
            | assert (Rltb a b = false) as -> by (apply Rltb_false; simpl; lra) ] end
  | match goal with |- context [Rleb ?a ?b] =>
      first [ assert (Rleb a b = true) as -> by (apply Rleb_true; simpl; lra)
            | assert (Rleb a b = false) as -> by (apply Rleb_false; simpl; lra) ] end
  | match goal with |- context [Reqb ?a ?b] =>
      first [ assert (Reqb a b = true) as -> by (apply Reqb_true; simpl; lra)
            | assert (Reqb a b = false) as -> by (apply Reqb_false; simpl; lra) ] end
  | match goal with |- context [veqb ?a ?b] =>
      first [ assert (veqb a b = true) as -> by (apply veqb_true; reflexivity)
            | assert (veqb a b = false) as -> by (apply bool_decide_eq_false_2; vneq) ] end
  | match goal with |- context [inList ?p ?l] =>
      first [ assert (inList p l = true) as -> by (apply bool_decide_eq_true_2; rewrite ?elem_of_cons; tauto)
            | assert (inList p l = false) as -> by (apply bool_decide_eq_false_2; intros HIN;
                repeat (apply elem_of_cons in HIN as [HIN|HIN]; [revert HIN; vneq|]); by apply elem_of_nil in HIN) ] end ].
Ltac rcalc := repeat (rstep; cbn [orb andb negb]).

(** aligned points: the far end of the row is lost *)
Definition rowA := V3 0 0 0. Definition rowB := V3 1 0 0. Definition rowC := V3 2 0 0. Definition rowX := V3 1 (-1) 0.
Definition row : list vec3 := [rowA; rowB; rowC; rowX].
Lemma scan_step h res p c l : scan h res p (c :: l) = scan h res (pick h res p c) l.
Proof. done. Qed.
Lemma pick_take h res l c : (l = h \/ 0 < isLeft h l c) -> (c ∉ res \/ c = front res) -> pick h res l c = c.
Proof.
  intros H1 H2. unfold pick.
  assert (veqb l h || Rltb 0 (isLeft h l c) = true) as ->.
  { apply orb_true_iff. destruct H1; [left; by apply veqb_true|right; by apply Rltb_true]. }
  assert (negb (inList c res) || veqb c (front res) = true) as ->; [|done].
  apply orb_true_iff. destruct H2; [left; apply negb_true_iff; by apply bool_decide_eq_false_2|right; by apply veqb_true].
Qed.
Lemma pick_keep h res l c : l <> h -> isLeft h l c <= 0 -> pick h res l c = l.
Proof.
  intros H1 H2. unfold pick. assert (veqb l h = false) as -> by by apply bool_decide_eq_false_2.
  assert (Rltb 0 (isLeft h l c) = false) as -> by (apply Rltb_false; lra). done.
Qed.
Lemma pick_skip h res l c : c ∈ res -> c <> front res -> pick h res l c = l.
Proof.
  intros H1 H2. unfold pick. assert (inList c res = true) as -> by by apply bool_decide_eq_true_2.
  assert (veqb c (front res) = false) as -> by by apply bool_decide_eq_false_2. by destruct (_ || _).
Qed.
Ltac vnotin := let HIN := fresh in intros HIN;
   repeat (apply elem_of_cons in HIN as [HIN|HIN]; [revert HIN; vneq|]); by apply elem_of_nil in HIN.
Ltac vin := rewrite ?elem_of_cons; tauto.
Ltac scan1 := rewrite scan_step;
  first [ rewrite pick_take by (first [left; reflexivity | right; reflexivity | right; unfold isLeft; simpl; lra | left; vnotin])
        | rewrite pick_keep by (first [vneq | unfold isLeft; simpl; lra])
        | rewrite pick_skip by (first [vin | vneq]) ].
Ltac scanall := repeat scan1; change (scan ?h ?r ?p []) with p.
Lemma hullLoop_next fuel p0 l res h n : scan h res p0 l = n -> n <> front (res ++ [h]) ->
  hullLoop (S fuel) p0 l res h = hullLoop fuel p0 l (res ++ [h]) n.
Proof. intros H Hn. cbn [hullLoop]. rewrite H. assert (veqb n (front (res ++ [h])) = false) as -> by by apply bool_decide_eq_false_2. done. Qed.
Lemma hullLoop_end fuel p0 l res h n : scan h res p0 l = n -> n = front (res ++ [h]) ->
  hullLoop (S fuel) p0 l res h = Some (res ++ [h; n]).
Proof.
  intros H Hn. cbn [hullLoop]. rewrite H. assert (veqb n (front (res ++ [h])) = true) as -> by by apply veqb_true.
  by rewrite <- app_assoc.
Qed.
Lemma ex_row fuel : convexHull (4 + fuel) row = Some [rowA; rowB; rowX; rowA].
Proof.
  unfold convexHull, row. cbn [leftMostFrom]. unfold rowA, rowB, rowC, rowX. rcalc. cbn [Nat.add].
  erewrite hullLoop_next; [|repeat scan1; cbn [scan fold_left]; reflexivity|vneq]. cbn [app].
  erewrite hullLoop_next; [|repeat scan1; cbn [scan fold_left]; reflexivity|vneq]. cbn [app].
  erewrite hullLoop_end; [|repeat scan1; reflexivity|reflexivity]. done.
Qed.
(** the lost point is outside the result *)
Lemma ex_row_lost : (rowB, rowX) ∈ edges [rowA; rowB; rowX; rowA] /\ rowC ∈ row /\ 0 < isLeft rowB rowX rowC.
Proof. split_and!; [cbn [edges]; vin|unfold row; vin|unfold isLeft; simpl; lra]. Qed.

(** a triangle with a point inside: general position *)
Definition gpA := V3 0 0 1. Definition gpB := V3 1 3 0. Definition gpC := V3 4 1 2. Definition gpD := V3 2 1 0.
Definition gp4 : list vec3 := [gpD; gpA; gpC; gpB].
Lemma ex_gp : general_position gp4.
Proof.
  split.
  - intros a b Ha Hb [Hx Hy]. unfold gp4 in *.
    repeat (apply elem_of_cons in Ha as [->|Ha]; [repeat (apply elem_of_cons in Hb as [->|Hb]; [first [reflexivity | simpl in Hx, Hy; lra]|]); by apply elem_of_nil in Hb|]).
    by apply elem_of_nil in Ha.
  - intros a b c Ha Hb Hc Hab Hbc Hac. unfold gp4 in *.
    repeat (apply elem_of_cons in Ha as [->|Ha]; [repeat (apply elem_of_cons in Hb as [->|Hb]; [repeat (apply elem_of_cons in Hc as [->|Hc]; [first [done | unfold isLeft; simpl; lra]|]); by apply elem_of_nil in Hc|]); by apply elem_of_nil in Hb|]).
    by apply elem_of_nil in Ha.
Qed.
Lemma ex_gp_three : exists a b c, a ∈ gp4 /\ b ∈ gp4 /\ c ∈ gp4 /\ a <> b /\ b <> c /\ a <> c.
Proof. exists gpA, gpB, gpC. split_and!; try (unfold gp4; vin); vneq. Qed.
Lemma ex_gp_hull fuel : convexHull (3 + fuel) gp4 = Some [gpA; gpB; gpC; gpA].
Proof.
  unfold convexHull, gp4. cbn [leftMostFrom]. unfold gpA, gpB, gpC, gpD. rcalc. cbn [Nat.add].
  erewrite hullLoop_next; [|repeat scan1; cbn [scan fold_left]; reflexivity|vneq]. cbn [app].
  erewrite hullLoop_next; [|repeat scan1; cbn [scan fold_left]; reflexivity|vneq]. cbn [app].
  erewrite hullLoop_end; [|repeat scan1; reflexivity|reflexivity]. done.
Qed.

(** squares *)
Definition square (x y s : R) : list vec3 := [V3 x y 0; V3 x (y + s) 0; V3 (x + s) (y + s) 0; V3 (x + s) y 0; V3 x y 0].
Lemma square_convex x y s : 0 < s -> convex_polygon (square x y s).
Proof.
  intros Hs. assert (Hss : 0 < s * s) by by apply Rmult_lt_0_compat. split.
  - exists (V3 x y 0), [V3 x (y + s) 0; V3 (x + s) (y + s) 0; V3 (x + s) y 0]. split; [done|]. split; [simpl; lia|].
    repeat (apply NoDup_cons; split; [intros HIN; repeat (apply elem_of_cons in HIN as [HIN|HIN]; [injection HIN; intros; lra|]); by apply elem_of_nil in HIN|]).
    apply NoDup_nil_2.
  - unfold square. cbn [edges]. intros a b p Hab Hp Hpa Hpb.
    repeat (apply elem_of_cons in Hab as [Hab|Hab]; [injection Hab as -> ->;
      repeat (apply elem_of_cons in Hp as [->|Hp]; [first [done | unfold isLeft; simpl; lra]|]); by apply elem_of_nil in Hp|]).
    by apply elem_of_nil in Hab.
Qed.
Lemma square_membership x y s p : 0 < s -> in_hull (square x y s) p <-> x <= vx p <= x + s /\ y <= vy p <= y + s.
Proof.
  intros Hs. rewrite <- polygon_membership by by apply square_convex. unfold inside_edges_, square. cbn [edges]. split.
  - intros H.
    pose proof (H (V3 x y 0) (V3 x (y + s) 0) ltac:(rewrite !elem_of_cons; tauto)) as H1.
    pose proof (H (V3 x (y + s) 0) (V3 (x + s) (y + s) 0) ltac:(rewrite !elem_of_cons; tauto)) as H2.
    pose proof (H (V3 (x + s) (y + s) 0) (V3 (x + s) y 0) ltac:(rewrite !elem_of_cons; tauto)) as H3.
    pose proof (H (V3 (x + s) y 0) (V3 x y 0) ltac:(rewrite !elem_of_cons; tauto)) as H4.
    unfold isLeft in *. simpl in *.
    assert (K1 : s * (x - vx p) <= s * 0) by lra. assert (K2 : s * (vy p - y - s) <= s * 0) by lra.
    assert (K3 : s * (vx p - x - s) <= s * 0) by lra. assert (K4 : s * (y - vy p) <= s * 0) by lra.
    apply Rmult_le_reg_l in K1, K2, K3, K4; [|done..]. lra.
  - intros [Hx Hy] a b Hab.
    assert (K1 : s * (x - vx p) <= s * 0) by (apply Rmult_le_compat_l; lra). assert (K2 : s * (vy p - y - s) <= s * 0) by (apply Rmult_le_compat_l; lra).
    assert (K3 : s * (vx p - x - s) <= s * 0) by (apply Rmult_le_compat_l; lra). assert (K4 : s * (y - vy p) <= s * 0) by (apply Rmult_le_compat_l; lra).
    repeat (apply elem_of_cons in Hab as [Hab|Hab]; [injection Hab as -> ->; unfold isLeft; simpl; lra|]). by apply elem_of_nil in Hab.
Qed.
(** the unit square and one moved by 3: undefined behaviour *)
Lemma ex_disjoint junk : compute2DIntersection junk (square 0 0 1) (square 3 0 1) = Ub /\
  forall fuel, compute3DIntersection fuel (square 0 0 1) (square 3 0 1) = Ub.
Proof.
  assert (Hout : forall p, p ∈ square 0 0 1 -> 0 < isLeft (V3 3 0 0) (V3 3 (0 + 1) 0) p).
  { intros p Hp. unfold square in Hp. repeat (apply elem_of_cons in Hp as [->|Hp]; [unfold isLeft; simpl; lra|]). by apply elem_of_nil in Hp. }
  split.
  - unfold compute2DIntersection. by apply clip_empty_undefined.
  - intros fuel. unfold compute3DIntersection. assert (clipPolygon lineSect3D (square 0 0 1) (square 3 0 1) = Ub) as ->; [|done]. by apply clip_empty_undefined.
Qed.
(** overlapping squares: the hypotheses of the clipping theorems hold, the corner is found *)
Lemma ex_overlap junk : exists out, compute2DIntersection junk (square 0 0 2) (square 1 1 2) = Ok (Some out) /\
  (forall p, in_hull out p <-> 1 <= vx p <= 2 /\ 1 <= vy p <= 2).
Proof.
  destruct (clipPolygon_ok (sect2D junk) (sect2D_ok junk) (square 0 0 2) (square 1 1 2)) as [(out & H & _ & Hin)|[_ Hno]].
  - apply convex_weakly, square_convex. lra.
  - done.
  - exists out. split; [done|]. intros p. rewrite Hin, polygon_membership, !square_membership by (try apply square_convex; lra). lra.
  - exfalso. apply (Hno (V3 1 1 0)). rewrite polygon_membership, !square_membership by (try apply square_convex; lra). simpl. lra.
Qed.
(** the version with iterators: a triangle inside the clip triangle becomes one point *)
Definition smallT : list vec3 := [V3 1 1 0; V3 1 2 0; V3 2 1 0; V3 1 1 0].
Definition bigT : list vec3 := [V3 0 0 0; V3 0 9 0; V3 9 0 0; V3 0 0 0].
Lemma ex_iter junk : compute2DIntersectionIter junk smallT bigT = Ok (Some [V3 1 1 0]).
Proof.
  unfold compute2DIntersectionIter, smallT, bigT. cbn [walkEdges walkEdge].
  unfold isLeft. cbn [vx vy vz]. do 3 (rcalc; cbn [length Nat.ltb Nat.leb app front head default walkEdges walkEdge]; unfold isLeft; cbn [vx vy vz]).
  done.
Qed.
Lemma ex_iter_inside : (forall p, p ∈ smallT -> inside_edges bigT p) /\ in_hull smallT (V3 1 2 0) /\ ~ in_hull [V3 1 1 0] (V3 1 2 0).
Proof.
  split_and!.
  - intros p Hp a b Hab. unfold smallT, bigT in *. cbn [edges] in Hab.
    repeat (apply elem_of_cons in Hab as [Hab|Hab]; [injection Hab as -> ->; repeat (apply elem_of_cons in Hp as [->|Hp]; [unfold isLeft; simpl; lra|]); by apply elem_of_nil in Hp|]).
    by apply elem_of_nil in Hab.
  - apply in_hull_elem. unfold smallT. vin.
  - intros (ws & Hl & _ & H1 & _ & H2). destruct ws as [|w [|? ?]]; [done| |done]. simpl in *. lra.
Qed.

(** ** planes *)
Lemma ex_nonunit : vnorm2 (V3 0 0 2) = 4 /\ ~ in_plane (V3 0 0 2) vzero (projectPointOnPlane (V3 0 0 1) (V3 0 0 2) vzero) /\
  distanceToPlane (V3 0 0 1) (V3 0 0 2) vzero = 2.
Proof.
  split_and!.
  - unfold vnorm2, vdot. simpl. lra.
  - unfold in_plane, projectPointOnPlane, vdot, vsub, vscale, vzero. simpl. lra.
  - unfold distanceToPlane, vdot, vsub, vzero. simpl. rewrite Rabs_pos_eq; lra.
Qed.
Lemma ex_unit : vnorm2 (V3 0 0 1) = 1 /\ projectPointOnPlane (V3 1 2 5) (V3 0 0 1) (V3 0 0 1) = V3 1 2 1.
Proof. split; [unfold vnorm2, vdot; simpl; lra|unfold projectPointOnPlane, vdot, vsub, vscale; simpl; f_equal; lra]. Qed.

Lemma ex_segment : intersectSegmentPlane (V3 0 0 (-1)) (V3 2 0 1) (V3 0 0 1) vzero = [V3 1 0 0].
Proof.
  unfold intersectSegmentPlane. cbn [vsub vdot vx vy vz].
  assert (Hd : vdot (V3 0 0 1) (vsub (V3 2 0 1) (V3 0 0 (-1))) = 2) by (unfold vdot, vsub; simpl; lra).
  assert (Hn : vdot (V3 0 0 1) (vsub (V3 0 0 (-1)) vzero) = -1) by (unfold vdot, vsub, vzero; simpl; lra).
  rewrite Hd, Hn. rewrite (Rabs_pos_eq 2) by lra.
  assert (Rltb 2 EPSILON = false) as -> by (apply Rltb_false; unfold EPSILON; lra).
  assert (Rltb (- -1 / 2) 0 = false) as -> by (apply Rltb_false; lra).
  assert (Rltb 1 (- -1 / 2) = false) as -> by (apply Rltb_false; lra).
  cbn [orb]. unfold vadd, vscale, vsub. simpl. f_equal. f_equal; lra.
Qed.

(** ** triangles *)
Definition tiny : triangle3 := (V3 0 0 0, V3 (1/100) 0 0, V3 0 (1/100) 0).
Lemma ex_tiny : insideTriangle tiny.1.1 tiny.1.2 tiny.2 (V3 1 1 0) = true /\
  (forall p, in_triangle3 tiny p -> vx p <= 1/100 /\ vy p <= 1/100).
Proof.
  split.
  - unfold insideTriangle, tiny, vcross, vdot, vsub, EPSILON. cbn [fst snd vx vy vz]. rcalc. done.
  - intros p (u & v & w & Hu & Hv & Hw & Hs & ->). unfold tiny, vadd, vscale. simpl. lra.
Qed.
(** a triangle that crosses the ground triangle *)
Definition groundT : triangle3 := (V3 0 0 0, V3 4 0 0, V3 0 4 0).
Lemma ground_normal : TriangleNormal groundT = V3 0 0 1.
Proof.
  unfold TriangleNormal, groundT, normalize, vcross, vsub, vnorm, vnorm2, vdot. cbn [vx vy vz].
  assert (Rltb 0 _ = true) as ->; [|].
  { apply Rltb_true. lra. }
  assert (Hs : sqrt ((0 - 0) * (0 - 0) * ((0 - 0) * (0 - 0)) ) = 0 -> True) by done.
  match goal with |- context [sqrt ?x] => assert (Hx : x = 16 * 16) by ring; rewrite Hx; rewrite sqrt_square by lra end.
  unfold vscale. simpl. f_equal; lra.
Qed.
Lemma ex_straddles :
  let d := distanceToPlaneOffset (TriangleNormal groundT) (vdot (TriangleNormal groundT) groundT.1.1) in
  straddles (d (V3 1 1 (-1))) (d (V3 1 1 1)) (d (V3 2 1 1)).
Proof.
  cbn zeta. rewrite ground_normal. unfold groundT, distanceToPlaneOffset, vdot, straddles, EPSILON. simpl. lra.
Qed.
Lemma ex_triangles : exists res, intersectTriangles (V3 1 1 (-1), V3 1 1 1, V3 2 1 1) groundT = Ok res /\ V3 1 1 0 ∈ res.
Proof.
  destruct (intersectTriangles_complete _ _ _ groundT ex_straddles) as (res & H & Hin). exists res. split; [done|].
  apply (Hin (V3 1 1 (-1)) (V3 1 1 1)).
  - split; cbn [fst snd]; vin.
  - exists (1/2). split; [lra|]. unfold vadd, vscale, vsub. simpl. f_equal; lra.
  - exists (1/2), (1/4), (1/4). split_and!; try lra. unfold groundT, vadd, vscale. simpl. f_equal; lra.
Qed.
Lemma ex_apart : intersectTriangles (V3 1 1 1, V3 1 1 2, V3 2 1 1) groundT = Ub.
Proof.
  apply intersectTriangles_apart. intros v Hv. rewrite ground_normal. unfold groundT, distanceToPlaneOffset, vdot, EPSILON.
  repeat (apply elem_of_cons in Hv as [->|Hv]; [simpl; lra|]). by apply elem_of_nil in Hv.
Qed.

(** ** projection into a polygon *)
Lemma vnorm_lt a b : vnorm2 a < vnorm2 b -> Rltb (Rabs (vnorm a)) (Rabs (vnorm b)) = true.
Proof.
  intros H. apply Rltb_true. unfold vnorm. rewrite !Rabs_pos_eq by apply sqrt_pos. apply sqrt_lt_1_alt. split; [|done].
  unfold vnorm2, vdot. pose proof (Rle_0_sqr (vx a)). pose proof (Rle_0_sqr (vy a)). pose proof (Rle_0_sqr (vz a)). unfold Rsqr in *. lra.
Qed.
Lemma vnorm_ge a b : vnorm2 b <= vnorm2 a -> Rltb (Rabs (vnorm a)) (Rabs (vnorm b)) = false.
Proof.
  intros H. apply Rltb_false. unfold vnorm. rewrite !Rabs_pos_eq by apply sqrt_pos. by apply sqrt_le_1_alt.
Qed.
Lemma lineSect3D_val s e a b i t : isLeft a b s <> isLeft a b e -> isLeft a b s = t * (isLeft a b s - isLeft a b e) ->
  vadd s (vscale t (vsub e s)) = i -> lineSect3D s e a b = Some i.
Proof.
  intros H Ht <-. rewrite lineSect3D_segment by done. assert (isLeft a b s / (isLeft a b s - isLeft a b e) = t) as ->; [|done].
  rewrite Ht at 1. field. lra.
Qed.
Definition outP := V3 3 (7/4) 0.
Lemma ex_project : exists d, projectPointInsidePlan (square 0 0 1) outP (V3 0 0 1) vzero = Ok (Some (d, V3 (3/2) 1 0)).
Proof.
  unfold projectPointInsidePlan.
  assert (projectPointOnPlane outP (V3 0 0 1) vzero = outP) as ->.
  { unfold projectPointOnPlane, outP, vzero, vsub, vscale, vdot. simpl. f_equal; lra. }
  assert (containsHull (square 0 0 1) outP (1 / 10000) = false) as ->.
  { apply not_true_is_false. rewrite containsHull_ok by (apply square_convex; lra). rewrite square_membership by lra. simpl. lra. }
  assert (center (square 0 0 1) = Ok (Some (V3 (1/2) (1/2) 0))) as ->.
  { unfold center, square, vsum, vscale, vadd, vzero. simpl. f_equal. f_equal. f_equal; lra. }
  unfold square. cbn [bestOnEdges]. unfold outP.
  rewrite (lineSect3D_val _ _ (V3 0 0 0) (V3 0 (0 + 1) 0) (V3 0 (1/4) 0) (6/5)); [|unfold isLeft; simpl; lra|unfold isLeft; simpl; lra|unfold vadd, vscale, vsub; simpl; f_equal; lra].
  rewrite (lineSect3D_val _ _ (V3 0 (0 + 1) 0) (V3 (0 + 1) (0 + 1) 0) (V3 (3/2) 1 0) (3/5)); [|unfold isLeft; simpl; lra|unfold isLeft; simpl; lra|unfold vadd, vscale, vsub; simpl; f_equal; lra].
  rewrite (lineSect3D_val _ _ (V3 (0 + 1) (0 + 1) 0) (V3 (0 + 1) 0 0) (V3 1 (3/4) 0) (4/5)); [|unfold isLeft; simpl; lra|unfold isLeft; simpl; lra|unfold vadd, vscale, vsub; simpl; f_equal; lra].
  rewrite (lineSect3D_val _ _ (V3 (0 + 1) 0 0) (V3 0 0 0) (V3 (-1/2) 0 0) (7/5)); [|unfold isLeft; simpl; lra|unfold isLeft; simpl; lra|unfold vadd, vscale, vsub; simpl; f_equal; lra].
  rewrite vnorm_lt by (unfold vnorm2, vdot, vsub; simpl; lra).
  rewrite vnorm_ge by (unfold vnorm2, vdot, vsub; simpl; lra).
  rewrite vnorm_ge by (unfold vnorm2, vdot, vsub; simpl; lra).
  eexists. reflexivity.
Qed.
Lemma ex_project_outside : ~ in_hull (square 0 0 1) (V3 (3/2) 1 0).
Proof. rewrite square_membership by lra. simpl. lra. Qed.
Lemma square_plane : forall v, v ∈ square 0 0 1 -> in_plane (V3 0 0 1) vzero v.
Proof.
  intros v Hv. unfold square in Hv. repeat (apply elem_of_cons in Hv as [->|Hv]; [unfold in_plane, vdot, vsub, vzero; simpl; lra|]). by apply elem_of_nil in Hv.
Qed.
Lemma ex_area : area (square 0 0 2) = 4.
Proof.
  change (square 0 0 2) with (V3 0 0 0 :: [V3 0 (0+2) 0; V3 (0+2) (0+2) 0; V3 (0+2) 0 0] ++ [V3 0 0 0]).
  rewrite area_fan by (apply (square_convex 0 0 2); lra). unfold fan_area_, triangle_area_, isLeft. simpl. 
  rewrite !Rabs_left1 by lra. lra.
Qed.
(** assembled statements *)
Lemma hull_encloses l : general_position l ->
  (exists a b c, a ∈ l /\ b ∈ l /\ c ∈ l /\ a <> b /\ b <> c /\ a <> c) ->
  exists n, forall fuel, (n <= fuel)%nat -> exists hull, convexHull fuel l = Some hull /\
    convex_polygon hull /\ (forall p, p ∈ hull -> p ∈ l) /\
    (forall a b p, (a, b) ∈ edges hull -> p ∈ l -> p <> a -> p <> b -> isLeft a b p < 0) /\
    (forall p, in_hull hull p <-> in_hull l p).
Proof.
  intros Hg H3. destruct (convexHull_terminates l) as [n Hn].
  { destruct H3 as (a & _ & _ & Ha & _) . intros ->. by apply elem_of_nil in Ha. }
  exists n. intros fuel Hf. destruct (Hn fuel Hf) as (first & m & Hh & _). exists (first :: m ++ [first]).
  destruct (convexHull_general l fuel _ Hg H3 Hh) as (Hc & Hin & Hr). split_and!; [done..|].
  intros p. split; intros Hp.
  - apply (in_hull_incl (first :: m ++ [first])); [|done]. intros q Hq. by apply in_hull_elem, Hin.
  - apply polygon_membership; [done|]. intros a b Hab. apply (in_hull_half l); [|done].
    intros q Hq. destruct (decide (q = a)) as [->|Ha]; [unfold isLeft; lra|]. destruct (decide (q = b)) as [->|Hb]; [unfold isLeft; lra|].
    apply Rlt_le. by apply Hr.
Qed.
Lemma contains_far_refuted :
  ~ forall l fuel p eps, 0 < eps -> contains fuel l p eps = Some true -> exists q, in_hull l q /\ (vx p - vx q) * (vx p - vx q) <= eps * eps.
Proof.
  intros H. destruct (H [V3 0 0 0] 1%nat (V3 5 0 0) 1) as (q & (ws & Hl & _ & H1 & H2 & _) & Hq); [lra|apply contains_one_point; [lra|lia]|].
  destruct ws as [|w [|? ?]]; [done| |done]. simpl in *. assert (vx q = 0) as Hx by lra. rewrite Hx in Hq. lra.
Qed.
Lemma ex_square_contains : convex_polygon (square 0 0 2) /\ containsHull (square 0 0 2) (V3 1 1 7) 1 = true /\
  containsHull (square 0 0 2) (V3 3 1 0) 1 = false.
Proof.
  assert (Hc : convex_polygon (square 0 0 2)) by (apply square_convex; lra). split; [done|]. split.
  - rewrite containsHull_ok, square_membership by (done || lra). simpl. lra.
  - apply not_true_is_false. rewrite containsHull_ok, square_membership by (done || lra). simpl. lra.
Qed.
Lemma projection_all n P0 : vnorm2 n = 1 -> forall p,
  in_plane n P0 (projectPointOnPlane p n P0) /\
  (exists d, vsub p (projectPointOnPlane p n P0) = vscale d n /\ Rabs d = distanceToPlane p n P0) /\
  dist3 p (projectPointOnPlane p n P0) = distanceToPlane p n P0 /\
  (forall q, in_plane n P0 q -> dist3 p (projectPointOnPlane p n P0) <= dist3 p q) /\
  projectPointOnPlane (projectPointOnPlane p n P0) n P0 = projectPointOnPlane p n P0.
Proof.
  intros Hn p. split_and!; [by apply project_in_plane|by apply project_displacement|by apply project_distance| |by apply project_idempotent].
  intros q Hq. by apply project_nearest.
Qed.
Lemma nonunit_refuted : ~ forall n P0 p, n <> vzero -> in_plane n P0 (projectPointOnPlane p n P0).
Proof. intros H. destruct ex_nonunit as (_ & H1 & _). apply H1, H. intros E. injection E. lra. Qed.
Lemma project_in_plane_iff n P0 p : in_plane n P0 (projectPointOnPlane p n P0) <-> vnorm2 n = 1 \/ in_plane n P0 p.
Proof.
  unfold in_plane, projectPointOnPlane, vnorm2. destruct n as [a b c], P0 as [x y z], p as [u v w].
  unfold vdot, vsub, vscale; simpl.
  set (d := (u - x) * a + (v - y) * b + (w - z) * c). set (m := a * a + b * b + c * c).
  replace (a * (u - d * a - x) + b * (v - d * b - y) + c * (w - d * c - z)) with (d * (1 - m)) by (unfold d, m; ring).
  replace (a * (u - x) + b * (v - y) + c * (w - z)) with d by (unfold d; ring).
  split; [|intros [->| ->]; ring].
  intros [H|H]%Rmult_integral; [by right|left; lra].
Qed.
Lemma segment_plane_all s0 s1 pn p0 :
  (forall p, p ∈ intersectSegmentPlane s0 s1 pn p0 -> on_segment s0 s1 p /\ Rabs (vdot pn (vsub p p0)) < 2 * EPSILON /\
     (EPSILON <= Rabs (vdot pn (vsub s1 s0)) -> in_plane pn p0 p)) /\
  (forall p, on_segment s0 s1 p -> in_plane pn p0 p -> intersectSegmentPlane s0 s1 pn p0 <> []).
Proof.
  split.
  - intros p Hp. split; [by apply (segment_plane_on_segment _ _ _ _ _ Hp)|by apply segment_plane_near].
  - intros p. apply segment_plane_complete.
Qed.
Lemma tolerance_refuted :
  ~ forall (t : triangle3) p, insideTriangle t.1.1 t.1.2 t.2 p = true -> exists q, in_triangle3 t q /\ dist3 p q <= 1.
Proof.
  intros H. destruct ex_tiny as [H1 H2]. destruct (H tiny _ H1) as (q & Hq & Hd). destruct (H2 q Hq) as [Hx Hy].
  assert (H0 : 1 < dist3 (V3 1 1 0) q); [|lra]. unfold dist3, vnorm. apply Rle_lt_trans with (sqrt 1); [rewrite sqrt_1; lra|]. apply sqrt_lt_1_alt. split; [lra|].
  unfold vnorm2, vdot, vsub. simpl.
  pose proof (Rle_0_sqr (0 - vz q)) as Hz. unfold Rsqr in Hz.
  assert (9/10 * (9/10) <= (1 - vx q) * (1 - vx q)) by (apply Rmult_le_compat; lra).
  assert (9/10 * (9/10) <= (1 - vy q) * (1 - vy q)) by (apply Rmult_le_compat; lra). lra.
Qed.
Lemma projectInside_all plan point n P0 : vnorm2 n = 1 -> convex_polygon plan ->
  (forall v, v ∈ plan -> in_plane n P0 v) ->
  exists d q, projectPointInsidePlan plan point n P0 = Ok (Some (d, q)) /\
    in_plane n P0 q /\ d = dist3 q point /\ distanceToPlane point n P0 <= d.
Proof.
  intros Hn Hc Hp. destruct (projectInside_defined plan point n P0 Hc) as (d & q & H). exists d, q. split; [done|].
  by apply (projectInside_plane plan).
Qed.
Lemma projectInside_refuted :
  ~ forall plan point n P0 d q, vnorm2 n = 1 -> convex_polygon plan -> (forall v, v ∈ plan -> in_plane n P0 v) ->
    projectPointInsidePlan plan point n P0 = Ok (Some (d, q)) -> in_hull plan q.
Proof.
  intros H. destruct ex_project as [d Hd]. apply ex_project_outside.
  eapply (H (square 0 0 1)); [|apply square_convex; lra|exact square_plane|exact Hd]. unfold vnorm2, vdot. simpl. lra.
Qed.
Lemma center_closed v vs : vs <> [] -> exists c, center (v :: vs ++ [v]) = Ok (Some c) /\
  vscale (INR (S (length vs))) c = vsum (v :: vs) /\
  in_hull (v :: vs) c /\ (forall n P0, (forall p, p ∈ v :: vs -> in_plane n P0 p) -> in_plane n P0 c).
Proof.
  intros Hne. set (c := vscale (/ INR (length (v :: vs))) (vsum (v :: vs))). exists c.
  assert (Hc : center (v :: vs ++ [v]) = Ok (Some c)).
  { unfold center. assert (Hr : removelast (v :: vs ++ [v]) = v :: vs) by (rewrite app_comm_cons; apply removelast_last).
    rewrite Hr. done. }
  split; [done|].
  assert (Hk : 0 < INR (S (length vs))) by (apply lt_0_INR; lia).
  split.
  { unfold c. cbn [length]. destruct (vsum (v :: vs)) as [x y z]. unfold vscale. cbn [vx vy vz]. f_equal; field; lra. }
  destruct (center_in_hull v (vs ++ [v]) c) as [H1 H2]; [by destruct vs|done|].
  assert (Hsub : forall q, q ∈ v :: vs ++ [v] -> q ∈ v :: vs).
  { intros q Hq. rewrite !elem_of_cons, elem_of_app, elem_of_list_singleton in *. tauto. }
  split.
  - apply (in_hull_incl (v :: vs ++ [v])); [|done]. intros q Hq. by apply in_hull_elem, Hsub.
  - intros n P0 Hp. apply H2. intros q Hq. by apply Hp, Hsub.
Qed.
Lemma isLeft_line a b s e t : isLeft a b (vadd s (vscale t (vsub e s))) = isLeft a b s - t * (isLeft a b s - isLeft a b e).
Proof. unfold isLeft, vadd, vscale, vsub. simpl. ring. Qed.
Lemma lineSect3D_some s e a b i : lineSect3D s e a b = Some i -> isLeft a b s <> isLeft a b e.
Proof.
  intros H E. unfold lineSect3D, lineSect in H.
  assert (Hd : (vx s - vx e) * (vy a - vy b) - (vy s - vy e) * (vx a - vx b) = 0).
  { unfold isLeft in E. lra. }
  unfold Reqb in H. rewrite Hd in H. destruct (Req_EM_T 0 0); done.
Qed.
Lemma bestOnEdges_nearest point proj c plan : forall best,
  (forall d i, best = Some (d, i) -> d = dist3 i point) ->
  match bestOnEdges point proj c plan best with
  | Some (d, q) => (best = Some (d, q) \/ line_crossing plan proj c q) /\ d = dist3 q point /\
      (forall q', line_crossing plan proj c q' -> d <= dist3 q' point) /\
      (forall d0 i, best = Some (d0, i) -> d <= d0)
  | None => best = None /\ forall q', ~ line_crossing plan proj c q'
  end.
Proof.
  induction plan as [|a plan IH]; intros best Hb.
  - simpl. destruct best as [[d q]|].
    + split_and!; [by left|by apply Hb| |intros ? ? [= <- <-]; lra]. intros q' (a & b & t & H & _). by apply elem_of_nil in H.
    + split; [done|]. intros q' (a & b & t & H & _). by apply elem_of_nil in H.
  - destruct plan as [|b plan].
    { simpl. destruct best as [[d q]|].
      + split_and!; [by left|by apply Hb| |intros ? ? [= <- <-]; lra]. intros q' (x & y & t & H & _). by apply elem_of_nil in H.
      + split; [done|]. intros q' (x & y & t & H & _). by apply elem_of_nil in H. }
    assert (Hunf : bestOnEdges point proj c (a :: b :: plan) best = bestOnEdges point proj c (b :: plan)
      (match lineSect3D proj c a b with
       | None => best
       | Some i => let d := Rabs (vnorm (vsub i point)) in
         match best with None => Some (d, i) | Some (dmin, _) => if Rltb d dmin then Some (d, i) else best end end))
      by reflexivity.
    rewrite Hunf. clear Hunf.
    assert (Hcr : forall q', line_crossing (a :: b :: plan) proj c q' <->
       lineSect3D proj c a b = Some q' \/ line_crossing (b :: plan) proj c q').
    { intros q'. split.
      - intros (x & y & t & H & Hne & -> & H0). cbn [edges] in H. apply elem_of_cons in H as [H|H].
        + injection H as -> ->. left. rewrite lineSect3D_segment by done. repeat f_equal.
          rewrite isLeft_line in H0. apply Rmult_eq_reg_r with (isLeft a b proj - isLeft a b c); [|lra].
          unfold Rdiv. rewrite Rmult_assoc, Rinv_l by lra. lra.
        + right. exists x, y, t. done.
      - intros [H|(x & y & t & H & R)].
        + pose proof (lineSect3D_some _ _ _ _ _ H) as Hne. rewrite lineSect3D_segment in H by done. injection H as <-.
          exists a, b. eexists. split; [cbn [edges]; left|]. split; [done|]. split; [reflexivity|].
          rewrite isLeft_line. field. lra.
        + exists x, y, t. split; [cbn [edges]; by right|done]. }
    destruct (lineSect3D proj c a b) as [i|] eqn:E.
    + assert (Hi : Rabs (vnorm (vsub i point)) = dist3 i point) by (apply Rabs_pos_eq, sqrt_pos).
      cbn zeta. rewrite Hi.
      match goal with |- context [bestOnEdges point proj c _ ?x] => set (bb := x) end.
      assert (Hbb : exists d1 i1, bb = Some (d1, i1) /\ d1 = dist3 i1 point /\ d1 <= dist3 i point /\
         (forall d0 i0, best = Some (d0, i0) -> d1 <= d0) /\ (best = Some (d1, i1) \/ i1 = i)).
      { unfold bb. destruct best as [[dm qm]|].
        - unfold Rltb. destruct (Rlt_dec (dist3 i point) dm).
          + eexists _, _. split; [done|]. split_and!; [done|lra|intros ? ? [= <- <-]; lra|by right].
          + eexists _, _. split; [done|]. split_and!; [by apply Hb|lra|intros ? ? [= <- <-]; lra|by left].
        - eexists _, _. split; [done|]. split_and!; [done|lra|done|by right]. }
      destruct Hbb as (d1 & i1 & -> & Hd1 & Hle & Hle0 & Hor).
      specialize (IH (Some (d1, i1)) ltac:(intros ? ? [= <- <-]; done)).
      destruct (bestOnEdges point proj c (b :: plan) (Some (d1, i1))) as [[d q]|]; [|destruct IH as [? _]; done].
      destruct IH as (H1 & H2 & H3 & H4). specialize (H4 _ _ eq_refl). split_and!.
      * destruct H1 as [H1|H1]; [injection H1 as <- <-|right; apply Hcr; by right].
        destruct Hor as [Hor| ->]; [by left|right; apply Hcr; by left].
      * done.
      * intros q' [Hq|Hq]%Hcr; [injection Hq as <-; lra|by apply H3].
      * intros d0 i0 H0. specialize (Hle0 _ _ H0). lra.
    + specialize (IH best Hb). destruct (bestOnEdges point proj c (b :: plan) best) as [[d q]|].
      * destruct IH as (H1 & H2 & H3 & H4). split_and!; [|done| |done].
        -- destruct H1 as [H1|H1]; [by left|right; apply Hcr; by right].
        -- intros q' [Hq|Hq]%Hcr; [done|by apply H3].
      * destruct IH as (-> & H). split; [done|]. intros q' [Hq|Hq]%Hcr; [done|by apply (H q')].
Qed.
Lemma projectInside_crossing v vs point n P0 : let plan := v :: vs ++ [v] in convex_polygon plan ->
  ~ in_hull plan (projectPointOnPlane point n P0) ->
  exists c d q, projectPointInsidePlan plan point n P0 = Ok (Some (d, q)) /\
    vscale (INR (S (length vs))) c = vsum (v :: vs) /\ d = dist3 q point /\
    line_crossing plan (projectPointOnPlane point n P0) c q /\
    forall q', line_crossing plan (projectPointOnPlane point n P0) c q' -> d <= dist3 q' point.
Proof.
  intros plan Hc Hout. destruct (projectInside_defined plan point n P0 Hc) as (d & q & H).
  assert (Hvs : vs <> []). { destruct Hc as [(v' & vs' & E & Hl & _) _]. intros ->. subst plan. simpl in E.
    injection E as <- E. destruct vs' as [|? [|? ?]]; simpl in *; try lia. done. }
  destruct (center_closed v vs Hvs) as (c & Hcen & Hsum & _). exists c, d, q. split; [done|]. split; [done|].
  unfold projectPointInsidePlan in H.
  destruct (containsHull plan _ _) eqn:Ec; [apply (containsHull_ok plan) in Ec; done|].
  fold plan in Hcen. rewrite Hcen in H.
  assert (H' : bestOnEdges point (projectPointOnPlane point n P0) c plan None = Some (d, q)) by congruence.
  pose proof (bestOnEdges_nearest point (projectPointOnPlane point n P0) c plan None ltac:(done)) as Hb.
  rewrite H' in Hb. destruct Hb as ([Hb|Hb] & H2 & H3 & _); done.
Qed.
