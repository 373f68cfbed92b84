(** Proofs about the point of a triangle nearest to a point. *)
From Coq Require Import Psatz.
From Verif Require Import Maps MapsProofs Vec VecProofs GeomModel GeomSpec TriModel TriSpec.
Local Open Scope R_scope.

Lemma clamp_cases v : (v <= 0 /\ clamp v 0 1 = 0) \/ (0 <= v <= 1 /\ clamp v 0 1 = v) \/ (1 <= v /\ clamp v 0 1 = 1).
Proof.
  unfold clamp. destruct (Rle_dec v 0); [left|right; destruct (Rle_dec v 1); [left|right]].
  - split; [done|]. rewrite Rmax_right by done. rewrite Rmin_left; lra.
  - split; [lra|]. rewrite Rmax_left by lra. by rewrite Rmin_left by lra.
  - split; [lra|]. rewrite Rmax_left by lra. by rewrite Rmin_right by lra.
Qed.
Lemma clamp_in v : 0 <= clamp v 0 1 <= 1.
Proof. destruct (clamp_cases v) as [[? ->]|[[? ->]|[? ->]]]; lra. Qed.

(** the branch with the misplaced quotient *)
Definition fault (a b c d e : R) : Prop :=
  let det := a * c - b * b in let s := b * e - c * d in let t := b * d - a * e in
  det <= s + t /\ 0 <= s /\ t < 0 /\ a + d <= b + e.
(** optimality at the three corners *)
Definition optimal (a b c d e s t : R) : Prop :=
  let gs := a * s + b * t + d in let gt := b * s + c * t + e in
  - gs * s - gt * t >= 0 /\ gs * (1 - s) - gt * t >= 0 /\ - gs * s + gt * (1 - t) >= 0.
Section params.
Variables a b c d e : R.
Hypothesis Ha : 0 < a.
Hypothesis Hc : 0 < c.
Hypothesis Hdet : 0 < a * c - b * b.
Lemma denom_pos : 0 < a - 2 * b + c.
Proof. assert (0 <= (a - c) * (a - c)) by apply Rle_0_sqr. nra. Qed.

Lemma edge_s : b * d - a * e < 0 -> (* t < 0 *)
  (d < 0 \/ 0 <= b * e - c * d) ->
  (b * e - c * d + (b * d - a * e) < a * c - b * b \/ a + d <= b + e) ->
  optimal a b c d e (clamp (- d / a) 0 1) 0.
Proof.
  intros HT Hd Hend. unfold optimal. destruct (clamp_cases (- d / a)) as [[Hv ->]|[[Hv ->]|[Hv ->]]].
  - assert (0 <= d). { assert (- d / a * a = - d) by (field; lra). nra. }
    destruct Hd as [?|HS]; [lra|]. assert (0 <= e); [|nra].
    destruct (Rle_dec 0 e); [done|]. exfalso. assert (b < 0 \/ d = 0) as [|] by (destruct (Req_EM_T d 0); [by right|left]; nra); nra.
  - assert (Hq : - d / a * a = - d) by (field; lra). assert (Hg : 0 < b * (- d / a) + e).
    { assert (a * (b * (- d / a) + e) = a * e - b * d) by (field; lra). nra. }
    split_and!; nra.
  - assert (a <= - d). { assert (- d / a * a = - d) by (field; lra). nra. }
    assert (a + d <= b + e); [|nra]. destruct Hend as [Hend|?]; [|done].
    destruct (Rle_dec (a + d) (b + e)) as [|Hn]; [done|exfalso].
    set (x := - d - a). set (y := a + d - b - e). assert (Hx : 0 <= x) by (unfold x; lra). assert (Hy : 0 < y) by (unfold y; lra).
    assert (H1 : 0 < x * (b - a) - a * y) by (unfold x, y; nra). assert (H2 : x * (a - 2 * b + c) < y * (b - a)) by (unfold x, y; nra).
    assert (Hba : 0 < b - a). { destruct (Rle_dec (b - a) 0); [exfalso|lra]. assert (x * (b - a) <= 0) by nra. assert (0 < a * y) by nra. lra. }
    assert (0 < (x * (b - a) - a * y) * (b - a)) by nra. assert (a * (x * (a - 2 * b + c)) < a * (y * (b - a))) by nra.
    assert (0 < x * (b * b - a * c)) by nra. nra.
Qed.
(** the edge t1 t2 *)
Lemma edge_st : 0 <= b * e - c * d + (b * d - a * e) - (a * c - b * b) ->
  (0 < c + e - b - d \/ 0 <= b * e - c * d) -> (c + e - b - d < a - 2 * b + c \/ 0 <= b * d - a * e) ->
  optimal a b c d e (clamp ((c + e - b - d) / (a - 2 * b + c)) 0 1) (1 - clamp ((c + e - b - d) / (a - 2 * b + c)) 0 1).
Proof.
  intros H Hl Hr. pose proof denom_pos as Hden. unfold optimal. set (den := a - 2 * b + c) in *. set (num := c + e - b - d) in *.
  assert (Hq : num / den * den = num) by (field; lra).
  destruct (clamp_cases (num / den)) as [[Hv ->]|[[Hv ->]|[Hv ->]]].
  - assert (Hn : num <= 0) by nra. destruct Hl as [?|HT]; [lra|].
    assert (c + e <= 0); [|unfold num in *; nra].
    destruct (Rle_dec (c + e) 0) as [|Hce]; [done|exfalso]. unfold num in *.
    set (x := c + e) in *. set (y := b + d - x). assert (0 <= y) by (unfold y; lra).
    assert (H1 : 0 <= x * (b - c) - c * y). { replace (x * (b - c) - c * y) with (b * e - c * d) by (unfold x, y, x; ring). exact HT. }
    assert (H2 : 0 <= y * (b - c) - x * den). { replace (y * (b - c) - x * den) with (b * e - c * d + (b * d - a * e) - (a * c - b * b)) by (unfold y, x, den; ring). exact H. }
    assert (Hbc : 0 < b - c). { destruct (Rle_dec (b - c) 0); [exfalso|lra]. assert (0 < x * den) by nra. assert (y * (b - c) <= 0) by nra. lra. }
    assert (0 <= (x * (b - c) - c * y) * (b - c)) by nra. assert (0 <= c * (y * (b - c) - x * den)) by nra.
    assert (0 <= x * (b * b - a * c)) by (unfold den in *; nra). nra.
  - set (s := num / den) in *. assert (Hg : a * s + b * (1 - s) + d = b * s + c * (1 - s) + e) by (unfold den, num in *; lra).
    assert (a * s + b * (1 - s) + d <= 0).
    { assert ((a * s + b * (1 - s) + d) * den = - (b * e - c * d + (b * d - a * e) - (a * c - b * b))); [|nra].
      replace ((a * s + b * (1 - s) + d) * den) with ((a - b) * (s * den) + (b + d) * den) by ring. rewrite Hq. unfold den, num. ring. }
    split_and!; nra.
  - assert (Hn : den <= num) by nra. destruct Hr as [?|HT]; [lra|].
    assert (a + d <= 0); [|unfold num, den in *; nra].
    destruct (Rle_dec (a + d) 0) as [|Had]; [done|exfalso]. unfold num in *.
    set (x := a + d) in *. set (y := b + e - x). assert (0 <= y) by (unfold y, x, den in *; lra).
    assert (H1 : 0 <= x * (b - a) - a * y). { replace (x * (b - a) - a * y) with (b * d - a * e) by (unfold y, x; ring). exact HT. }
    assert (H2 : 0 <= y * (b - a) - x * den). { replace (y * (b - a) - x * den) with (b * e - c * d + (b * d - a * e) - (a * c - b * b)) by (unfold y, x, den; ring). exact H. }
    assert (Hba : 0 < b - a). { destruct (Rle_dec (b - a) 0); [exfalso|lra]. assert (0 < x * den) by nra. assert (y * (b - a) <= 0) by nra. lra. }
    assert (0 <= (x * (b - a) - a * y) * (b - a)) by nra. assert (0 <= a * (y * (b - a) - x * den)) by nra.
    assert (0 <= x * (b * b - a * c)) by (unfold den in *; nra). nra.
Qed.
End params.
(** the edge t0 t2, by symmetry *)
Lemma edge_t a b c d e : 0 < a -> 0 < c -> 0 < a * c - b * b -> b * e - c * d < 0 ->
  (e < 0 \/ 0 <= b * d - a * e \/ 0 <= d) ->
  (b * e - c * d + (b * d - a * e) < a * c - b * b \/ c + e <= b + d) ->
  optimal a b c d e 0 (clamp (- e / c) 0 1).
Proof.
  intros Ha Hc Hdet HS He Hend.
  assert (H : e < 0 \/ 0 <= b * d - a * e \/ 0 <= e) by lra.
  destruct (Rle_dec 0 e) as [He0|He0].
  - (* clamped at t0 *)
    assert (Hd : 0 <= d).
    { destruct He as [?|[HT|?]]; [lra| |done]. destruct (Rle_dec 0 d); [done|exfalso].
      assert (b < 0) by nra. nra. }
    assert (clamp (- e / c) 0 1 = 0) as ->.
    { destruct (clamp_cases (- e / c)) as [[_ ->]|[[Hv ->]|[Hv ->]]]; [done| |]; assert (- e / c * c = - e) by (field; lra); nra. }
    unfold optimal. nra.
  - destruct (edge_s c b a e d) as (H1 & H2 & H3); [done|done|lra|lra|left; lra| |].
    + destruct Hend; [left|right]; lra.
    + unfold optimal. lra.
Qed.
Theorem params_ok a b c d e : 0 < a -> 0 < c -> 0 < a * c - b * b ->
  let '(s, t) := closestParams a b c d e in
  0 <= s /\ 0 <= t /\ s + t <= 1 /\ (~ fault a b c d e -> optimal a b c d e s t).
Proof.
  intros Ha Hc Hdet. unfold closestParams, fault. cbn zeta. set (S := b * e - c * d). set (T := b * d - a * e).
  pose proof (clamp_in (- d / a)) as Hca. pose proof (clamp_in (- e / c)) as Hce. pose proof (denom_pos a b c Ha Hc Hdet) as Hden.
  pose proof (clamp_in ((c + e - b - d) / (a - 2 * b + c))) as Hcn.
  destruct (Rltb (S + T) (a * c - b * b)) eqn:Esum; [apply Rltb_true in Esum|apply Rltb_false in Esum].
  - destruct (Rltb S 0) eqn:ES; [apply Rltb_true in ES|apply Rltb_false in ES];
    (destruct (Rltb T 0) eqn:ET; [apply Rltb_true in ET|apply Rltb_false in ET]).
    + destruct (Rltb d 0) eqn:Ed; [apply Rltb_true in Ed|apply Rltb_false in Ed].
      * split_and!; [lra|lra|lra|]. intros _. apply edge_s; try done; [by left|by left].
      * split_and!; [lra|lra|lra|]. intros _. apply edge_t; try done; [by right; right|by left].
    + split_and!; [lra|lra|lra|]. intros _. apply edge_t; try done; [by right; left|by left].
    + split_and!; [lra|lra|lra|]. intros _. apply edge_s; try done; [by right|by left].
    + assert (Hi : 0 < 1 / (a * c - b * b)) by (unfold Rdiv; rewrite Rmult_1_l; by apply Rinv_0_lt_compat).
      assert (HD : 1 / (a * c - b * b) * (a * c - b * b) = 1) by (field; lra).
      set (D := 1 / (a * c - b * b)) in *. split_and!; [nra|nra|nra|]. intros _.
      assert (a * (S * D) + b * (T * D) + d = 0).
      { transitivity ((a * S + b * T) * D + d * (D * (a * c - b * b))); [rewrite HD; ring|unfold S, T; ring]. }
      assert (b * (S * D) + c * (T * D) + e = 0).
      { transitivity ((b * S + c * T) * D + e * (D * (a * c - b * b))); [rewrite HD; ring|unfold S, T; ring]. }
      unfold optimal. nra.
  - destruct (Rltb S 0) eqn:ES; [apply Rltb_true in ES|apply Rltb_false in ES].
    + destruct (Rltb (b + d) (c + e)) eqn:E; [apply Rltb_true in E|apply Rltb_false in E].
      * replace (c + e - (b + d)) with (c + e - b - d) by ring. split_and!; [lra|lra|lra|]. intros _.
        apply edge_st; try done; [unfold S, T in *; lra|left; lra|].
        destruct (Rle_dec 0 T) as [|HT]; [by right|]. left. exfalso. unfold S, T in *. lra.
      * split_and!; [lra|lra|lra|]. intros _. apply edge_t; try done; [|right; lra]. right; left. unfold S, T in *. lra.
    + destruct (Rltb T 0) eqn:ET; [apply Rltb_true in ET|apply Rltb_false in ET].
      * destruct (Rltb (b + e) (a + d)) eqn:E; [apply Rltb_true in E|apply Rltb_false in E].
        -- split_and!; [lra|lra|lra|]. intros _. apply edge_st; try done; [unfold S, T in *; lra|right; done|left; lra].
        -- split_and!; [lra|lra|lra|]. intros Hf. exfalso. apply Hf. split_and!; try lra; done.
      * split_and!; [lra|lra|lra|]. intros _. apply edge_st; try done; [unfold S, T in *; lra|by right|by right].
Qed.
Definition at_ (t0 t1 t2 : vec3) (s t : R) : vec3 := vadd (vadd t0 (vscale s (vsub t1 t0))) (vscale t (vsub t2 t0)).
Definition pa (t0 t1 : vec3) : R := vdot (vsub t1 t0) (vsub t1 t0).
Definition pb (t0 t1 t2 : vec3) : R := vdot (vsub t1 t0) (vsub t2 t0).
Definition pc (t0 t2 : vec3) : R := vdot (vsub t2 t0) (vsub t2 t0).
Definition pd (src t0 t1 : vec3) : R := vdot (vsub t1 t0) (vsub t0 src).
Definition pe (src t0 t2 : vec3) : R := vdot (vsub t2 t0) (vsub t0 src).

Lemma in_triangle_at t0 t1 t2 p : in_triangle3 (t0, t1, t2) p <-> exists s t, 0 <= s /\ 0 <= t /\ s + t <= 1 /\ p = at_ t0 t1 t2 s t.
Proof.
  split.
  - intros (u & v & w & Hu & Hv & Hw & Hs & ->). exists v, w. split_and!; [done|done|lra|]. cbn [fst snd].
    assert (u = 1 - v - w) as -> by lra. unfold at_, vadd, vscale, vsub. apply vec3_ext; simpl; ring.
  - intros (s & t & Hs & Ht & Hst & ->). exists (1 - s - t), s, t. split_and!; [lra|done|done|lra|]. cbn [fst snd].
    unfold at_, vadd, vscale, vsub. apply vec3_ext; simpl; ring.
Qed.
(** squared distance as a function of the parameters *)
Lemma quadratic src t0 t1 t2 s t : vnorm2 (vsub src (at_ t0 t1 t2 s t)) =
  pa t0 t1 * s * s + 2 * pb t0 t1 t2 * s * t + pc t0 t2 * t * t + 2 * pd src t0 t1 * s + 2 * pe src t0 t2 * t + vnorm2 (vsub src t0).
Proof. unfold pa, pb, pc, pd, pe, vnorm2, vdot, at_, vadd, vscale, vsub. simpl. ring. Qed.
Lemma dist_le_iff a b c d : dist3 a b <= dist3 c d <-> vnorm2 (vsub a b) <= vnorm2 (vsub c d).
Proof.
  unfold dist3, vnorm. split; intros H.
  - apply sqrt_le_0; try apply vnorm2_nonneg. done.
  - by apply sqrt_le_1_alt.
Qed.
Lemma quad_form_nonneg t0 t1 t2 x y : 0 <= pa t0 t1 * x * x + 2 * pb t0 t1 t2 * x * y + pc t0 t2 * y * y.
Proof.
  replace (_ + _) with (vnorm2 (vadd (vscale x (vsub t1 t0)) (vscale y (vsub t2 t0)))); [apply vnorm2_nonneg|].
  unfold pa, pb, pc, vnorm2, vdot, vadd, vscale, vsub. simpl. ring.
Qed.
Lemma optimal_nearest src t0 t1 t2 s t : 0 <= s -> 0 <= t -> s + t <= 1 ->
  optimal (pa t0 t1) (pb t0 t1 t2) (pc t0 t2) (pd src t0 t1) (pe src t0 t2) s t -> nearest (t0, t1, t2) src (at_ t0 t1 t2 s t).
Proof.
  intros Hs Ht Hst (H0 & H1 & H2). split; [apply in_triangle_at; by exists s, t|].
  intros q Hq. apply in_triangle_at in Hq as (s' & t' & Hs' & Ht' & Hst' & ->). apply dist_le_iff. rewrite !quadratic.
  pose proof (quad_form_nonneg t0 t1 t2 (s' - s) (t' - t)) as Hq.
  set (a := pa t0 t1) in *. set (b := pb t0 t1 t2) in *. set (c := pc t0 t2) in *. set (d := pd src t0 t1) in *. set (e := pe src t0 t2) in *.
  set (gs := a * s + b * t + d) in *. set (gt := b * s + c * t + e) in *.
  assert (Hg : 0 <= gs * (s' - s) + gt * (t' - t)).
  { replace (gs * (s' - s) + gt * (t' - t)) with
      ((1 - s' - t') * (- gs * s - gt * t) + s' * (gs * (1 - s) - gt * t) + t' * (- gs * s + gt * (1 - t))) by ring.
    assert (0 <= (1 - s' - t') * (- gs * s - gt * t)) by (apply Rmult_le_pos; lra).
    assert (0 <= s' * (gs * (1 - s) - gt * t)) by (apply Rmult_le_pos; lra).
    assert (0 <= t' * (- gs * s + gt * (1 - t))) by (apply Rmult_le_pos; lra). lra. }
  unfold gs, gt in Hg. nra.
Qed.
Lemma parallelogram a b src : vnorm2 (vsub src (vscale (1 / 2) (vadd a b))) =
  (vnorm2 (vsub src a) + vnorm2 (vsub src b)) / 2 - vnorm2 (vsub a b) / 4.
Proof. unfold vnorm2, vdot, vadd, vscale, vsub. simpl. field. Qed.
(** there is only one nearest point *)
Lemma nearest_unique t src p q : nearest t src p -> nearest t src q -> p = q.
Proof.
  intros [Hp Hp'] [Hq Hq'].
  assert (Hm : in_triangle3 t (vscale (1 / 2) (vadd p q))).
  { destruct Hp as (u & v & w & ? & ? & ? & ? & ->), Hq as (u' & v' & w' & ? & ? & ? & ? & ->).
    exists ((u + u') / 2), ((v + v') / 2), ((w + w') / 2). split_and!; try lra. unfold vadd, vscale. apply vec3_ext; simpl; field. }
  pose proof (Hp' _ Hm) as H1. pose proof (Hq' _ Hm) as H2. apply dist_le_iff in H1, H2. rewrite parallelogram in H1, H2.
  assert (H : vnorm2 (vsub p q) = 0). { pose proof (vnorm2_nonneg (vsub p q)). lra. }
  apply vnorm2_zero in H. unfold vsub, vzero in H. injection H as Hx Hy Hz. apply vec3_ext; lra.
Qed.
Lemma lagrange t0 t1 t2 : pa t0 t1 * pc t0 t2 - pb t0 t1 t2 * pb t0 t1 t2 = vnorm2 (vcross (vsub t1 t0) (vsub t2 t0)).
Proof. unfold pa, pb, pc, vnorm2, vdot, vcross, vsub. simpl. ring. Qed.
Lemma non_degenerate_pos t0 t1 t2 : non_degenerate (t0, t1, t2) ->
  0 < pa t0 t1 /\ 0 < pc t0 t2 /\ 0 < pa t0 t1 * pc t0 t2 - pb t0 t1 t2 * pb t0 t1 t2.
Proof.
  intros H. unfold non_degenerate in H. cbn [fst snd] in H.
  assert (Hd : 0 < pa t0 t1 * pc t0 t2 - pb t0 t1 t2 * pb t0 t1 t2).
  { rewrite lagrange. pose proof (vnorm2_nonneg (vcross (vsub t1 t0) (vsub t2 t0))) as [?|E]; [done|]. exfalso. apply H. by apply vnorm2_zero. }
  assert (0 <= pa t0 t1) by apply vnorm2_nonneg. assert (0 <= pc t0 t2) by apply vnorm2_nonneg. split_and!; [nra|nra|done].
Qed.
Lemma closest_at src t0 t1 t2 :
  closestPointInTriangle src t0 t1 t2 0 =
  let '(s, t) := closestParams (pa t0 t1) (pb t0 t1 t2) (pc t0 t2) (pd src t0 t1) (pe src t0 t2) in at_ t0 t1 t2 s t.
Proof.
  unfold closestPointInTriangle, pa, pb, pc, pd, pe. destruct (closestParams _ _ _ _ _) as [s t]. unfold at_.
  apply vec3_ext; unfold vadd at 1, vscale at 1; simpl; ring.
Qed.
Lemma fault_beyond src t0 t1 t2 : non_degenerate (t0, t1, t2) ->
  fault (pa t0 t1) (pb t0 t1 t2) (pc t0 t2) (pd src t0 t1) (pe src t0 t2) <-> beyond_t1 (t0, t1, t2) src.
Proof.
  intros Hnd. destruct (non_degenerate_pos _ _ _ Hnd) as (Ha & Hc & Hdet). unfold fault, beyond_t1. cbn [fst snd]. cbn zeta.
  assert (E0 : forall u v, vdot (vsub src (vadd t0 (vadd (vscale u (vsub t1 t0)) (vscale v (vsub t2 t0))))) (vsub t1 t0) = - pd src t0 t1 - u * pa t0 t1 - v * pb t0 t1 t2).
  { intros u v. unfold pa, pb, pd, vdot, vadd, vscale, vsub. simpl. ring. }
  assert (E1 : forall u v, vdot (vsub src (vadd t0 (vadd (vscale u (vsub t1 t0)) (vscale v (vsub t2 t0))))) (vsub t2 t0) = - pe src t0 t2 - u * pb t0 t1 t2 - v * pc t0 t2).
  { intros u v. unfold pb, pc, pe, vdot, vadd, vscale, vsub. simpl. ring. }
  assert (E2 : vdot (vsub src t1) (vsub t2 t1) = pa t0 t1 + pd src t0 t1 - pb t0 t1 t2 - pe src t0 t2).
  { unfold pa, pb, pd, pe, vdot, vsub. simpl. ring. }
  rewrite E2. set (a := pa t0 t1) in *. set (b := pb t0 t1 t2) in *. set (c := pc t0 t2) in *. set (d := pd src t0 t1) in *. set (e := pe src t0 t2) in *.
  set (det := a * c - b * b) in *. split.
  - intros (H1 & H2 & H3 & H4). exists ((b * e - c * d) / det), ((b * d - a * e) / det). rewrite E0, E1.
    assert (Hi : 0 < / det) by by apply Rinv_0_lt_compat. assert (HD : det * / det = 1) by (apply Rinv_r; lra). unfold Rdiv.
    split_and!.
    + transitivity (- d * (1 - det * / det)); [unfold det; ring|rewrite HD; ring].
    + transitivity (- e * (1 - det * / det)); [unfold det; ring|rewrite HD; ring].
    + rewrite <- Rmult_plus_distr_r. rewrite <- HD. apply Rmult_le_compat_r; lra.
    + apply Rmult_le_pos; lra.
    + assert (0 < - (b * d - a * e) * / det) by (apply Rmult_lt_0_compat; lra). lra.
    + lra.
  - intros (u & v & Hu & Hv & Huv & Hu0 & Hv0 & Hle). rewrite E0 in Hu. rewrite E1 in Hv.
    assert (b * e - c * d = u * det). { assert (d = - u * a - v * b) as -> by lra. assert (e = - u * b - v * c) as -> by lra. unfold det. ring. }
    assert (b * d - a * e = v * det). { assert (d = - u * a - v * b) as -> by lra. assert (e = - u * b - v * c) as -> by lra. unfold det. ring. }
    split_and!; [nra|nra|nra|lra].
Qed.
Theorem closest_in_triangle src t0 t1 t2 : non_degenerate (t0, t1, t2) ->
  in_triangle3 (t0, t1, t2) (closestPointInTriangle src t0 t1 t2 0).
Proof.
  intros Hnd. destruct (non_degenerate_pos _ _ _ Hnd) as (Ha & Hc & Hdet). rewrite closest_at.
  pose proof (params_ok _ _ _ (pd src t0 t1) (pe src t0 t2) Ha Hc Hdet) as H. destruct (closestParams _ _ _ _ _) as [s t].
  destruct H as (? & ? & ? & _). apply in_triangle_at. by exists s, t.
Qed.
Theorem closest_nearest src t0 t1 t2 : non_degenerate (t0, t1, t2) -> ~ beyond_t1 (t0, t1, t2) src ->
  nearest (t0, t1, t2) src (closestPointInTriangle src t0 t1 t2 0).
Proof.
  intros Hnd Hb. destruct (non_degenerate_pos _ _ _ Hnd) as (Ha & Hc & Hdet). rewrite closest_at.
  pose proof (params_ok _ _ _ (pd src t0 t1) (pe src t0 t2) Ha Hc Hdet) as H. destruct (closestParams _ _ _ _ _) as [s t].
  destruct H as (? & ? & ? & Ho). apply optimal_nearest; try done. apply Ho. rewrite fault_beyond; done.
Qed.
(** in the faulty branch: a point of the side t0 t1 with the parameter of the other side *)
Theorem closest_fault src t0 t1 t2 : non_degenerate (t0, t1, t2) -> beyond_t1 (t0, t1, t2) src ->
  let along u := vadd t0 (vscale u (vsub t1 t0)) in
  let p1 := Rmin (Rmax (vdot (vsub src t0) (vsub t1 t0) / vdot (vsub t1 t0) (vsub t1 t0)) 0) 1 in
  let p2 := Rmin (Rmax (vdot (vsub src t0) (vsub t2 t0) / vdot (vsub t2 t0) (vsub t2 t0)) 0) 1 in
  closestPointInTriangle src t0 t1 t2 0 = along p2 /\ nearest (t0, t1, t2) src (along p1) /\
  (nearest (t0, t1, t2) src (closestPointInTriangle src t0 t1 t2 0) <-> p1 = p2).
Proof.
  intros Hnd Hb along p1 p2. destruct (non_degenerate_pos _ _ _ Hnd) as (Ha & Hc & Hdet).
  pose proof (proj2 (fault_beyond src t0 t1 t2 Hnd) Hb) as Hf. destruct Hf as (H1 & H2 & H3 & H4).
  assert (E1 : p1 = clamp (- pd src t0 t1 / pa t0 t1) 0 1).
  { unfold p1, clamp. f_equal. f_equal. unfold pa. f_equal. unfold pd, vdot, vsub. simpl. ring. }
  assert (E2 : p2 = clamp (- pe src t0 t2 / pc t0 t2) 0 1).
  { unfold p2, clamp. f_equal. f_equal. unfold pc. f_equal. unfold pe, vdot, vsub. simpl. ring. }
  assert (Hat : forall u, at_ t0 t1 t2 u 0 = along u). { intros u. unfold at_, along, vadd, vscale. apply vec3_ext; simpl; ring. }
  assert (Hres : closestPointInTriangle src t0 t1 t2 0 = along p2).
  { rewrite closest_at. unfold closestParams. cbn zeta.
    assert (Rltb (pb t0 t1 t2 * pe src t0 t2 - pc t0 t2 * pd src t0 t1 + (pb t0 t1 t2 * pd src t0 t1 - pa t0 t1 * pe src t0 t2)) (pa t0 t1 * pc t0 t2 - pb t0 t1 t2 * pb t0 t1 t2) = false) as -> by by apply Rltb_false.
    assert (Rltb (pb t0 t1 t2 * pe src t0 t2 - pc t0 t2 * pd src t0 t1) 0 = false) as -> by by apply Rltb_false.
    assert (Rltb (pb t0 t1 t2 * pd src t0 t1 - pa t0 t1 * pe src t0 t2) 0 = true) as -> by by apply Rltb_true.
    assert (Rltb (pb t0 t1 t2 + pe src t0 t2) (pa t0 t1 + pd src t0 t1) = false) as -> by by apply Rltb_false.
    rewrite <- E2. apply Hat. }
  assert (Hnear : nearest (t0, t1, t2) src (along p1)).
  { rewrite <- Hat, E1. pose proof (clamp_in (- pd src t0 t1 / pa t0 t1)). apply optimal_nearest; try lra.
    apply edge_s; try done; [by right|by right]. }
  split; [done|]. split; [done|]. rewrite Hres. split.
  - intros Hn. pose proof (nearest_unique _ _ _ _ Hnear Hn) as E.
    assert (Hz : vscale (p1 - p2) (vsub t1 t0) = vzero).
    { unfold along in E. unfold vadd, vscale, vzero in *. injection E as Ex Ey Ez. apply vec3_ext; simpl; lra. }
    assert (Hn2 : (p1 - p2) * (p1 - p2) * pa t0 t1 = 0).
    { transitivity (vnorm2 (vscale (p1 - p2) (vsub t1 t0))); [unfold pa, vnorm2, vdot, vscale; simpl; ring|]. rewrite Hz. unfold vnorm2, vdot, vzero. simpl. ring. }
    apply Rmult_integral in Hn2 as [Hn2|Hn2]; [|lra]. apply Rmult_integral in Hn2. lra.
  - intros <-. done.
Qed.
(** a query point in the triangle is its own answer *)
Theorem closest_fixed src t0 t1 t2 : non_degenerate (t0, t1, t2) -> in_triangle3 (t0, t1, t2) src -> closestPointInTriangle src t0 t1 t2 0 = src.
Proof.
  intros Hnd Hin.
  assert (Hnb : ~ beyond_t1 (t0, t1, t2) src).
  { intros Hb. destruct (non_degenerate_pos _ _ _ Hnd) as (Ha & Hc & Hdet). apply (fault_beyond src t0 t1 t2 Hnd) in Hb as (_ & _ & H3 & _).
    apply in_triangle_at in Hin as (s & t & Hs & Ht & _ & ->).
    assert (Ed : pd (at_ t0 t1 t2 s t) t0 t1 = - s * pa t0 t1 - t * pb t0 t1 t2) by (unfold pd, pa, pb, at_, vdot, vadd, vscale, vsub; simpl; ring).
    assert (Ee : pe (at_ t0 t1 t2 s t) t0 t2 = - s * pb t0 t1 t2 - t * pc t0 t2) by (unfold pe, pc, pb, at_, vdot, vadd, vscale, vsub; simpl; ring).
    rewrite Ed, Ee in H3. nra. }
  pose proof (closest_nearest src t0 t1 t2 Hnd Hnb) as Hn. apply (nearest_unique (t0, t1, t2) src); [done|].
  split; [done|]. intros q _. rewrite dist3_refl. apply vnorm_nonneg.
Qed.
