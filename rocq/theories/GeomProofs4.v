(** Polygon clipping. *)
From Verif Require Import Maps Vec VecProofs GeomModel GeomSpec GeomInt GeomProofs GeomProofs2 GeomProofs3.
Local Open Scope R_scope.

(** ** the intersection of two lines *)
Lemma lineSect_ok s e a b : isLeft a b s <> isLeft a b e ->
  exists x y, lineSect s e a b = Some (x, y) /\
    let t := isLeft a b s / (isLeft a b s - isLeft a b e) in
    x = vx s + t * (vx e - vx s) /\ y = vy s + t * (vy e - vy s).
Proof.
  intros Hne. unfold lineSect.
  set (d := (vx s - vx e) * (vy a - vy b) - (vy s - vy e) * (vx a - vx b)).
  assert (Hd : d = isLeft a b s - isLeft a b e) by (unfold d, isLeft; ring).
  assert (Hd0 : isLeft a b s - isLeft a b e <> 0) by lra.
  destruct (Reqb d 0) eqn:E; [apply Reqb_true in E; lra|]. eexists _, _. split; [done|].
  cbn zeta. rewrite Hd. split.
  - match goal with |- ?N / _ = _ => assert (Hn : N = vx s * (isLeft a b s - isLeft a b e) + isLeft a b s * (vx e - vx s)) by (unfold isLeft; ring) end.
    rewrite Hn. field. done.
  - match goal with |- ?N / _ = _ => assert (Hn : N = vy s * (isLeft a b s - isLeft a b e) + isLeft a b s * (vy e - vy s)) by (unfold isLeft; ring) end.
    rewrite Hn. field. done.
Qed.

(** what clipping needs of the intersection: the crossing point of segment [s, e] *)
Definition crosses (s e a b i : vec3) : Prop :=
  let t := isLeft a b s / (isLeft a b s - isLeft a b e) in
  vx i = vx s + t * (vx e - vx s) /\ vy i = vy s + t * (vy e - vy s).
Definition sect_ok (sect : vec3 -> vec3 -> vec3 -> vec3 -> option vec3) : Prop :=
  forall s e a b, isLeft a b s <> isLeft a b e -> exists i, sect s e a b = Some i /\ crosses s e a b i.

Lemma sect2D_ok junk : sect_ok (sect2D junk).
Proof.
  intros s e a b Hne. destruct (lineSect_ok s e a b Hne) as (x & y & H & Hx & Hy).
  unfold sect2D. rewrite H. eexists. split; [done|]. done.
Qed.
Lemma lineSect3D_ok : sect_ok lineSect3D.
Proof.
  intros s e a b Hne. destruct (lineSect_ok s e a b Hne) as (x & y & H & Hx & Hy).
  unfold lineSect3D. rewrite H. eexists. split; [done|]. done.
Qed.
(** the three-dimensional one is on the segment also in space *)
Lemma lineSect3D_segment s e a b : isLeft a b s <> isLeft a b e ->
  lineSect3D s e a b = Some (vadd s (vscale (isLeft a b s / (isLeft a b s - isLeft a b e)) (vsub e s))).
Proof.
  intros Hne. destruct (lineSect_ok s e a b Hne) as (x & y & H & Hx & Hy). cbn zeta in Hx, Hy.
  set (t := isLeft a b s / (isLeft a b s - isLeft a b e)) in *.
  unfold lineSect3D. rewrite H. f_equal. unfold vadd, vscale, vsub. cbn [vx vy vz]. rewrite <- Hx, <- Hy. f_equal.
  f_equal. destruct (Reqb (vx e - vx s) 0) eqn:E1; cbn [negb].
  - apply Reqb_true in E1. destruct (Reqb (vy e - vy s) 0) eqn:E2; cbn [negb].
    + apply Reqb_true in E2. exfalso. apply Hne. unfold isLeft.
      replace (vx e) with (vx s) by lra. replace (vy e) with (vy s) by lra. done.
    + apply Reqb_false in E2. rewrite Hy. f_equal. field. done.
  - apply Reqb_false in E1. rewrite Hx. f_equal. field. done.
Qed.

(** ** affine facts *)
Lemma isLeft_comb a b p q r t : vx r = t * vx p + (1 - t) * vx q -> vy r = t * vy p + (1 - t) * vy q ->
  isLeft a b r = t * isLeft a b p + (1 - t) * isLeft a b q.
Proof. intros Hx Hy. unfold isLeft. rewrite Hx, Hy. ring. Qed.
Lemma isLeft_xy a b p q : same_xy p q -> isLeft a b p = isLeft a b q.
Proof. intros [H1 H2]. unfold isLeft. by rewrite H1, H2. Qed.

Lemma crosses_on s e a b i : isLeft a b s <> isLeft a b e -> crosses s e a b i -> isLeft a b i = 0.
Proof.
  intros Hne [Hx Hy]. set (t := isLeft a b s / (isLeft a b s - isLeft a b e)) in *.
  rewrite (isLeft_comb a b e s i t) by lra. unfold t. field. lra.
Qed.
Lemma crosses_between s e a b i : (isLeft a b s <= 0 < isLeft a b e \/ isLeft a b e <= 0 < isLeft a b s) ->
  crosses s e a b i -> exists t, 0 <= t <= 1 /\ vx i = t * vx e + (1 - t) * vx s /\ vy i = t * vy e + (1 - t) * vy s.
Proof.
  intros Hd [Hx Hy]. set (t := isLeft a b s / (isLeft a b s - isLeft a b e)) in *. exists t. split_and!; [| |lra|lra].
  - unfold t. destruct Hd as [Hd|Hd].
    + apply Rmult_le_reg_r with (isLeft a b e - isLeft a b s); [lra|].
      replace (isLeft a b s / (isLeft a b s - isLeft a b e) * (isLeft a b e - isLeft a b s)) with (- isLeft a b s) by (field; lra). lra.
    + apply Rmult_le_reg_r with (isLeft a b s - isLeft a b e); [lra|].
      replace (isLeft a b s / (isLeft a b s - isLeft a b e) * (isLeft a b s - isLeft a b e)) with (isLeft a b s) by (field; lra). lra.
  - unfold t. destruct Hd as [Hd|Hd].
    + apply Rmult_le_reg_r with (isLeft a b e - isLeft a b s); [lra|].
      replace (isLeft a b s / (isLeft a b s - isLeft a b e) * (isLeft a b e - isLeft a b s)) with (- isLeft a b s) by (field; lra). lra.
    + apply Rmult_le_reg_r with (isLeft a b s - isLeft a b e); [lra|].
      replace (isLeft a b s / (isLeft a b s - isLeft a b e) * (isLeft a b s - isLeft a b e)) with (isLeft a b s) by (field; lra). lra.
Qed.

(** induction over a hull *)
Lemma in_hull_ind' l (P : vec3 -> Prop) :
  (forall a p, a ∈ l -> same_xy a p -> P p) ->
  (forall p q r t, in_hull l p -> in_hull l q -> P p -> P q -> 0 <= t <= 1 ->
     vx r = t * vx p + (1 - t) * vx q -> vy r = t * vy p + (1 - t) * vy q -> P r) ->
  forall p, in_hull l p -> P p.
Proof.
  intros Hel Hcomb.
  assert (Hgen : forall ws k, length ws = length k -> (forall a, a ∈ k -> a ∈ l) -> Forall (fun w => 0 <= w) ws ->
    0 < weighted (fun _ => 1) ws k -> forall p,
    weighted (fun _ => 1) ws k * vx p = weighted vx ws k -> weighted (fun _ => 1) ws k * vy p = weighted vy ws k ->
    in_hull l p /\ P p).
  { induction ws as [|w ws IH]; intros k Hlen Hin Hw Hpos p Hx Hy; destruct k as [|a k]; try (simpl in Hpos; lra).
    cbn [weighted] in *. inversion_clear Hw as [|? ? Hw0 Hw1].
    assert (Ha : a ∈ l) by (apply Hin, elem_of_cons; by left).
    assert (Hin' : forall a, a ∈ k -> a ∈ l) by (intros a' Ha'; apply Hin, elem_of_cons; by right).
    set (W := weighted (fun _ => 1) ws k) in *.
    assert (HW : 0 <= W).
    { unfold W. clear -Hw1. revert k. induction ws as [|w ws IH]; intros [|a k]; simpl; try lra.
      inversion_clear Hw1. specialize (IH H0 k). lra. }
    destruct (Req_EM_T W 0) as [HW0|HW0].
    - (* no weight on the rest *)
      assert (Hz : forall f, weighted f ws k = 0).
      { intros f. unfold W in HW0. clear -Hw1 HW0. revert k HW0. induction ws as [|w ws IH]; intros [|a k] H; simpl in *; try lra.
        inversion_clear Hw1 as [|? ? H1 H2].
        assert (0 <= weighted (fun _ => 1) ws k).
        { clear -H2. revert k. induction ws as [|w ws IH]; intros [|a k]; simpl; try lra. inversion_clear H2. specialize (IH H0 k). lra. }
        rewrite IH; [|done|lra]. replace w with 0 by lra. lra. }
      rewrite Hz in Hx. rewrite Hz in Hy. rewrite HW0 in Hpos, Hx, Hy.
      assert (same_xy a p).
      { split; apply Rmult_eq_reg_l with w; lra. }
      split; [|by eapply Hel]. eapply in_hull_xy; [done|]. by apply in_hull_elem.
    - set (q := V3 (weighted vx ws k / W) (weighted vy ws k / W) 0).
      destruct (IH k) with (p := q) as [Hq1 Hq2]; try done; [simpl in Hlen; lia|fold W; lra| | |].
      { fold W. unfold q. simpl. field. done. }
      { fold W. unfold q. simpl. field. done. }
      assert (Ht : 0 <= w / (w * 1 + W) <= 1).
      { split.
        - apply Rmult_le_reg_r with (w * 1 + W); [lra|]. replace (w / (w * 1 + W) * (w * 1 + W)) with w by (field; lra). lra.
        - apply Rmult_le_reg_r with (w * 1 + W); [lra|]. replace (w / (w * 1 + W) * (w * 1 + W)) with w by (field; lra). lra. }
      assert (Hpx : vx p = w / (w * 1 + W) * vx a + (1 - w / (w * 1 + W)) * vx q).
      { apply Rmult_eq_reg_l with (w * 1 + W); [|lra]. rewrite Hx. unfold q. simpl. field. lra. }
      assert (Hpy : vy p = w / (w * 1 + W) * vy a + (1 - w / (w * 1 + W)) * vy q).
      { apply Rmult_eq_reg_l with (w * 1 + W); [|lra]. rewrite Hy. unfold q. simpl. field. lra. }
      split.
      + eapply (in_hull_comb l a q); [by apply in_hull_elem|done|exact Ht|done|done].
      + eapply (Hcomb a q); [by apply in_hull_elem|done|by eapply Hel|done|exact Ht|done|done]. }
  intros p (ws & H1 & H2 & H3 & H4 & H5).
  destruct (Hgen ws l H1 (fun _ H => H) H2) with (p := p) as [_ H]; [lra|rewrite H3, H4; lra|rewrite H3, H5; lra|done].
Qed.

Section clip.
Variable sect : vec3 -> vec3 -> vec3 -> vec3 -> option vec3.
Hypothesis Hsect : sect_ok sect.

(** what one step emits *)
Lemma clipLoop_total a b l : forall s, exists out, clipLoop sect a b s l = Some out.
Proof.
  induction l as [|e l IH]; intros s; [by eexists|]. cbn [clipLoop]. destruct (IH e) as [out ->].
  destruct (Rleb (isLeft a b e) 0) eqn:E1.
  - apply Rleb_true in E1. destruct (Rltb 0 (isLeft a b s)) eqn:E2; [|by eexists]. apply Rltb_true in E2.
    destruct (Hsect s e a b) as (i & -> & _); [lra|]. by eexists.
  - apply Rleb_false in E1. destruct (Rleb (isLeft a b s) 0) eqn:E2; [|by eexists]. apply Rleb_true in E2.
    destruct (Hsect s e a b) as (i & -> & _); [lra|]. by eexists.
Qed.

Variables (a b : vec3) (V : list vec3).
Hypothesis Hconv : weakly_convex V.

Notation f := (isLeft a b).
Definition exit_point (i : vec3) : Prop :=
  exists s e, (s, e) ∈ cyclic_edges V /\ f s <= 0 < f e /\ crosses s e a b i.
Definition entry_point (i : vec3) : Prop :=
  exists s e, (s, e) ∈ cyclic_edges V /\ f e <= 0 < f s /\ crosses s e a b i.
Definition good (x y : vec3) : Prop := forall q, in_hull V q -> f q <= 0 -> isLeft x y q <= 0.
(** a point that may come before the output of the loop started with s *)
Definition valid_pre (s pre : vec3) : Prop := (f s <= 0 -> pre = s) /\ (0 < f s -> exit_point pre).

Lemma cyc_in x y : (x, y) ∈ cyclic_edges V -> x ∈ V /\ y ∈ V.
Proof.
  intros H. unfold cyclic_edges in H. destruct V as [|v vs] eqn:E; [by apply elem_of_nil in H|].
  assert (Hlast : List.last (v :: vs) vzero ∈ v :: vs).
  { apply elem_of_list_In. clear. revert v. induction vs as [|w vs IH]; intros v; [by left|].
    right. apply (IH w). }
  rewrite <- E in *.
  assert (Hy : y ∈ V).
  { revert H. generalize (List.last V vzero). intros z H. rewrite E in *.
    change (edges (z :: v :: vs)) with ((z, v) :: edges (v :: vs)) in H.
    apply elem_of_cons in H as [H|H]; [injection H as _ ->; apply elem_of_cons; by left|].
    apply edges_in in H as [_ H]. done. }
  split; [|done]. apply edges_in in H as [H _]. apply elem_of_cons in H as [->|H]; done.
Qed.

Lemma entry_in_hull i : entry_point i \/ exit_point i -> in_hull V i.
Proof.
  intros [H|H]; destruct H as (s & e & Hse & Hf & Hi); apply cyc_in in Hse as [Hs He];
    destruct (crosses_between s e a b i) as (t & Ht & Hx & Hy); try done; try tauto;
    (eapply (in_hull_comb V e s); [by apply in_hull_elem|by apply in_hull_elem|exact Ht|done|done]).
Qed.
Lemma entry_on i : entry_point i \/ exit_point i -> f i = 0.
Proof.
  intros [H|H]; destruct H as (s & e & Hse & Hf & Hi); apply (crosses_on s e a b i); try done; lra.
Qed.

(** points of the hull on the line, relative to an exit and to an entry *)
Lemma on_line_param p q : ~ (vx a = vx b /\ vy a = vy b) -> f p = 0 -> f q = 0 ->
  exists t, vx q = vx p + t * (vx b - vx a) /\ vy q = vy p + t * (vy b - vy a).
Proof.
  intros Hab Hp Hq. unfold isLeft in *.
  destruct (Req_EM_T (vx b - vx a) 0) as [Hx|Hx].
  - assert (Hy : vy b - vy a <> 0) by (intros Hy; apply Hab; lra).
    rewrite Hx in *. exists ((vy q - vy p) / (vy b - vy a)). split; [|field; done].
    assert ((vx q - vx a) * (vy b - vy a) = 0) as H1 by lra. assert ((vx p - vx a) * (vy b - vy a) = 0) as H2 by lra.
    apply Rmult_integral in H1 as [H1|H1]; [|done]. apply Rmult_integral in H2 as [H2|H2]; [|done]. lra.
  - exists ((vx q - vx p) / (vx b - vx a)). split; [field; done|].
    apply Rmult_eq_reg_l with (vx b - vx a); [|done].
    rewrite Rmult_plus_distr_l.
    replace ((vx b - vx a) * ((vx q - vx p) / (vx b - vx a) * (vy b - vy a))) with ((vx q - vx p) * (vy b - vy a)) by (field; done).
    lra.
Qed.
Lemma nondegenerate p : f p <> 0 -> ~ (vx a = vx b /\ vy a = vy b).
Proof. intros Hp [H1 H2]. apply Hp. unfold isLeft. rewrite H1, H2. lra. Qed.

Lemma after_exit i q : exit_point i -> in_hull V q -> f q = 0 ->
  exists t, 0 <= t /\ vx q = vx i + t * (vx b - vx a) /\ vy q = vy i + t * (vy b - vy a).
Proof.
  intros Hex Hq Hfq. pose proof (entry_on i (or_intror Hex)) as Hi.
  destruct Hex as (s & e & Hse & Hf & Hcr).
  assert (Hab : ~ (vx a = vx b /\ vy a = vy b)) by (apply (nondegenerate e); lra).
  destruct (on_line_param i q Hab Hi Hfq) as (t & Hx & Hy). exists t. split; [|done].
  pose proof (in_hull_half V s e q (Hconv s e Hse) Hq) as Hr.
  assert (Hii : isLeft s e i = 0).
  { destruct Hcr as [Cx Cy]. unfold isLeft at 1. rewrite Cx, Cy. ring. }
  assert (Hrel : isLeft s e q = isLeft s e i + t * (f s - f e)).
  { unfold isLeft. rewrite Hx, Hy. ring. }
  rewrite Hrel, Hii in Hr. destruct (Rle_dec 0 t) as [|Hn]; [done|]. exfalso.
  assert (0 < - t * (f e - f s)) by (apply Rmult_lt_0_compat; lra). lra.
Qed.
Lemma before_entry i q : entry_point i -> in_hull V q -> f q = 0 ->
  exists t, t <= 0 /\ vx q = vx i + t * (vx b - vx a) /\ vy q = vy i + t * (vy b - vy a).
Proof.
  intros Hex Hq Hfq. pose proof (entry_on i (or_introl Hex)) as Hi.
  destruct Hex as (s & e & Hse & Hf & Hcr).
  assert (Hab : ~ (vx a = vx b /\ vy a = vy b)) by (apply (nondegenerate s); lra).
  destruct (on_line_param i q Hab Hi Hfq) as (t & Hx & Hy). exists t. split; [|done].
  pose proof (in_hull_half V s e q (Hconv s e Hse) Hq) as Hr.
  assert (Hii : isLeft s e i = 0).
  { destruct Hcr as [Cx Cy]. unfold isLeft at 1. rewrite Cx, Cy. ring. }
  assert (Hrel : isLeft s e q = isLeft s e i + t * (f s - f e)).
  { unfold isLeft. rewrite Hx, Hy. ring. }
  rewrite Hrel, Hii in Hr. destruct (Rle_dec t 0) as [|Hn]; [done|]. exfalso.
  assert (0 < t * (f s - f e)) by (apply Rmult_lt_0_compat; lra). lra.
Qed.

(** ** edges of the output *)
Lemma good_exit_entry x i : exit_point x -> entry_point i -> good x i.
Proof.
  intros Hx Hi q Hq Hfq.
  destruct (after_exit x i Hx) as (t & Ht & Ex & Ey); [by apply entry_in_hull; left|by apply entry_on; left|].
  assert (Hrel : isLeft x i q = t * (f q - f x)).
  { unfold isLeft at 1. rewrite Ex, Ey. unfold isLeft. ring. }
  rewrite Hrel, (entry_on x) by by right. assert (0 <= t * - f q) by (apply Rmult_le_pos; lra). lra.
Qed.
Lemma good_edge s e : (s, e) ∈ cyclic_edges V -> good s e.
Proof. intros Hse q Hq _. by apply (in_hull_half V s e q (Hconv s e Hse)). Qed.
Lemma good_part s e i : (s, e) ∈ cyclic_edges V -> (f s <= 0 < f e \/ f e <= 0 < f s) -> crosses s e a b i ->
  good s i /\ good i e.
Proof.
  intros Hse Hd Hi. destruct (crosses_between _ _ _ _ _ Hd Hi) as (t & Ht & Hx & Hy).
  split; intros q Hq _; pose proof (in_hull_half V s e q (Hconv s e Hse) Hq) as Hr.
  - replace (isLeft s i q) with (t * isLeft s e q); [|unfold isLeft; rewrite Hx, Hy; ring].
    assert (0 <= t * - isLeft s e q) by (apply Rmult_le_pos; lra). lra.
  - replace (isLeft i e q) with ((1 - t) * isLeft s e q); [|unfold isLeft; rewrite Hx, Hy; ring].
    assert (0 <= (1 - t) * - isLeft s e q) by (apply Rmult_le_pos; lra). lra.
Qed.

Lemma clipLoop_edges l : forall s pre out, clipLoop sect a b s l = Some out ->
  (forall x y, (x, y) ∈ edges (s :: l) -> (x, y) ∈ cyclic_edges V) -> valid_pre s pre ->
  (forall x y, (x, y) ∈ edges (pre :: out) -> good x y) /\
  valid_pre (List.last (s :: l) vzero) (List.last (pre :: out) vzero) /\
  (forall x, x ∈ out -> in_hull V x /\ f x <= 0).
Proof.
  induction l as [|e l IH]; intros s pre out H Hed Hpre.
  - injection H as <-. split_and!; [intros x y Hxy; by apply elem_of_nil in Hxy|done|intros x Hx; by apply elem_of_nil in Hx].
  - cbn [clipLoop] in H.
    assert (Hse : (s, e) ∈ cyclic_edges V) by (apply Hed; cbn [edges]; apply elem_of_cons; by left).
    assert (Hed' : forall x y, (x, y) ∈ edges (e :: l) -> (x, y) ∈ cyclic_edges V).
    { intros x y Hxy. apply Hed. cbn [edges] in *. apply elem_of_cons. by right. }
    destruct (clipLoop_total a b l e) as [out1 Hout1]. rewrite Hout1 in H.
    assert (He : e ∈ V) by by apply cyc_in in Hse as [_ He].
    assert (Hlast : forall z, List.last (s :: e :: l) z = List.last (e :: l) z) by done.
    rewrite Hlast. destruct (Rleb (f e) 0) eqn:E1.
    + apply Rleb_true in E1.
      destruct (IH e e out1 Hout1 Hed') as (G1 & G2 & G3); [split; [done|lra]|].
      destruct (Rltb 0 (f s)) eqn:E2.
      * apply Rltb_true in E2. destruct (Hsect s e a b) as (i & Hi & Hcr); [lra|]. rewrite Hi in H. injection H as <-.
        assert (Hentry : entry_point i) by (exists s, e; split_and!; done).
        destruct (good_part s e i Hse) as [_ Hgie]; [by right|done|].
        split_and!.
        -- intros x y Hxy. cbn [edges] in Hxy. apply elem_of_cons in Hxy as [Hxy|Hxy].
           { injection Hxy as -> ->. apply good_exit_entry; [by apply Hpre|done]. }
           apply elem_of_cons in Hxy as [Hxy|Hxy]; [by injection Hxy as -> ->|]. by apply G1.
        -- exact G2.
        -- intros x Hx. apply elem_of_cons in Hx as [->|Hx].
           { split; [by apply entry_in_hull; left|]. rewrite (entry_on i) by by left. lra. }
           apply elem_of_cons in Hx as [->|Hx]; [split; [by apply in_hull_elem|done]|by apply G3].
      * apply Rltb_false in E2. injection H as <-. destruct Hpre as [Hp _]. rewrite (Hp E2) in *.
        split_and!.
        -- intros x y Hxy. cbn [edges] in Hxy. apply elem_of_cons in Hxy as [Hxy|Hxy]; [|by apply G1].
           injection Hxy as -> ->. by apply good_edge.
        -- exact G2.
        -- intros x Hx. apply elem_of_cons in Hx as [->|Hx]; [split; [by apply in_hull_elem|done]|by apply G3].
    + apply Rleb_false in E1. destruct (Rleb (f s) 0) eqn:E2.
      * apply Rleb_true in E2. destruct (Hsect s e a b) as (i & Hi & Hcr); [lra|]. rewrite Hi in H. injection H as <-.
        assert (Hexit : exit_point i) by (exists s, e; split_and!; done).
        destruct (IH e i out1 Hout1 Hed') as (G1 & G2 & G3); [split; [lra|done]|].
        destruct (good_part s e i Hse) as [Hgsi _]; [by left|done|].
        destruct Hpre as [Hp _]. rewrite (Hp E2) in *. split_and!.
        -- intros x y Hxy. cbn [edges] in Hxy. apply elem_of_cons in Hxy as [Hxy|Hxy]; [|by apply G1].
           by injection Hxy as -> ->.
        -- exact G2.
        -- intros x Hx. apply elem_of_cons in Hx as [->|Hx]; [|by apply G3].
           split; [by apply entry_in_hull; right|]. rewrite (entry_on i) by by right. lra.
      * apply Rleb_false in E2. injection H as <-. apply IH; try done. split; [lra|]. intros _. by apply Hpre.
Qed.

(** the vertices inside are kept, and the crossing points are there *)
Lemma clipLoop_keeps l : forall s out, clipLoop sect a b s l = Some out ->
  (forall x, x ∈ l -> f x <= 0 -> x ∈ out) /\
  (forall x y, (x, y) ∈ edges (s :: l) -> f x <= 0 < f y \/ f y <= 0 < f x -> exists i, i ∈ out /\ crosses x y a b i).
Proof.
  induction l as [|e l IH]; intros s out H.
  - split; [intros x Hx; by apply elem_of_nil in Hx|intros x y Hx; by apply elem_of_nil in Hx].
  - cbn [clipLoop] in H. destruct (clipLoop_total a b l e) as [out1 Hout1]. rewrite Hout1 in H.
    destruct (IH e out1 Hout1) as [G1 G2].
    assert (Hgoal : (forall x, x ∈ out1 -> x ∈ out) -> (f e <= 0 -> e ∈ out) ->
      (f s <= 0 < f e \/ f e <= 0 < f s -> exists i, i ∈ out /\ crosses s e a b i) ->
      (forall x, x ∈ e :: l -> f x <= 0 -> x ∈ out) /\
      (forall x y, (x, y) ∈ edges (s :: e :: l) -> f x <= 0 < f y \/ f y <= 0 < f x -> exists i, i ∈ out /\ crosses x y a b i)).
    { intros K1 K2 K3. split.
      - intros x Hx Hf. apply elem_of_cons in Hx as [->|Hx]; [by apply K2|]. by apply K1, G1.
      - intros x y Hxy Hf. cbn [edges] in Hxy. apply elem_of_cons in Hxy as [Hxy|Hxy].
        + injection Hxy as -> ->. by apply K3.
        + destruct (G2 x y Hxy Hf) as (i & Hi & Hc). exists i. split; [by apply K1|done]. }
    destruct (Rleb (f e) 0) eqn:E1.
    + apply Rleb_true in E1. destruct (Rltb 0 (f s)) eqn:E2.
      * apply Rltb_true in E2. destruct (Hsect s e a b) as (i & Hi & Hcr); [lra|]. rewrite Hi in H. injection H as <-.
        apply Hgoal.
        -- intros x Hx. rewrite !elem_of_cons. tauto.
        -- intros _. rewrite !elem_of_cons. tauto.
        -- intros _. exists i. split; [apply elem_of_cons; by left|done].
      * apply Rltb_false in E2. injection H as <-. apply Hgoal.
        -- intros x Hx. rewrite !elem_of_cons. tauto.
        -- intros _. rewrite !elem_of_cons. tauto.
        -- intros Hd. lra.
    + apply Rleb_false in E1. destruct (Rleb (f s) 0) eqn:E2.
      * apply Rleb_true in E2. destruct (Hsect s e a b) as (i & Hi & Hcr); [lra|]. rewrite Hi in H. injection H as <-.
        apply Hgoal.
        -- intros x Hx. rewrite !elem_of_cons. tauto.
        -- lra.
        -- intros _. exists i. split; [apply elem_of_cons; by left|done].
      * apply Rleb_false in E2. injection H as <-. apply Hgoal; [done|lra|lra].
Qed.
End clip.
