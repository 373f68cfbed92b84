(** The overload of the clipping with iterators. *)
From Verif Require Import Maps Vec VecProofs GeomModel GeomSpec GeomInt GeomProofs GeomProofs2 GeomProofs3 GeomProofs4 GeomProofs5 GeomProofs6 GeomProofs7.
Local Open Scope R_scope.

Lemma sect2D_between junk a b s e : (isLeft a b s < 0 <= isLeft a b e \/ isLeft a b e < 0 <= isLeft a b s) ->
  exists i, sect2D junk s e a b = Some i /\ isLeft a b i = 0 /\
    exists t, 0 <= t <= 1 /\ vx i = t * vx e + (1 - t) * vx s /\ vy i = t * vy e + (1 - t) * vy s.
Proof.
  intros H. assert (Hne : isLeft a b s <> isLeft a b e) by lra.
  destruct (lineSect_ok s e a b Hne) as (x & y & Heq & Hx & Hy). unfold sect2D. rewrite Heq.
  set (t := isLeft a b s / (isLeft a b s - isLeft a b e)) in *.
  exists (V3 x y junk). split; [done|].
  assert (Hti : 0 <= t <= 1).
  { unfold t. destruct H as [H|H].
    - assert (Hq : isLeft a b s / (isLeft a b s - isLeft a b e) = - isLeft a b s / (isLeft a b e - isLeft a b s)) by (field; lra).
      rewrite Hq. split.
      + apply Rmult_le_pos; [lra|]. apply Rlt_le, Rinv_0_lt_compat. lra.
      + apply Rmult_le_reg_r with (isLeft a b e - isLeft a b s); [lra|]. unfold Rdiv. rewrite Rmult_assoc, Rinv_l by lra. lra.
    - split.
      + apply Rmult_le_pos; [lra|]. apply Rlt_le, Rinv_0_lt_compat. lra.
      + apply Rmult_le_reg_r with (isLeft a b s - isLeft a b e); [lra|]. unfold Rdiv. rewrite Rmult_assoc, Rinv_l by lra. lra. }
  split.
  - rewrite (isLeft_comb a b e s (V3 x y junk) t); [|simpl; lra|simpl; lra].
    unfold t. field. lra.
  - exists t. simpl. split; [done|]. lra.
Qed.
Lemma walkEdge_ok junk a b V l : forall e, e ∈ V -> (forall p, p ∈ l -> p ∈ V) ->
  exists out, walkEdge (sect2D junk) a b e l = Some out /\
    forall p, p ∈ out -> in_hull V p /\ isLeft a b p <= 0.
Proof.
  induction l as [|s l IH]; intros e He Hl.
  - exists []. split; [done|]. intros p Hp. by apply elem_of_nil in Hp.
  - cbn [walkEdge]. assert (Hs : s ∈ V) by (apply Hl, elem_of_cons; by left).
    destruct (IH s Hs) as (out & -> & Hout); [intros p Hp; apply Hl, elem_of_cons; by right|].
    assert (Hsect : (isLeft a b s < 0 <= isLeft a b e \/ isLeft a b e < 0 <= isLeft a b s) ->
      exists i, sect2D junk s e a b = Some i /\ in_hull V i /\ isLeft a b i <= 0).
    { intros H. destruct (sect2D_between junk a b s e H) as (i & Hi & H0 & t & Ht & Hx & Hy). exists i. split; [done|].
      split; [|lra]. apply (in_hull_comb V e s i t); [by apply in_hull_elem..|done|done|done]. }
    destruct (Rltb (isLeft a b e) 0) eqn:E1.
    + apply Rltb_true in E1. destruct (Rltb (isLeft a b s) 0) eqn:E2.
      * apply Rltb_true in E2. eexists. split; [done|]. intros p Hp. apply elem_of_cons in Hp as [->|Hp]; [|by apply Hout].
        split; [by apply in_hull_elem|lra].
      * apply Rltb_false in E2. destruct Hsect as (i & -> & Hi); [lra|]. eexists. split; [done|].
        intros p Hp. apply elem_of_cons in Hp as [->|Hp]; [done|by apply Hout].
    + apply Rltb_false in E1. destruct (Rltb (isLeft a b s) 0) eqn:E2.
      * apply Rltb_true in E2. destruct Hsect as (i & -> & Hi); [lra|]. eexists. split; [done|].
        intros p Hp. apply elem_of_cons in Hp as [->|Hp]; [done|]. apply elem_of_cons in Hp as [->|Hp]; [|by apply Hout].
        split; [by apply in_hull_elem|lra].
      * eexists. split; [done|]. done.
Qed.
Lemma walkEdges_ok junk clip : forall cur result, cur <> [] ->
  exists out, walkEdges (sect2D junk) clip cur result = Ok (Some out) /\
    ((length clip <= 1)%nat /\ out = result \/
     (forall p, p ∈ out -> in_hull cur p /\ inside_edges clip p)).
Proof.
  induction clip as [|a clip IH]; intros cur result Hne.
  - exists result. split; [done|]. left. simpl. split; [lia|done].
  - destruct clip as [|b clip]; [exists result; split; [done|]; left; simpl; split; [lia|done]|].
    cbn [walkEdges]. destruct cur as [|e l]; [done|].
    destruct (walkEdge_ok junk a b (e :: l) l e) as (out & -> & Hout); [apply elem_of_cons; by left|intros p Hp; apply elem_of_cons; by right|].
    destruct out as [|o out'].
    + exists []. split; [done|]. right. intros p Hp. by apply elem_of_nil in Hp.
    + set (input := if (3 <? length (o :: out'))%nat then (o :: out') ++ [front (o :: out')] else o :: out').
      assert (Hin : forall p, p ∈ input -> in_hull (e :: l) p /\ isLeft a b p <= 0).
      { intros p Hp. apply Hout. unfold input in Hp. destruct (_ <? _)%nat; [|done]. apply elem_of_app in Hp as [Hp|Hp]; [done|].
        apply elem_of_list_singleton in Hp as ->. apply elem_of_cons. left. done. }
      destruct (IH input input) as (out & Heq & Ho); [unfold input; destruct (_ <? _)%nat; done|]. exists out. split; [exact Heq|]. right.
      assert (Hall : forall p, p ∈ out -> in_hull input p /\ inside_edges (b :: clip) p).
      { destruct Ho as [[Hlen ->]|Ho]; [|done]. intros p Hp. split; [by apply in_hull_elem|].
        destruct clip; [|simpl in Hlen; lia]. intros x y Hxy. by apply elem_of_nil in Hxy. }
      intros p Hp. destruct (Hall p Hp) as [H1 H2]. split.
      * apply (in_hull_incl input); [|done]. intros q Hq. by apply Hin.
      * intros x y Hxy. cbn [edges] in Hxy. apply elem_of_cons in Hxy as [Hxy|Hxy]; [|by apply H2].
        injection Hxy as -> ->. apply (in_hull_half input a b p); [|done]. intros q Hq. by apply Hin.
Qed.
Theorem clipIter_sound junk sub clip : sub <> [] -> (2 <= length clip)%nat ->
  exists out, compute2DIntersectionIter junk sub clip = Ok (Some out) /\
    forall p, p ∈ out -> in_hull sub p /\ inside_edges clip p.
Proof.
  intros Hs Hc. unfold compute2DIntersectionIter. destruct clip as [|a clip]; [simpl in Hc; lia|].
  destruct (walkEdges_ok junk (a :: clip) sub [] Hs) as (out & Heq & [[Hl _]|Ho]); [lia|]. eauto.
Qed.

(** ** the area of a convex polygon is the sum of the areas of its fan of triangles *)
Definition cross2 (a b : vec3) : R := vx a * vy b - vx b * vy a.
Lemma fan_sum v vs : forall x,
  fold_right Rplus 0 (map (fun e : vec3 * vec3 => isLeft v e.1 e.2) (edges (x :: vs))) =
  shoelace (x :: vs) + cross2 v x - cross2 v (List.last (x :: vs) vzero).
Proof.
  induction vs as [|y vs IH]; intros x.
  - unfold shoelace. simpl. ring.
  - change (edges (x :: y :: vs)) with ((x, y) :: edges (y :: vs)). cbn [map fold_right]. rewrite IH.
    change (List.last (x :: y :: vs) vzero) with (List.last (y :: vs) vzero).
    assert (Hs : shoelace (x :: y :: vs) = cross2 x y + shoelace (y :: vs)) by done. rewrite Hs.
    unfold isLeft, cross2. cbn [fst snd]. ring.
Qed.
Lemma shoelace_app vs z : forall x, shoelace (x :: vs ++ [z]) = shoelace (x :: vs) + cross2 (List.last (x :: vs) vzero) z.
Proof.
  induction vs as [|y vs IH]; intros x.
  - unfold shoelace, cross2. simpl. ring.
  - change (shoelace (x :: (y :: vs) ++ [z])) with (cross2 x y + shoelace (y :: vs ++ [z])). rewrite IH.
    change (shoelace (x :: y :: vs)) with (cross2 x y + shoelace (y :: vs)).
    change (List.last (x :: y :: vs) vzero) with (List.last (y :: vs) vzero). ring.
Qed.
Lemma sum_neg (g : vec3 * vec3 -> R) l : (forall e, e ∈ l -> g e <= 0) ->
  Rabs (fold_right Rplus 0 (map g l) / 2) = fold_right Rplus 0 (map (fun e => Rabs (g e) / 2) l) /\ fold_right Rplus 0 (map g l) <= 0.
Proof.
  induction l as [|e l IH]; intros H.
  - simpl. split; [|lra]. unfold Rdiv. rewrite Rmult_0_l. apply Rabs_R0.
  - destruct IH as [IH1 IH2]; [intros x Hx; apply H, elem_of_cons; by right|].
    assert (He : g e <= 0) by (apply H, elem_of_cons; by left). cbn [map fold_right]. rewrite <- IH1. split; [|lra].
    rewrite !Rabs_left1 by lra. lra.
Qed.
Theorem area_fan v vs : convex_polygon (v :: vs ++ [v]) -> area (v :: vs ++ [v]) = fan_area v vs.
Proof.
  intros Hc. rewrite area_shoelace.
  destruct Hc as [(v' & vs' & Heq & Hlen & Hnd) Hright].
  injection Heq as <- Heq. apply app_inj_tail in Heq as [<- _].
  destruct vs as [|x vs]; [simpl in Hlen; lia|].
  assert (Hs : shoelace (v :: (x :: vs) ++ [v]) = fold_right Rplus 0 (map (fun e : vec3 * vec3 => isLeft v e.1 e.2) (edges (x :: vs)))).
  { rewrite fan_sum. change (shoelace (v :: (x :: vs) ++ [v])) with (cross2 v x + shoelace (x :: vs ++ [v])). rewrite shoelace_app.
    unfold cross2. ring. }
  rewrite Hs. apply sum_neg. intros [a b] Hab. cbn [fst snd].
  apply NoDup_cons in Hnd as [Hv _].
  pose proof Hab as Hab'. apply edges_in in Hab' as [Ha Hb].
  assert (H : isLeft a b v < 0).
  { apply Hright; [|apply elem_of_cons; by left|intros ->; done|intros ->; done].
    assert (Hne : x :: vs <> []) by done. rewrite (edges_polygon v (x :: vs) Hne). apply elem_of_cons. right. apply elem_of_app. by left. }
  assert (isLeft v a b = isLeft a b v) as -> by (unfold isLeft; ring). lra.
Qed.
Lemma area_triangle a b c : area [a; b; c; a] = triangle_area2 a b c.
Proof.
  change [a; b; c; a] with (a :: [b; c] ++ [a]). rewrite area_shoelace. unfold triangle_area_, shoelace, isLeft. cbn [edges app map fold_right fst snd].
  unfold Rdiv. rewrite Rabs_mult, (Rabs_pos_eq (/ 2)) by lra. f_equal. f_equal. ring.
Qed.
