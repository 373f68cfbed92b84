(** The support test. *)
From Coq Require Import ZArith Classical.
From Verif Require Import Maps Vec VecProofs GeomModel GeomSpec GeomInt GeomProofs GeomProofs2 GeomProofs3 GeomProofs4 GeomProofs5 SupModel SupSpec SupProofs SupProofs2 SupProofs3 SupProofs4.
Local Open Scope R_scope.

Lemma corners_ok support : forall xs ys, (length support <= length xs)%nat -> (length support <= length ys)%nat ->
  exists cs, corners support xs ys = Ok cs /\ length cs = (4 * length support)%nat /\ forall q, q ∈ cs <-> corner_of support xs ys q.
Proof.
  induction support as [|p support IH]; intros xs ys Hx Hy.
  - exists []. split_and!; [done|done|]. intros q. rewrite elem_of_nil. split; [done|]. intros (i & p & x & y & H & _). done.
  - destruct xs as [|x xs]; [simpl in Hx; lia|]. destruct ys as [|y ys]; [simpl in Hy; lia|].
    destruct (IH xs ys) as (cs & H1 & H2 & H3); [simpl in *; lia|simpl in *; lia|].
    cbn [corners]. rewrite H1. eexists. split_and!; [done|simpl in *; lia|]. intros q. rewrite !elem_of_cons, H3. split.
    + intros [->|[->|[->|[->|(i & p' & x' & y' & A & B & C & D)]]]].
      1-4: exists 0%nat, p, x, y; cbn [vx vy vz vadd]; split_and!; try done; try lra; try (left; lra); try (right; lra).
      exists (S i), p', x', y'. done.
    + intros (i & p' & x' & y' & A & B & C & D1 & D2 & D3). destruct i as [|i].
      * simpl in A, B, C. injection A as ->. injection B as ->. injection C as ->.
        destruct D1 as [D1|D1]; destruct D2 as [D2|D2].
        -- left. apply vec3_ext; cbn [vx vy vz vadd]; lra.
        -- do 3 right. left. apply vec3_ext; cbn [vx vy vz vadd]; lra.
        -- right. left. apply vec3_ext; cbn [vx vy vz vadd]; lra.
        -- do 2 right. left. apply vec3_ext; cbn [vx vy vz vadd]; lra.
      * do 4 right. exists i, p', x', y'. done.
Qed.
Lemma corners_short support : forall xs ys, (length xs < length support \/ length ys < length support)%nat -> corners support xs ys = Ub.
Proof.
  induction support as [|p support IH]; intros xs ys H; [simpl in H; lia|]. cbn [corners].
  destruct xs as [|x xs]; [done|]. destruct ys as [|y ys]; [done|]. rewrite IH; [done|]. simpl in H. lia.
Qed.
Lemma half_open_elements l l' Q : (forall q, q ∈ l <-> q ∈ l') -> in_half_open_hull l Q -> in_half_open_hull l' Q.
Proof.
  intros H (H1 & (q & H2 & H3) & (t & H4 & H5)).
  assert (Hin : forall q, in_hull l q -> in_hull l' q).
  { intros r. apply in_hull_incl. intros s Hs. apply in_hull_elem. by apply H. }
  split_and!; [by apply Hin|exists q; split; [by apply Hin|done]|exists t; split; [by apply H|done]].
Qed.
Lemma strictly_elements l l' Q : (forall q, q ∈ l <-> q ∈ l') -> strictly_inside l Q -> strictly_inside l' Q.
Proof. intros H Hs a b Hab. destruct (Hs a b Hab) as (q & Hq & Hq'). exists q. split; [by apply H|done]. Qed.

Theorem Contains_ok p support x xs y ys : 0 < x -> 0 < y ->
  (length support <= length xs)%nat -> (length support <= length ys)%nat ->
  (forall q q', corner_of (p :: support) (x :: xs) (y :: ys) q -> corner_of (p :: support) (x :: xs) (y :: ys) q' -> same_xy q q' -> q = q') ->
  forall cs, (forall q, q ∈ cs <-> corner_of (p :: support) (x :: xs) (y :: ys) q) ->
  exists test : vec3 -> bool,
    (forall fuel Q, (4 * length support + 5 <= fuel)%nat -> Contains fuel (p :: support) Q (x :: xs) (y :: ys) = Ok (Some (test Q))) /\
    (forall Q, test Q = true <-> in_half_open_hull cs Q) /\
    (forall Q, strictly_inside cs Q -> test Q = true) /\
    (forall Q, ~ in_hull cs Q -> test Q = false).
Proof.
  intros Hx Hy Lx Ly Hflat cs Hcs.
  destruct (corners_ok (p :: support) (x :: xs) (y :: ys)) as (ks & K1 & K2 & K3); [simpl; lia|simpl; lia|].
  assert (Hsame : forall q, q ∈ ks <-> q ∈ cs) by (intros q; by rewrite K3, Hcs).
  cbn [corners] in K1. destruct (corners support xs ys) as [l| |] eqn:E; [|done|done]. injection K1 as K1.
  set (p0 := vadd p (V3 x y 0)) in *. set (p1 := vadd p (V3 (- x) y 0)) in *. set (p2 := vadd p (V3 (- x) (- y) 0)) in *.
  set (p3 := vadd p (V3 x (- y) 0)) in *.
  destruct (giftWrap_InPolygon p0 p1 p2 (p3 :: l)) as (hull & H1 & H2).
  { intros a b Ha Hb. rewrite K1 in Ha, Hb. apply Hflat; by apply K3. }
  { unfold isLeft, p0, p1, p2. cbn [vx vy vadd]. assert (0 < x * y) by (by apply Rmult_lt_0_compat). lra. }
  assert (Hlen : length l = (4 * length support)%nat) by (rewrite <- K1 in K2; simpl in *; lia).
  exists (InPolygon hull). rewrite K1 in H2. split_and!.
  - intros fuel Q Hf. unfold Contains. cbn [corners]. rewrite E. fold p0 p1 p2 p3.
    rewrite H1 by (simpl; lia). done.
  - intros Q. destruct (H2 Q) as [H _]. rewrite H. split; apply half_open_elements; [done|]. intros q. by rewrite Hsame.
  - intros Q HQ. apply H2. revert HQ. apply strictly_elements. intros q. by rewrite Hsame.
  - intros Q HQ. apply not_true_is_false. intros Ht. apply H2 in Ht as (Ht & _). apply HQ.
    revert Ht. apply in_hull_incl. intros q Hq. apply in_hull_elem. by apply Hsame.
Qed.
Theorem Contains_none fuel Q xs ys : Contains fuel [] Q xs ys = Ok (Some false).
Proof. done. Qed.
Theorem Contains_short fuel support Q xs ys : (length xs < length support \/ length ys < length support)%nat ->
  Contains fuel support Q xs ys = Ub.
Proof. intros H. unfold Contains. destruct support; [simpl in H; lia|]. by rewrite corners_short. Qed.

Lemma vadd_zero p : vadd p (V3 0 0 0) = p /\ vadd p (V3 (-0) 0 0) = p /\ vadd p (V3 (-0) (-0) 0) = p /\ vadd p (V3 0 (-0) 0) = p.
Proof. split_and!; apply vec3_ext; cbn [vx vy vz vadd]; lra. Qed.
Lemma leftMostFrom_const (a : vec3) l : (forall q, q ∈ l -> q = a) -> leftMostFrom a l = a.
Proof.
  induction l as [|c l IH]; intros H; [done|]. cbn [leftMostFrom]. assert (c = a) as -> by (apply H, elem_of_cons; by left).
  destruct (Rltb _ _); apply IH; intros q Hq; apply H, elem_of_cons; by right.
Qed.
(** a point contact *)
Theorem Contains_point fuel p Q : (1 <= fuel)%nat ->
  exists b, Contains fuel [p] Q [0] [0] = Ok (Some b) /\
    (b = true <-> sqrt ((vx Q - vx p) * (vx Q - vx p) + (vy Q - vy p) * (vy Q - vy p)) < 1 / 1000).
Proof.
  intros Hf. destruct fuel as [|fuel]; [lia|]. unfold Contains. cbn [corners].
  destruct (vadd_zero p) as (-> & -> & -> & ->). unfold giftWrap.
  assert (leftMostFrom p [p; p; p] = p) as ->.
  { apply leftMostFrom_const. intros q. rewrite !elem_of_cons, elem_of_nil. tauto. }
  cbn [giftLoop]. assert (giftNext p [p; p; p] p = p) as ->.
  { unfold giftNext. cbn [fold_left]. assert (Hc : forall b : bool, (if b then p else p) = p) by (by intros []). by rewrite !Hc. }
  assert (front ([] ++ [p]) = p) as -> by done. assert (veqb p p = true) as -> by by apply veqb_true.
  eexists. split; [done|]. cbn [InPolygon app]. unfold DistancePointSegment.
  assert (Reqb (vx p) (vx p) = true) as -> by by apply Reqb_true. cbn [orb].
  rewrite Rmin_left by lra. rewrite Rltb_true. done.
Qed.
Lemma gn_self pi c (l : list vec3) : giftNext pi (c :: l) pi = giftNext c l pi.
Proof. unfold giftNext. cbn [fold_left]. assert (veqb pi pi = true) as -> by by apply veqb_true. done. Qed.
Lemma gn_keep p c (l : list vec3) pi : p <> pi -> isLeft pi p c <= 0 -> giftNext p (c :: l) pi = giftNext p l pi.
Proof.
  intros H1 H2. unfold giftNext. cbn [fold_left]. assert (veqb p pi = false) as -> by by apply veqb_false.
  assert (Rltb 0 (isLeft pi p c) = false) as -> by by apply Rltb_false. done.
Qed.
(** two point contacts: never supported *)
Lemma leftMostFrom_two (A B : vec3) : A <> B -> leftMostFrom A [A; A; A; B; B; B; B] = if Rltb (vx B) (vx A) then B else A.
Proof.
  intros _. cbn [leftMostFrom]. assert (EA : Rltb (vx A) (vx A) = false) by (apply Rltb_false; lra).
  assert (EB : Rltb (vx B) (vx B) = false) by (apply Rltb_false; lra).
  rewrite !EA. destruct (Rltb (vx B) (vx A)) eqn:E; [by rewrite !EB|]. by rewrite !E.
Qed.
Theorem Contains_two_points fuel A B Q : A <> B -> (2 <= fuel)%nat -> Contains fuel [A; B] Q [0; 0] [0; 0] = Ok (Some false).
Proof.
  intros Hne Hf. destruct fuel as [|[|fuel]]; [lia|lia|]. unfold Contains. cbn [corners].
  destruct (vadd_zero A) as (-> & -> & -> & ->). destruct (vadd_zero B) as (-> & -> & -> & ->). unfold giftWrap.
  rewrite leftMostFrom_two by done.
  assert (VAB : veqb A B = false) by by apply veqb_false. assert (VBA : veqb B A = false) by (apply veqb_false; congruence).
  assert (VAA : veqb A A = true) by by apply veqb_true. assert (VBB : veqb B B = true) by by apply veqb_true.
  assert (NA : giftNext A [A; A; A; B; B; B; B] A = B).
  { rewrite !gn_self. rewrite !gn_keep by (first [congruence|rewrite isLeft_same2; lra]). done. }
  assert (NB : giftNext A [A; A; A; B; B; B; B] B = A).
  { rewrite !gn_keep by (first [congruence|rewrite isLeft_same2; lra|rewrite isLeft_same1; lra]). done. }
  assert (Hw : forall X Y : vec3, (windEdge Q X Y + windEdge Q Y X = 0)%Z).
  { intros X Y. pose proof (isLeft_swap X Y Q) as Hs.
    destruct (windEdge_cases Q X Y) as [[Hu ->]|[[Hu ->]|(_ & U1 & U2 & ->)]].
    - destruct (windEdge_cases Q Y X) as [[Hv ->]|[[Hv ->]|(_ & _ & Hv & ->)]]; [unfold up in *; lra| |done].
      destruct (Rltb 0 (isLeft X Y Q)) eqn:E5.
      + apply Rltb_true in E5. assert (Rltb (isLeft Y X Q) 0 = true) as -> by (apply Rltb_true; lra). done.
      + apply Rltb_false in E5. assert (Rltb (isLeft Y X Q) 0 = false) as -> by (apply Rltb_false; lra). done.
    - destruct (windEdge_cases Q Y X) as [[Hv ->]|[[Hv ->]|(_ & Hv & _ & ->)]]; [|unfold down in *; lra|done].
      destruct (Rltb (isLeft X Y Q) 0) eqn:E5.
      + apply Rltb_true in E5. assert (Rltb 0 (isLeft Y X Q) = true) as -> by (apply Rltb_true; lra). done.
      + apply Rltb_false in E5. assert (Rltb 0 (isLeft Y X Q) = false) as -> by (apply Rltb_false; lra). done.
    - destruct (windEdge_cases Q Y X) as [[Hv ->]|[[Hv ->]|(_ & _ & _ & ->)]]; done. }
  destruct (Rltb (vx B) (vx A)).
  - cbn [giftLoop]. rewrite NB. assert (front ([] ++ [B]) = B) as -> by done. rewrite VAB. rewrite NA.
    assert (front (([] ++ [B]) ++ [A]) = B) as -> by done. rewrite VBB. cbn [app InPolygon].
    change (winding Q [B; A; B]) with (windEdge Q B A + (windEdge Q A B + 0))%Z. rewrite Z.add_0_r, Hw. done.
  - cbn [giftLoop]. rewrite NA. assert (front ([] ++ [A]) = A) as -> by done. rewrite VBA. rewrite NB.
    assert (front (([] ++ [A]) ++ [B]) = A) as -> by done. rewrite VAA. cbn [app InPolygon].
    change (winding Q [A; B; A]) with (windEdge Q A B + (windEdge Q B A + 0))%Z. rewrite Z.add_0_r, Hw. done.
Qed.
(** aligned point contacts, the leftmost listed third: the test does not end *)
Section three.
Variables A B C : vec3.
Hypothesis H0 : isLeft A B C = 0.
Hypothesis HAB : vx A < vx B.
Hypothesis HAC : vx A < vx C.
Hypothesis HBC : B <> C.
Notation tl := [B; B; B; C; C; C; C; A; A; A; A].
Lemma all_left X Y Z : X = A \/ X = B \/ X = C -> Y = A \/ Y = B \/ Y = C -> Z = A \/ Z = B \/ Z = C -> Rltb 0 (isLeft X Y Z) = false.
Proof.
  intros HX HY HZ. apply Rltb_false. unfold isLeft in *.
  destruct HX as [->|[->| ->]]; destruct HY as [->|[->| ->]]; destruct HZ as [->|[->| ->]]; lra.
Qed.
Theorem Contains_three_points fuel Q : Contains fuel [B; C; A] Q [0; 0; 0] [0; 0; 0] = Ok None.
Proof.
  unfold Contains. cbn [corners]. destruct (vadd_zero A) as (-> & -> & -> & ->). destruct (vadd_zero B) as (-> & -> & -> & ->).
  destruct (vadd_zero C) as (-> & -> & -> & ->). unfold giftWrap.
  assert (NAB : A <> B) by (intros E; rewrite E in HAB; lra). assert (NAC : A <> C) by (intros E; rewrite E in HAC; lra).
  assert (VBA : veqb B A = false) by (apply veqb_false; congruence). assert (VBC : veqb B C = false) by (apply veqb_false; congruence).
  assert (VCB : veqb C B = false) by (apply veqb_false; congruence). assert (VCA : veqb C A = false) by (apply veqb_false; congruence).
  assert (VBB : veqb B B = true) by by apply veqb_true.
  assert (EL : leftMostFrom B tl = A).
  { cbn [leftMostFrom]. assert (EB : Rltb (vx B) (vx B) = false) by (apply Rltb_false; lra).
    assert (EC : Rltb (vx C) (vx C) = false) by (apply Rltb_false; lra). assert (EA : Rltb (vx A) (vx A) = false) by (apply Rltb_false; lra).
    assert (EAB : Rltb (vx A) (vx B) = true) by by apply Rltb_true. assert (EAC : Rltb (vx A) (vx C) = true) by by apply Rltb_true.
    rewrite !EB. destruct (Rltb (vx C) (vx B)) eqn:E.
    - by rewrite !EC, EAC, !EA.
    - by rewrite !E, EAB, !EA. }
  rewrite EL.
  assert (Nxt : forall pi, pi = A \/ pi = C -> giftNext B tl pi = B).
  { intros pi Hpi. assert (B <> pi) by (destruct Hpi as [->| ->]; congruence).
    rewrite !gn_keep; try done; apply Rltb_false, all_left; tauto. }
  assert (NxB : giftNext B tl B = C).
  { rewrite !gn_self. rewrite !gn_keep; try done; try congruence; apply Rltb_false, all_left; tauto. }
  assert (Hloop : forall n res, res <> [] -> front res = A -> giftLoop n B tl res B = None /\ giftLoop n B tl res C = None).
  { induction n as [|n IH]; intros res Hr Hfr; [done|]. split; cbn [giftLoop].
    - rewrite NxB. rewrite front_app, Hfr by done. rewrite VCA. apply IH; [by destruct res|by rewrite front_app].
    - rewrite Nxt by tauto. rewrite front_app, Hfr by done. rewrite VBA. apply IH; [by destruct res|by rewrite front_app]. }
  destruct fuel as [|fuel]; [done|]. cbn [giftLoop]. rewrite Nxt by tauto.
  assert (front ([] ++ [A]) = A) as -> by done. rewrite VBA.
  destruct (Hloop fuel ([] ++ [A])) as [-> _]; done.
Qed.
End three.
