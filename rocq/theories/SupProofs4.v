(** The winding number around a closed chain of supporting edges. *)
From Coq Require Import ZArith Classical.
From Verif Require Import Maps Vec VecProofs GeomModel GeomSpec GeomInt GeomProofs GeomProofs2 GeomProofs3 GeomProofs4 GeomProofs5 SupModel SupSpec SupProofs SupProofs2 SupProofs3.
Local Open Scope R_scope.

Section winding.
Variable Q : vec3.
Definition above (a : vec3) : bool := Rltb (vy Q) (vy a).
Definition up a b := vy a <= vy Q < vy b.
Definition down a b := vy b <= vy Q < vy a.
Lemma windEdge_cases a b : (up a b /\ windEdge Q a b = if Rltb 0 (isLeft a b Q) then 1%Z else 0%Z) \/
  (down a b /\ windEdge Q a b = if Rltb (isLeft a b Q) 0 then (-1)%Z else 0%Z) \/
  (above a = above b /\ ~ up a b /\ ~ down a b /\ windEdge Q a b = 0%Z).
Proof.
  unfold windEdge, up, down, above. destruct (Rleb (vy a) (vy Q)) eqn:E1; destruct (Rltb (vy Q) (vy b)) eqn:E2.
  - apply Rleb_true in E1. apply Rltb_true in E2. left. done.
  - apply Rleb_true in E1. right. right. assert (Rltb (vy Q) (vy a) = false) as -> by by apply Rltb_false.
    apply Rltb_false in E2. split_and!; try done; lra.
  - apply Rleb_false in E1. right. right. assert (Rltb (vy Q) (vy a) = true) as -> by by apply Rltb_true.
    apply Rltb_true in E2. assert (Rleb (vy b) (vy Q) = false) as -> by by apply Rleb_false. split_and!; try done; lra.
  - apply Rleb_false in E1. apply Rltb_false in E2. right. left. assert (Rleb (vy b) (vy Q) = true) as -> by by apply Rleb_true. done.
Qed.
Lemma winding_zero l : (forall a b, (a, b) ∈ edges l -> windEdge Q a b = 0%Z) -> winding Q l = 0%Z.
Proof.
  induction l as [|a l IH]; intros H; [done|]. destruct l as [|b l]; [done|].
  change (windEdge Q a b + winding Q (b :: l) = 0)%Z. cbn [edges] in H. rewrite IH.
  - rewrite (H a b); [done|]. apply elem_of_cons. by left.
  - intros x y Hxy. apply H, elem_of_cons. by right.
Qed.
Lemma winding_neg l : (forall a b, (a, b) ∈ edges l -> (windEdge Q a b <= 0)%Z) ->
  (winding Q l <= 0)%Z /\ ((exists a b, (a, b) ∈ edges l /\ (windEdge Q a b < 0)%Z) -> (winding Q l < 0)%Z).
Proof.
  induction l as [|a l IH]; intros H; [split; [simpl; lia|]; intros (a & b & Hab & _); by apply elem_of_nil in Hab|].
  destruct l as [|b l]; [split; [simpl; lia|]; intros (x & b & Hab & _); by apply elem_of_nil in Hab|].
  change (winding Q (a :: b :: l)) with (windEdge Q a b + winding Q (b :: l))%Z. cbn [edges] in H.
  destruct IH as [H1 H2]. { intros x y Hxy. apply H, elem_of_cons. by right. }
  assert (windEdge Q a b <= 0)%Z by (apply H, elem_of_cons; by left).
  split; [lia|]. intros (x & y & Hxy & Hn). cbn [edges] in Hxy. apply elem_of_cons in Hxy as [Hxy|Hxy].
  - injection Hxy as -> ->. lia.
  - assert (winding Q (b :: l) < 0)%Z by (apply H2; by exists x, y). lia.
Qed.
Definition sgn (a : vec3) : Z := if above a then 1%Z else 0%Z.
Lemma winding_full l : forall a, (forall x y, (x, y) ∈ edges (a :: l) -> windEdge Q x y = (sgn y - sgn x)%Z) ->
  winding Q (a :: l) = (sgn (List.last (a :: l) vzero) - sgn a)%Z.
Proof.
  induction l as [|b l IH]; intros a H; [simpl; lia|].
  change (windEdge Q a b + winding Q (b :: l) = sgn (List.last (b :: l) vzero) - sgn a)%Z. cbn [edges] in H.
  rewrite IH; [|intros x y Hxy; apply H, elem_of_cons; by right]. rewrite (H a b); [lia|]. apply elem_of_cons. by left.
Qed.

(** where a crossing edge meets the horizontal line of the point *)
Lemma cross_at P a b : a ∈ P -> b ∈ P -> up a b \/ down a b ->
  exists h, in_hull P h /\ vy h = vy Q /\ forall q, vy q = vy Q -> isLeft a b q = - (vy b - vy a) * (vx q - vx h).
Proof.
  intros Ha Hb Hc. assert (Hne : vy a - vy b <> 0) by (destruct Hc as [[? ?]|[? ?]]; lra).
  set (t := (vy Q - vy b) / (vy a - vy b)).
  assert (Ht : t * (vy a - vy b) = vy Q - vy b) by (unfold t; field; done).
  assert (0 <= t <= 1).
  { destruct Hc as [[H1 H2]|[H1 H2]]; split; nra. }
  exists (V3 (t * vx a + (1 - t) * vx b) (vy Q) 0). split_and!; [|done|].
  - apply (in_hull_comb P a b _ t); [by apply in_hull_elem|by apply in_hull_elem|done|done|]. cbn [vy]. lra.
  - intros q Hq. unfold isLeft. cbn [vx]. rewrite Hq. 
    assert (E : vy Q = vy b + t * (vy a - vy b)) by lra. rewrite E. ring.
Qed.

Variables (P : list vec3) (v : vec3) (m : list vec3).
Notation hull := (v :: m ++ [v]).
Hypothesis Hsup : forall a b, (a, b) ∈ edges hull -> supports P a b.
Hypothesis Hreach : forall al be t, t ∈ P -> exists q, q ∈ hull /\ al * vx t + be * vy t <= al * vx q + be * vy q.

Lemma closed_switch (f : vec3 -> bool) : (exists x, x ∈ hull /\ f x = true) -> (exists y, y ∈ hull /\ f y = false) ->
  exists x y, (x, y) ∈ edges hull /\ f x = true /\ f y = false.
Proof.
  intros (x & Hx & Fx) (y & Hy & Fy). destruct (f v) eqn:E.
  - apply switch_from; [done|]. exists y. split; [|done]. apply elem_of_cons in Hy as [->|Hy]; [congruence|done].
  - apply (switch_to f hull); [by exists x|]. change (v :: m ++ [v]) with ((v :: m) ++ [v]). by rewrite last_last.
Qed.
Theorem winding_ok : winding Q hull <> 0%Z <-> in_half_open_hull P Q.
Proof.
  assert (Hup_hull : forall a b, (a, b) ∈ edges hull -> in_hull P Q -> isLeft a b Q <= 0).
  { intros a b Hab. apply in_hull_half. by apply Hsup. }
  assert (Hcross : forall a b, (a, b) ∈ edges hull -> up a b \/ down a b ->
    exists h, in_hull P h /\ vy h = vy Q /\ forall q, vy q = vy Q -> isLeft a b q = - (vy b - vy a) * (vx q - vx h)).
  { intros a b Hab. destruct (Hsup a b Hab) as (A & B & _). by apply cross_at. }
  split.
  - intros Hw. destruct (classic (exists a b, (a, b) ∈ edges hull /\ up a b /\ 0 < isLeft a b Q)) as [(a & b & Hab & Hup & Hl)|Hno].
    + (* on the left of the polygon: every crossing counts *)
      exfalso. apply Hw. destruct (Hcross a b Hab (or_introl Hup)) as (h & Hh1 & Hh2 & Hh3).
      assert (Hx : vx Q < vx h).
      { rewrite (Hh3 Q eq_refl) in Hl. unfold up in Hup. nra. }
      rewrite winding_full.
      { change (v :: m ++ [v]) with ((v :: m) ++ [v]). rewrite last_last. lia. }
      intros x y Hxy. unfold sgn. destruct (windEdge_cases x y) as [[Hu ->]|[[Hu ->]|(Hu & _ & _ & ->)]].
      * destruct (Hcross x y Hxy (or_introl Hu)) as (h' & Hi1 & Hi2 & Hi3).
        assert (isLeft a b h' <= 0) as Hr by (apply (in_hull_half P); [by apply Hsup|done]).
        rewrite (Hh3 h' Hi2) in Hr. assert (vx h <= vx h') by (unfold up in Hup; nra).
        assert (0 < isLeft x y Q) by (rewrite (Hi3 Q eq_refl); unfold up in Hu; nra).
        assert (Rltb 0 (isLeft x y Q) = true) as -> by by apply Rltb_true. unfold above.
        assert (Rltb (vy Q) (vy y) = true) as -> by (apply Rltb_true; apply Hu).
        assert (Rltb (vy Q) (vy x) = false) as -> by (apply Rltb_false; apply Hu). done.
      * destruct (Hcross x y Hxy (or_intror Hu)) as (h' & Hi1 & Hi2 & Hi3).
        assert (isLeft x y h <= 0) as Hr by (apply (in_hull_half P); [by apply Hsup|done]).
        rewrite (Hi3 h Hh2) in Hr. assert (vx h <= vx h') by (unfold down in Hu; nra).
        assert (isLeft x y Q < 0) by (rewrite (Hi3 Q eq_refl); unfold down in Hu; nra).
        assert (Rltb (isLeft x y Q) 0 = true) as -> by by apply Rltb_true. unfold above.
        assert (Rltb (vy Q) (vy x) = true) as -> by (apply Rltb_true; apply Hu).
        assert (Rltb (vy Q) (vy y) = false) as -> by (apply Rltb_false; apply Hu). done.
      * rewrite Hu. lia.
    + destruct (classic (exists a b, (a, b) ∈ edges hull /\ down a b /\ isLeft a b Q < 0)) as [(a & b & Hab & Hdn & Hl)|Hno2].
      * destruct (Hcross a b Hab (or_intror Hdn)) as (h & Hh1 & Hh2 & Hh3).
        assert (Hx : vx Q < vx h) by (rewrite (Hh3 Q eq_refl) in Hl; unfold down in Hdn; nra).
        destruct (edges_in _ _ _ Hab) as [Ia Ib].
        destruct (closed_switch (fun x => negb (above x))) as (x & y & Hxy & Fx & Fy).
        { exists b. split; [done|]. unfold above. assert (Rltb (vy Q) (vy b) = false) as -> by (apply Rltb_false; apply Hdn). done. }
        { exists a. split; [done|]. unfold above. assert (Rltb (vy Q) (vy a) = true) as -> by (apply Rltb_true; apply Hdn). done. }
        apply negb_true_iff in Fx. apply negb_false_iff in Fy. unfold above in Fx, Fy. apply Rltb_false in Fx. apply Rltb_true in Fy.
        assert (Hu : up x y) by done.
        destruct (Hcross x y Hxy (or_introl Hu)) as (g & Hg1 & Hg2 & Hg3).
        assert (Hgl : isLeft x y Q <= 0).
        { destruct (Rle_lt_dec (isLeft x y Q) 0) as [H|H]; [done|]. exfalso. apply Hno. by exists x, y. }
        rewrite (Hg3 Q eq_refl) in Hgl. assert (Hgx : vx g <= vx Q) by (unfold up in Hu; nra).
        split_and!.
        -- assert (Hne : vx g - vx h <> 0) by lra.
           set (t := (vx Q - vx h) / (vx g - vx h)). assert (Ht : t * (vx g - vx h) = vx Q - vx h) by (unfold t; field; done).
           apply (in_hull_comb P g h Q t); [done|done| | |].
           ++ split; nra.
           ++ lra.
           ++ rewrite Hg2, Hh2. lra.
        -- exists h. done.
        -- exists a. destruct (Hsup a b Hab) as (A & _). split; [done|]. apply Hdn.
      * exfalso. apply Hw, winding_zero. intros a b Hab.
        destruct (windEdge_cases a b) as [[Hu ->]|[[Hu ->]|(_ & _ & _ & ->)]]; [| |done].
        -- destruct (Rltb 0 (isLeft a b Q)) eqn:E; [|done]. exfalso. apply Hno. exists a, b. by apply Rltb_true in E.
        -- destruct (Rltb (isLeft a b Q) 0) eqn:E; [|done]. exfalso. apply Hno2. exists a, b. by apply Rltb_true in E.
  - intros (Hin & (q & Hq1 & Hq2 & Hq3) & (t & Ht1 & Ht2)).
    assert (Hlow : exists s, s ∈ P /\ vy s <= vy Q).
    { destruct (classic (exists s, s ∈ P /\ vy s <= vy Q)) as [H|H]; [done|]. exfalso.
      assert (0 < isLeft (V3 0 (vy Q) 0) (V3 1 (vy Q) 0) Q) as Hc.
      { apply (in_hull_strict P); [|done]. intros s Hs. unfold isLeft. cbn [vx vy].
        destruct (Rle_lt_dec (vy s) (vy Q)); [exfalso; apply H; by exists s|lra]. }
      unfold isLeft in Hc. cbn [vx vy] in Hc. lra. }
    destruct Hlow as (s & Hs1 & Hs2).
    destruct (Hreach 0 1 t Ht1) as (t' & Ht'1 & Ht'2). destruct (Hreach 0 (-1) s Hs1) as (s' & Hs'1 & Hs'2).
    destruct (closed_switch above) as (a & b & Hab & Fa & Fb).
    { exists t'. split; [done|]. apply Rltb_true. lra. }
    { exists s'. split; [done|]. apply Rltb_false. lra. }
    unfold above in Fa, Fb. apply Rltb_true in Fa. apply Rltb_false in Fb. assert (Hdn : down a b) by done.
    destruct (winding_neg hull) as [_ Hneg].
    { intros x y Hxy. destruct (windEdge_cases x y) as [[Hu ->]|[[Hu ->]|(_ & _ & _ & ->)]]; [| |lia].
      - pose proof (Hup_hull x y Hxy Hin). assert (Rltb 0 (isLeft x y Q) = false) as -> by by apply Rltb_false. lia.
      - destruct (Rltb _ _); lia. }
    assert (winding Q hull < 0)%Z; [|lia]. apply Hneg. exists a, b. split; [done|].
    destruct (windEdge_cases a b) as [[Hu _]|[[_ ->]|(_ & _ & Hu & _)]]; [unfold up, down in *; lra| |done].
    assert (isLeft a b q <= 0) as Hr by (apply (in_hull_half P); [by apply Hsup|done]).
    assert (isLeft a b Q < 0).
    { destruct (Hcross a b Hab (or_intror Hdn)) as (h & _ & _ & Hh3). rewrite (Hh3 q Hq2) in Hr. rewrite (Hh3 Q eq_refl).
      unfold down in Hdn. nra. }
    assert (Rltb (isLeft a b Q) 0 = true) as -> by by apply Rltb_true. lia.
Qed.
(** a point strictly inside is strictly on the right of every edge *)
Lemma winding_strict : P <> [] -> strictly_inside P Q -> winding Q hull <> 0%Z.
Proof.
  intros Hne Hs.
  assert (Hlt : forall a b, (a, b) ∈ edges hull -> isLeft a b Q < 0).
  { intros a b Hab. destruct (Hsup a b Hab) as (A & B & C & D).
    destruct (Hs (- (vy b - vy a)) (vx b - vx a)) as (q & Hq1 & Hq2).
    { unfold same_xy in C. destruct (Req_EM_T (vy a) (vy b)) as [E|E]; [right|left]; [|lra]. intros E'. apply C. split; [lra|done]. }
    pose proof (D q Hq1) as Hr. unfold isLeft in *. lra. }
  destruct (Hs 0 1) as (t & Ht1 & Ht2); [right; lra|]. destruct (Hs 0 (-1)) as (s & Hs1 & Hs2); [right; lra|].
  destruct (Hreach 0 1 t Ht1) as (t' & Ht'1 & Ht'2). destruct (Hreach 0 (-1) s Hs1) as (s' & Hs'1 & Hs'2).
  destruct (closed_switch above) as (a & b & Hab & Fa & Fb).
  { exists t'. split; [done|]. apply Rltb_true. lra. }
  { exists s'. split; [done|]. apply Rltb_false. lra. }
  unfold above in Fa, Fb. apply Rltb_true in Fa. apply Rltb_false in Fb. assert (Hdn : down a b) by done.
  destruct (winding_neg hull) as [_ Hneg].
  { intros x y Hxy. destruct (windEdge_cases x y) as [[Hu ->]|[[Hu ->]|(_ & _ & _ & ->)]]; [| |lia].
    - pose proof (Hlt x y Hxy). assert (Rltb 0 (isLeft x y Q) = false) as -> by (apply Rltb_false; lra). lia.
    - destruct (Rltb _ _); lia. }
  assert (winding Q hull < 0)%Z; [|lia]. apply Hneg. exists a, b. split; [done|].
  destruct (windEdge_cases a b) as [[Hu _]|[[_ ->]|(_ & _ & Hu & _)]]; [unfold up, down in *; lra| |done].
  assert (Rltb (isLeft a b Q) 0 = true) as -> by (by apply Rltb_true, Hlt). lia.
Qed.
End winding.

Theorem giftWrap_InPolygon p0 p1 p2 l : flat (p0 :: p1 :: p2 :: l) -> 0 < isLeft p0 p1 p2 ->
  exists hull, (forall fuel, (4 + length l <= fuel)%nat -> giftWrap fuel p0 (p1 :: p2 :: l) = Some hull) /\
    forall Q, (InPolygon hull Q = true <-> in_half_open_hull (p0 :: p1 :: p2 :: l) Q) /\
      (strictly_inside (p0 :: p1 :: p2 :: l) Q -> InPolygon hull Q = true).
Proof.
  intros Hflat HD. destruct (giftWrap_ok p0 p1 p2 l Hflat HD) as (hull & H1 & (m & Hm & Hm0) & H3 & H4).
  exists hull. split; [intros fuel Hf; apply H1; simpl; lia|]. intros Q.
  assert (Hin : InPolygon hull Q = negb (winding Q hull =? 0)%Z).
  { rewrite Hm. destruct m as [|a m]; [done|]. destruct m; done. }
  rewrite Hin, negb_true_iff, Z.eqb_neq, Hm. rewrite Hm in H3, H4. split; [by apply winding_ok|]. by apply winding_strict.
Qed.
