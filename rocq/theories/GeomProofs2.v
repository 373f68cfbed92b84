(** convexHull of points in general position. *)
From Verif Require Import Maps Vec VecProofs GeomModel GeomSpec GeomInt GeomProofs.
Local Open Scope R_scope.

(** v follows h clockwise on the hull of P *)
Definition succ (P : list vec3) (h v : vec3) : Prop :=
  h ∈ P /\ v ∈ P /\ v <> h /\ forall p, p ∈ P -> p <> h -> p <> v -> isLeft h v p < 0.

Lemma succ_right P h v p : succ P h v -> p ∈ P -> isLeft h v p <= 0.
Proof.
  intros (_ & _ & _ & H) Hp. destruct (decide (p = h)) as [->|H1]; [rewrite isLeft_same1; lra|].
  destruct (decide (p = v)) as [->|H2]; [rewrite isLeft_same2; lra|]. apply Rlt_le. by apply H.
Qed.
Lemma succ_inj P h h' v : succ P h v -> succ P h' v -> h = h'.
Proof.
  intros (H1 & H2 & H3 & H4) (H1' & H2' & H3' & H4'). destruct (decide (h = h')) as [|Hne]; [done|]. exfalso.
  specialize (H4 h' H1' (not_eq_sym Hne) (not_eq_sym H3')). specialize (H4' h H1 Hne (not_eq_sym H3)).
  unfold isLeft in *. lra.
Qed.

Lemma pick_stays P h res v c : succ P h v -> c ∈ P -> pick h res v c = v.
Proof.
  intros Hs Hc. unfold pick. destruct (veqb v h) eqn:E; [apply veqb_true in E; by destruct Hs as (_ & _ & ? & _)|].
  destruct (Rltb 0 (isLeft h v c)) eqn:E2; [|done]. apply Rltb_true in E2.
  pose proof (succ_right _ _ _ _ Hs Hc). lra.
Qed.
Lemma pick_takes P h res last v : succ P h v -> last ∈ P -> (v ∉ res \/ v = front res) -> pick h res last v = v.
Proof.
  intros Hs Hl Hv. unfold pick.
  assert (Hsel : negb (inList v res) || veqb v (front res) = true).
  { apply orb_true_iff. destruct Hv as [H|H]; [left; by apply negb_true_iff, inList_false|right; by apply veqb_true]. }
  rewrite Hsel. destruct (veqb last h) eqn:E; [done|]. apply veqb_false in E. cbn [orb].
  destruct (Rltb 0 (isLeft h last v)) eqn:E2; [done|]. apply Rltb_false in E2.
  destruct (decide (last = v)) as [|Hne]; [done|]. destruct Hs as (_ & _ & _ & H). specialize (H last Hl E Hne).
  unfold isLeft in *. lra.
Qed.
Lemma scan_stays P h res v l : succ P h v -> (forall c, c ∈ l -> c ∈ P) -> scan h res v l = v.
Proof.
  intros Hs. induction l as [|c l IH]; intros Hl; [done|]. cbn [scan fold_left].
  rewrite (pick_stays P) by (done || (apply Hl, elem_of_cons; by left)).
  apply IH. intros c' Hc'. apply Hl, elem_of_cons. by right.
Qed.
Lemma scan_finds_in P h res v l : forall p0, succ P h v -> (forall c, c ∈ l -> c ∈ P) -> p0 ∈ P ->
  (v ∉ res \/ v = front res) -> v ∈ l -> scan h res p0 l = v.
Proof.
  induction l as [|c l IH]; intros p0 Hs Hl Hp0 Hv Hin; [by apply elem_of_nil in Hin|]. cbn [scan fold_left].
  fold (scan h res (pick h res p0 c) l).
  destruct (decide (c = v)) as [->|Hne].
  - rewrite (pick_takes P) by done. apply (scan_stays P); [done|]. intros c Hc. apply Hl, elem_of_cons. by right.
  - apply elem_of_cons in Hin as [->|Hin]; [done|]. apply IH; try done.
    + intros c' Hc. apply Hl, elem_of_cons. by right.
    + destruct (pick_cases h res p0 c) as [->|[-> _]]; [done|]. apply Hl, elem_of_cons. by left.
Qed.
Lemma scan_finds h res v p0 l : succ (p0 :: l) h v -> (v ∉ res \/ v = front res) -> scan h res p0 l = v.
Proof.
  intros Hs Hv. assert (Hl : forall c, c ∈ l -> c ∈ p0 :: l) by (intros c Hc; apply elem_of_cons; by right).
  destruct Hs as (H1 & H2 & H3 & H4). destruct (decide (v = p0)) as [->|Hne].
  - apply (scan_stays (p0 :: l)); [by split_and!|done].
  - apply (scan_finds_in (p0 :: l)); try done. apply elem_of_cons. by left.
    apply elem_of_cons in H2 as [H2|H2]; done.
Qed.

(** ** existence of the next vertex *)
Section next.
Variables (P : list vec3) (h : vec3) (ux uy : R).
Hypothesis Hgp : general_position P.
Hypothesis Hh : h ∈ P.
Hypothesis Hu : ~ (ux = 0 /\ uy = 0).
Hypothesis Hhalf : forall p, p ∈ P -> 0 <= ux * (vx p - vx h) + uy * (vy p - vy h).

Lemma left_trans a b c : a ∈ P -> b ∈ P -> c ∈ P -> isLeft h a b > 0 -> isLeft h b c > 0 -> isLeft h a c > 0.
Proof.
  intros Ha Hb Hc Hab Hbc.
  assert (Hac : isLeft h a c <> 0).
  { assert (a <> h) by (intros ->; rewrite isLeft_same3 in Hab; lra).
    assert (c <> h) by (intros ->; rewrite isLeft_same1 in Hbc; lra).
    assert (a <> c). { intros ->. rewrite isLeft_swap in Hbc. unfold isLeft in *. lra. }
    destruct Hgp as [_ Hg]. apply Hg; congruence. }
  pose proof (Hhalf a Ha) as Pa. pose proof (Hhalf b Hb) as Pb. pose proof (Hhalf c Hc) as Pc.
  unfold isLeft in *.
  set (ax := vx a - vx h) in *. set (ay := vy a - vy h) in *.
  set (bx := vx b - vx h) in *. set (by' := vy b - vy h) in *.
  set (cx := vx c - vx h) in *. set (cy := vy c - vy h) in *.
  assert (Hid : (ax * cy - cx * ay) * (ux * bx + uy * by') =
     (bx * cy - cx * by') * (ux * ax + uy * ay) + (ax * by' - bx * ay) * (ux * cx + uy * cy)) by ring.
  destruct (Rtotal_order (ax * cy - cx * ay) 0) as [Hneg|[Hz|Hpos]]; [|done|lra].
  exfalso.
  assert (H1 : 0 <= (bx * cy - cx * by') * (ux * ax + uy * ay)) by (apply Rmult_le_pos; lra).
  assert (H2 : 0 <= (ax * by' - bx * ay) * (ux * cx + uy * cy)) by (apply Rmult_le_pos; lra).
  assert (H3 : (ax * cy - cx * ay) * (ux * bx + uy * by') <= 0).
  { assert (0 <= - (ax * cy - cx * ay) * (ux * bx + uy * by')) by (apply Rmult_le_pos; lra). lra. }
  assert (E1 : (bx * cy - cx * by') * (ux * ax + uy * ay) = 0) by lra.
  assert (E2 : (ax * by' - bx * ay) * (ux * cx + uy * cy) = 0) by lra.
  apply Rmult_integral in E1 as [E1|E1]; [lra|]. apply Rmult_integral in E2 as [E2|E2]; [lra|].
  apply Hac.
  (* both on the line orthogonal to u *)
  assert (F1 : ux * (ax * cy - cx * ay) = 0).
  { replace (ux * (ax * cy - cx * ay)) with ((ux * ax + uy * ay) * cy - (ux * cx + uy * cy) * ay) by ring.
    rewrite E1, E2. ring. }
  assert (F2 : uy * (ax * cy - cx * ay) = 0).
  { replace (uy * (ax * cy - cx * ay)) with ((ux * cx + uy * cy) * ax - (ux * ax + uy * ay) * cx) by ring.
    rewrite E1, E2. ring. }
  apply Rmult_integral in F1 as [F1|F1]; [|done]. apply Rmult_integral in F2 as [F2|F2]; [|done].
  exfalso. apply Hu. done.
Qed.

Lemma next_exists_in (Q : list vec3) : (forall q, q ∈ Q -> q ∈ P) -> (exists q, q ∈ Q /\ q <> h) ->
  exists v, v ∈ Q /\ v <> h /\ forall p, p ∈ Q -> p <> h -> p <> v -> isLeft h v p < 0.
Proof.
  induction Q as [|c Q IH]; intros HQ [q [Hq Hqh]]; [by apply elem_of_nil in Hq|].
  assert (HQ' : forall q, q ∈ Q -> q ∈ P) by (intros x Hx; apply HQ, elem_of_cons; by right).
  assert (Hc : c ∈ P) by (apply HQ, elem_of_cons; by left).
  destruct (decide (Exists (fun q => q <> h) Q)) as [Hex|Hex].
  - apply Exists_exists in Hex. destruct (IH HQ' Hex) as (v & Hv & Hvh & Hall).
    destruct (decide (c = h)) as [->|Hch].
    + exists v. split_and!; [apply elem_of_cons; by right|done|]. intros p Hp Hph Hpv.
      apply elem_of_cons in Hp as [->|Hp]; [done|]. by apply Hall.
    + destruct (Rtotal_order (isLeft h v c) 0) as [Hl|[Hl|Hl]].
      * exists v. split_and!; [apply elem_of_cons; by right|done|]. intros p Hp Hph Hpv.
        apply elem_of_cons in Hp as [->|Hp]; [done|]. by apply Hall.
      * assert (v = c) as ->.
        { destruct (decide (v = c)) as [|Hne]; [done|]. exfalso. destruct Hgp as [_ Hg].
          apply (Hg h v c); try done; try (apply HQ'; done); congruence. }
        exists c. split_and!; [apply elem_of_cons; by left|done|]. intros p Hp Hph Hpv.
        apply elem_of_cons in Hp as [->|Hp]; [done|]. by apply Hall.
      * exists c. split_and!; [apply elem_of_cons; by left|done|]. intros p Hp Hph Hpc.
        apply elem_of_cons in Hp as [->|Hp]; [done|].
        destruct (decide (p = v)) as [->|Hpv].
        { unfold isLeft in *. lra. }
        specialize (Hall p Hp Hph Hpv).
        assert (isLeft h p c > 0).
        { apply (left_trans p v c); [by apply HQ'|by apply HQ'|done| |done]. unfold isLeft in *. lra. }
        unfold isLeft in *. lra.
  - exists c. rewrite <- Forall_Exists_neg, Forall_forall in Hex.
    assert (Hnone : forall p, p ∈ Q -> p = h).
    { intros p Hp. specialize (Hex p Hp). destruct (decide (p = h)); [done|]. by exfalso. }
    apply elem_of_cons in Hq as [->|Hq]; [|by rewrite (Hnone _ Hq) in Hqh].
    split_and!; [apply elem_of_cons; by left|done|]. intros p Hp Hph Hpv.
    apply elem_of_cons in Hp as [->|Hp]; [done|]. exfalso. by apply Hph, Hnone.
Qed.
Lemma next_exists : (exists q, q ∈ P /\ q <> h) -> exists v, succ P h v.
Proof.
  intros Hex. destruct (next_exists_in P (fun _ H => H) Hex) as (v & H1 & H2 & H3). exists v. by split_and!.
Qed.
End next.

(** the next vertex again has the points on one side *)
Lemma half_next P h v : general_position P -> succ P h v ->
  ~ (vy v - vy h = 0 /\ - (vx v - vx h) = 0) /\
  forall p, p ∈ P -> 0 <= (vy v - vy h) * (vx p - vx v) + - (vx v - vx h) * (vy p - vy v).
Proof.
  intros [Hg _] Hs. split.
  - intros [H1 H2]. destruct Hs as (Hh & Hv & Hne & _). apply Hne. apply Hg; [done|done|]. unfold same_xy. lra.
  - intros p Hp. pose proof (succ_right _ _ _ _ Hs Hp) as H. unfold isLeft in H. lra.
Qed.

(** ** edges *)
Lemma edges_snoc l a b : edges (l ++ [a; b]) = edges (l ++ [a]) ++ [(a, b)].
Proof.
  induction l as [|x l IH]; [done|]. destruct l as [|y l]; [done|].
  change (edges ((x :: y :: l) ++ [a; b])) with ((x, y) :: edges ((y :: l) ++ [a; b])). rewrite IH. done.
Qed.
Lemma edges_in l a b : (a, b) ∈ edges l -> a ∈ l /\ b ∈ l.
Proof.
  induction l as [|x l IH]; [intros H; by apply elem_of_nil in H|]. destruct l as [|y l]; [intros H; by apply elem_of_nil in H|].
  cbn [edges]. intros H. apply elem_of_cons in H as [H|H].
  - injection H as -> ->. split; repeat (rewrite elem_of_cons); tauto.
  - destruct (IH H) as [H1 H2]. split; apply elem_of_cons; by right.
Qed.
Lemma edges_to l v : v ∈ l -> v = front l \/ exists a, (a, v) ∈ edges l.
Proof.
  induction l as [|x l IH]; [intros H; by apply elem_of_nil in H|]. intros H. apply elem_of_cons in H as [->|H]; [by left|].
  right. destruct l as [|y l]; [by apply elem_of_nil in H|]. destruct (IH H) as [Hf|(a & Ha)].
  - simpl in Hf. subst v. exists x. cbn [edges]. apply elem_of_cons. by left.
  - exists a. cbn [edges]. apply elem_of_cons. by right.
Qed.

(** ** the loop *)
Lemma hullLoop_general fuel : forall p0 l res h ux uy hull,
  general_position (p0 :: l) -> (exists p q, p ∈ p0 :: l /\ q ∈ p0 :: l /\ p <> q) ->
  NoDup (res ++ [h]) -> h ∈ p0 :: l -> (forall a b, (a, b) ∈ edges (res ++ [h]) -> succ (p0 :: l) a b) ->
  ~ (ux = 0 /\ uy = 0) -> (forall p, p ∈ p0 :: l -> 0 <= ux * (vx p - vx h) + uy * (vy p - vy h)) ->
  hullLoop fuel p0 l res h = Some hull ->
  exists m, hull = res ++ h :: m ++ [front (res ++ [h])] /\ NoDup (res ++ h :: m) /\
    (forall a b, (a, b) ∈ edges hull -> succ (p0 :: l) a b).
Proof.
  induction fuel as [|fuel IH]; intros p0 l res h ux uy hull Hgp Hpq Hnd Hh Hed Hu Hhalf; [done|]. cbn [hullLoop].
  assert (Hother : exists q, q ∈ p0 :: l /\ q <> h).
  { destruct Hpq as (p & q & Hp & Hq & Hne). destruct (decide (p = h)) as [->|]; [exists q; split; [done|congruence]|by exists p]. }
  destruct (next_exists (p0 :: l) h ux uy Hgp Hh Hu Hhalf Hother) as [v Hv].
  assert (Hsel : v ∉ res \/ v = front res).
  { destruct (decide (v ∈ res)) as [Hin|Hin]; [|by left]. right.
    destruct (edges_to _ _ Hin) as [Hf|(a & Ha)]; [done|]. exfalso.
    assert (Hin' : (a, v) ∈ edges (res ++ [h])).
    { clear -Ha. induction res as [|x res IH]; [done|]. destruct res as [|y res]; [by apply elem_of_nil in Ha|].
      cbn [edges app] in *. apply elem_of_cons in Ha as [Ha|Ha]; apply elem_of_cons; [by left|right]. by apply IH. }
    assert (a = h) as -> by by eapply succ_inj; [apply Hed|].
    apply edges_in in Ha as [Ha _]. apply NoDup_app in Hnd as (_ & Hd & _). apply (Hd h Ha). by apply elem_of_list_singleton. }
  rewrite (scan_finds h res v p0 l Hv Hsel).
  destruct (veqb v (front (res ++ [h]))) eqn:E.
  - apply veqb_true in E. intros [= <-]. exists []. split_and!.
    + rewrite <- app_assoc. by rewrite E.
    + done.
    + intros a b Hab. rewrite <- app_assoc in Hab. simpl in Hab. rewrite edges_snoc in Hab.
      apply elem_of_app in Hab as [Hab|Hab]; [by apply Hed|]. apply elem_of_list_singleton in Hab. by injection Hab as -> ->.
  - apply veqb_false in E. intros Hrun.
    assert (Hvres : v ∉ res).
    { destruct Hsel as [H|H]; [done|]. destruct res as [|r res]; [apply not_elem_of_nil|done]. }
    destruct (half_next _ _ _ Hgp Hv) as [Hu' Hhalf'].
    destruct (IH p0 l (res ++ [h]) v (vy v - vy h) (- (vx v - vx h)) hull Hgp Hpq) as (m & Hm & Hnd' & Hed').
    + apply NoDup_app. split_and!; [done| |apply NoDup_singleton]. intros x Hx Hxv. apply elem_of_list_singleton in Hxv as ->.
      apply elem_of_app in Hx as [Hx|Hx]; [done|]. apply elem_of_list_singleton in Hx. destruct Hv as (_ & _ & ? & _). done.
    + by destruct Hv as (_ & ? & _).
    + intros a b Hab. rewrite <- app_assoc in Hab. simpl in Hab. rewrite edges_snoc in Hab.
      apply elem_of_app in Hab as [Hab|Hab]; [by apply Hed|]. apply elem_of_list_singleton in Hab. by injection Hab as -> ->.
    + done.
    + done.
    + done.
    + exists (v :: m). split_and!.
      * rewrite Hm. rewrite front_app by (destruct res; done). rewrite <- app_assoc. done.
      * rewrite <- app_assoc in Hnd'. done.
      * done.
Qed.

Lemma three_vertices P v m : (forall a b, (a, b) ∈ edges (v :: m ++ [v]) -> succ P a b) ->
  (exists a b c, a ∈ P /\ b ∈ P /\ c ∈ P /\ a <> b /\ b <> c /\ a <> c) -> (2 <= length m)%nat.
Proof.
  intros Hed (a & b & c & Ha & Hb & Hc & Hab & Hbc & Hac). destruct m as [|x [|y m]]; [| |simpl; lia]; exfalso.
  - destruct (Hed v v) as (_ & _ & H & _); [|done]. simpl. apply elem_of_cons. by left.
  - assert (H1 : succ P v x) by (apply Hed; simpl; apply elem_of_cons; by left).
    assert (H2 : succ P x v) by (apply Hed; simpl; rewrite !elem_of_cons; tauto).
    assert (exists p, p ∈ P /\ p <> v /\ p <> x) as (p & Hp & Hpv & Hpx).
    { destruct (decide (a = v)) as [Ea|]; destruct (decide (a = x)) as [Fa|]; 
      destruct (decide (b = v)) as [Eb|]; destruct (decide (b = x)) as [Fb|]; 
      try (exists a; done); try (exists b; done); exists c; split_and!; congruence. }
    destruct H1 as (_ & _ & _ & H1). destruct H2 as (_ & _ & _ & H2).
    specialize (H1 p Hp Hpv Hpx). specialize (H2 p Hp Hpx Hpv). rewrite isLeft_swap in H2. lra.
Qed.

(** in general position the hull is a strictly convex polygon with all points on the right of its edges *)
Theorem convexHull_general l fuel hull : general_position l ->
  (exists a b c, a ∈ l /\ b ∈ l /\ c ∈ l /\ a <> b /\ b <> c /\ a <> c) ->
  convexHull fuel l = Some hull ->
  convex_polygon hull /\ (forall p, p ∈ hull -> p ∈ l) /\
  (forall a b p, (a, b) ∈ edges hull -> p ∈ l -> p <> a -> p <> b -> isLeft a b p < 0).
Proof.
  intros Hgp H3 H. destruct l as [|p0 l]; [destruct H3 as (a & _ & _ & Ha & _); by apply elem_of_nil in Ha|].
  cbn [convexHull] in H.
  destruct (hullLoop_general fuel p0 l [] (leftMostFrom p0 l) 1 0 hull Hgp) as (m & Hm & Hnd & Hed).
  - destruct H3 as (a & b & c & Ha & Hb & _ & Hab & _). by exists a, b.
  - apply NoDup_singleton.
  - apply leftMost_in.
  - intros a b Hab. by apply elem_of_nil in Hab.
  - lra.
  - intros p Hp. pose proof (leftMost_least _ _ _ Hp). lra.
  - done.
  - simpl in Hm. cbn [app] in Hnd. unfold front in Hm; simpl in Hm.
    assert (Hin : forall p, p ∈ hull -> p ∈ p0 :: l).
    { intros p Hp. destruct (edges_to _ _ Hp) as [->|(a & Ha)]; [|by destruct (Hed _ _ Ha) as (_ & ? & _)].
      rewrite Hm. apply leftMost_in. }
    split_and!; [split| |].
    + exists (leftMostFrom p0 l), m. split_and!; [done| |done]. eapply three_vertices; [|done]. by rewrite <- Hm.
    + intros a b p Hab Hp Hpa Hpb. destruct (Hed _ _ Hab) as (_ & _ & _ & Hr). apply Hr; [by apply Hin|done|done].
    + done.
    + intros a b p Hab Hp Hpa Hpb. destruct (Hed _ _ Hab) as (_ & _ & _ & Hr). by apply Hr.
Qed.
