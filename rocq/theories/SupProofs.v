(** Proofs about the gift wrapping of support.cc. *)
From Coq Require Import ZArith Classical.
From Verif Require Import Maps Vec VecProofs GeomModel GeomSpec GeomInt GeomProofs GeomProofs2 GeomProofs3 SupModel SupSpec.
Local Open Scope R_scope.

Lemma neg_neg a b : a < 0 -> b < 0 -> 0 < a * b.
Proof. intros. nra. Qed.
Section scan.
Variables (pi : vec3) (dx dy : R).
Hypothesis Hd : 0 < dx * dx + dy * dy.
Let along q := dx * (vx q - vx pi) + dy * (vy q - vy pi).
Let off q := dx * (vy q - vy pi) - dy * (vx q - vx pi).
Let n2 := dx * dx + dy * dy.
Lemma cross_coord e c : n2 * isLeft pi e c = along e * off c - off e * along c.
Proof. unfold n2, isLeft, along, off. ring. Qed.
Lemma cross_exchange e c q : off e * isLeft pi c q = off c * isLeft pi e q - off q * isLeft pi e c.
Proof. unfold isLeft, off. ring. Qed.
Definition good e := off e < 0 \/ (off e = 0 /\ 0 < along e).
Lemma good_ne e : good e -> ~ same_xy e pi.
Proof. intros [H|[H1 H2]] [Hx Hy]; unfold off, along in *; rewrite Hx, Hy in *; lra. Qed.
Lemma not_good e : off e <= 0 -> ~ good e -> ~ same_xy e pi -> off e = 0 /\ along e < 0.
Proof.
  intros H1 H2 H3. unfold good in H2. assert (off e = 0) by (destruct (Rle_lt_or_eq_dec _ _ H1); tauto). split; [done|].
  destruct (Rtotal_order (along e) 0) as [H4|[H4|H4]]; [done| |tauto]. exfalso. apply H3.
  assert (Ha : n2 * (vx e - vx pi) = dx * along e - dy * off e) by (unfold n2, along, off; ring).
  assert (Hb : n2 * (vy e - vy pi) = dy * along e + dx * off e) by (unfold n2, along, off; ring).
  rewrite H, H4 in Ha, Hb. assert (vx e - vx pi = 0) by (apply (Rmult_eq_reg_l n2); unfold n2 in *; lra).
  assert (vy e - vy pi = 0) by (apply (Rmult_eq_reg_l n2); unfold n2 in *; lra). unfold same_xy. lra.
Qed.
Lemma pos_coord e c : 0 < isLeft pi e c <-> off e * along c < along e * off c.
Proof.
  rewrite <- (Rmult_0_r n2) at 1. pose proof (cross_coord e c). assert (0 < n2) by (unfold n2; lra). split; intros H1.
  - assert (0 < n2 * isLeft pi e c) by (apply Rmult_lt_0_compat; lra). lra.
  - rewrite Rmult_0_r. apply (Rmult_lt_reg_l n2); lra.
Qed.
Lemma step_good e c : good e -> off c <= 0 -> 0 < isLeft pi e c -> good c /\ off e < 0.
Proof.
  intros He Hc H. apply pos_coord in H. destruct He as [He|[He Ha]].
  - split; [|done]. destruct (Rle_lt_or_eq_dec _ _ Hc) as [H'|H']; [by left|right]. split; [done|]. rewrite H' in H. nra.
  - rewrite He in H. nra.
Qed.
Lemma step_right e c q : good e -> off c <= 0 -> off q <= 0 -> 0 < isLeft pi e c -> isLeft pi e q <= 0 -> isLeft pi c q <= 0.
Proof.
  intros He Hc Hq H H'. destruct (step_good e c He Hc H) as [_ He']. pose proof (cross_exchange e c q). nra.
Qed.
Definition pickNext (e c : vec3) := if veqb e pi || Rltb 0 (isLeft pi e c) then c else e.
Lemma scan_inv (l : list vec3) : forall e (S : list vec3), good e -> (forall q, q ∈ S -> isLeft pi e q <= 0 /\ off q <= 0) -> (forall q, q ∈ l -> off q <= 0) ->
  let r := fold_left pickNext l e in
  good r /\ (r = e \/ r ∈ l) /\ forall q, q ∈ S \/ q ∈ l -> isLeft pi r q <= 0.
Proof.
  induction l as [|c l IH]; intros e S He HS Hl; cbn zeta; cbn [fold_left].
  - split_and!; [done|by left|]. intros q [Hq|Hq]; [by apply HS|by apply elem_of_nil in Hq].
  - assert (E : veqb e pi = false).
    { apply veqb_false. intros ->. apply (good_ne _ He). done. }
    assert (Hc : off c <= 0) by (apply Hl, elem_of_cons; by left).
    assert (Hl' : forall q, q ∈ l -> off q <= 0) by (intros q Hq; apply Hl, elem_of_cons; by right).
    destruct (Rltb 0 (isLeft pi e c)) eqn:F.
    + assert (pickNext e c = c) as -> by (unfold pickNext; by rewrite E, F).
      apply Rltb_true in F. destruct (step_good e c He Hc F) as [Hgc _].
      destruct (IH c (c :: S) Hgc) as (H1 & H2 & H3); [|done|].
      { intros q Hq. apply elem_of_cons in Hq as [->|Hq]; [rewrite isLeft_same2; split; lra|].
        destruct (HS q Hq) as [Hq1 Hq2]. split; [by apply (step_right e)|done]. }
      split_and!; [done|right; apply elem_of_cons; destruct H2 as [-> |H2]; [by left|by right]|].
      intros q [Hq|Hq]; [apply H3; left; apply elem_of_cons; by right|].
      apply elem_of_cons in Hq as [->|Hq]; apply H3; [left; apply elem_of_cons; by left|by right].
    + assert (pickNext e c = e) as -> by (unfold pickNext; by rewrite E, F).
      apply Rltb_false in F. destruct (IH e (c :: S) He) as (H1 & H2 & H3); [|done|].
      { intros q Hq. apply elem_of_cons in Hq as [->|Hq]; [by split|by apply HS]. }
      split_and!; [done|destruct H2 as [-> |H2]; [by left|right; apply elem_of_cons; by right]|].
      intros q [Hq|Hq]; [apply H3; left; apply elem_of_cons; by right|].
      apply elem_of_cons in Hq as [->|Hq]; apply H3; [left; apply elem_of_cons; by left|by right].
Qed.
(** the first three points are not aligned *)
Lemma scan_start p0 p1 p2 l : pi ∈ p0 :: p1 :: p2 :: l -> flat (p0 :: p1 :: p2 :: l) -> 0 < isLeft p0 p1 p2 ->
  (forall q, q ∈ p0 :: p1 :: p2 :: l -> off q <= 0) ->
  let r := fold_left pickNext (p1 :: p2 :: l) p0 in
  good r /\ r ∈ p0 :: p1 :: p2 :: l /\ forall q, q ∈ p0 :: p1 :: p2 :: l -> isLeft pi r q <= 0.
Proof.
  intros Hpi Hflat HD Hoff.
  assert (I0 : p0 ∈ p0 :: p1 :: p2 :: l) by (rewrite !elem_of_cons; tauto).
  assert (I1 : p1 ∈ p0 :: p1 :: p2 :: l) by (rewrite !elem_of_cons; tauto).
  assert (I2 : p2 ∈ p0 :: p1 :: p2 :: l) by (rewrite !elem_of_cons; tauto).
  assert (O0 : off p0 <= 0) by auto. assert (O1 : off p1 <= 0) by auto. assert (O2 : off p2 <= 0) by auto.
  assert (Hl : forall q, q ∈ l -> off q <= 0) by (intros q Hq; apply Hoff; rewrite !elem_of_cons; tauto).
  assert (Hn : 0 < n2) by (unfold n2; lra).
  assert (HDc : n2 * isLeft p0 p1 p2 = (along p1 - along p0) * (off p2 - off p0) - (off p1 - off p0) * (along p2 - along p0))
    by (unfold n2, isLeft, along, off; ring).
  assert (HD' : 0 < (along p1 - along p0) * (off p2 - off p0) - (off p1 - off p0) * (along p2 - along p0))
    by (rewrite <- HDc; by apply Rmult_lt_0_compat).
  assert (Hfin : forall e (S rest : list vec3), good e -> (forall q, q ∈ S -> isLeft pi e q <= 0 /\ off q <= 0) ->
     (forall q, q ∈ rest -> off q <= 0) -> e ∈ p0 :: p1 :: p2 :: l -> (forall q, q ∈ rest -> q ∈ p0 :: p1 :: p2 :: l) ->
     (forall q, q ∈ p0 :: p1 :: p2 :: l -> q ∈ S \/ q ∈ rest) ->
     let r := fold_left pickNext rest e in
     good r /\ r ∈ p0 :: p1 :: p2 :: l /\ forall q, q ∈ p0 :: p1 :: p2 :: l -> isLeft pi r q <= 0).
  { intros e S rest H1 H2 H3 H4 H5 H6. cbn zeta. destruct (scan_inv rest e S H1 H2 H3) as (A & B & C). split_and!; [done| |].
    - destruct B as [-> |B]; [done|by apply H5].
    - intros q Hq. by apply C, H6. }
  assert (Hcases : forall q, q ∈ p0 :: p1 :: p2 :: l -> q = p0 \/ q = p1 \/ q = p2 \/ q ∈ l) by (intros q; rewrite !elem_of_cons; tauto).
  assert (Hneg : forall e c, isLeft pi e c <= 0 <-> along e * off c <= off e * along c).
  { intros e c. pose proof (pos_coord e c). lra. }
  destruct (classic (good p0)) as [G0|G0].
  { apply (Hfin p0 [p0] (p1 :: p2 :: l)); try done.
    - intros q Hq. apply elem_of_list_singleton in Hq as ->. rewrite isLeft_same2. split; lra.
    - intros q. rewrite !elem_of_cons. intros [->|[->|?]]; auto.
    - intros q. rewrite !elem_of_cons. tauto.
    - intros q. rewrite !elem_of_cons. intros [->|[->|[->|?]]]; tauto. }
  destruct (classic (p0 = pi)) as [E0|E0].
  - (* the first point is the current one *)
    cbn zeta; cbn [fold_left]. assert (HA : pickNext p0 p1 = p1).
    { unfold pickNext. assert (veqb p0 pi = true) as -> by by apply veqb_true. done. }
    rewrite HA. assert (A0 : along p0 = 0 /\ off p0 = 0) by (rewrite E0; unfold along, off; lra).
    destruct A0 as [A0 B0]. rewrite A0, B0 in HD'. rewrite !Rminus_0_r in HD'.
    destruct (classic (good p1)) as [G1|G1].
    + apply (Hfin p1 [p0; p1] (p2 :: l)); try done.
      * intros q Hq. rewrite !elem_of_cons, elem_of_nil in Hq.
        destruct Hq as [->|[->|[]]]; [|rewrite isLeft_same2; split; lra].
        split; [|done]. rewrite E0. unfold isLeft. lra.
      * intros q. rewrite !elem_of_cons. intros [->|?]; auto.
      * intros q. rewrite !elem_of_cons. tauto.
      * intros q. rewrite !elem_of_cons. tauto.
    + assert (N1 : ~ same_xy p1 pi).
      { intros Hs. assert (p1 = pi) by (by apply Hflat). subst p1. rewrite <- E0 in HD. rewrite isLeft_same3 in HD. lra. }
      destruct (not_good p1 O1 G1 N1) as [B1 A1]. rewrite B1 in HD'.
      assert (G2 : off p2 < 0) by nra.
      assert (HB : pickNext p1 p2 = p2).
      { unfold pickNext. assert (Rltb 0 (isLeft pi p1 p2) = true) as ->; [|by rewrite orb_true_r].
        apply Rltb_true, pos_coord. rewrite B1. nra. }
      rewrite HB. apply (Hfin p2 [p0; p1; p2] l); try done.
      * by left.
      * intros q Hq. rewrite !elem_of_cons, elem_of_nil in Hq. destruct Hq as [->|[->|[->|[]]]]; split; try done; apply Hneg.
        -- rewrite A0, B0. lra.
        -- rewrite B1. nra.
        -- lra.
      * intros q. rewrite !elem_of_cons. tauto.
      * intros q. rewrite !elem_of_cons, elem_of_nil. tauto.
  - (* the first point is behind *)
    assert (N0 : ~ same_xy p0 pi) by (intros Hs; apply E0; by apply Hflat).
    destruct (not_good p0 O0 G0 N0) as [B0 A0]. rewrite B0, !Rminus_0_r in HD'.
    assert (V0 : veqb p0 pi = false) by by apply veqb_false.
    cbn zeta; cbn [fold_left]. destruct (Rle_lt_or_eq_dec _ _ O1) as [B1|B1].
    + assert (HA : pickNext p0 p1 = p1).
      { unfold pickNext. assert (Rltb 0 (isLeft pi p0 p1) = true) as ->; [|by rewrite orb_true_r].
        apply Rltb_true, pos_coord. rewrite B0. nra. }
      rewrite HA. apply (Hfin p1 [p0; p1] (p2 :: l)); try done.
      * by left.
      * intros q Hq. rewrite !elem_of_cons, elem_of_nil in Hq. destruct Hq as [->|[->|[]]]; split; try done; apply Hneg.
        -- rewrite B0. nra.
        -- lra.
      * intros q. rewrite !elem_of_cons. intros [->|?]; auto.
      * intros q. rewrite !elem_of_cons. tauto.
      * intros q. rewrite !elem_of_cons, elem_of_nil. tauto.
    + assert (HA : pickNext p0 p1 = p0).
      { unfold pickNext. rewrite V0. assert (Rltb 0 (isLeft pi p0 p1) = false) as ->; [|done].
        apply Rltb_false, Hneg. rewrite B0, B1. lra. }
      rewrite B1 in HD'. assert (G2 : off p2 < 0) by (destruct (Rle_lt_or_eq_dec _ _ O2) as [?|E2]; [done|rewrite E2 in HD'; lra]).
      assert (HB : pickNext p0 p2 = p2).
      { unfold pickNext. assert (Rltb 0 (isLeft pi p0 p2) = true) as ->; [|by rewrite orb_true_r].
        apply Rltb_true, pos_coord. rewrite B0. nra. }
      rewrite HA, HB. assert (along p1 < along p0) by nra.
      apply (Hfin p2 [p0; p1; p2] l); try done.
      * by left.
      * intros q Hq. rewrite !elem_of_cons, elem_of_nil in Hq. destruct Hq as [->|[->|[->|[]]]]; split; try done; apply Hneg.
        -- rewrite B0. pose proof (neg_neg _ _ G2 A0). lra.
        -- rewrite B1. assert (A1 : along p1 < 0) by lra. pose proof (neg_neg _ _ G2 A1). lra.
        -- lra.
      * intros q. rewrite !elem_of_cons. tauto.
      * intros q. rewrite !elem_of_cons, elem_of_nil. tauto.
Qed.
End scan.
