(** Concrete cases for the support polygon. *)
From Coq Require Import ZArith.
From Verif Require Import Maps Vec VecProofs GeomModel GeomSpec GeomProofs SupModel SupSpec SupProofs SupProofs5 GeomExamples.
Local Open Scope R_scope.

(** two feet *)
Definition leftFoot := V3 0 1 0.
Definition rightFoot := V3 (1/2) (-1) 0.
Definition feet : list vec3 := [leftFoot; rightFoot].
Definition halfX : list R := [1/4; 1/4].
Definition halfY : list R := [1/8; 1/8].
Definition feetCorners : list vec3 :=
  [V3 (1/4) (9/8) 0; V3 (-1/4) (9/8) 0; V3 (-1/4) (7/8) 0; V3 (1/4) (7/8) 0;
   V3 (3/4) (-7/8) 0; V3 (1/4) (-7/8) 0; V3 (1/4) (-9/8) 0; V3 (3/4) (-9/8) 0].
Lemma ex_feet_corners q : q ∈ feetCorners <-> corner_of feet halfX halfY q.
Proof.
  destruct (corners_ok feet halfX halfY) as (cs & H1 & _ & H3); [done|done|]. rewrite <- H3.
  assert (cs = feetCorners) as ->; [|done]. injection H1 as <-. unfold feetCorners.
  repeat (f_equal; [apply vec3_ext; cbn [vx vy vz vadd leftFoot rightFoot]; lra|]).
  f_equal. apply vec3_ext; cbn [vx vy vz vadd leftFoot rightFoot]; lra.
Qed.
Lemma ex_feet_flat q q' : corner_of feet halfX halfY q -> corner_of feet halfX halfY q' -> same_xy q q' -> q = q'.
Proof.
  intros H H' [Hx Hy]. apply vec3_ext; [done|done|]. apply ex_feet_corners in H, H'. unfold feetCorners in *.
  rewrite !elem_of_cons, elem_of_nil in H, H'. destruct_or!; subst; done.
Qed.
Lemma ex_feet_inside : strictly_inside feetCorners (V3 (1/4) 0 0).
Proof.
  intros a b Hab. unfold feetCorners. cbn [vx vy].
  destruct (Req_EM_T b 0) as [E|E].
  - rewrite E in *. destruct (Rlt_dec 0 a) as [Ha|Ha].
    + exists (V3 (3/4) (-9/8) 0). split; [vin|]. cbn [vx vy]. lra.
    + exists (V3 (-1/4) (9/8) 0). split; [vin|]. cbn [vx vy]. assert (a <> 0) by tauto. lra.
  - destruct (Rlt_dec 0 b) as [Hb|Hb].
    + exists (V3 (1/4) (9/8) 0). split; [vin|]. cbn [vx vy]. lra.
    + exists (V3 (1/4) (-9/8) 0). split; [vin|]. cbn [vx vy]. lra.
Qed.
Lemma ex_feet : Contains 9 feet (V3 (1/4) 0 0) halfX halfY = Ok (Some true).
Proof.
  destruct (Contains_ok leftFoot [rightFoot] (1/4) [1/4] (1/8) [1/8]) with (cs := feetCorners) as (test & H1 & _ & H3 & _);
    [lra|lra|done|done|exact ex_feet_flat|exact ex_feet_corners|].
  unfold feet, halfX, halfY. rewrite (H1 9%nat) by (simpl; lia). by rewrite (H3 _ ex_feet_inside).
Qed.

(** four point contacts, the first in the middle of the left side: one of them is forgotten *)
Definition midPt := V3 0 1 0. Definition lowPt := V3 0 0 0. Definition topPt := V3 0 2 0. Definition farPt := V3 2 1 0.
Definition zero4 : list R := [0; 0; 0; 0].
Definition lostCom := V3 (1/2) (5/4) 0.
Lemma gift_take pi e c l p : giftNext p l pi = e -> (e = pi \/ 0 < isLeft pi e c) -> giftNext p (l ++ [c]) pi = c.
Proof.
  unfold giftNext. intros H H1. rewrite fold_left_app, H. cbn [fold_left].
  assert (veqb e pi || Rltb 0 (isLeft pi e c) = true) as ->; [|done]. apply orb_true_iff.
  destruct H1 as [H1|H1]; [left; by apply veqb_true|right; by apply Rltb_true].
Qed.
Lemma giftNext_cons p c l pi : giftNext p (c :: l) pi = giftNext (if veqb p pi || Rltb 0 (isLeft pi p c) then c else p) l pi.
Proof. done. Qed.
Ltac gstep := rewrite giftNext_cons;
  match goal with |- context [veqb ?a ?b || Rltb 0 ?x] =>
    first [ assert (veqb a b || Rltb 0 x = true) as -> by (apply orb_true_iff; first [left; apply veqb_true; reflexivity|right; apply Rltb_true; unfold isLeft; simpl; lra])
          | assert (veqb a b || Rltb 0 x = false) as -> by (apply orb_false_iff; split; [apply veqb_false; vneq|apply Rltb_false; unfold isLeft; simpl; lra]) ] end.
Lemma ex_mid : Contains 10 [midPt; lowPt; topPt; farPt] lostCom zero4 zero4 = Ok (Some false).
Proof.
  unfold Contains, zero4. cbn [corners].
  destruct (vadd_zero midPt) as (-> & -> & -> & ->). destruct (vadd_zero lowPt) as (-> & -> & -> & ->).
  destruct (vadd_zero topPt) as (-> & -> & -> & ->). destruct (vadd_zero farPt) as (-> & -> & -> & ->).
  unfold giftWrap.
  set (l := [midPt; midPt; midPt; lowPt; lowPt; lowPt; lowPt; topPt; topPt; topPt; topPt; farPt; farPt; farPt; farPt]).
  assert (HL : leftMostFrom midPt l = midPt).
  { unfold l. cbn [leftMostFrom]. rcalc. done. }
  rewrite HL.
  assert (N1 : giftNext midPt l midPt = farPt) by (unfold l; repeat gstep; done).
  assert (N2 : giftNext midPt l farPt = lowPt) by (unfold l; repeat gstep; done).
  assert (N3 : giftNext midPt l lowPt = midPt) by (unfold l; repeat gstep; done).
  assert (V1 : veqb farPt midPt = false) by (apply veqb_false; vneq).
  assert (V2 : veqb lowPt midPt = false) by (apply veqb_false; vneq).
  assert (V3' : veqb midPt midPt = true) by by apply veqb_true.
  assert (HG : giftLoop 10 midPt l [] midPt = Some [midPt; farPt; lowPt; midPt]).
  { cbn [giftLoop]. rewrite N1. assert (front ([] ++ [midPt]) = midPt) as -> by done. rewrite V1, N2.
    assert (front (([] ++ [midPt]) ++ [farPt]) = midPt) as -> by done. rewrite V2, N3.
    assert (front ((([] ++ [midPt]) ++ [farPt]) ++ [lowPt]) = midPt) as -> by done. rewrite V3'. done. }
  rewrite HG.
  cbn [InPolygon winding]. unfold windEdge, isLeft. cbn [vx vy midPt lowPt topPt farPt lostCom]. rcalc. done.
Qed.
Lemma ex_mid_inside : strictly_inside [midPt; lowPt; topPt; farPt] lostCom.
Proof.
  intros a b Hab. unfold lostCom. cbn [vx vy].
  destruct (Rlt_dec (a * (1/2) + b * (5/4)) (b * 2)) as [H1|H1]; [exists topPt; split; [vin|]; simpl; lra|].
  destruct (Rlt_dec (a * (1/2) + b * (5/4)) 0) as [H2|H2]; [exists lowPt; split; [vin|]; simpl; lra|].
  exists farPt. split; [vin|]. simpl. destruct (Req_EM_T a 0); [|lra]. assert (b <> 0) by tauto. lra.
Qed.
