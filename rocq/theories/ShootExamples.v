(** Concrete cases for the shooter. *)
From Verif Require Import Maps MapsProofs Vec VecProofs GeomModel GeomSpec ShootModel ShootSpec ShootProofs.
Local Open Scope R_scope.

(** a floor made of two triangles of areas 1/2 and 3/2 *)
Definition small : triangle3 := (V3 0 0 0, V3 1 0 0, V3 0 1 0).
Definition large : triangle3 := (V3 1 0 0, V3 2 0 0, V3 2 3 0).
Definition floor : surface := mkSurface (fun v => v) (Some [small; large]).
Definition floorShooter : shooter :=
  mkShooter [(TriangleNormal small, small); (TriangleNormal large, large)] (weightsOf [TriangleArea small; TriangleArea large]).
Lemma ex_init : InitWeightedTriangles [floor] = Ok floorShooter.
Proof. done. Qed.
Lemma flat_area a b c d : a * d - b * c >= 0 -> TriangleArea (V3 0 0 0, V3 a b 0, V3 c d 0) = (a * d - b * c) / 2.
Proof.
  intros H. rewrite TriangleArea_ok. unfold parallelogram_half, vnorm, vnorm2, vdot, vcross, vsub. cbn [fst snd vx vy vz].
  replace (_ + _) with ((a * d - b * c) * (a * d - b * c)) by ring. rewrite sqrt_square by lra. done.
Qed.
Lemma area_small : TriangleArea small = 1 / 2.
Proof. unfold small. rewrite flat_area; lra. Qed.
Lemma area_large : TriangleArea large = 3 / 2.
Proof.
  rewrite TriangleArea_ok. unfold large, parallelogram_half, vnorm, vnorm2, vdot, vcross, vsub. cbn [fst snd vx vy vz].
  replace (_ + _) with (3 * 3) by ring. rewrite sqrt_square by lra. lra.
Qed.
Lemma ex_weights : weights floorShooter = Some [1 / 4; 1].
Proof.
  unfold floorShooter, weightsOf. cbn [weights fold_left]. rewrite area_small, area_large.
  assert (Reqb (0 + 1 / 2 + 3 / 2) 0 = false) as -> by (apply Reqb_false; lra). cbn [cumulate]. f_equal. f_equal; [lra|]. f_equal. lra.
Qed.
Lemma ex_choice : weightedIndex floorShooter (1 / 4) = Ok 0%nat /\ weightedIndex floorShooter (1 / 3) = Ok 1%nat.
Proof.
  unfold weightedIndex. rewrite ex_weights. cbn [firstAtLeast]. split.
  - assert (Rleb (1 / 4) (1 / 4) = true) as -> by (apply Rleb_true; lra). done.
  - assert (Rleb (1 / 3) (1 / 4) = false) as -> by (apply Rleb_false; lra). assert (Rleb (1 / 3) 1 = true) as -> by (apply Rleb_true; lra). done.
Qed.
Lemma ex_beyond : weightedIndex floorShooter 2 = Ok 1%nat.
Proof.
  unfold weightedIndex. rewrite ex_weights. cbn [firstAtLeast].
  assert (Rleb 2 (1 / 4) = false) as -> by (apply Rleb_false; lra). assert (Rleb 2 1 = false) as -> by (apply Rleb_false; lra). done.
Qed.
Lemma ex_total : total [TriangleArea small; TriangleArea large] = 2.
Proof. unfold total. cbn [length sum_first]. rewrite area_small, area_large. lra. Qed.

(** a robot that must be lifted out of the floor *)
Definition half (w : nat) : R * nat := (1 / 2, S w).
Definition first (n w : nat) : nat * nat := (0%nat, S w).
Definition uni (w : nat) : conf unit * nat := (mkConf (V3 5 5 5) (Q4 0 0 0 1) tt, S w).
Definition lifted (q : conf unit) : vreport :=
  mkVrep (Rltb (1 / 100) (vz (trans q))) (negb (Rltb (1 / 100) (vz (trans q)))) (Some (V3 0 0 1, 0)).
Definition box : bounds := mkBounds (V3 (-10) (-10) (-10)) (V3 10 10 10).
Definition yaw : list R := [-1; 1; 0; 0; 0; 0].
Lemma ex_random : random_ok half first.
Proof. split; intros; simpl; [lra|done]. Qed.
Lemma ex_reports : reports_ok lifted.
Proof. intros q _ _. by eexists. Qed.
Lemma ex_limits : limits_ok yaw /\ proper box.
Proof. split; [by right|]. unfold proper. simpl. lra. Qed.
Lemma ex_found : exists q w', impl_shoot half first uni lifted box yaw (3 / 10) 1 5 floorShooter 0%nat = Ok (true, q, w', 2%nat) /\ vz (trans q) = 3 / 100.
Proof.
  unfold impl_shoot, uni. cbn [shootLoop]. unfold pickTriangle, half. cbn [floorShooter triangles length].
  assert (Rltb (3 / 10) (1 / 2) = true) as -> by (apply Rltb_true; lra). cbn [Nat.eqb first lookup list_lookup].
  unfold randConfigAtPos, SampleRotation, yaw. cbn [trans rest SetConfigTranslation orientation]. cbn [moveLoop].
  set (P := pointInTriangle _ _ _).
  assert (Hz : vz P = 0). { unfold P, pointInTriangle, small. cbn [vadd vscale vz]. ring. }
  assert (Hb : bound (-10) 10 (vz P) = 0). { rewrite Hz. apply bound_id. lra. }
  unfold lifted at 1 2 3. cbn [trans bound3 box lo hi vz trunkInCollision accepted firstContact]. rewrite Hb.
  assert (Rltb (1 / 100) 0 = false) as -> by (apply Rltb_false; lra). cbn [negb].
  unfold Translate. cbn [trans orientation rest].
  set (Q := bound3 box _).
  assert (HQ : vz Q = 3 / 100).
  { change (bound (-10) 10 (bound (-10) 10 (vz P) + (0 + 3 / 100) * 1) = 3 / 100). rewrite Hb, bound_id; lra. }
  assert (Hacc : forall o r, accepted (lifted (mkConf Q o r)) = true). { intros o r. unfold lifted. cbn [accepted trans]. rewrite HQ. apply Rltb_true. lra. }
  rewrite Hacc. eexists _, _. split; [done|]. cbn [trans vz]. done.
Qed.
(** two types of affordance asked by two ROMs: each type's objects once *)
Definition affs : gmap string (list nat) := {[ "Support"%string := [1; 2]%nat; "Lean"%string := [3]%nat ]}.
Definition filt : gmap string (list string) := {[ "foot"%string := ["Support"%string]; "hand"%string := ["Support"%string; "Lean"%string; "Unknown"%string] ]}.
Lemma ex_used : getUsedSurfaces affs filt = [1; 2; 3]%nat.
Proof. vm_compute. done. Qed.
