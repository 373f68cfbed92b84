(** Concrete cases for the nearest point. *)
From Coq Require Import Psatz.
From Verif Require Import Maps MapsProofs Vec VecProofs GeomModel GeomSpec TriModel TriSpec TriProofs.
Local Open Scope R_scope.
Definition o0 : vec3 := V3 0 0 0. Definition o1 : vec3 := V3 1 0 0. Definition o2 : vec3 := V3 0 1 0.
Lemma ex_nondeg : non_degenerate (o0, o1, o2).
Proof. intros H. assert (Hz : vz (vcross (vsub o1 o0) (vsub o2 o0)) = 0) by (cbn [fst snd] in H; by rewrite H). unfold o0, o1, o2, vcross, vsub in Hz. simpl in Hz. lra. Qed.
(** (2, -1/2): the nearest point is the corner (1, 0), the corner (0, 0) is returned *)
Definition far : vec3 := V3 2 (-1 / 2) 0.
Lemma ex_beyond : beyond_t1 (o0, o1, o2) far.
Proof.
  exists 2, (-1 / 2). unfold far, o0, o1, o2, vdot, vsub, vadd, vscale. cbn [fst snd vx vy vz]. split_and!; lra.
Qed.
Lemma ex_wrong : closestPointInTriangle far o0 o1 o2 0 = o0 /\ nearest (o0, o1, o2) far o1.
Proof.
  destruct (closest_fault far o0 o1 o2 ex_nondeg ex_beyond) as (H1 & H2 & _).
  rewrite H1. split.
  - replace (Rmin _ 1) with 0; [unfold vadd, vscale, o0; apply vec3_ext; simpl; ring|].
    rewrite Rmax_right; [rewrite Rmin_left; lra|]. unfold far, o0, o2, vdot, vsub. simpl. lra.
  - replace (Rmin _ 1) with 1 in H2; [replace o1 with (vadd o0 (vscale 1 (vsub o1 o0))) at 2 by (unfold vadd, vscale, vsub, o0, o1; apply vec3_ext; simpl; ring); exact H2|].
    rewrite Rmax_left; [rewrite Rmin_right; [done|]|]; unfold far, o0, o1, vdot, vsub; simpl; lra.
Qed.
Lemma ex_not_beyond : ~ beyond_t1 (o0, o1, o2) (V3 2 2 5).
Proof.
  intros (u & v & H1 & H2 & _ & _ & H3 & _). revert H1 H2 H3. unfold o0, o1, o2, vdot, vsub, vadd, vscale. cbn [fst snd vx vy vz]. lra.
Qed.
Lemma closest_refuted : ~ forall src t0 t1 t2, non_degenerate (t0, t1, t2) -> nearest (t0, t1, t2) src (closestPointInTriangle src t0 t1 t2 0).
Proof.
  intros H. specialize (H far o0 o1 o2 ex_nondeg). destruct ex_wrong as [E Hn]. rewrite E in H.
  pose proof (nearest_unique _ _ _ _ H Hn) as E'. unfold o0, o1 in E'. injection E'. lra.
Qed.
