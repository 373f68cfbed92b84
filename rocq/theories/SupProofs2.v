(** The gift wrapping closes; its edges support the points. *)
From Coq Require Import ZArith Classical.
From Verif Require Import Maps Vec VecProofs GeomModel GeomSpec GeomInt GeomProofs GeomProofs2 GeomProofs3 SupModel SupSpec SupProofs.
Local Open Scope R_scope.

Lemma lex_max (f g : vec3 -> R) (l : list vec3) : l <> [] ->
  exists v, v ∈ l /\ forall q, q ∈ l -> f q < f v \/ (f q = f v /\ g q <= g v).
Proof.
  induction l as [|a l IH]; intros H; [done|]. destruct l as [|b l].
  - exists a. split; [by apply elem_of_list_singleton|]. intros q Hq. apply elem_of_list_singleton in Hq as ->. right. lra.
  - destruct IH as (v & Hv & Hmax); [done|].
    destruct (classic (f a < f v \/ (f a = f v /\ g a <= g v))) as [Ha|Ha].
    + exists v. split; [apply elem_of_cons; by right|]. intros q Hq. apply elem_of_cons in Hq as [->|Hq]; [done|by apply Hmax].
    + exists a. split; [apply elem_of_cons; by left|]. intros q Hq. apply elem_of_cons in Hq as [->|Hq]; [right; lra|].
      destruct (Hmax q Hq) as [H1|[H1 H2]]; destruct (Rtotal_order (f a) (f v)) as [H3|[H3|H3]];
        try (exfalso; apply Ha; by left); try (left; lra).
      destruct (Rle_lt_dec (g a) (g v)) as [H4|H4]; [exfalso; apply Ha; by right|]. right. lra.
Qed.

(** an edge that supports the points *)
Definition supports (P : list vec3) (a b : vec3) : Prop := a ∈ P /\ b ∈ P /\ ~ same_xy a b /\ right_of P a b.

Section chain.
Variable P : list vec3.
Hypothesis Hnc : exists a b c, a ∈ P /\ b ∈ P /\ c ∈ P /\ isLeft a b c <> 0.
Variable v : nat -> vec3.
Variables i j : nat.
Hypothesis Hij : (i < j)%nat.
Hypothesis Hclosed : v i = v j.
Hypothesis Hedge : forall k, (i <= k < j)%nat -> supports P (v k) (v (S k)).

(** two supporting edges in opposite directions: all points are aligned *)
Lemma not_back a b c : supports P a b -> supports P b c ->
  isLeft a b c = 0 -> 0 < (vx b - vx a) * (vx c - vx b) + (vy b - vy a) * (vy c - vy b).
Proof.
  intros (A1 & A2 & A3 & A4) (B1 & B2 & B3 & B4) H0.
  set (ex := vx b - vx a). set (ey := vy b - vy a). set (gx := vx c - vx b). set (gy := vy c - vy b).
  assert (Hpar : ex * gy - gx * ey = 0) by (unfold isLeft in H0; unfold ex, ey, gx, gy; lra).
  assert (He : 0 < ex * ex + ey * ey).
  { unfold same_xy in A3. unfold ex, ey. destruct (Req_EM_T (vx a) (vx b)) as [E1|E1]; destruct (Req_EM_T (vy a) (vy b)) as [E2|E2];
      [tauto|assert (0 < (vy b - vy a) * (vy b - vy a)) by nra; nra|assert (0 < (vx b - vx a) * (vx b - vx a)) by nra; nra
      |assert (0 < (vx b - vx a) * (vx b - vx a)) by nra; nra]. }
  assert (Hg : 0 < gx * gx + gy * gy).
  { unfold same_xy in B3. unfold gx, gy. destruct (Req_EM_T (vx b) (vx c)) as [E1|E1]; destruct (Req_EM_T (vy b) (vy c)) as [E2|E2];
      [tauto|assert (0 < (vy c - vy b) * (vy c - vy b)) by nra; nra|assert (0 < (vx c - vx b) * (vx c - vx b)) by nra; nra
      |assert (0 < (vx c - vx b) * (vx c - vx b)) by nra; nra]. }
  destruct (Rlt_dec 0 (ex * gx + ey * gy)) as [Hp|Hn]; [done|]. exfalso.
  set (s := ex * gx + ey * gy) in *.
  assert (Hs : s * s = (ex * ex + ey * ey) * (gx * gx + gy * gy)).
  { unfold s. assert ((ex * gx + ey * gy) * (ex * gx + ey * gy) + (ex * gy - gx * ey) * (ex * gy - gx * ey) =
      (ex * ex + ey * ey) * (gx * gx + gy * gy)) by ring. rewrite Hpar in H. lra. }
  assert (Hs0 : s < 0).
  { assert (0 < s * s) by (rewrite Hs; by apply Rmult_lt_0_compat). destruct (Req_EM_T s 0) as [E|E]; [rewrite E in H; lra|lra]. }
  (* every point is on the line *)
  assert (Hline : forall q, q ∈ P -> ex * (vy q - vy a) - ey * (vx q - vx a) = 0).
  { intros q Hq. pose proof (A4 q Hq) as Q1. pose proof (B4 q Hq) as Q2. unfold isLeft in Q1, Q2.
    assert (Q2' : gx * (vy q - vy b) - gy * (vx q - vx b) <= 0) by (unfold gx, gy; lra).
    assert (Q1' : ex * (vy q - vy b) - ey * (vx q - vx b) <= 0) by (unfold ex, ey; lra).
    assert (Hrel : (ex * ex + ey * ey) * (gx * (vy q - vy b) - gy * (vx q - vx b)) =
       s * (ex * (vy q - vy b) - ey * (vx q - vx b)) - (ex * gy - gx * ey) * (ex * (vx q - vx b) + ey * (vy q - vy b)))
      by (unfold s; ring).
    rewrite Hpar in Hrel. set (t := ex * (vy q - vy b) - ey * (vx q - vx b)) in *.
    assert (t = 0) by nra.
    assert (ex * (vy q - vy a) - ey * (vx q - vx a) = t) by (unfold t, ex, ey; ring). lra. }
  destruct Hnc as (x & y & z & X & Y & Z & Hxyz). apply Hxyz.
  pose proof (Hline x X) as LX. pose proof (Hline y Y) as LY. pose proof (Hline z Z) as LZ.
  assert (L1 : ex * (vy y - vy x) = ey * (vx y - vx x)) by lra.
  assert (L2 : ex * (vy z - vy x) = ey * (vx z - vx x)) by lra.
  assert (K1 : ex * isLeft x y z = 0).
  { unfold isLeft. replace (ex * _) with ((vx y - vx x) * (ex * (vy z - vy x)) - (vx z - vx x) * (ex * (vy y - vy x))) by ring.
    rewrite L1, L2. ring. }
  assert (K2 : ey * isLeft x y z = 0).
  { unfold isLeft. replace (ey * _) with ((ey * (vx y - vx x)) * (vy z - vy x) - (ey * (vx z - vx x)) * (vy y - vy x)) by ring.
    rewrite <- L1, <- L2. ring. }
  destruct (Req_EM_T (isLeft x y z) 0) as [E|E]; [done|]. exfalso.
  assert (ex = 0) by (by apply (Rmult_eq_reg_r (isLeft x y z)); [rewrite K1; ring|]).
  assert (ey = 0) by (by apply (Rmult_eq_reg_r (isLeft x y z)); [rewrite K2; ring|]). rewrite H, H1 in He. lra.
Qed.

Lemma chain_reaches (al be : R) t : t ∈ P ->
  exists k, (i < k <= j)%nat /\ al * vx t + be * vy t <= al * vx (v k) + be * vy (v k).
Proof.
  intros Ht. set (f q := al * vx q + be * vy q). set (g q := - be * vx q + al * vy q).
  destruct (lex_max f g (v <$> seq (S i) (j - i))) as (w & Hw & Hmax).
  { destruct (j - i)%nat eqn:E; [lia|done]. }
  apply elem_of_list_fmap in Hw as (k & -> & Hk). apply elem_of_seq in Hk.
  exists k. split; [lia|]. destruct (Rle_lt_dec (f t) (f (v k))) as [H|H]; [exact H|]. exfalso.
  assert (Hin : forall m, (i <= m <= j)%nat -> v m ∈ v <$> seq (S i) (j - i)).
  { intros m Hm. apply elem_of_list_fmap. destruct (decide (m = i)) as [->|Hne].
    - exists j. split; [done|]. apply elem_of_seq. lia.
    - exists m. split; [done|]. apply elem_of_seq. lia. }
  destruct k as [|k]; [lia|].
  assert (Hprev := Hedge k). assert (Hpm := Hmax (v k)).
  assert (Hnext : exists nx, supports P (v (S k)) nx /\ nx ∈ v <$> seq (S i) (j - i)).
  { destruct (decide (S k = j)) as [E|E].
    - exists (v (S i)). rewrite E, <- Hclosed. split; [apply Hedge; lia|apply Hin; lia].
    - exists (v (S (S k))). split; [apply Hedge; lia|apply Hin; lia]. }
  destruct Hnext as (nx & Hnx & Hnxin). pose proof (Hmax nx Hnxin) as Hnm. clear Hmax.
  assert (Hp : supports P (v k) (v (S k))) by (apply Hprev; lia). clear Hprev.
  assert (Hpm' := Hpm (Hin k ltac:(lia))). clear Hpm Hin.
  set (p := v k) in *. set (c := v (S k)) in *.
  pose proof (not_back p c nx Hp Hnx) as Hnb.
  destruct Hp as (P1 & P2 & P3 & P4). destruct Hnx as (N1 & N2 & N3 & N4).
  pose proof (P4 nx N2) as T0. pose proof (P4 t Ht) as T1. pose proof (N4 t Ht) as T2.
  set (d1x := vx c - vx p). set (d1y := vy c - vy p). set (d2x := vx nx - vx c). set (d2y := vy nx - vy c).
  set (ux := vx t - vx c). set (uy := vy t - vy c).
  assert (F1 : 0 <= al * d1x + be * d1y) by (unfold f, d1x, d1y in *; lra).
  assert (F2 : al * d2x + be * d2y <= 0) by (unfold f, d2x, d2y in *; lra).
  assert (FU : 0 < al * ux + be * uy) by (unfold f, ux, uy in *; lra).
  assert (T1' : d1x * uy - ux * d1y <= 0) by (unfold isLeft in T1; unfold d1x, d1y, ux, uy; lra).
  assert (T2' : d2x * uy - ux * d2y <= 0) by (unfold isLeft in T2; unfold d2x, d2y, ux, uy; lra).
  assert (T0' : isLeft p c nx = d1x * d2y - d2x * d1y) by (unfold isLeft, d1x, d1y, d2x, d2y; ring).
  assert (Hid : (al * ux + be * uy) * (d1x * d2y - d2x * d1y) =
     - (al * d1x + be * d1y) * (d2x * uy - ux * d2y) + (al * d2x + be * d2y) * (d1x * uy - ux * d1y)) by ring.
  assert (X1 : 0 <= - (al * d1x + be * d1y) * (d2x * uy - ux * d2y)) by nra.
  assert (X2 : 0 <= (al * d2x + be * d2y) * (d1x * uy - ux * d1y)) by nra.
  assert (Hz : d1x * d2y - d2x * d1y = 0) by nra.
  rewrite T0', Hz in Hnb. specialize (Hnb eq_refl). fold d1x d1y d2x d2y in Hnb.
  (* the two edges have the same direction, so both are along the level line *)
  assert (Y1 : (al * d1x + be * d1y) * (d1x * d2x + d1y * d2y) =
     (al * d2x + be * d2y) * (d1x * d1x + d1y * d1y) - (d1x * d2y - d2x * d1y) * (be * d1x - al * d1y)).
  { ring. }
  rewrite Hz in Y1.
  assert (Z1 : (al * d2x + be * d2y) * (d1x * d1x + d1y * d1y) <= 0).
  { assert (0 <= d1x * d1x + d1y * d1y) by nra. nra. }
  assert (F10 : al * d1x + be * d1y = 0) by nra.
  assert (Y2 : (al * d2x + be * d2y) * (d1x * d2x + d1y * d2y) =
     (al * d1x + be * d1y) * (d2x * d2x + d2y * d2y) + (d1x * d2y - d2x * d1y) * (be * d2x - al * d2y)) by ring.
  rewrite Hz, F10 in Y2. assert (F20 : al * d2x + be * d2y = 0) by nra.
  assert (Hg : - be * d2x + al * d2y <= 0).
  { destruct Hnm as [Hnm|[_ Hnm]]; unfold f, g, d2x, d2y in *; lra. }
  (* al and be are not both zero, d2 is along the level line; t is beyond it *)
  assert (W : (al * al + be * be) * (d2x * uy - ux * d2y) =
     (al * d2x + be * d2y) * (al * uy - be * ux) - (- be * d2x + al * d2y) * (al * ux + be * uy)) by ring.
  rewrite F20 in W.
  assert (Hab : 0 < al * al + be * be).
  { destruct (Req_EM_T al 0) as [Ea|Ea]; destruct (Req_EM_T be 0) as [Eb|Eb];
      [rewrite Ea, Eb in FU; lra|nra|nra|nra]. }
  assert (Hg0 : - be * d2x + al * d2y = 0) by nra.
  assert (D2 : (al * al + be * be) * (d2x * d2x + d2y * d2y) =
    (al * d2x + be * d2y) * (al * d2x + be * d2y) + (- be * d2x + al * d2y) * (- be * d2x + al * d2y)) by ring.
  rewrite F20, Hg0 in D2. assert (d2x * d2x + d2y * d2y = 0) by nra.
  apply N3. unfold same_xy. assert (d2x = 0) by nra. assert (d2y = 0) by nra. unfold d2x, d2y in *. lra.
Qed.
End chain.
