(** Curves that satisfy [EffSpec.good_curves]: polynomials of degree 7 with given positions and
    derivatives at both ends, with their derivatives. *)
From Coq Require Import Reals Lra.
From Coquelicot Require Import Coquelicot.
From Verif Require Import Vec TrajModel EffModel EffSpec.
Local Open Scope R_scope.

Definition poly (a b c d e f g h t : R) : R := a + b * t + c * t^2 + d * t^3 + e * t^4 + f * t^5 + g * t^6 + h * t^7.
Lemma poly_derive a b c d e f g h t : Derive (poly a b c d e f g h) t = poly b (2 * c) (3 * d) (4 * e) (5 * f) (6 * g) (7 * h) 0 t.
Proof. apply is_derive_unique. unfold poly. auto_derive; [exact I|ring]. Qed.
Lemma poly_derive1 a b c d e f g h t : Derive_n (poly a b c d e f g h) 1 t = poly b (2 * c) (3 * d) (4 * e) (5 * f) (6 * g) (7 * h) 0 t.
Proof. apply poly_derive. Qed.
Lemma poly_derive2 a b c d e f g h t : Derive_n (poly a b c d e f g h) 2 t = poly (2 * c) (6 * d) (12 * e) (20 * f) (30 * g) (42 * h) 0 0 t.
Proof.
  change (Derive (Derive_n (poly a b c d e f g h) 1) t = poly (2 * c) (6 * d) (12 * e) (20 * f) (30 * g) (42 * h) 0 0 t).
  rewrite (Derive_ext _ (poly b (2 * c) (3 * d) (4 * e) (5 * f) (6 * g) (7 * h) 0)) by (intros; apply poly_derive1).
  rewrite poly_derive. unfold poly. ring.
Qed.
Lemma poly_derive3 a b c d e f g h t : Derive_n (poly a b c d e f g h) 3 t = poly (6 * d) (24 * e) (60 * f) (120 * g) (210 * h) 0 0 0 t.
Proof.
  change (Derive (Derive_n (poly a b c d e f g h) 2) t = poly (6 * d) (24 * e) (60 * f) (120 * g) (210 * h) 0 0 0 t).
  rewrite (Derive_ext _ (poly (2 * c) (6 * d) (12 * e) (20 * f) (30 * g) (42 * h) 0 0)) by (intros; apply poly_derive2).
  rewrite poly_derive. unfold poly. ring.
Qed.

(** one coordinate: positions, velocities, accelerations and jerks at 0 and [T] *)
Definition septic (T p0 p1 v0 v1 a0 a1 j0 j1 : R) : R -> R :=
  let D0 := p1 - (p0 + v0 * T + a0 / 2 * T^2 + j0 / 6 * T^3) in
  let D1 := (v1 - (v0 + a0 * T + j0 / 2 * T^2)) * T in
  let D2 := (a1 - (a0 + j0 * T)) * T^2 in
  let D3 := (j1 - j0) * T^3 in
  poly p0 v0 (a0 / 2) (j0 / 6)
    ((35 * D0 - 15 * D1 + 5/2 * D2 - 1/6 * D3) / T^4) ((-84 * D0 + 39 * D1 - 7 * D2 + 1/2 * D3) / T^5)
    ((70 * D0 - 34 * D1 + 13/2 * D2 - 1/2 * D3) / T^6) ((-20 * D0 + 10 * D1 - 2 * D2 + 1/6 * D3) / T^7).
Lemma septic_ends T p0 p1 v0 v1 a0 a1 j0 j1 : 0 < T -> let f := septic T p0 p1 v0 v1 a0 a1 j0 j1 in
  f 0 = p0 /\ f T = p1 /\ Derive_n f 1 0 = v0 /\ Derive_n f 1 T = v1 /\ Derive_n f 2 0 = a0 /\ Derive_n f 2 T = a1 /\
  Derive_n f 3 0 = j0 /\ Derive_n f 3 T = j1.
Proof.
  intros HT f. unfold f, septic. cbv zeta. rewrite !poly_derive1, !poly_derive2, !poly_derive3. unfold poly.
  repeat split; field; lra.
Qed.

Definition ederiv (c : bezier) (n : nat) (t : R) : vec3 :=
  V3 (Derive_n (fun s => vx (bz_eval c s)) n t) (Derive_n (fun s => vy (bz_eval c s)) n t) (Derive_n (fun s => vz (bz_eval c s)) n t).
Definition ecurve (d : pdata) (T : R) : bezier :=
  Bez 0 T (fun t => V3
    (septic T (vx (pc0 d)) (vx (pc1 d)) (vx (pdc0 d)) (vx (pdc1 d)) (vx (pddc0 d)) (vx (pddc1 d)) (vx (pj0 d)) (vx (pj1 d)) t)
    (septic T (vy (pc0 d)) (vy (pc1 d)) (vy (pdc0 d)) (vy (pdc1 d)) (vy (pddc0 d)) (vy (pddc1 d)) (vy (pj0 d)) (vy (pj1 d)) t)
    (septic T (vz (pc0 d)) (vz (pc1 d)) (vz (pdc0 d)) (vz (pdc1 d)) (vz (pddc0 d)) (vz (pddc1 d)) (vz (pj0 d)) (vz (pj1 d)) t)).
Lemma ecurve_ends d T : 0 < T ->
  bz_eval (ecurve d T) 0 = pc0 d /\ bz_eval (ecurve d T) T = pc1 d /\
  ederiv (ecurve d T) 1 0 = pdc0 d /\ ederiv (ecurve d T) 1 T = pdc1 d /\ ederiv (ecurve d T) 2 0 = pddc0 d /\ ederiv (ecurve d T) 2 T = pddc1 d /\
  ederiv (ecurve d T) 3 0 = pj0 d /\ ederiv (ecurve d T) 3 T = pj1 d.
Proof.
  intros HT. unfold ederiv. cbn [ecurve bz_eval vx vy vz].
  destruct (septic_ends T (vx (pc0 d)) (vx (pc1 d)) (vx (pdc0 d)) (vx (pdc1 d)) (vx (pddc0 d)) (vx (pddc1 d)) (vx (pj0 d)) (vx (pj1 d)) HT) as (X1 & X2 & X3 & X4 & X5 & X6 & X7 & X8).
  destruct (septic_ends T (vy (pc0 d)) (vy (pc1 d)) (vy (pdc0 d)) (vy (pdc1 d)) (vy (pddc0 d)) (vy (pddc1 d)) (vy (pj0 d)) (vy (pj1 d)) HT) as (Y1 & Y2 & Y3 & Y4 & Y5 & Y6 & Y7 & Y8).
  destruct (septic_ends T (vz (pc0 d)) (vz (pc1 d)) (vz (pdc0 d)) (vz (pdc1 d)) (vz (pddc0 d)) (vz (pddc1 d)) (vz (pj0 d)) (vz (pj1 d)) HT) as (Z1 & Z2 & Z3 & Z4 & Z5 & Z6 & Z7 & Z8).
  destruct d as [[x0 y0 z0] [x1 y1 z1] [x2 y2 z2] [x3 y3 z3] [x4 y4 z4] [x5 y5 z5] [x6 y6 z6] [x7 y7 z7]].
  cbn [pc0 pc1 pdc0 pdc1 pddc0 pddc1 pj0 pj1 vx vy vz] in *.
  repeat split; f_equal; assumption.
Qed.

(** the control points of the predefined curves: the data themselves *)
Definition epoints (d : pdata) (T : R) : list vec3 := (pc0 d :: pc1 d :: pdc0 d :: pdc1 d :: pddc0 d :: pddc1 d :: pj0 d :: pj1 d :: nil)%list.
Definition ebezier (pts : list vec3) (T : R) : bezier :=
  match pts with
  | (a :: b :: c :: d :: e :: f :: g :: h :: nil)%list => ecurve (PD a b c d e f g h) T
  | _ => Bez 0 T (fun _ => vzero)
  end.
Definition efit (v : nat) (d : pdata) (eff : R -> vec3) (T wt : R) : option bezier :=
  if Rle_dec wt (1/2) then Some (ecurve d T) else None.
Lemma ecurves_good : good_curves epoints epoints ebezier ederiv efit.
Proof.
  split.
  - intros pts T. do 9 (destruct pts as [|? pts]; [split; reflexivity|]). split; reflexivity.
  - intros d T HT. cbn [ebezier epoints]. destruct d as [a b c d e f g h]. destruct (ecurve_ends (PD a b c d e f g h) T HT) as (H1 & H2 & H3 & _ & H5 & _).
    exact (conj H1 (conj H2 (conj H3 H5))).
  - intros d T HT. cbn [ebezier epoints]. destruct d as [a b c d e f g h]. destruct (ecurve_ends (PD a b c d e f g h) T HT) as (H1 & H2 & _ & H4 & _ & H6 & _).
    exact (conj H1 (conj H2 (conj H4 H6))).
  - intros v d eff T wt c HT. unfold efit. destruct (Rle_dec wt (1/2)); [|discriminate]. intros [= <-].
    split; [reflexivity|]. split; [reflexivity|]. exact (ecurve_ends d T HT).
Qed.

