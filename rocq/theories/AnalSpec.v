(** Specification vocabulary for the analyses. *)
From Verif Require Import Maps Vec SampModel AnalModel.
Local Open Scope R_scope.

(** the entry of a matrix *)
Definition entry (m : matrix R) (i j : nat) : R := nth (i * mcols m + j) (mdata m) 0.
Definition well_formed (m : matrix R) : Prop := length (mdata m) = (mrows m * mcols m)%nat.

(** the rows r, r+1, r+2 of [m] are linearly dependent: some direction is a combination in
    which no column of the matrix has a component *)
Definition dependent_rows (m : matrix R) (r : nat) : Prop :=
  exists u v w, ~ (u = 0 /\ v = 0 /\ w = 0) /\
    forall j, (j < mcols m)%nat -> u * entry m r j + v * entry m (r + 1) j + w * entry m (r + 2) j = 0.

(** sum of products of the entries of two rows *)
Definition row_dot (m : matrix R) (i k : nat) : R :=
  fold_right Rplus 0 (map (fun j => entry m i j * entry m k j) (seq 0 (mcols m))).
(** the determinant of a 3x3 matrix, by the rule of Sarrus *)
Definition sarrus (a : nat -> nat -> R) : R :=
  a 0%nat 0%nat * a 1%nat 1%nat * a 2%nat 2%nat + a 0%nat 1%nat * a 1%nat 2%nat * a 2%nat 0%nat + a 0%nat 2%nat * a 1%nat 0%nat * a 2%nat 1%nat
  - a 0%nat 2%nat * a 1%nat 1%nat * a 2%nat 0%nat - a 0%nat 1%nat * a 1%nat 0%nat * a 2%nat 2%nat - a 0%nat 0%nat * a 1%nat 2%nat * a 2%nat 1%nat.

(** the determinant of an [n] x [n] matrix given by its entries: cofactors of the first row *)
Fixpoint determinant (n : nat) (a : nat -> nat -> R) : R :=
  match n with
  | O => 1
  | S n' => fold_right Rplus 0 (map (fun j =>
      (-1) ^ j * a 0%nat j * determinant n' (fun i k => a (S i) (if (k <? j)%nat then k else S k))) (seq 0 (S n')))
  end.

(** [m] is the least / greatest element of the list *)
Definition least (m : R) (l : list R) : Prop := m ∈ l /\ forall x, x ∈ l -> m <= x.
Definition greatest (m : R) (l : list R) : Prop := m ∈ l /\ forall x, x ∈ l -> x <= m.

(** the joints from [j] on, following first children, down to the one named [last] (or to
    the end of the chain) *)
Fixpoint chain (last : string) (j : joint) : list joint :=
  match j with
  | Joint name _ _ [] => [j]
  | Joint name _ _ (c :: _) => if bool_decide (last = name) then [j] else j :: chain last c
  end.
Definition jrank (j : joint) : nat := let 'Joint _ r _ _ := j in r.
Definition jbounds (j : joint) : option (R * R) := let 'Joint _ _ b _ := j in b.

(** the first degree of freedom of joint [j] is between its bounds, at a bound *)
Definition within (conf : list R) (j : joint) : Prop :=
  forall lb ub v, jbounds j = Some (lb, ub) -> conf !! jrank j = Some v -> lb <= v <= ub.
Definition at_bound (conf : list R) (j : joint) : Prop :=
  exists lb ub v, jbounds j = Some (lb, ub) /\ conf !! jrank j = Some v /\ (v = lb \/ v = ub).
(** proper bounds, and a place in the configuration *)
Definition proper (conf : list R) (j : joint) : Prop :=
  (jrank j < length conf)%nat /\ forall lb ub, jbounds j = Some (lb, ub) -> lb < ub.
(** the relative distance to the bounds: 1/4 in the middle, 0 at a bound *)
Definition margin (conf : list R) (j : joint) (m : R) : Prop :=
  exists lb ub v, jbounds j = Some (lb, ub) /\ conf !! jrank j = Some v /\
    m * ((ub - lb) * (ub - lb)) = (v - lb) * (ub - v).
(** the least margin of a chain, 1 if nothing is bounded *)
Definition least_margin (conf : list R) (js : list joint) (m : R) : Prop :=
  m <= 1 /\ (m = 1 \/ exists j, j ∈ js /\ margin conf j m) /\ forall j m', j ∈ js -> margin conf j m' -> m <= m'.

(** the limb of the table that starts at configuration rank [rank], first by name *)
Definition limb_at (rank : nat) (m : gmap string alimb) (l : alimb) : Prop :=
  exists name, m !! name = Some l /\ l_rank l = rank /\
    forall name' l', m !! name' = Some l' -> l_rank l' = rank -> str_le name name'.
Definition no_limb_at (rank : nat) (m : gmap string alimb) : Prop :=
  forall name l, m !! name = Some l -> l_rank l <> rank.

(** sum of weight times square of the difference, over pairs (degree of freedom, weight) *)
Definition weighted_sum (iw : list (nat * R)) (diff : list R) : R :=
  fold_right Rplus 0 (map (fun p => p.2 * (nth p.1 diff 0 * nth p.1 diff 0)) iw).

(** the degrees of freedom of a limb, from its first joint to its effector *)
Definition limb_dof (l : alimb) (i : nat) : Prop := (l_vrank l <= i <= l_evrank l)%nat.
(** the weight of a degree of freedom: that of the posture weights when there is one per
    degree of freedom of the robot, else by axis: 1 around y, 10 around z, 100 otherwise *)
Definition dof_weight (axis : nat -> R * R) (posture : list R) (numberDof : nat) (i : nat) (w : R) : Prop :=
  (length posture = numberDof /\ posture !! i = Some w) \/
  (length posture <> numberDof /\
   ((1/2 < Rabs (axis i).1 /\ w = 1) \/ (Rabs (axis i).1 <= 1/2 /\ 1/2 < Rabs (axis i).2 /\ w = 10) \/
    (Rabs (axis i).1 <= 1/2 /\ Rabs (axis i).2 <= 1/2 /\ w = 100))).
