(** Doubles, without reference to the model: what the sampling loops must do when times are
    doubles.  Overflow is left out: there is no largest double here. *)
From Coq Require Import Reals ZArith.
From Verif Require Import Maps.
Local Open Scope R_scope.

(** a double: an integer of 53 bits times a power of two, not below the least one *)
Definition is_double (x : R) : Prop := exists m e : Z, x = IZR m * powerRZ 2 e /\ (Z.abs m < 2 ^ 53)%Z /\ (-1074 <= e)%Z.
(** a rounding to nearest: no double is nearer; ties are broken in any way *)
Definition to_nearest (rnd : R -> R) : Prop :=
  forall x, is_double (rnd x) /\ forall z, is_double z -> Rabs (rnd x - x) <= Rabs (z - x).

(** [K] instants of the interval, the first one at its start, that leave no gap longer than a
    step and a half, the end of the interval included; they are within the accumulated
    rounding errors of the exact multiples of the step, and not more than twice as many *)
Record sampled (step lo hi : R) (K : nat) (ts : nat -> R) : Prop := {
  samples_start : (1 <= K)%nat /\ ts 0%nat = lo;
  samples_in : forall k, (k < K)%nat -> lo <= ts k <= hi;
  samples_advance : forall k, (S k < K)%nat -> ts k < ts (S k) <= ts k + 3 / 2 * step;
  samples_end : hi <= ts (K - 1)%nat + 3 / 2 * step;
  samples_number : INR K * step <= 2 * (hi - lo) + 2 * step;
  samples_drift : forall k, (k < K)%nat -> ts k < hi -> Rabs (ts k - (lo + INR k * step)) <= INR k * (powerRZ 2 (-53) * Rmax (Rabs lo) (Rabs hi));
}.

(** the verdict of a validation that looks at the instants [ts 0], ..., [ts (K - 1)], then at the
    end [hi] *)
Definition instant (K : nat) (ts : nat -> R) (hi : R) (k : nat) : R := if (k <? K)%nat then ts k else hi.
Inductive verdict (ok : R -> bool) (K : nat) (ts : nat -> R) (lo hi : R) : bool * option (R * R) * option R -> Prop :=
| Accepted : (forall k, (k <= K)%nat -> ok (instant K ts hi k) = true) -> verdict ok K ts lo hi (true, None, None)
| Rejected k : (k <= K)%nat -> ok (instant K ts hi k) = false -> (forall j, (j < k)%nat -> ok (instant K ts hi j) = true) ->
    verdict ok K ts lo hi (false, Some (lo, instant K ts hi (k - 1)), Some (instant K ts hi k)).
(** the result of a validation from the end, on the times with the opposite sign *)
Definition mirror (r : bool * option (R * R) * option R) : bool * option (R * R) * option R :=
  match r with (b, part, t) => (b, match part with Some (x, y) => Some (- y, - x) | None => None end, match t with Some x => Some (- x) | None => None end) end.

(** the first of the instants [ts 0], ..., [ts (K - 1)] at which [at_] reaches [t], else the end *)
Inductive first_reached (at_ : R -> R) (t : R) (K : nat) (ts : nat -> R) (hi : R) : R -> Prop :=
| Reached k : (k < K)%nat -> t <= at_ (ts k) -> (forall j, (j < k)%nat -> at_ (ts j) < t) -> first_reached at_ t K ts hi (ts k)
| Never : (forall j, (j < K)%nat -> at_ (ts j) < t) -> first_reached at_ t K ts hi hi.
