(** The State functions on real vectors: the 1 cm threshold and
    [effectorDistance] (src/rbprm-state.cc:97, 310-323). *)
From Coq Require Import Reals.
From Verif Require Import Maps StateModel Vec.
Local Open Scope R_scope.

(** rbprm-state.cc:97 [(previous.contactPositions_.at(name) - cit->second).norm() > 0.01].
    Simplification: exact reals; the literal 0.01 is 1/100. *)
Definition moved3 (q p : vec3) : bool := Rltb (1 / 100) (vnorm (vsub q p)).

Section EffDist.
Context {Cfg Rot Rob : Type}.
Notation St := (State Cfg vec3 Rot Rob).

(** rbprm-state.cc:310-323.  [to.contactPositions_.at(name)] cannot throw: the
    names come from [to]'s position table (the [_] case is unreachable). *)
Definition effectorDistance (from to : St) : R :=
  fold_left (fun norm name =>
    match positions from !! name, positions to !! name with
    | Some q, Some p => Rmax norm (vnorm (vsub q p))
    | _, _ => norm
    end) (contactCreations moved3 to from) 0.

(** Specification vocabulary: [d] is the displacement of the contact [k],
    present in both states. *)
Definition displacement (from to : St) (k : string) (d : R) : Prop :=
  exists q p, positions from !! k = Some q /\ positions to !! k = Some p /\ d = dist3 q p.

(** contact [k] of [to] is absent from [from] or at more than 1 cm *)
Definition new_or_moved (from to : St) (k : string) : Prop :=
  (exists p, positions to !! k = Some p) /\
  (positions from !! k = None \/ exists d, displacement from to k d /\ d > 1 / 100).

(** contact [k] is in both states, at most 1 cm apart *)
Definition kept_in_place (from to : St) (k : string) : Prop :=
  exists d, displacement from to k d /\ d <= 1 / 100.
End EffDist.
