(** Specification vocabulary of the path optimizers. *)
From Coq Require Import Reals ZArith.
From Verif Require Export OptModel.
Local Open Scope R_scope.

Section Spec.
Context {E : Type} (einit eend : E -> list R) (elen : E -> R).
Context (evalAt : list E -> R -> option (list R)) (extract : list E -> R -> R -> option (list E)).

(** the elements of [p] follow one another from configuration [a] to configuration [b] *)
Fixpoint joins (p : list E) (a b : list R) : Prop :=
  match p with
  | [] => a = b
  | e :: p => einit e = a /\ joins p (eend e) b
  end.

(** the sum of the lengths of the elements *)
Fixpoint total (p : list E) : R := match p with [] => 0 | e :: p => elen e + total p end.

(** [q] is the configuration of [p] at time [t] *)
Definition at_time (p : list E) (t : R) (q : list R) : Prop :=
  evalAt p t = Some q \/ (t = 0 /\ exists b, joins p q b) \/ (t = total p /\ exists a, joins p a q).

(** the part of a path between two times joins its configurations at these times and has
    the length of the interval *)
Definition faithful_extraction : Prop := forall p a b p' qi qf, joins p qi qf -> 0 <= a < b -> b <= total p ->
  extract p a b = Some p' ->
  total p' = b - a /\ forall qa qb, at_time p a qa -> at_time p b qb -> joins p' qa qb.
(** no part of a path fails to be extracted, no configuration to be computed *)
Definition extraction_succeeds : Prop := forall p a b, 0 <= a < b -> b <= total p -> extract p a b <> None.
Definition evaluation_succeeds : Prop := forall p t, 0 <= t <= total p -> evalAt p t <> None.
(** the projector of the problem, if any, keeps the ends of the paths *)
Definition projector_keeps_ends (projector : option (E -> option E)) : Prop := forall f e e',
  projector = Some f -> f e = Some e' -> einit e' = einit e /\ eend e' = eend e.
(** the first element of a path starts at [q] *)
Definition starts_at (q : list R) (p : list E) : Prop := exists e, head p = Some e /\ einit e = q.
(** the part of a path from time 0 starts where the path does *)
Definition extraction_keeps_start : Prop := forall q p b p', 0 < b -> starts_at q p ->
  extract p 0 b = Some p' -> starts_at q p'.
End Spec.
