(** Specification vocabulary: the reachability condition asked of a shot. *)
From Verif Require Import Maps Vec GeomModel ShootModel ShootSpec ValidModel ValidSpec ShotModel.
Local Open Scope R_scope.

Section spec.
Context {C O P : Type}.
Variable selfPairs : list P.
Variable pairsOf : O -> list P.
Variable object2 : P -> O.
Variable surf : O -> surface.
Variable trunkHit : conf C -> P -> option (nat * R).
Variable romHit : conf C -> string -> O -> bool.
Variable inBounds : conf C -> bool.

(** the trunk touches neither itself nor a geometry *)
Definition trunk_free (geometries : list O) (q : conf C) : Prop :=
  (forall p, p ∈ selfPairs -> trunkHit q p = None) /\
  (forall g p, g ∈ geometries -> p ∈ pairsOf g -> trunkHit q p = None).
(** the reachability condition: trunk free, joint bounds, and every range of motion asked for
    touches an object of an affordance it may use *)
Record reachability_condition (names : gmap string unit) (geometries : list O) (affordances : gmap string (list O))
  (filter : list string) (affFilters : gmap string (list string)) (q : conf C) : Prop := {
  rc_trunk : trunk_free geometries q;
  rc_bounds : inBounds q = true;
  rc_roms : forall r, r ∈ filter -> is_Some (names !! r) /\ touches affFilters affordances (romHit q) r
}.
(** fcl names triangles the mesh has *)
Definition contacts_ok : Prop := forall q p i d ts, trunkHit q p = Some (i, d) -> mesh (surf (object2 p)) = Some ts -> (i < length ts)%nat.
(** a filter no configuration can satisfy *)
Definition hopeless (names : gmap string unit) (affordances : gmap string (list O)) (filter : list string)
  (affFilters : gmap string (list string)) : Prop :=
  ~ NoDup filter \/ exists r, r ∈ filter /\
    (names !! r = None \/ affFilters !! r = None \/
     exists kinds, affFilters !! r = Some kinds /\ forall k, k ∈ kinds -> default [] (affordances !! k) = []).
End spec.
(** lower bounds below upper bounds *)
Definition root_ok (dmax : R) (root : nat -> option (R * R)) : Prop := 0 <= dmax /\ forall i l u, root i = Some (l, u) -> l <= u.
(** the coordinate respects the bounds of the root's translation [i]; a coordinate without bounds is a double *)
Definition respects (dmax : R) (root : nat -> option (R * R)) (i : nat) (x : R) : Prop :=
  match root i with Some (l, u) => l <= x <= u | None => Rabs x <= dmax end.
