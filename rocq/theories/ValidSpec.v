(** Specification vocabulary for the validations. *)
From Verif Require Import Maps Vec ValidModel.
Local Open Scope nat_scope.

Section spec.
Context {O Q : Type}.

(** range of motion [r] touches one of its obstacles *)
Definition reaches (v : rbValidation O Q) (hit : string -> O -> bool) (r : string) : Prop :=
  exists rom o, roms v !! r = Some rom /\ o ∈ pairs rom /\ hit r o = true.
(** ... or need not *)
Definition excused (v : rbValidation O Q) (r : string) : Prop :=
  exists rom, roms v !! r = Some rom /\ optional rom = true.

(** the same pairs, each with its own request, in some order *)
Record same_pairs (r r' : romv O Q) : Prop := {
  sp_together : zip (pairs r') (requests r') ≡ₚ zip (pairs r) (requests r);
  sp_pairs : pairs r' ≡ₚ pairs r;
  sp_requests : requests r' ≡ₚ requests r;
  sp_optional : optional r' = optional r
}.
(** one request per pair *)
Definition paired (r : romv O Q) : Prop := length (pairs r) = length (requests r).
Definition all_paired (v : rbValidation O Q) : Prop := forall n r, roms v !! n = Some r -> paired r.
(** nothing but the order of pairs differs *)
Definition same_validation (v v' : rbValidation O Q) : Prop :=
  defaultFilter v' = defaultFilter v /\
  forall n, match roms v !! n, roms v' !! n with
            | Some r, Some r' => same_pairs r r'
            | None, None => True
            | _, _ => False
            end.

(** range of motion [r] touches an object of an affordance it is set to use *)
Definition touches (affFilters : gmap string (list string)) (affordances : gmap string (list O))
  (hit : string -> O -> bool) (r : string) : Prop :=
  exists (kinds : list string) (kind : string) (objs : list O) (o : O), affFilters !! r = Some kinds /\ kind ∈ kinds /\ affordances !! kind = Some objs /\ o ∈ objs /\ hit r o = true.
End spec.

Section path.
Local Open Scope R_scope.
(** the parameters a discretisation of [tmin, tmax] with [step] must visit *)
Definition visits (step tmin tmax t : R) : Prop :=
  (exists k : nat, t = tmin + INR k * step /\ t <= tmax) \/ t = tmax.
Definition visits_reverse (step tmin tmax t : R) : Prop :=
  (exists k : nat, t = tmax - INR k * step /\ tmin <= t) \/ t = tmin.

(** verdict of a forward validation: accepted with all of them valid, or rejected at the
    first invalid one, the valid part ending at the last one before it *)
Inductive forward_verdict (ok : R -> bool) (step tmin tmax : R) : bool * validPart * option R -> Prop :=
| FwdAccept : (forall t, visits step tmin tmax t -> ok t = true) ->
    forward_verdict ok step tmin tmax (true, Whole, None)
| FwdReject t last : visits step tmin tmax t -> ok t = false ->
    (forall t', visits step tmin tmax t' -> t' < t -> ok t' = true /\ t' <= last) ->
    (visits step tmin tmax last /\ last < t \/ t = tmin /\ last = tmin) ->
    forward_verdict ok step tmin tmax (false, Extract tmin last, Some t).
Inductive reverse_verdict (ok : R -> bool) (step tmin tmax : R) : bool * validPart * option R -> Prop :=
| RevAccept : (forall t, visits_reverse step tmin tmax t -> ok t = true) ->
    reverse_verdict ok step tmin tmax (true, Whole, None)
| RevReject t first : visits_reverse step tmin tmax t -> ok t = false ->
    (forall t', visits_reverse step tmin tmax t' -> t < t' -> ok t' = true /\ first <= t') ->
    (visits_reverse step tmin tmax first /\ t < first \/ t = tmax /\ first = tmax) ->
    reverse_verdict ok step tmin tmax (false, Extract first tmax, Some t).
End path.

Section dynamic.
Context {Obj Conf Acc Mat : Type}.
Variable accOf : Conf -> Acc.
Variable fill : Conf -> gmap string Obj -> Mat.
Variable admissible : Mat -> Acc -> bool.
(** no ROM is in both with different obstacles *)
Definition agree (a b : gmap string Obj) : Prop :=
  forall n o o', a !! n = Some o -> b !! n = Some o' -> o = o'.
(** a sequence of (configuration, contacts) passes from reference contacts [base], for
    which the contact cone [cone] was computed ([None]: not yet, any acceleration will do):
    each has as many contacts as the reference; those that agree with it are judged by its
    cone; the others by a new one, and become the reference *)
Inductive dyn_passed : option Mat -> gmap string Obj -> list (Conf * gmap string Obj) -> Prop :=
| PassNil cone base : dyn_passed cone base []
| PassSame cone base q r calls : size r = size base -> agree base r ->
    match cone with None => True | Some m => admissible m (accOf q) = true end ->
    dyn_passed cone base calls -> dyn_passed cone base ((q, r) :: calls)
| PassNew cone base q r calls : size r = size base -> ~ agree base r ->
    admissible (fill q r) (accOf q) = true ->
    dyn_passed (Some (fill q r)) r calls -> dyn_passed cone base ((q, r) :: calls).
End dynamic.
