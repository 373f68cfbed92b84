(** Specification vocabulary for the dynamic path validation. *)
From Verif Require Import Maps Vec ValidModel ValidSpec DpvModel.
Local Open Scope nat_scope.
Local Open Scope R_scope.

(** the instants tested, in order: every [step] from the start, then the end *)
Definition instants (step tmin tmax : R) (ts : list R) : Prop :=
  exists n : nat, tmin + INR n * step <= tmax < tmin + INR (S n) * step /\
    ts = map (fun k => tmin + INR k * step) (seq 0 (S n)) ++ [tmax].
(** from the end back to the start *)
Definition instants_reverse (step tmin tmax : R) (ts : list R) : Prop :=
  exists n : nat, tmax - INR (S n) * step < tmin <= tmax - INR n * step /\
    ts = map (fun k => tmax - INR k * step) (seq 0 (S n)) ++ [tmin].

Section spec.
Context {Obj Req Conf Acc Mat : Type}.
Context (accOf : Conf -> Acc) (fill : Conf -> gmap string Obj -> Mat) (admissible : Mat -> Acc -> bool).
Context (trunkFree inBounds : Conf -> bool) (hit : Conf -> string -> Obj -> bool) (eval : R -> bool * Conf).
Notation Val := (rbValidation Obj Req).

(** the path gives configuration [q] at [t], which is free, in bounds and whose ROMs of the
    filter are all in contact (or may be without) *)
Definition acceptable (v : Val) (filter : list string) (t : R) (q : Conf) : Prop :=
  eval t = (true, q) /\ trunkFree q = true /\ inBounds q = true /\ NoDup filter /\
  forall r, r ∈ filter -> excused v r \/ reaches v (hit q) r.

(** [r] gives, for exactly the ROMs of the filter that touch an obstacle at [q], an obstacle
    they touch (nothing is said of an empty filter's ROMs) *)
Definition contacts_of (v : Val) (filter : list string) (q : Conf) (r : gmap string Obj) : Prop :=
  (forall n o, r !! n = Some o -> exists rom, roms v !! n = Some rom /\ o ∈ pairs rom /\ hit q n o = true) /\
  (filter <> [] -> forall n, is_Some (r !! n) <-> n ∈ filter /\ reaches v (hit q) n).

(** a run over the instants [ts], with the configurations and contacts seen *)
Definition seen (v : Val) (filter : list string) (ts : list R) (calls : list (Conf * gmap string Obj)) : Prop :=
  Forall2 (fun t qr => acceptable v filter t (fst qr) /\ contacts_of v filter (fst qr) (snd qr)) ts calls.

(** the verdict over the instants [ts] from the initial contacts [r0]: accepted if every
    configuration is acceptable and the sequence of contacts and accelerations passes the
    dynamic validation; otherwise rejected at the first instant at which this fails;
    [cut last] is the part kept when [last] is the last instant before it (if any) *)
Inductive dyn_path_verdict (v : Val) (filter : list string) (r0 : gmap string Obj) (cut : option R -> validPart) (ts : list R)
  : bool * validPart * option R -> Prop :=
| DpAccept calls : seen v filter ts calls -> dyn_passed accOf fill admissible None r0 calls ->
    dyn_path_verdict v filter r0 cut ts (true, Whole, None)
| DpReject pre t post calls : ts = pre ++ t :: post -> seen v filter pre calls ->
    dyn_passed accOf fill admissible None r0 calls ->
    ((forall q, ~ acceptable v filter t q) \/
     exists q r, acceptable v filter t q /\ contacts_of v filter q r /\
       ~ dyn_passed accOf fill admissible None r0 (calls ++ [(q, r)])) ->
    dyn_path_verdict v filter r0 cut ts (false, cut (last pre), Some t).

(** the ROMs of the filter that touch something at [q] are those of the default filter that
    touch something at [q0] *)
Definition same_touching (v : Val) (f : list string) (q0 q : Conf) : Prop :=
  forall n, n ∈ f /\ reaches v (hit q) n <-> n ∈ defaultFilter v /\ reaches v (hit q0) n.

(** every ROM touches at most one obstacle, always the same *)
Definition steady (v : Val) (qs : Conf -> Prop) : Prop :=
  forall q q' n o o', qs q -> qs q' -> (exists rom, roms v !! n = Some rom /\ o ∈ pairs rom /\ o' ∈ pairs rom) ->
    hit q n o = true -> hit q' n o' = true -> o = o'.
End spec.
