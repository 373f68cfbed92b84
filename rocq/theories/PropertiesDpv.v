(** C119-C121: the dynamic path validation. *)
From Coq Require Import Reals Lia.
From Verif Require Import Maps Vec ValidModel ValidSpec DpvModel DpvSpec DpvProofs DpvProofs2 DpvProofs3 ValidExamples DpvExamples.
Local Open Scope nat_scope.

(** C119.  The verdict of the overload with a filter, from any state of the validations,
    for a positive step, when evaluating the path into an empty vector works. *)
Theorem C119_forward {Obj Req Conf Acc Mat} `{EqDecision Obj} `{EqDecision Acc}
  (accOf : Conf -> Acc) (fill : Conf -> gmap string Obj -> Mat) (admissible : Mat -> Acc -> bool)
  trunkFree inBounds (hit : Conf -> string -> Obj -> bool) eval evalEmpty
  step tmin tmax filter (v : rbValidation Obj Req) (d : dynVal Obj Acc Mat) q0 :
  (0 < step)%R -> (tmin <= tmax)%R -> all_paired v -> evalEmpty tmin = Ok q0 ->
  exists ts r0 res v' d' n, instants step tmin tmax ts /\ contacts_of hit v (defaultFilter v) q0 r0 /\
    (forall fuel, n <= fuel -> validateFilter accOf fill admissible trunkFree inBounds hit eval evalEmpty
       step tmin tmax false filter fuel (v, d) = Some (Ok (res, (v', d')))) /\
    same_validation v v' /\ all_paired v' /\
    dyn_path_verdict accOf fill admissible trunkFree inBounds hit eval v filter r0 (fun o => Extract tmin (default tmin o)) ts res.
Proof. exact (forward_verdict_dyn accOf fill admissible trunkFree inBounds hit eval evalEmpty step tmin tmax filter v d q0). Qed.
Print Assumptions C119_forward.
Theorem C119_reverse {Obj Req Conf Acc Mat} `{EqDecision Obj} `{EqDecision Acc}
  (accOf : Conf -> Acc) (fill : Conf -> gmap string Obj -> Mat) (admissible : Mat -> Acc -> bool)
  trunkFree inBounds (hit : Conf -> string -> Obj -> bool) eval evalEmpty
  step tmin tmax filter (v : rbValidation Obj Req) (d : dynVal Obj Acc Mat) q0 :
  (0 < step)%R -> (tmin <= tmax)%R -> all_paired v -> evalEmpty tmax = Ok q0 ->
  exists ts r0 res v' d' n, instants_reverse step tmin tmax ts /\ contacts_of hit v (defaultFilter v) q0 r0 /\
    (forall fuel, n <= fuel -> validateFilter accOf fill admissible trunkFree inBounds hit eval evalEmpty
       step tmin tmax true filter fuel (v, d) = Some (Ok (res, (v', d')))) /\
    same_validation v v' /\ all_paired v' /\
    dyn_path_verdict accOf fill admissible trunkFree inBounds hit eval v filter r0 (fun o => Extract (default tmax o) tmax) ts res.
Proof. exact (reverse_verdict_dyn accOf fill admissible trunkFree inBounds hit eval evalEmpty step tmin tmax filter v d q0). Qed.
Print Assumptions C119_reverse.
(** without filter, the dynamic validation starts from the contacts of the first
    configuration (the last one in reverse), whatever was validated before *)
Theorem C119_default {Obj Req Conf Acc Mat A} `{EqDecision Obj} `{EqDecision Acc}
  trunkFree inBounds (hit : Conf -> string -> Obj -> bool) eval (discretized : dpv Obj Req Acc Mat -> outcome A)
  tmin tmax reverse (v : rbValidation Obj Req) (d : dynVal Obj Acc Mat) : all_paired v ->
  exists v' r0, validateDefault trunkFree inBounds hit eval discretized tmin tmax reverse (v, d) =
      discretized (v', setInitialReport (Some r0) d) /\
    same_validation v v' /\ all_paired v' /\ contacts_of hit v (defaultFilter v) (snd (eval (if reverse then tmax else tmin))) r0.
Proof. exact (default_initial trunkFree inBounds hit eval discretized tmin tmax reverse v d). Qed.
Print Assumptions C119_default.
Example C119_case : all_paired ex_val /\ dp_any 0 = Ok 0%R.
Proof. split; [exact dp_paired|reflexivity]. Qed.
(** line 56 evaluates the path into an empty vector: if this is not possible, nothing is *)
Example C119_empty_vector filter fuel s : validateFilter dp_acc dp_fill (fun _ _ => true) (fun _ => true) (fun _ => true) dp_hit dp_eval
  (fun _ => Ub) (Req := nat) 1 0 (3/2) false filter fuel s = Some Ub.
Proof. exact (dp_empty filter fuel s). Qed.

(** C120.  Contacts that stay the same are accepted whatever the accelerations. *)
Theorem C120_steady {Obj Req Conf Acc Mat} `{EqDecision Obj} `{EqDecision Acc}
  (accOf : Conf -> Acc) (fill : Conf -> gmap string Obj -> Mat) (admissible : Mat -> Acc -> bool)
  trunkFree inBounds (hit : Conf -> string -> Obj -> bool) eval evalEmpty
  step tmin tmax filter (v : rbValidation Obj Req) (d : dynVal Obj Acc Mat) q0 :
  (0 < step)%R -> (tmin <= tmax)%R -> all_paired v -> evalEmpty tmin = Ok q0 -> filter <> [] -> defaultFilter v <> [] ->
  (forall t, (tmin <= t <= tmax)%R -> exists q, acceptable trunkFree inBounds hit eval v filter t q /\ same_touching hit v filter q0 q) ->
  steady hit v (fun q => q = q0 \/ exists t, (tmin <= t <= tmax)%R /\ eval t = (true, q)) ->
  exists v' d' n, forall fuel, n <= fuel ->
    validateFilter accOf fill admissible trunkFree inBounds hit eval evalEmpty step tmin tmax false filter fuel (v, d) =
    Some (Ok (true, Whole, None, (v', d'))).
Proof. exact (steady_accepted accOf fill admissible trunkFree inBounds hit eval evalEmpty step tmin tmax filter v d q0). Qed.
Print Assumptions C120_steady.
Example C120_case : exists s, dp_run false ["arm"%string; "foot"%string] 9 (ex_val, dp_d) = Some (Ok (true, Whole, None, s)).
Proof. exact dp_accepted. Qed.

(** C121.  A filter that leaves out a ROM in contact at the start rejects the path there. *)
Theorem C121_narrower_filter {Obj Req Conf Acc Mat} `{EqDecision Obj} `{EqDecision Acc}
  (accOf : Conf -> Acc) (fill : Conf -> gmap string Obj -> Mat) (admissible : Mat -> Acc -> bool)
  trunkFree inBounds (hit : Conf -> string -> Obj -> bool) eval evalEmpty
  step tmin tmax filter (v : rbValidation Obj Req) (d : dynVal Obj Acc Mat) q0 n :
  (0 < step)%R -> (tmin <= tmax)%R -> all_paired v -> evalEmpty tmin = Ok q0 -> eval tmin = (true, q0) ->
  filter <> [] -> filter ⊆ defaultFilter v -> n ∈ defaultFilter v -> n ∉ filter -> reaches v (hit q0) n ->
  exists v' d' k, forall fuel, k <= fuel ->
    validateFilter accOf fill admissible trunkFree inBounds hit eval evalEmpty step tmin tmax false filter fuel (v, d) =
    Some (Ok (false, Extract tmin tmin, Some tmin, (v', d'))).
Proof. exact (narrower_filter_rejected accOf fill admissible trunkFree inBounds hit eval evalEmpty step tmin tmax filter v d q0 n). Qed.
Print Assumptions C121_narrower_filter.
Example C121_case : exists s n, forall fuel, n <= fuel ->
  dp_run false ["foot"%string] fuel (ex_val, dp_d) = Some (Ok (false, Extract 0 0, Some 0%R, s)).
Proof. exact dp_rejected. Qed.
