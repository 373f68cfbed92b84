(** Properties C39-C42: the reachability, path and dynamic validations. *)
From Verif Require Import Maps MapsProofs Vec ValidModel ValidSpec ValidProofs ValidProofs2 ValidProofs3 ValidExamples.
Local Open Scope nat_scope.

(** C39: after any use of the validation object, the verdict for an explicit filter.  A ROM
    not in the constructor's filter is optional, and passes without reaching anything *)
Theorem C39_verdict {O Q} `{EqDecision O} (q : Q) names filter affFilters affordances (ops : list (val_op O)) trunkFree inBounds hit f :
  exists v, val_run ops (create q names filter affFilters affordances) = Ok v /\
    defaultFilter v = defaultFilter (create q names filter affFilters affordances) /\
  exists b v' rep, validate trunkFree inBounds hit f v = Ok (b, v', rep) /\
  (b = true <-> trunkFree = true /\ inBounds = true /\ NoDup f /\
     forall r, r ∈ f -> is_Some (names !! r) /\
       (is_Some (affFilters !! r) /\ r ∉ filter \/ touches affFilters affordances hit r)).
Proof. exact (verdict_after q names filter affFilters affordances ops trunkFree inBounds hit f). Qed.
Print Assumptions C39_verdict.
(** ... and for the default filter *)
Theorem C39_default_verdict {O Q} `{EqDecision O} (q : Q) names filter affFilters affordances (ops : list (val_op O)) trunkFree inBounds hit :
  exists v, val_run ops (create q names filter affFilters affordances) = Ok v /\
  exists b v' rep, validate trunkFree inBounds hit (defaultFilter v) v = Ok (b, v', rep) /\
  (b = true <-> trunkFree = true /\ inBounds = true /\
     forall r, is_Some (names !! r) -> is_Some (affFilters !! r) -> r ∈ filter ->
       touches affFilters affordances hit r).
Proof. exact (default_verdict_after q names filter affFilters affordances ops trunkFree inBounds hit). Qed.
Print Assumptions C39_default_verdict.
Theorem C39_others_irrelevant {O Q} `{EqDecision O} (q : Q) names filter affFilters affordances (ops : list (val_op O)) trunkFree inBounds hit hit' f :
  (forall r o, r ∈ f -> hit r o = hit' r o) ->
  exists v b v1 v2 r1 r2, val_run ops (create q names filter affFilters affordances) = Ok v /\
    validate trunkFree inBounds hit f v = Ok (b, v1, r1) /\
    validate trunkFree inBounds hit' f v = Ok (b, v2, r2).
Proof. exact (verdict_others q names filter affFilters affordances ops trunkFree inBounds hit hit' f). Qed.
Print Assumptions C39_others_irrelevant.
(** the overloads without a report always dereference a null pointer *)
Theorem C39_no_report_undefined {O Q} `{EqDecision O} (q : Q) names filter affFilters affordances (ops : list (val_op O)) hit f :
  exists v, val_run ops (create q names filter affFilters affordances) = Ok v /\ validateRoms hit f None v = Ub.
Proof. exact (no_report_after q names filter affFilters affordances ops hit f). Qed.
Print Assumptions C39_no_report_undefined.
(** the full property is false: a ROM that reaches nothing passes a filter naming it *)
Theorem C39_every_named_rom_reaches_refuted :
  ~ forall trunkFree inBounds (hit : string -> nat -> bool) f (v : rbValidation nat nat) v' rep,
    validate trunkFree inBounds hit f v = Ok (true, v', rep) -> forall r, r ∈ f -> reaches v hit r.
Proof.
  intros H. destruct ex_optional as (v & rep & H1 & H2).
  apply H2. eapply H; [exact H1|]. by apply elem_of_list_singleton.
Qed.
Print Assumptions C39_every_named_rom_reaches_refuted.
(** ROMs required by the constructor's filter but without affordances are not asked for *)
Theorem C39_unset_rom_not_required {O Q} `{EqDecision O} (q : Q) names filter affFilters affordances (ops : list (val_op O)) hit :
  (forall r, r ∈ filter -> affFilters !! r = None) ->
  exists v v' rep, val_run ops (create q names filter affFilters affordances) = Ok v /\
    validate true true hit (defaultFilter v) v = Ok (true, v', rep).
Proof. exact (unset_rom_not_required q names filter affFilters affordances ops hit). Qed.
Print Assumptions C39_unset_rom_not_required.
Example C39_example :
  (exists v rep, validate true true ex_hit (defaultFilter ex_val) ex_val = Ok (true, v, rep)) /\
  (exists v rep, validate true true (fun _ _ => false) (defaultFilter ex_val) ex_val = Ok (false, v, rep)) /\
  (exists v rep r, validate true true ex_hit ["foot"%string] ex_val = Ok (true, v, rep) /\
     roms v !! "foot"%string = Some r /\ pairs r = [2; 1; 3; 7]) /\
  (exists v rep, validate true true ex_hit ["foot"%string; "foot"%string] ex_val = Ok (false, v, rep)) /\
  (exists v rep, validate true true ex_hit ["head"%string] ex_val = Ok (false, v, rep)).
Proof. exact ex_verdicts. Qed.

(** C40: any sequence of validations and shuffles keeps every pair with its request *)
Theorem C40_pairs_kept {O Q} `{EqDecision O} (q : Q) names filter affFilters affordances (ops : list (val_op O)) n :
  exists v, val_run ops (create q names filter affFilters affordances) = Ok v /\
    match roms (create q names filter affFilters affordances) !! n, roms v !! n with
    | Some r, Some r' => paired r' /\ same_pairs r r'
    | None, None => True
    | _, _ => False
    end.
Proof. exact (pairs_kept_after q names filter affFilters affordances ops n). Qed.
Print Assumptions C40_pairs_kept.
(** one ROM: validation with a report brings a pair in collision to the front *)
Theorem C40_rom_validate {O Q} `{EqDecision O} (hit : O -> bool) n (r : romv O Q) rep : paired r ->
  exists b r' rep', romValidate hit n r rep = Ok (b, r', rep') /\ same_pairs r r' /\ paired r' /\
    (b = true <-> optional r = true \/ exists o, o ∈ pairs r /\ hit o = true) /\
    ((exists p, rep = Some p) -> exists p, rep' = Some p) /\
    ((exists p, rep = Some p) -> (exists o, o ∈ pairs r /\ hit o = true) ->
       exists o, pairs r' !! 0 = Some o /\ hit o = true).
Proof. exact (romValidate_ok hit n r rep). Qed.
Print Assumptions C40_rom_validate.
(** the report: whether the ROM reaches an obstacle, and the first one reached (in the order of the
    pairs); what was there stays *)
Theorem C40_report {O Q} `{EqDecision O} (hit : O -> bool) n (r : romv O Q) p b r' rep' : romValidate hit n r (Some p) = Ok (b, r', rep') ->
  exists p', rep' = Some p' /\
  (forall m, m <> n -> romFilters p' !! m = romFilters p !! m /\ romObjects p' !! m = romObjects p !! m) /\
  (romFilters p !! n = None -> exists reached : bool, romFilters p' !! n = Some reached /\ (reached = true <-> exists o, o ∈ pairs r /\ hit o = true)) /\
  (romObjects p !! n = None -> forall o, romObjects p' !! n = Some o <-> List.find hit (pairs r) = Some o).
Proof. exact (romValidate_report hit n r p b r' rep'). Qed.
Print Assumptions C40_report.
Example C40_report_case : exists r' p', romValidate (fun o => Nat.leb 3 o) "foot" (mkRom [1; 5; 3] [7; 8; 9] false) (Some (mkReports ∅ ∅)) = Ok (true, r', Some p') /\
  pairs r' = [5; 1; 3] /\ romObjects p' !! "foot"%string = Some 5.
Proof. eexists _, _. split; [vm_compute; reflexivity|]. split; reflexivity. Qed.
Theorem C40_shuffle {O Q} `{EqDecision O} rands (r : romv O Q) : paired r ->
  exists r', randomnizeCollisionPairs rands r = Ok r' /\ same_pairs r r' /\ paired r'.
Proof. exact (randomnize_rom_ok rands r). Qed.
Print Assumptions C40_shuffle.

(** C41 *)
Theorem C41_path_verdict ok step tmin tmax : (0 < step)%R -> (tmin <= tmax)%R ->
  exists n, forall fuel, n <= fuel ->
  (exists res, validatePath ok step tmin tmax false fuel = Some res /\ forward_verdict ok step tmin tmax res) /\
  (exists res, validatePath ok step tmin tmax true fuel = Some res /\ reverse_verdict ok step tmin tmax res).
Proof. exact (path_verdict ok step tmin tmax). Qed.
Print Assumptions C41_path_verdict.
(** no stretch of an accepted path as long as a step is without a valid configuration *)
Theorem C41_accepted_dense ok step tmin tmax fuel p t0 :
  (0 < step)%R -> (tmin <= tmax)%R ->
  validatePath ok step tmin tmax false fuel = Some (true, p, t0) ->
  forall t, (tmin <= t <= tmax)%R -> exists u, (tmin <= u <= t)%R /\ (t - u < step)%R /\ ok u = true.
Proof. exact (accepted_dense ok step tmin tmax fuel p t0). Qed.
Print Assumptions C41_accepted_dense.
(** a rejected path's "valid part" can be invalid *)
Theorem C41_valid_part_valid_refuted :
  ~ forall ok step tmin tmax fuel a b t, validatePath ok step tmin tmax false fuel = Some (false, Extract a b, t) -> ok a = true.
Proof.
  intros H. destruct ex_path_invalid_part as (ok & H1 & H2). apply H in H2. congruence.
Qed.
Print Assumptions C41_valid_part_valid_refuted.
(** with step 0 the validation of a valid path never ends *)
Theorem C41_zero_step_diverges ok tmin tmax fuel : (tmin <= tmax)%R -> (forall t, (tmin <= t <= tmax)%R -> ok t = true) ->
  validatePath ok 0 tmin tmax false fuel = None.
Proof. exact (path_zero_step ok tmin tmax fuel). Qed.
Print Assumptions C41_zero_step_diverges.
Example C41_example : validatePath (fun _ => true) 1 0 (3/2) false 5 = Some (true, Whole, None).
Proof. exact ex_path. Qed.

(** C42: what holds: exactly which sequences of configurations are accepted after
    setInitialReport, when the user stops at the first rejection *)
Theorem C42_accepted_sequences {Obj Conf Acc Mat} `{EqDecision Obj} `{EqDecision Acc}
  (accOf : Conf -> Acc) (fill : Conf -> gmap string Obj -> Mat) admissible r0 calls (d : dynVal Obj Acc Mat) :
  (exists d', dyn_run accOf fill admissible calls (setInitialReport (Some r0) d) = Ok (true, d')) <->
  dyn_passed accOf fill admissible None r0 calls.
Proof. exact (dyn_history_iff accOf fill admissible r0 calls d). Qed.
Print Assumptions C42_accepted_sequences.
Theorem C42_initial_contacts_accepted {Obj Conf Acc Mat} `{EqDecision Obj} `{EqDecision Acc}
  (accOf : Conf -> Acc) (fill : Conf -> gmap string Obj -> Mat) admissible q r rep (d : dynVal Obj Acc Mat) : rep = r ->
  dynValidate accOf fill admissible q (Some rep) (setInitialReport (Some r) d) = Ok (true, setInitialReport (Some r) d).
Proof. exact (dyn_initial accOf fill admissible q r rep d). Qed.
Print Assumptions C42_initial_contacts_accepted.
Theorem C42_other_number_rejected {Obj Conf Acc Mat} `{EqDecision Obj} `{EqDecision Acc}
  (accOf : Conf -> Acc) (fill : Conf -> gmap string Obj -> Mat) admissible q rep (d : dynVal Obj Acc Mat) last :
  lastReport d = Some last -> (rep = None \/ exists r, rep = Some r /\ size r <> size last) ->
  dynValidate accOf fill admissible q rep d = Ok (false, d).
Proof. exact (dyn_false accOf fill admissible q rep d last). Qed.
Print Assumptions C42_other_number_rejected.
(** the same call, repeated, changes from false to true *)
Theorem C42_repeatable_refuted :
  ~ forall (accOf : nat -> nat) (fill : nat -> gmap string nat -> nat) admissible q r d b d' b' d'',
    dynValidate accOf fill admissible q (Some r) d = Ok (b, d') ->
    dynValidate accOf fill admissible q (Some r) d' = Ok (b', d'') -> b = b'.
Proof.
  intros H. destruct ex_dyn_repeat as (d & d' & H1 & H2). by specialize (H _ _ _ _ _ _ _ _ _ _ H1 H2).
Qed.
Print Assumptions C42_repeatable_refuted.
(** every such rejection is forgotten *)
Theorem C42_rejection_forgotten {Obj Conf Acc Mat} `{EqDecision Obj} `{EqDecision Acc}
  (accOf : Conf -> Acc) (fill : Conf -> gmap string Obj -> Mat) admissible q (r last : gmap string Obj) (d : dynVal Obj Acc Mat) :
  lastReport d = Some last -> size last = size r ->
  (exists n o o', last !! n = Some o /\ r !! n = Some o' /\ o <> o') ->
  admissible (fill q r) (accOf q) = false ->
  exists d', dynValidate accOf fill admissible q (Some r) d = Ok (false, d') /\
    dynValidate accOf fill admissible q (Some r) d' = Ok (true, d').
Proof. exact (dyn_repeat accOf fill admissible q r last d). Qed.
Print Assumptions C42_rejection_forgotten.
(** "the same contacts" includes contacts of other ROMs *)
Theorem C42_same_contacts_refuted :
  ~ forall (accOf : nat -> nat) (fill : nat -> gmap string nat -> nat) admissible q r0 r d d',
    dynValidate accOf fill admissible q (Some r) (setInitialReport (Some r0) d) = Ok (true, d') ->
    r = r0 \/ admissible (fill q r) (accOf q) = true.
Proof.
  intros H. destruct ex_dyn_other as [Hne Hd].
  destruct (Hd (fun c => c) (fun _ _ => 0) (fun _ _ => false) 0 (mkDyn None false 0 0)) as [d' H1].
  destruct (H _ _ _ _ _ _ _ _ H1) as [H2|H2]; [by apply Hne|done].
Qed.
Print Assumptions C42_same_contacts_refuted.
Example C42_example : dyn_passed (fun c : nat => c) (fun _ _ => 0) (fun _ a => a =? 5) None {["foot"%string := 1]}
  [(9, {["foot"%string := 1]}); (5, {["foot"%string := 2]}); (5, {["foot"%string := 2]})].
Proof. exact ex_dyn_history. Qed.
