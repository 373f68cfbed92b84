(** Properties C25-C27: limb registry and effector trajectories of the full body. *)
From Verif Require Import Maps MapsProofs BodyModel BodySpec BodyProofs.
Local Open Scope string_scope.

(** C25: a rejected call changes nothing, and when calls are rejected *)
Theorem C25_rejected_changes_nothing {D V H} (o : body_op D V H) (b b' : body D V H) :
  body_call o b = (b', Throw) -> b' = b.
Proof. exact (rejected_unchanged o b b'). Qed.
Print Assumptions C25_rejected_changes_nothing.
Theorem C25_when_rejected {D V H} id name heur made (b : body D V H) :
  (snd (AddLimb id name heur made b) = Throw <->
     is_Some (limbs b !! id) \/ heuristics b !! heur = None \/ made = None) /\
  (snd (AddNonContactingLimb id name made b) = Throw <->
     is_Some (nonContactingLimbs b !! id) \/ heuristics b !! "static" = None \/ made = None).
Proof. split; [apply AddLimb_throws|apply AddNonContacting_throws]. Qed.
Print Assumptions C25_when_rejected.
Theorem C25_heuristics_kept {D V H} ops (b : body D V H) k f :
  heuristics b !! k = Some f -> heuristics (body_run ops b) !! k = Some f.
Proof. exact (heuristics_kept ops b k f). Qed.
Print Assumptions C25_heuristics_kept.
(** histories in which no id is used for limbs of both kinds at a time *)
Theorem C25_registry {D V H} (ops : list (body_op D V H)) (builtin : gmap string H) :
  no_reuse ops (new_body builtin) -> well_registered (body_run ops (new_body builtin)).
Proof. exact (well_registered_history ops builtin). Qed.
Print Assumptions C25_registry.
(** what holds for every history *)
Theorem C25_registry_any_history {D V H} (ops : list (body_op D V H)) (builtin : gmap string H) :
  let b := body_run ops (new_body builtin) in
  (forall id l, names_limb b id l -> listed b (joint l) id) /\
  (forall g id, listed b g id -> registered b id) /\
  (forall id, registered b id <-> is_Some (validations b !! id)).
Proof. destruct (loose_history ops builtin) as [H1 H2 H3]. by split_and!. Qed.
Print Assumptions C25_registry_any_history.
Theorem C25_same_name_twice : exists ops : list (body_op nat nat nat),
  let b := body_run ops (new_body {["static" := 0]}) in
  limbs b !! "arm" = Some (mkLimb "shoulder" 1) /\
  nonContactingLimbs b !! "arm" = Some (mkLimb "shoulder" 2) /\
  groups b !! "shoulder" = Some ["arm"; "arm"] /\ validations b !! "arm" = Some 10.
Proof.
  exists [OAddLimb "arm" "shoulder" "static" (Some (1, 10)); OAddNonContacting "arm" "shoulder" (Some (2, 20))].
  by vm_compute.
Qed.
Print Assumptions C25_same_name_twice.
(** what an accepted addition changes, and nothing else; the validation made first is kept *)
Theorem C25_accepted {D V H} id name heur d v (b b' : body D V H) x :
  (AddLimb id name heur (Some (d, v)) b = (b', Ok x) ->
   x = true /\ limbs b' = <[id := mkLimb name d]> (limbs b) /\ nonContactingLimbs b' = nonContactingLimbs b /\
   validations b' = <[id := default v (validations b !! id)]> (validations b) /\
   groups b' = <[name := (default [] (groups b !! name) ++ [id])%list]> (groups b) /\ heuristics b' = heuristics b) /\
  (AddNonContactingLimb id name (Some (d, v)) b = (b', Ok x) ->
   x = true /\ nonContactingLimbs b' = <[id := mkLimb name d]> (nonContactingLimbs b) /\ limbs b' = limbs b /\
   validations b' = <[id := default v (validations b !! id)]> (validations b) /\
   groups b' = <[name := (default [] (groups b !! name) ++ [id])%list]> (groups b) /\ heuristics b' = heuristics b).
Proof. exact (conj (limb_added id name heur d v b b' x) (non_contacting_added id name d v b b' x)). Qed.
Print Assumptions C25_accepted.
(** AddHeuristic answers whether the name was new; it never replaces *)
Theorem C25_heuristic {D V H} name (f : H) (b : body D V H) b' r : AddHeuristic name f b = (b', r) ->
  (r = Ok true <-> heuristics b !! name = None) /\ (r = Ok false <-> is_Some (heuristics b !! name)) /\
  heuristics b' !! name = Some (default f (heuristics b !! name)) /\ (forall k, k <> name -> heuristics b' !! k = heuristics b !! k) /\
  limbs b' = limbs b /\ nonContactingLimbs b' = nonContactingLimbs b /\ validations b' = validations b /\ groups b' = groups b.
Proof. exact (heuristic_added name f b b' r). Qed.
Print Assumptions C25_heuristic.
Example C25_example : let ops := [OAddLimb "lf" "hip" "static" (Some (1, 10));
    OAddNonContacting "arm" "shoulder" (Some (2, 20)); OToggle "arm";
    OAddLimb "lf2" "hip" "static" (Some (3, 30)); OAddLimb "lf" "hip" "static" (Some (4, 40))] in
  let b := body_run ops (new_body {["static" := 0]}) in
  no_reuse ops (new_body {["static" := 0]}) /\ groups b !! "hip" = Some ["lf"; "lf2"] /\
  limbs b !! "lf" = Some (mkLimb "hip" 1) /\ is_Some (limbs b !! "arm").
Proof. vm_compute. split_and!; eauto. Qed.

(** C26 *)
(** what can be found: a limb in contact always; a limb of the other set unless only contacting limbs are asked for *)
Theorem C26_lookup {D V H} name only (b : body D V H) l :
  GetLimb name only b = Ok l <->
  limbs b !! name = Some l \/ (only = false /\ limbs b !! name = None /\ nonContactingLimbs b !! name = Some l).
Proof. exact (GetLimb_exact name only b l). Qed.
Print Assumptions C26_lookup.
Theorem C26_lookup_throws {D V H} name only (b : body D V H) :
  (GetLimb name only b = Throw <-> limbs b !! name = None /\ (only = true \/ nonContactingLimbs b !! name = None)) /\
  GetLimb name only b <> Ub.
Proof. exact (GetLimb_throws name only b). Qed.
Print Assumptions C26_lookup_throws.
Theorem C26_toggle_moves {D V H} name (b b' : body D V H) r :
  (limbs b !! name = None \/ nonContactingLimbs b !! name = None) ->
  toggleNonContactingLimb name b = (b', r) ->
  (r = Ok true <-> registered b name) /\ (r = Ok false <-> ~ registered b name /\ b' = b) /\
  limbs b' !! name = nonContactingLimbs b !! name /\ nonContactingLimbs b' !! name = limbs b !! name /\
  (forall k, k <> name -> limbs b' !! k = limbs b !! k /\ nonContactingLimbs b' !! k = nonContactingLimbs b !! k) /\
  groups b' = groups b /\ validations b' = validations b /\ heuristics b' = heuristics b /\
  (forall x, GetLimb x false b' = GetLimb x false b).
Proof. exact (toggle_moves name b b' r). Qed.
Print Assumptions C26_toggle_moves.
Theorem C26_toggle_twice {D V H} name (b : body D V H) :
  (limbs b !! name = None \/ nonContactingLimbs b !! name = None) ->
  fst (toggleNonContactingLimb name (fst (toggleNonContactingLimb name b))) = b.
Proof. exact (toggle_twice name b). Qed.
Print Assumptions C26_toggle_twice.
(** a name in both sets (finding): the contacting limb is lost, only the non
    contacting one remains *)
Theorem C26_toggle_name_in_both {D V H} name (b : body D V H) l l' :
  limbs b !! name = Some l -> nonContactingLimbs b !! name = Some l' ->
  let b' := fst (toggleNonContactingLimb name b) in
  snd (toggleNonContactingLimb name b) = Ok true /\
  limbs b' = delete name (limbs b) /\ nonContactingLimbs b' = nonContactingLimbs b /\
  groups b' = groups b /\ validations b' = validations b /\ heuristics b' = heuristics b.
Proof. exact (toggle_both name b l l'). Qed.
Print Assumptions C26_toggle_name_in_both.
Theorem C26_toggle_loses_a_limb : exists ops : list (body_op nat nat nat),
  let b := body_run ops (new_body {["static" := 0]}) in
  let b2 := fst (toggleNonContactingLimb "arm" (fst (toggleNonContactingLimb "arm" b))) in
  names_limb b "arm" (mkLimb "shoulder" 1) /\ ~ names_limb b2 "arm" (mkLimb "shoulder" 1).
Proof.
  exists [OAddLimb "arm" "shoulder" "static" (Some (1, 10)); OAddNonContacting "arm" "shoulder" (Some (2, 20))].
  split; [by left|]. intros [Hn|Hn]; by vm_compute in Hn.
Qed.
Print Assumptions C26_toggle_loses_a_limb.
Example C26_example : let b := body_run [OAddLimb "lf" "hip" "static" (Some (1, 10))] (new_body {["static" := 0]}) in
  nonContactingLimbs b !! "lf" = None /\ is_Some (limbs b !! "lf") /\
  limbs (fst (toggleNonContactingLimb "lf" b)) !! "lf" = None.
Proof. vm_compute. split_and!; eauto. Qed.

(** C27 *)
Theorem C27_getter_exact {T} (ops : list (traj_op T)) p e result :
  getEffectorTrajectory p e result (traj_run ops) =
  match registered_list p e ops None with Some l => (true, l) | None => (false, result) end.
Proof. exact (C27_lemma ops p e result). Qed.
Print Assumptions C27_getter_exact.
Theorem C27_all_effectors_exact {T} (ops : list (traj_op T)) p result ok m :
  getEffectorsTrajectories p result (traj_run ops) = (ok, m) ->
  if (ok : bool) then forall e, m !! e = registered_list p e ops None
  else m = result /\ forall e, registered_list p e ops None = None.
Proof. exact (C27_map ops p result ok m). Qed.
Print Assumptions C27_all_effectors_exact.
Theorem C27_reports {T} (ops : list (traj_op T)) o :
  snd (traj_call o (traj_run ops)) =
  match o with
  | OSet p e _ => match registered_list p e ops None with None => true | Some _ => false end
  | OAppend _ _ _ => true
  end.
Proof. exact (C27_answer ops o). Qed.
Print Assumptions C27_reports.
Example C27_example :
  let ops := [OSet 3 "lf" [1; 2]; OAppend 3 "rf" 9; OSet 3 "lf" [7]; OAppend 3 "lf" 5; OAppend 4 "lf" 6] in
  getEffectorTrajectory 3 "lf" [] (traj_run ops) = (true, [1; 2; 5]) /\
  getEffectorTrajectory 5 "lf" [0] (traj_run ops) = (false, [0]).
Proof. by vm_compute. Qed.
