(** Properties C15-C24 and C49-C51: the contact generator.  [S] are the services
    of the other libraries (GenModel.v); the vocabulary is in GenSpec.v. *)
From Coq Require Import ZArith.
From Verif Require Import Maps MapsProofs StateModel StateSpec StateProofs CombModel CombSpec CombProofs
  GenModel GenSpec GenProofs GenProofs2 GenProofs3 GenProofs4 GenProofs5 GenProofs6 GenProofs7 GenProofs8
  GenProofs9 GenProofs10 GenProofs11 GenProofs12 GenExamples.

(** C15, without the stability test *)
Theorem C15_first_admissible {Cfg Pos Rot Cand Smp} (S : services Cfg Pos Rot Cand Smp) h q rep h' :
  checkMaintain h = false -> maintain_queue h q -> maintain_contacts S h = (rep, h') ->
  (success rep = true /\ exists l1 c l2, q = l1 ++ c :: l2 /\ h' = set_cands l2 h /\
      (forall x, x ∈ l1 -> forall s, ~ admissible S h x s) /\ admissible S h c (result rep) /\
      (quasi h = true -> testReach h = true -> rstatus rep = REACHABLE_CONTACT)) \/
  (success rep = false /\ h' = set_cands [] h /\ forall x, x ∈ q -> forall s, ~ admissible S h x s).
Proof. exact (C15_lemma S h q rep h'). Qed.
Print Assumptions C15_first_admissible.
(** C15 with the stability test: the first admissible candidate is returned,
    flagged stable or not; if it is not stable a later candidate with as many
    contacts that is stable may be returned instead, with the outcome of its
    projection but without collision test (findings: the two examples) *)
Theorem C15_with_stability {Cfg Pos Rot Cand Smp} (S : services Cfg Pos Rot Cand Smp) h q rep h' :
  checkMaintain h = true -> maintain_queue h q -> maintain_contacts S h = (rep, h') ->
  (exists l1 c l2 s, q = l1 ++ c :: l2 /\ (forall x, x ∈ l1 -> forall t, ~ admissible S h x t) /\
     admissible S h c s /\
     ((success rep = true /\ (isStable S s <= thr h)%Z /\ same_but_robustness (with_stable false s) (result rep)) \/
      (success rep = true /\ (thr h < isStable S s)%Z /\ same_but_robustness (with_stable true s) (result rep) /\
         cands h' = l2) \/
      ((isStable S s <= thr h)%Z /\ exists a d b s', l2 = a ++ d :: b /\ cands h' = b /\
         length (order c) <= length (order d) /\
         projRoot S (configuration (working h)) d = (success rep, configuration s') /\
         moved_to (configuration s') d s' /\ (thr h < isStable S s')%Z /\
         same_but_robustness (with_stable true s') (result rep)))) \/
  (success rep = false /\ cands h' = [] /\ forall x, x ∈ q -> forall s, ~ admissible S h x s).
Proof. exact (C15_stability_lemma S h q rep h'). Qed.
Print Assumptions C15_with_stability.
Theorem C15_unstable_state_accepted : exists rep h',
  maintain_contacts sv_unstable (hp true true false true 3 1 false false true false w2) = (rep, h') /\
  success rep = true /\ stable (result rep) = false /\ (isStable sv_unstable (result rep) < 3)%Z /\
  cands h' <> [].
Proof. exact C15_unstable_success. Qed.
Print Assumptions C15_unstable_state_accepted.
Theorem C15_colliding_state_accepted : exists rep h',
  maintain_contacts sv_collide (hp true true false true 3 1 false false true false w2) = (rep, h') /\
  success rep = true /\ validate sv_collide (configuration (result rep)) = false.
Proof. exact C15_collision_success. Qed.
Print Assumptions C15_colliding_state_accepted.
(** the full state cannot be maintained, the state without "lf" can *)
Example C15_example : exists rep h',
  let h := hp false true false true 3 1 false false true false w2 in
  maintain_queue h (maintain_contacts_combinatorial w2 1) /\
  maintain_contacts sv h = (rep, h') /\ success rep = true /\ order (result rep) = ["rf"]%string /\
  map order (cands h') = [["lf"]]%string.
Proof.
  eexists _, _. split; [|split_and!; [by vm_compute|reflexivity..]].
  right. left. done.
Qed.

(** C16 *)
Theorem C16_best_ranked_projection {Cfg Pos Rot Cand Smp} (S : services Cfg Pos Rot Cand Smp) h limb ps rep post cur :
  start h cur -> ~ stability_requested h -> generate_contact S h limb ps = (rep, post) ->
  let l := octree S limb ps (working h) in let any := fun _ => True in
  (rstatus rep = REACHABLE_CONTACT /\ success rep = true /\
     exists mode p, deciding_mode S h limb cur any l mode /\ first_projection_with S mode limb cur any l p /\
       contact_added S (nbContacts (working h)) true p (result rep)) \/
  (rstatus rep = NO_CONTACT /\ success rep = false /\
     no_projection_with S (postural h) limb cur any l /\ no_projection_with S false limb cur any l).
Proof. exact (C16_lemma S h limb ps rep post cur). Qed.
Print Assumptions C16_best_ranked_projection.
(** candidate 1 does not project, candidate 2 is used *)
Example C16_example : let h := hp false false false true 3 1 true true true false w2 in
  start h (with_stable false w2) /\ ~ stability_requested h /\ exists rep,
  generate_contact sv h "lh" w2 = (rep, false) /\ success rep = true /\ configuration (result rep) = 2.
Proof. split_and!; [done|by intros [? _]|]. eexists. split_and!; [by vm_compute|reflexivity..]. Qed.

(** C17, without the postural task *)
Theorem C17_stability_of_the_result {Cfg Pos Rot Cand Smp} (S : services Cfg Pos Rot Cand Smp)
    h limb ps rep post cur :
  start h cur -> stability_requested h -> postural h = false ->
  generate_contact S h limb ps = (rep, post) ->
  let l := octree S limb ps (working h) in let nb := nbContacts (working h) in
  let robust := fun p => (thr h <= isStable S p)%Z in
  let good := fun p => (thr h <= isStable S p)%Z /\ reaches S h cur p in
  match rstatus rep with
  | REACHABLE_CONTACT => exists p, first_projection_with S false limb cur good l p /\
      contact_added S nb true p (result rep)
  | STABLE_CONTACT => no_projection_with S false limb cur good l /\
      exists p, first_projection_with S false limb cur robust l p /\ contact_added S nb true p (result rep)
  | UNSTABLE_CONTACT => contactIfFails h = true /\ no_projection_with S false limb cur robust l /\
      exists p, most_robust_projection S false limb cur l p /\ (minRob S < isStable S p)%Z /\
        contact_added S nb false p (result rep)
  | NO_CONTACT => no_projection_with S false limb cur robust l /\
      (contactIfFails h = true -> no_projection_with S false limb cur (fun p => minRob S < isStable S p)%Z l)
  end.
Proof. exact (C17_lemma S h limb ps rep post cur). Qed.
Print Assumptions C17_stability_of_the_result.
Theorem C17_reachable_in_every_mode {Cfg Pos Rot Cand Smp} (S : services Cfg Pos Rot Cand Smp) h limb ps rep post cur :
  start h cur -> generate_contact S h limb ps = (rep, post) ->
  let l := octree S limb ps (working h) in
  (rstatus rep = REACHABLE_CONTACT /\ success rep = true /\
     exists mode p, deciding_mode S h limb cur (acceptable S h cur) l mode /\
       first_projection_with S mode limb cur (acceptable S h cur) l p /\
       contact_added S (nbContacts (working h)) true p (result rep)) \/
  (rstatus rep <> REACHABLE_CONTACT /\
     no_projection_with S (postural h) limb cur (acceptable S h cur) l /\
     no_projection_with S false limb cur (acceptable S h cur) l).
Proof. intros ->. exact (generate_contact_reachable S h limb ps rep post). Qed.
Print Assumptions C17_reachable_in_every_mode.
(** with the postural task: the retry starts with the flags of the first pass, so
    a robust (or just unstable) sample of the first pass makes the result a
    contact in the empty configuration, at the placement of another sample or at
    an uninitialised one (finding) *)
Theorem C17_postural_mode {Cfg Pos Rot Cand Smp} (S : services Cfg Pos Rot Cand Smp) h limb ps rep post cur :
  start h cur -> stability_requested h -> postural h = true ->
  generate_contact S h limb ps = (rep, post) ->
  let l := octree S limb ps (working h) in let nb := nbContacts (working h) in
  let robust := fun p => (thr h <= isStable S p)%Z in
  let good := fun p => (thr h <= isStable S p)%Z /\ reaches S h cur p in
  let valued := fun p => (minRob S < isStable S p)%Z in
  let junk := (junkPos S, junkPos S, junkRot S) in
  match rstatus rep with
  | REACHABLE_CONTACT => exists mode p, deciding_mode S h limb cur good l mode /\
      first_projection_with S mode limb cur good l p /\ contact_added S nb true p (result rep)
  | STABLE_CONTACT => no_projection_with S true limb cur good l /\ no_projection_with S false limb cur good l /\
      ((no_projection_with S true limb cur robust l /\
        exists p, first_projection_with S false limb cur robust l p /\ contact_added S nb true p (result rep)) \/
       ((exists p, first_projection_with S true limb cur robust l p) /\
        exists pl, placed_contact (working h) limb (emptyCfg S) true pl (result rep) /\
         ((pl = junk /\ (contactIfFails h = true ->
             no_projection_with S false limb cur (fun p => ~ robust p /\ valued p) l)) \/
          (contactIfFails h = true /\ exists p, best_of S false limb cur (fun q => ~ robust q) l p /\ valued p /\
             pl = (fkPos S limb (configuration p), default (junkPos S) (normals p !! limb),
                   fkRot S limb (configuration p))))))
  | UNSTABLE_CONTACT => contactIfFails h = true /\
      no_projection_with S true limb cur robust l /\ no_projection_with S false limb cur robust l /\
      ((exists p, most_robust_projection S false limb cur l p /\ valued p /\ contact_added S nb false p (result rep)) \/
       ((exists p, most_robust_projection S true limb cur l p /\ valued p) /\
        no_projection_with S false limb cur valued l /\
        placed_contact (working h) limb (emptyCfg S) false junk (result rep)))
  | NO_CONTACT =>
      no_projection_with S true limb cur robust l /\ no_projection_with S false limb cur robust l /\
      (contactIfFails h = true -> no_projection_with S true limb cur valued l /\ no_projection_with S false limb cur valued l)
  end.
Proof. exact (C17_postural_lemma S h limb ps rep post cur). Qed.
Print Assumptions C17_postural_mode.
Theorem C17_stable_flag {Cfg Pos Rot Cand Smp} (S : services Cfg Pos Rot Cand Smp) h limb ps rep post :
  generate_contact S h limb ps = (rep, post) ->
  stable (result rep) = true <-> (rstatus rep = REACHABLE_CONTACT \/ rstatus rep = STABLE_CONTACT).
Proof. exact (generate_contact_stable S h limb ps rep post). Qed.
Print Assumptions C17_stable_flag.
Theorem C17_retry_forgets_the_placement : exists rep,
  generate_contact sv_postural (hp false true false true 3 1 true true true true w2) "lh" w2 = (rep, true) /\
  success rep = true /\ rstatus rep = STABLE_CONTACT /\
  configuration (result rep) = emptyCfg sv_postural /\
  positions (result rep) !! "lh"%string = Some (junkPos sv_postural) /\
  normals (result rep) !! "lh"%string = Some (junkPos sv_postural) /\
  rotations (result rep) !! "lh"%string = Some (junkRot sv_postural).
Proof. exact C17_postural_junk. Qed.
Print Assumptions C17_retry_forgets_the_placement.
Theorem C17_single_contact_unchecked : exists rep,
  generate_contact sv (hp false true false false 100 1 true true true false w0) "lh" w0 = (rep, false) /\
  rstatus rep = REACHABLE_CONTACT /\ stable (result rep) = true /\ (isStable sv (result rep) < 100)%Z.
Proof. exact C17_single_unchecked. Qed.
Print Assumptions C17_single_contact_unchecked.
(** sample 3 is stable, sample 4 reachable as well; with a threshold of 9 the most robust one is kept *)
Example C17_example : let h t := hp false true true true t 1 true true true false w2 in
  (forall t, start (h t) (with_stable false w2) /\ stability_requested (h t)) /\
  (exists rep, generate_contact sv (h 3%Z) "lh" w2 = (rep, false) /\ rstatus rep = REACHABLE_CONTACT /\
     configuration (result rep) = 4) /\
  (exists rep, generate_contact sv (h 9%Z) "lh" w2 = (rep, false) /\ rstatus rep = UNSTABLE_CONTACT /\
     configuration (result rep) = 4 /\ stable (result rep) = false).
Proof.
  split_and!; [intros t; split; [done|]; split; [done|by left]| |];
    eexists; (split_and!; [by vm_compute|reflexivity..]).
Qed.

(** C18 *)
(** in every mode a reported contact is recorded in all tables, last in the order *)
Theorem C18_contact_in_all_tables {Cfg Pos Rot Cand Smp} (S : services Cfg Pos Rot Cand Smp) h limb ps rep post :
  generate_contact S h limb ps = (rep, post) -> rstatus rep <> NO_CONTACT ->
  exists pl, placed_contact (working h) limb (configuration (result rep)) (stable (result rep)) pl (result rep).
Proof. exact (C18_tables S h limb ps rep post). Qed.
Print Assumptions C18_contact_in_all_tables.
(** and, but for the results of a postural retry (C17), at the placement of the
    effector in the returned configuration, which is collision free *)
Theorem C18_contact_recorded {Cfg Pos Rot Cand Smp} (S : services Cfg Pos Rot Cand Smp) h limb ps rep post :
  generate_contact S h limb ps = (rep, post) -> rstatus rep <> NO_CONTACT ->
  (postural h = false \/ rstatus rep = REACHABLE_CONTACT) ->
  let r := result rep in let w := working h in
  contacts r = <[limb := true]> (contacts w) /\
  positions r = <[limb := fkPos S limb (configuration r)]> (positions w) /\
  rotations r = <[limb := fkRot S limb (configuration r)]> (rotations w) /\
  (exists n, normals r = <[limb := n]> (normals w)) /\
  order r = order w ++ [limb] /\ limbValid S limb (configuration r) = true /\
  nbContacts r = nbContacts w.
Proof. exact (C18_lemma S h limb ps rep post). Qed.
Print Assumptions C18_contact_recorded.
(** the count is never updated: it is wrong after every creation *)
Theorem C18_count_not_updated {Cfg Pos Rot Cand Smp} (S : services Cfg Pos Rot Cand Smp) h limb ps rep post :
  generate_contact S h limb ps = (rep, post) -> success rep = true ->
  (postural h = false \/ rstatus rep = REACHABLE_CONTACT) ->
  contacts (working h) !! limb = None ->
  nbContacts (result rep) = nbContacts (working h) /\
  size (contacts (result rep)) = Datatypes.S (size (contacts (working h))).
Proof. exact (C18_count_lemma S h limb ps rep post). Qed.
Print Assumptions C18_count_not_updated.
Example C18_example : let h := hp false true false true 3 1 true true true false w2 in
  contacts (working h) !! "lh"%string = None /\ exists rep,
  generate_contact sv h "lh" w2 = (rep, false) /\ success rep = true /\
  order (result rep) = ["lf"; "rf"; "lh"]%string /\ nbContacts (result rep) = 2%Z.
Proof. split; [done|]. eexists. split_and!; [by vm_compute|reflexivity..]. Qed.

(** C19 *)
Theorem C19_status_determines_success {Cfg Pos Rot Cand Smp} (S : services Cfg Pos Rot Cand Smp)
    h limb ps rep post cur :
  start h cur -> generate_contact S h limb ps = (rep, post) ->
  (rstatus rep = REACHABLE_CONTACT -> success rep = true) /\
  (rstatus rep = STABLE_CONTACT -> success rep = acceptUnreach h) /\
  (rstatus rep = UNSTABLE_CONTACT -> success rep = negb (checkGen h)) /\
  (rstatus rep = NO_CONTACT -> success rep = false /\
     exists c, moved_to c cur (result rep) /\
       (freed S limb (configuration (working h)) c \/
        (stuck S limb (configuration (working h)) /\ c = configuration (working h)))).
Proof. intros ->. exact (C19_lemma S h limb ps rep post). Qed.
Print Assumptions C19_status_determines_success.
Theorem C19_unstable_never_succeeds {Cfg Pos Rot Cand Smp} (S : services Cfg Pos Rot Cand Smp) h limb ps rep post :
  generate_contact S h limb ps = (rep, post) -> rstatus rep = UNSTABLE_CONTACT -> success rep = false.
Proof. exact (unstable_fails S h limb ps rep post). Qed.
Print Assumptions C19_unstable_never_succeeds.
(** the four outcomes occur *)
Example C19_example :
  let h t acc ifF := hp false true ifF true t 1 true true acc false w2 in
  (exists rep, generate_contact sv (h 3 true false)%Z "lh" w2 = (rep, false) /\ rstatus rep = REACHABLE_CONTACT) /\
  (exists rep, generate_contact sv_unreach (h 3 false false)%Z "lh" w2 = (rep, false) /\
     rstatus rep = STABLE_CONTACT /\ success rep = false) /\
  (exists rep, generate_contact sv (h 9 true true)%Z "lh" w2 = (rep, false) /\ rstatus rep = UNSTABLE_CONTACT) /\
  (exists rep, generate_contact sv (h 9 true false)%Z "lh" w2 = (rep, false) /\ rstatus rep = NO_CONTACT).
Proof. split_and!; eexists; (split_and!; [by vm_compute|reflexivity..]). Qed.

(** C20: at most one creation allowed *)
Theorem C20_at_most_one_creation {Cfg Pos Rot Cand Smp} (S : services Cfg Pos Rot Cand Smp) h rep h' :
  NoDup (limbNames S) -> maxCreations h <= 1 -> gen_contacts S h = (rep, h') -> success rep = true ->
  exists e, length e <= maxCreations h /\ Forall (free_limb S (working h)) e /\
    order (result rep) = order (working h) ++ e /\
    (consistent (working h) -> NoDup (order (result rep))).
Proof. exact (C20_lemma S h rep h'). Qed.
Print Assumptions C20_at_most_one_creation.
(** in general: parts of the arrangements that failed, none of them complete,
    come before those of the arrangement that succeeded, so the bound can be
    exceeded and a limb recorded twice (finding: the example) *)
Theorem C20_created_contacts {Cfg Pos Rot Cand Smp} (S : services Cfg Pos Rot Cand Smp) h rep h' :
  NoDup (limbNames S) -> gen_contacts S h = (rep, h') -> success rep = true ->
  exists (failed : list (list string * list string)) arr created,
    order (result rep) = order (working h) ++ concat (map snd failed) ++ created /\
    NoDup (map fst failed ++ [arr]) /\
    (forall a, a ∈ map fst failed ++ [arr] ->
       NoDup a /\ length a <= maxCreations h /\ Forall (free_limb S (working h)) a) /\
    (forall a c, (a, c) ∈ failed -> c `sublist_of` removelast a) /\
    created `sublist_of` arr /\ last created = last arr.
Proof. exact (C20_general S h rep h'). Qed.
Print Assumptions C20_created_contacts.
Theorem C20_bound_exceeded : exists rep h',
  consistent w0 /\
  gen_contacts sv_twice (hp false true false true 3 2 true false true false w0) = (rep, h') /\
  success rep = true /\ order (result rep) = ["a"; "b"; "a"]%string.
Proof. exact C20_twice. Qed.
Print Assumptions C20_bound_exceeded.
Example C20_example : NoDup (limbNames sv) /\ exists rep h',
  gen_contacts sv (hp false true false true 3 1 true true true false w2) = (rep, h') /\
  success rep = true /\ order (result rep) = ["lf"; "rf"; "lh"]%string.
Proof.
  split; [apply (bool_decide_unpack _); by vm_compute|]. eexists _, _. split_and!; [by vm_compute|reflexivity..].
Qed.

(** C21: all parameters and flags of the helper (and the postural flag of the
    full body) are unchanged; the working state is not restored, contacts of
    free limbs may have been created on top of it (finding: the example) *)
Theorem C21_flags_restored {Cfg Pos Rot Cand Smp} (S : services Cfg Pos Rot Cand Smp) h rep h' :
  NoDup (limbNames S) -> gen_contacts S h = (rep, h') ->
  exists w, h' = set_working w h /\ grown (free_limb S (working h)) (working h) w.
Proof. intros Hn Hg. by destruct (gen_contacts_spec S h rep h' Hn Hg) as [H _]. Qed.
Print Assumptions C21_flags_restored.
Theorem C21_postural_flag_restored {Cfg Pos Rot Cand Smp} (S : services Cfg Pos Rot Cand Smp) h limb ps rep post :
  generate_contact S h limb ps = (rep, post) -> post = postural h.
Proof. intros Hg. by destruct (generate_contact_grown S h limb ps rep post Hg). Qed.
Print Assumptions C21_postural_flag_restored.
Theorem C21_working_state_changes : exists rep h',
  gen_contacts sv_twice (hp false true false true 100 2 true false true false w0) = (rep, h') /\
  success rep = false /\ working h' <> w0.
Proof. exact C21_working. Qed.
Print Assumptions C21_working_state_changes.
Example C21_example : let h := hp false true false true 3 1 true true true true w2 in
  exists rep h', gen_contacts sv_postural h = (rep, h') /\ postural h' = true /\ checkGen h' = true.
Proof. eexists _, _. split_and!; [by vm_compute|reflexivity..]. Qed.

(** C22 *)
Theorem C22_oneStep_terminates {Cfg Pos Rot Cand Smp} (S : services Cfg Pos Rot Cand Smp)
    (moved : Pos -> Pos -> bool) h q :
  NoDup (limbNames S) -> maintain_queue h q ->
  exists r, forall fuel, length q < fuel -> oneStep S moved fuel h = Some r.
Proof. exact (C22_terminates S moved h q). Qed.
Print Assumptions C22_oneStep_terminates.
(** each attempt consumes candidates from the front of the queue *)
Theorem C22_candidates_examined_once {Cfg Pos Rot Cand Smp} (S : services Cfg Pos Rot Cand Smp) h q rep h' :
  NoDup (limbNames S) -> maintain_queue h q -> genContactFromOneMaintainCombinatorial S h = (rep, h') ->
  exists used, q = used ++ cands h' /\ (q <> [] -> used <> []) /\
    (exists w, h' = set_working w (set_cands (cands h') h)).
Proof. exact (one_maintain_queue S h q rep h'). Qed.
Print Assumptions C22_candidates_examined_once.
Theorem C22_truthful_flags {Cfg Pos Rot Cand Smp} (S : services Cfg Pos Rot Cand Smp)
    (moved : Pos -> Pos -> bool) fuel h cr h' :
  NoDup (limbNames S) -> oneStep S moved fuel h = Some (cr, h') ->
  previous h' = previous h /\
  (contactCreated cr = true <-> exists k, created moved (previous h) (result (cr_rep cr)) k) /\
  (multipleBreaks cr = true <-> exists ks, NoDup ks /\ maxBreaks h < length ks /\
      forall k, k ∈ ks <-> created moved (result (cr_rep cr)) (previous h) k) /\
  (contactMaintained cr = true <-> repositionedInPlace cr = false /\
      forall k, ~ created moved (result (cr_rep cr)) (previous h) k).
Proof. exact (oneStep_flags S moved fuel h cr h'). Qed.
Print Assumptions C22_truthful_flags.
Example C22_example : let h := hp false true false true 3 1 true false true false w2 in
  NoDup (limbNames sv) /\ maintain_queue h (maintain_contacts_combinatorial w2 1) /\
  exists cr h', oneStep sv (fun a b => negb (a =? b)) 5 h = Some (cr, h') /\
    success (cr_rep cr) = true /\ order (result (cr_rep cr)) = ["rf"; "lf"]%string /\
    contactCreated cr = true /\ contactMaintained cr = false /\ repositionedInPlace cr = false.
Proof.
  split_and!; [apply (bool_decide_unpack _); by vm_compute|by right; left|].
  eexists _, _. split_and!; [by vm_compute|reflexivity..].
Qed.

(** C23 *)
Theorem C23_success_means_stable {Cfg Pos Rot Cand Smp} (S : services Cfg Pos Rot Cand Smp) h rep h' :
  repositionContacts S h = (rep, h') ->
  (exists w, h' = set_working w h) /\
  (success rep = true <-> stable (result rep) = true) /\
  (success rep = true -> rstatus rep = STABLE_CONTACT /\
     exists limb w ps r post q, generate_contact S (set_working w h) limb ps = (r, post) /\
       (rstatus r = REACHABLE_CONTACT \/ rstatus r = STABLE_CONTACT) /\
       same_but_robustness (with_order (q ++ [limb]) (result r)) (result rep)).
Proof. exact (reposition_spec S h rep h'). Qed.
Print Assumptions C23_success_means_stable.
(** a failing repositioning loses, for every contact, the contact of the first
    limb of its group (finding) *)
Theorem C23_failure {Cfg Pos Rot Cand Smp} (S : services Cfg Pos Rot Cand Smp) h rep h' :
  repositionContacts S h = (rep, h') -> contactIfFails h = false -> success rep = false ->
  rstatus rep = NO_CONTACT /\ stable (result rep) = false /\
  order (result rep) = reverse (filter (fun x => groupOf S x = []) (order (working h))) /\
  (forall k, (exists x, x ∈ order (working h) /\ head (groupOf S x) = Some k) ->
     contacts (result rep) !! k = None) /\
  (forall k, (forall x, x ∈ order (working h) -> head (groupOf S x) <> Some k) ->
     contacts (result rep) !! k = contacts (working h) !! k /\
     normals (result rep) !! k = normals (working h) !! k /\
     positions (result rep) !! k = positions (working h) !! k /\
     rotations (result rep) !! k = rotations (working h) !! k).
Proof. exact (C23_failure_lemma S h rep h'). Qed.
Print Assumptions C23_failure.
Theorem C23_contacts_lost : exists rep h',
  repositionContacts sv_unstable (hp false true false true 3 1 true false true false w2) = (rep, h') /\
  consistent w2 /\ success rep = false /\ order (result rep) = [] /\
  contacts (result rep) !! "lf"%string = None /\ contacts (result rep) !! "rf"%string = None.
Proof. exact C23_lost. Qed.
Print Assumptions C23_contacts_lost.
Theorem C23_unreachable_accepted : exists rep h',
  repositionContacts sv_unreach (hp false true false true 3 1 true true false false w2) = (rep, h') /\
  success rep = true /\ order (result rep) = ["rf"; "lf"]%string /\ acceptUnreach h' = false /\
  forall limb w ps, success (fst (generate_contact sv_unreach
    (hp false true false true 3 1 true true false false w) limb ps)) = false.
Proof. exact C23_unreachable. Qed.
Print Assumptions C23_unreachable_accepted.
Example C23_example : exists rep h',
  repositionContacts sv (hp false true false true 3 1 true false true false w2) = (rep, h') /\
  success rep = true /\ order (result rep) = ["rf"; "lf"]%string /\ configuration (result rep) = 3.
Proof. eexists _, _. split_and!; [by vm_compute|reflexivity..]. Qed.

(** C24 *)
Theorem C24_initial_contacts {Cfg Pos Rot Cand Smp} (S : services Cfg Pos Rot Cand Smp) cfg t post r post' :
  NoDup (limbNames S) -> ComputeContacts_initial S cfg t post = (r, post') ->
  post' = post /\ tables_match r /\ order r ⊆ limbNames S /\
  (forall a x b, order r = a ++ x :: b -> forall y, y ∈ a -> y ∉ groupOf S x) /\
  (forall l, l ∈ limbNames S ->
    (exists k, k ∈ order r /\ (k = l \/ k ∈ groupOf S l)) \/
    (exists c0 chk p st, order c0 `prefix_of` order r /\
       ComputeStableContact S c0 l t false false chk p = (NO_CONTACT, st, p))).
Proof. exact (C24_lemma S (fun _ _ => true) cfg t post r post'). Qed.
Print Assumptions C24_initial_contacts.
Theorem C24_one_contact_per_group {Cfg Pos Rot Cand Smp} (S : services Cfg Pos Rot Cand Smp) cfg t post r post' :
  NoDup (limbNames S) -> (forall a b, a ∈ groupOf S b <-> b ∈ groupOf S a) ->
  ComputeContacts_initial S cfg t post = (r, post') ->
  forall k1 k2, is_Some (positions r !! k1) -> is_Some (positions r !! k2) -> k1 ∈ groupOf S k2 -> k1 = k2.
Proof. exact (C24_exclusive S (fun _ _ => true) cfg t post r post'). Qed.
Print Assumptions C24_one_contact_per_group.
(** the state is declared stable whatever the tests said (finding) *)
Theorem C24_always_stable {Cfg Pos Rot Cand Smp} (S : services Cfg Pos Rot Cand Smp) cfg t post r post' :
  ComputeContacts_initial S cfg t post = (r, post') -> (stable r = true <-> limbNames S <> []).
Proof. exact (C24_stable_lemma S cfg t post r post'). Qed.
Print Assumptions C24_always_stable.
Theorem C24_stability_unchecked :
  (exists r, ComputeContacts_initial sv_unstable 5 3 false = (r, false) /\ stable r = true /\ order r = []) /\
  (exists r, ComputeContacts_initial sv_groups 5 3 false = (r, false) /\
     stable r = true /\ order r = ["a"; "b"]%string /\ (isStable sv_groups r < 3)%Z).
Proof. split; [exact C24_stable_unchecked|exact C24_last_group]. Qed.
Print Assumptions C24_stability_unchecked.
Example C24_example : NoDup (limbNames sv_groups) /\
  (forall a b, a ∈ groupOf sv_groups b <-> b ∈ groupOf sv_groups a) /\
  exists r, ComputeContacts_initial sv_groups 5 3 false = (r, false) /\ order r = ["a"; "b"]%string /\
    nbContacts r = 2%Z.
Proof.
  split_and!; [apply (bool_decide_unpack _); by vm_compute|exact sv_groups_sym|].
  eexists. split_and!; [by vm_compute|reflexivity..].
Qed.

(** C49 *)
Theorem C49_no_contact_no_step {Cfg Pos Rot Cand Smp} (S : services Cfg Pos Rot Cand Smp)
    (moved : Pos -> Pos -> bool) fuel h cr h' :
  NoDup (limbNames S) -> maintain_queue h [] -> order (previous h) = [] ->
  oneStep S moved fuel h = Some (cr, h') ->
  success (cr_rep cr) = false /\ repositionedInPlace cr = true /\
  order (result (cr_rep cr)) = [] /\ contacts (result (cr_rep cr)) = contacts (previous h).
Proof. exact (oneStep_no_contact S moved fuel h cr h'). Qed.
Print Assumptions C49_no_contact_no_step.
Example C49_example : let h := hp false true false true 3 1 true false true false w0 in
  maintain_queue h [] /\ exists cr h',
  oneStep sv (fun a b => negb (a =? b)) 1 h = Some (cr, h').
Proof. split; [by right; right|]. eexists _, _. by vm_compute. Qed.

(** C50 *)
Theorem C50_maintained_contacts_untouched {Cfg Pos Rot Cand Smp} (S : services Cfg Pos Rot Cand Smp) h rep h' :
  NoDup (limbNames S) -> gen_contacts S h = (rep, h') -> success rep = true ->
  grown (free_limb S (working h)) (working h) (result rep).
Proof. intros Hn Hg Hs. by destruct (gen_contacts_spec S h rep h' Hn Hg) as [_ H]; apply H. Qed.
Print Assumptions C50_maintained_contacts_untouched.
(** two contacts are created on top of the two maintained ones *)
Example C50_example : let S := mk_services (fun _ => [3]) (fun _ _ c _ => (true, c))
    (fun s => if Nat.leb 4 (length (order s)) then 9%Z else 0%Z) (fun _ _ => true) (fun _ _ => true)
    (fun q _ => (true, q)) (fun _ => true) ["lf"; "lh"; "rf"; "rh"]%string (fun l => [l]) in
  exists rep h', gen_contacts S (hp false true false true 3 2 true false true false w2) = (rep, h') /\
    success rep = true /\ order (result rep) = ["lf"; "rf"; "lh"; "rh"]%string.
Proof. eexists _, _. split_and!; [by vm_compute|reflexivity..]. Qed.

(** C51 *)
Theorem C51_one_break_one_creation {Cfg Pos Rot Cand Smp} (S : services Cfg Pos Rot Cand Smp)
    (moved : Pos -> Pos -> bool) fuel prev cfg t test qs post cr h' :
  NoDup (limbNames S) -> consistent prev -> order prev <> [] ->
  ComputeContacts_next S moved fuel prev cfg t test qs post = Some (cr, h') ->
  repositionedInPlace cr = false ->
  success (cr_rep cr) = true /\
  exists broken created, length broken <= 1 /\ broken ⊆ order prev /\
    length created <= 1 /\ Forall (fun l => l ∈ limbNames S /\ (l ∈ broken \/ l ∉ order prev)) created /\
    let r := result (cr_rep cr) in
    order r = filter (fun x => x ∉ broken) (order prev) ++ created /\
    (forall k, k ∉ broken -> k ∉ created ->
      contacts r !! k = contacts prev !! k /\ normals r !! k = normals prev !! k /\
      positions r !! k = positions prev !! k /\ rotations r !! k = rotations prev !! k) /\
    (forall k, k ∈ broken -> k ∉ created -> contacts r !! k = None).
Proof. exact (C51_lemma S moved fuel prev cfg t test qs post cr h'). Qed.
Print Assumptions C51_one_break_one_creation.
Example C51_example : consistent w2 /\ order w2 <> [] /\ exists cr h',
  ComputeContacts_next sv (fun a b => negb (a =? b)) 5 w2 6 3 false true false = Some (cr, h') /\
  repositionedInPlace cr = false /\ order (result (cr_rep cr)) = ["rf"; "lf"]%string.
Proof.
  split_and!; [apply w2_consistent|done|]. eexists _, _. split_and!; [by vm_compute|reflexivity..].
Qed.
