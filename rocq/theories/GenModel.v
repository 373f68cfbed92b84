(** Model of the contact generator: src/contact_generation/contact_generation.cc
    (from genColFree on), src/contact_generation/algorithm.cc,
    include/hpp/rbprm/reports.hh, and of the functions of
    src/projection/projection.cc it calls.

    Services of other libraries are the fields of [services]: deterministic
    functions of the arguments the code passes to them.  Robustness values are
    only compared, so they are integers (finite doubles, scaled by 2^1074, are
    integers). Exceptions of the services are not modelled. *)
From Coq Require Import ZArith.
From Verif Require Export Maps StateModel CombModel.

(** reports.hh:28-35 *)
Inductive status := NO_CONTACT | UNSTABLE_CONTACT | STABLE_CONTACT | REACHABLE_CONTACT.

(** Services used by the generator, none of them code of the generator itself. *)
Record services (Cfg Pos Rot Cand Smp : Type) := mkServices {
  (* CollideOctree, contact_generation.cc:464-503: candidate samples in the
     order of the multiset, best first; arguments: limb, the state the heuristic
     parameters are filled from, the working state *)
  octree : string -> State Cfg Pos Rot Z -> State Cfg Pos Rot Z -> list Cand;
  (* sampling::Load + ConfigProjector::apply in projectSampleToObstacle /
     projectEffector (projection.cc:602-649, 352-456): postural flag, limb,
     candidate, configuration in; success, configuration out *)
  ik : bool -> string -> Cand -> Cfg -> State Cfg Pos Rot Z -> bool * Cfg;
  candNormal : Cand -> Pos;            (* normalized contact normal *)
  fkPos : string -> Cfg -> Pos;        (* effector placement in a configuration *)
  fkRot : string -> Cfg -> Rot;
  isStable : State Cfg Pos Rot Z -> Z; (* stability::IsStable *)
  reachQS : State Cfg Pos Rot Z -> State Cfg Pos Rot Z -> bool;  (* isReachable *)
  reachDyn : State Cfg Pos Rot Z -> State Cfg Pos Rot Z -> bool; (* isReachableDynamic *)
  limbValid : string -> Cfg -> bool;   (* the limb's CollisionValidation *)
  samples : string -> list Smp;        (* GetLimb(name)->sampleContainer_.samples_ *)
  loadS : Smp -> Cfg -> Cfg;           (* sampling::Load *)
  projRoot : Cfg -> State Cfg Pos Rot Z -> bool * Cfg; (* the ConfigProjector of projectToRootConfiguration *)
  validate : Cfg -> bool;              (* the full body's CollisionValidation *)
  limbNames : list string;             (* keys of GetLimbs() *)
  nonContacting : list string;         (* keys of GetNonContactingLimbs() *)
  groupOf : string -> list string;     (* GetGroups().at(limb->limb_->name()) *)
  copyExtra : Cfg -> Cfg -> Cfg;       (* first := first with the extra dofs of the second *)
  emptyCfg : Cfg;                      (* a default constructed Configuration_t *)
  junkPos : Pos;                       (* an uninitialised fcl::Vec3f *)
  junkRot : Rot;                       (* an uninitialised fcl::Matrix3f *)
  junkRob : Z;                         (* an uninitialised double *)
  minRob : Z                           (* -std::numeric_limits<double>::max() *)
}.
Arguments octree {Cfg Pos Rot Cand Smp}.
Arguments ik {Cfg Pos Rot Cand Smp}.
Arguments candNormal {Cfg Pos Rot Cand Smp}.
Arguments fkPos {Cfg Pos Rot Cand Smp}.
Arguments fkRot {Cfg Pos Rot Cand Smp}.
Arguments isStable {Cfg Pos Rot Cand Smp}.
Arguments reachQS {Cfg Pos Rot Cand Smp}.
Arguments reachDyn {Cfg Pos Rot Cand Smp}.
Arguments limbValid {Cfg Pos Rot Cand Smp}.
Arguments samples {Cfg Pos Rot Cand Smp}.
Arguments loadS {Cfg Pos Rot Cand Smp}.
Arguments projRoot {Cfg Pos Rot Cand Smp}.
Arguments validate {Cfg Pos Rot Cand Smp}.
Arguments limbNames {Cfg Pos Rot Cand Smp}.
Arguments nonContacting {Cfg Pos Rot Cand Smp}.
Arguments groupOf {Cfg Pos Rot Cand Smp}.
Arguments copyExtra {Cfg Pos Rot Cand Smp}.
Arguments emptyCfg {Cfg Pos Rot Cand Smp}.
Arguments junkPos {Cfg Pos Rot Cand Smp}.
Arguments junkRot {Cfg Pos Rot Cand Smp}.
Arguments junkRob {Cfg Pos Rot Cand Smp}.
Arguments minRob {Cfg Pos Rot Cand Smp}.

(** reports.hh:38-46 *)
Record report (Cfg Pos Rot : Type) := mkReport {
  success : bool;
  result : State Cfg Pos Rot Z;
  rstatus : status
}.
Arguments mkReport {Cfg Pos Rot}.
Arguments success {Cfg Pos Rot}.
Arguments result {Cfg Pos Rot}.
Arguments rstatus {Cfg Pos Rot}.

(** ContactGenHelper, contact_generation.hh / .cc:36-69.  [postural] is
    fullBody_->usePosturalTaskContactCreation(), kept here because the helper
    holds the full body. *)
Record helper (Cfg Pos Rot : Type) := mkHelper {
  previous : State Cfg Pos Rot Z;
  working : State Cfg Pos Rot Z;
  cands : list (State Cfg Pos Rot Z);
  checkMaintain : bool;
  checkGen : bool;
  contactIfFails : bool;
  stableForOne : bool;
  thr : Z;
  maxBreaks : nat;
  maxCreations : nat;
  quasi : bool;
  testReach : bool;
  maximise : bool;
  acceptUnreach : bool;
  postural : bool
}.
Arguments mkHelper {Cfg Pos Rot}.
Arguments previous {Cfg Pos Rot}.
Arguments working {Cfg Pos Rot}.
Arguments cands {Cfg Pos Rot}.
Arguments checkMaintain {Cfg Pos Rot}.
Arguments checkGen {Cfg Pos Rot}.
Arguments contactIfFails {Cfg Pos Rot}.
Arguments stableForOne {Cfg Pos Rot}.
Arguments thr {Cfg Pos Rot}.
Arguments maxBreaks {Cfg Pos Rot}.
Arguments maxCreations {Cfg Pos Rot}.
Arguments quasi {Cfg Pos Rot}.
Arguments testReach {Cfg Pos Rot}.
Arguments maximise {Cfg Pos Rot}.
Arguments acceptUnreach {Cfg Pos Rot}.
Arguments postural {Cfg Pos Rot}.

Section Gen.
Context {Cfg Pos Rot Cand Smp : Type}.
Notation St := (State Cfg Pos Rot Z).
Notation Rep := (report Cfg Pos Rot).
Notation Hlp := (helper Cfg Pos Rot).
Variable S : services Cfg Pos Rot Cand Smp.

(** Field updates (C++ assignments to a member) (rbprm-state.hh:120-128, contact_generation.hh:40-130) *)
Definition with_configuration (c : Cfg) (s : St) : St :=
  mkState c (contacts s) (normals s) (positions s) (rotations s) (order s) (nbContacts s)
    (stable s) (robustness s).
Definition with_stable (b : bool) (s : St) : St :=
  mkState (configuration s) (contacts s) (normals s) (positions s) (rotations s) (order s)
    (nbContacts s) b (robustness s).
Definition with_order (q : list string) (s : St) : St :=
  mkState (configuration s) (contacts s) (normals s) (positions s) (rotations s) q
    (nbContacts s) (stable s) (robustness s).
Definition with_nb (n : Z) (s : St) : St :=
  mkState (configuration s) (contacts s) (normals s) (positions s) (rotations s) (order s)
    n (stable s) (robustness s).
Definition set_working (w : St) (h : Hlp) : Hlp :=
  mkHelper (previous h) w (cands h) (checkMaintain h) (checkGen h) (contactIfFails h)
    (stableForOne h) (thr h) (maxBreaks h) (maxCreations h) (quasi h) (testReach h)
    (maximise h) (acceptUnreach h) (postural h).
Definition set_cands (q : list St) (h : Hlp) : Hlp :=
  mkHelper (previous h) (working h) q (checkMaintain h) (checkGen h) (contactIfFails h)
    (stableForOne h) (thr h) (maxBreaks h) (maxCreations h) (quasi h) (testReach h)
    (maximise h) (acceptUnreach h) (postural h).
Definition set_checkGen (b : bool) (h : Hlp) : Hlp :=
  mkHelper (previous h) (working h) (cands h) (checkMaintain h) b (contactIfFails h)
    (stableForOne h) (thr h) (maxBreaks h) (maxCreations h) (quasi h) (testReach h)
    (maximise h) (acceptUnreach h) (postural h).
Definition set_postural (b : bool) (h : Hlp) : Hlp :=
  mkHelper (previous h) (working h) (cands h) (checkMaintain h) (checkGen h) (contactIfFails h)
    (stableForOne h) (thr h) (maxBreaks h) (maxCreations h) (quasi h) (testReach h)
    (maximise h) (acceptUnreach h) b.

(** reports.hh:40 default report; rbprm-state.hh:41 default state *)
Definition fresh_state : St := state_default (emptyCfg S) (junkRob S).
Definition fresh_report : Rep := mkReport false fresh_state NO_CONTACT.
(** [rep.result_ = s] on a fresh report: State::operator= (rbprm-state.cc:34-48) *)
Definition report_of (ok : bool) (s : St) : Rep :=
  mkReport ok (state_assign fresh_state s) NO_CONTACT.
(** implicit ProjectionReport::operator= : memberwise (projection.hh:38-46) *)
Definition assign_report (this other : Rep) : Rep :=
  mkReport (success other) (state_assign (result this) (result other)) (rstatus other).

(** projection.cc:262-300 *)
Definition projectToRootConfiguration (conf : Cfg) (cur : St) : Rep :=
  let '(ok, c) := projRoot S conf cur in
  report_of ok (with_configuration c cur).

(** projection.cc:302-335: samples are loaded one after the other into the same
    configuration; the first one the limb's validation accepts is kept *)
Fixpoint first_valid_load (limb : string) (l : list Smp) (c : Cfg) : option Cfg :=
  match l with
  | [] => None
  | s :: l' =>
    let c' := loadS S s c in
    if limbValid S limb c' then Some c' else first_valid_load limb l' c'
  end.
Definition setCollisionFree (limb : string) (cur : St) : Rep :=
  if limbValid S limb (configuration cur) then report_of true cur
  else match first_valid_load limb (samples S limb) (configuration cur) with
       | Some c => report_of true (with_configuration c cur)
       | None => report_of false cur
       end.

(** contact_generation.cc:293-300 and 308-318: the loop stops as soon as a limb fails *)
Fixpoint col_free_limbs (limbs : list string) (res : Rep) : Rep :=
  match limbs with
  | [] => res
  | l :: limbs' =>
    if success res then col_free_limbs limbs' (assign_report res (setCollisionFree l (result res)))
    else res
  end.

(** contact_generation.cc:283-320 *)
Definition genColFree (h : Hlp) (cur : Rep) : Rep :=
  let free := sortLimbs (order (working h)) (freeEffectors (result cur) (limbNames S)) in
  col_free_limbs (nonContacting S) (col_free_limbs free cur).

(** contact_generation.cc:160-188: strict comparison, success and collisions of
    the replaced candidates are not looked at.  Returns (return value, current
    report, candidates left in the caller's queue). *)
Fixpoint maintain_stability_rec (target : Cfg) (len : nat) (rob : Z) (cur : Rep) (q : list St)
  : bool * Rep * list St :=
  if (rob <? isStable S (result cur))%Z then
    (true, mkReport (success cur) (with_stable true (result cur)) (rstatus cur), q)
  else
    let cur := mkReport (success cur) (with_stable false (result cur)) (rstatus cur) in
    match q with
    | [] => (false, cur, [])
    | c :: q' =>
      if length (order c) <? len then (false, cur, q')
      else
        let '(ok, rep, qc) :=
          maintain_stability_rec target len rob (projectToRootConfiguration target c) q' in
        if (ok : bool) then (true, assign_report cur rep, qc) else (false, cur, q')
    end.

(** contact_generation.cc:237-249 *)
Definition maintain_contacts_stability (h : Hlp) (cur : Rep) : Rep * Hlp :=
  let '(_, rep, q) := maintain_stability_rec (configuration (working h))
    (length (order (result cur))) (thr h) cur (cands h) in
  (rep, set_cands q h).

(** contact_generation.cc:416-449: the tests of one candidate *)
Definition try_maintain (h : Hlp) (c : St) : Rep :=
  let rep := projectToRootConfiguration (configuration (working h)) c in
  let rep := if success rep then genColFree h rep else rep in
  let rep := if success rep
             then mkReport (validate S (configuration (result rep))) (result rep) (rstatus rep)
             else rep in
  if success rep && quasi h && testReach h then
    let ok := reachQS S (working h) (result rep) in
    mkReport ok (result rep) (if ok then REACHABLE_CONTACT else STABLE_CONTACT)
  else rep.

(** contact_generation.cc:412-450: returns the report and the candidates left *)
Fixpoint maintain_loop (h : Hlp) (rep : Rep) (q : list St) : Rep * list St :=
  match q with
  | [] => (rep, [])
  | c :: q' =>
    if success rep then (rep, q)
    else maintain_loop h (assign_report rep (try_maintain h c)) q'
  end.

(** contact_generation.cc:395-462 *)
Definition maintain_contacts (h : Hlp) : Rep * Hlp :=
  let h := match cands h with
           | [] => if bool_decide (contacts (working h) = ∅) then h
                   else set_cands (maintain_contacts_combinatorial (working h) (maxBreaks h)) h
           | _ => h
           end in
  let '(rep, q) := maintain_loop h fresh_report (cands h) in
  let h := set_cands q h in
  if success rep && checkMaintain h then maintain_contacts_stability h rep else (rep, h).

(** projection.cc:602-649 with projectToObstacle (491-504) and projectEffector
    (352-456): on success the contact is recorded in a copy of [cur] *)
Definition projectSampleToObstacle (post : bool) (limb : string) (c : Cand) (cfg : Cfg) (cur : St)
  : Rep * Cfg :=
  let '(ok, cfg') := ik S post limb c cfg cur in
  if ok && limbValid S limb cfg' then
    (report_of true (addContact limb cfg' (fkPos S limb cfg') (candNormal S c) (fkRot S limb cfg') cur),
     cfg')
  else (report_of false cur, cfg').

(** Local variables of findValidCandidate, contact_generation.cc:509-535: the
    three flags are reference parameters *)
Record search := mkSearch {
  found_sample : bool;
  found_stable : bool;
  unstableContact : bool;
  sCfg : Cfg;             (* configuration *)
  moreRobust : Cfg;
  bestUnreachable : Cfg;
  maxRob : Z;
  place : Pos * Pos * Rot (* position, normal, rotation *)
}.

(** contact_generation.cc:574-600: reachability of a projected candidate;
    [inter] is intermediateState *)
Definition reachable (h : Hlp) (inter res : St) : bool :=
  if testReach h then
    if quasi h then reachQS S inter res else reachDyn S (previous h) res
  else true.

(** contact_generation.cc:537-655: one iteration of the loop *)
Definition try_candidate (h : Hlp) (post : bool) (limb : string) (current : St) (s : search) (c : Cand)
  : search :=
  if found_sample s then s else
  let '(rep, cfg) := projectSampleToObstacle post limb c (sCfg s) current in
  let res := result rep in
  let pl := (default (junkPos S) (positions res !! limb), default (junkPos S) (normals res !! limb),
             default (junkRot S) (rotations res !! limb)) in
  if negb (success rep) then
    mkSearch false (found_stable s) (unstableContact s) cfg (moreRobust s) (bestUnreachable s)
      (maxRob s) (place s)
  else if negb (checkGen h) || ((nbContacts res =? 1)%Z && negb (stableForOne h)) then
    mkSearch true (found_stable s) (unstableContact s) cfg (moreRobust s) (bestUnreachable s)
      (maxRob s) pl
  else
    let rob := isStable S res in
    if (thr h <=? rob)%Z then
      if reachable h current res then
        mkSearch true (found_stable s) (unstableContact s) cfg (moreRobust s) (bestUnreachable s)
          (maxRob s) pl
      else if found_stable s then
        mkSearch false true (unstableContact s) cfg (moreRobust s) (bestUnreachable s)
          (maxRob s) (place s)
      else
        mkSearch false true (unstableContact s) cfg (moreRobust s) cfg
          (Z.max rob (maxRob s)) pl
    else if (maxRob s <? rob)%Z && contactIfFails h then
      mkSearch false (found_stable s) true cfg cfg (bestUnreachable s) rob pl
    else
      mkSearch false (found_stable s) (unstableContact s) cfg (moreRobust s) (bestUnreachable s)
        (maxRob s) (place s).

(** contact_generation.cc:656-680: the contact is recorded, nbContacts is not changed *)
Definition record_contact (limb : string) (pl : Pos * Pos * Rot) (s : St) : St :=
  let '(p, n, r) := pl in
  mkState (configuration s) (<[limb := true]> (contacts s)) (<[limb := n]> (normals s))
    (<[limb := p]> (positions s)) (<[limb := r]> (rotations s)) (order s ++ [limb])
    (nbContacts s) (stable s) (robustness s).

(** contact_generation.cc:505-680: one execution of the body, before the retry;
    [ps] is the state the heuristic parameters come from *)
Definition candidate_pass (h : Hlp) (post : bool) (limb : string) (ps : St)
    (flags : bool * bool * bool) : (bool * bool * bool) * St :=
  let current := with_stable false (state_copy (working h)) in
  let '(f1, f2, f3) := flags in
  let s0 := mkSearch f1 f2 f3 (configuration current) (emptyCfg S) (emptyCfg S) (minRob S)
              (junkPos S, junkPos S, junkRot S) in
  let s := fold_left (try_candidate h post limb current) (octree S limb ps (working h)) s0 in
  let out :=
    if found_sample s || found_stable s || unstableContact s
    then record_contact limb (place s) current else current in
  let out :=
    if found_sample s then with_stable true (with_configuration (sCfg s) out)
    else if found_stable s then with_stable true (with_configuration (bestUnreachable s) out)
    else if unstableContact s then with_stable false (with_configuration (moreRobust s) out)
    else out in
  ((found_sample s, found_stable s, unstableContact s), out).

(** contact_generation.cc:505-691.  The retry passes the same three references:
    flags set by the first pass are not reset.  Third component: the full body's
    postural flag afterwards. *)
Definition findValidCandidate (h : Hlp) (limb : string) (ps : St)
  : (bool * bool * bool) * St * bool :=
  let '(fl, cur) := candidate_pass h (postural h) limb ps (false, false, false) in
  let '(found, _, _) := fl in
  if postural h && negb found then
    let '(fl', cur') := candidate_pass h false limb ps fl in
    (fl', state_assign cur cur', true)
  else (fl, cur, postural h).

(** contact_generation.cc:693-762; returns the report and the postural flag *)
Definition generate_contact (h : Hlp) (limb : string) (ps : St) : Rep * bool :=
  let '(fl, st, post) := findValidCandidate h limb ps in
  let '(found, stab, unst) := fl in
  let res := state_assign fresh_state st in
  ((if (found : bool) then mkReport true res REACHABLE_CONTACT
    else if (stab : bool) then mkReport (acceptUnreach h) res STABLE_CONTACT
    else if (unst : bool) then mkReport (negb (checkGen h)) res UNSTABLE_CONTACT
    else let r := setCollisionFree limb res in
         mkReport false (state_assign res (result r)) NO_CONTACT), post).

(** contact_generation.cc:795-837: the limbs of one candidate; [chk] is the
    value of checkStabilityGenerate_ at entry *)
Fixpoint try_limbs (chk : bool) (first : St) (limbs : list string) (h : Hlp) (rep : Rep) : Hlp * Rep :=
  match limbs with
  | [] => (h, rep)
  | l :: limbs' =>
    let h := match limbs' with [] => set_checkGen chk h | _ => h end in
    let '(r, post) := generate_contact h l first in
    let rep := assign_report rep r in
    let h := set_postural post h in
    let h := if success rep then set_working (state_assign (working h) (result rep)) h else h in
    try_limbs chk first limbs' h rep
  end.

(** contact_generation.cc:773-840 *)
Fixpoint gen_loop (chk : bool) (q : list (St * list string)) (h : Hlp) (rep : Rep) : Rep * Hlp :=
  match q with
  | [] => (rep, set_checkGen chk h)
  | (first, limbs) :: q' =>
    if success rep then (rep, set_checkGen chk h) else
    let nolimb := bool_decide (limbs = []) in
    let h := if nolimb && chk && ((2 <=? nbContacts (working h))%Z || stableForOne h) &&
                (thr h <=? isStable S (working h))%Z
             then set_working (with_stable true (working h)) h else h in
    if nolimb && (stable (working h) || negb chk) && (2 <=? nbContacts (working h))%Z then
      (mkReport true (state_assign (result rep) (working h)) STABLE_CONTACT, h)
    else
      let '(h, rep) := try_limbs chk first limbs (set_checkGen false h) rep in
      gen_loop chk q' h rep
  end.

(** contact_generation.cc:764-841; gen_contacts_combinatorial (356-380) uses the
    free effectors of the working state, sorted *)
Definition gen_contacts (h : Hlp) : Rep * Hlp :=
  let free := sortLimbs (order (working h)) (freeEffectors (working h) (limbNames S)) in
  gen_loop (checkGen h) (gen_contacts_combinatorial free (working h) (maxCreations h) (maximise h))
    h fresh_report.

(** contact_generation.cc:857-915: the loop over the old order.  The test
    [rep.status_ == STABLE_CONTACT || REACHABLE_CONTACT] is always true
    (REACHABLE_CONTACT is the constant 3), so the first member of the group is
    always accepted.  State: result, popped contacts (stack), name of the last
    contact tried, helper; returns also the rest of oldOrder. *)
Fixpoint reposition_loop (oldOrder : list string) (res : St) (popped : list string) (name : string)
    (h : Hlp) : St * list string * string * list string * Hlp :=
  match oldOrder with
  | [] => (res, popped, name, [], h)
  | x :: old' =>
    if stable res then (res, popped, name, oldOrder, h) else
    match groupOf S x with
    | [] =>
      reposition_loop old' (with_configuration (configuration (previous h)) res) (x :: popped) name h
    | c :: _ =>
      let res := snd (RemoveContact c res) in
      let h := set_working (state_assign (working h) res) h in
      let '(rep, post) := generate_contact h c (working h) in
      reposition_loop old' (state_assign res (result rep)) popped c (set_postural post h)
    end
  end.

(** contact_generation.cc:843-928 *)
Definition repositionContacts (h : Hlp) : Rep * Hlp :=
  let res0 := with_stable false (working h) in
  let '(res, popped, name, rest, h) := reposition_loop (order res0) res0 [] ""%string h in
  let newOrder := popped ++ rest in
  if stable res then
    (mkReport true (state_assign fresh_state (with_order (newOrder ++ [name]) res)) STABLE_CONTACT, h)
  else
    (mkReport false (state_assign fresh_state (with_order newOrder res)) NO_CONTACT, h).

(** algorithm.cc:65-95 *)
Definition genContactFromOneMaintainCombinatorial (h : Hlp) : Rep * Hlp :=
  let '(rep, h) := maintain_contacts h in
  if success rep then gen_contacts (set_working (state_assign (working h) (result rep)) h)
  else (rep, h).

(** The relation of [contactCreations]/[contactBreaks], see StateModel.v *)
Variable moved : Pos -> Pos -> bool.

(** reports.hh:51-58 and algorithm.cc:50-63 *)
Record contact_report := mkContactReport {
  cr_rep : Rep;
  contactMaintained : bool;
  multipleBreaks : bool;
  contactCreated : bool;
  repositionedInPlace : bool
}.
Definition generateContactReport (parent : Rep) (h : Hlp) (repositioned : bool) : contact_report :=
  let breaks := length (contactBreaks moved (result parent) (previous h)) in
  mkContactReport parent (negb repositioned && (breaks =? 0)) (maxBreaks h <? breaks)
    (0 <? length (contactCreations moved (result parent) (previous h))) repositioned.

(** algorithm.cc:99-108 *)
Definition handleFailure (h : Hlp) : contact_report * Hlp :=
  let '(rep, h) := repositionContacts (set_working (state_assign (working h) (previous h)) h) in
  (generateContactReport rep h true, h).

(** algorithm.cc:113-114, the do-while loop; [None]: not finished within [fuel]
    iterations *)
Fixpoint step_loop (fuel : nat) (rep : Rep) (h : Hlp) : option (Rep * Hlp) :=
  match fuel with
  | O => None
  | Datatypes.S f =>
    let '(r, h) := genContactFromOneMaintainCombinatorial h in
    let rep := assign_report rep r in
    if negb (success rep) && negb (bool_decide (cands h = []))
    then step_loop f rep h else Some (rep, h)
  end.

(** algorithm.cc:110-121 *)
Definition oneStep (fuel : nat) (h : Hlp) : option (contact_report * Hlp) :=
  match step_loop fuel fresh_report h with
  | None => None
  | Some (rep, h) =>
    Some (if success rep then (generateContactReport rep h false, h) else handleFailure h)
  end.

(** contact_generation.cc:35-70 *)
Definition new_helper (prev : St) (c : Cfg) (t : Z) (breaks creations : nat)
    (chkMaintain chkGen ifFails one : bool) (post : bool) : Hlp :=
  mkHelper prev (with_stable false (with_configuration c (state_copy prev))) []
    chkMaintain chkGen ifFails one t breaks creations false true true false post.
Definition with_reach (test qs : bool) (h : Hlp) : Hlp :=
  mkHelper (previous h) (working h) (cands h) (checkMaintain h) (checkGen h) (contactIfFails h)
    (stableForOne h) (thr h) (maxBreaks h) (maxCreations h) qs test
    (maximise h) (acceptUnreach h) (postural h).

(** algorithm.cc:123-134 *)
Definition ContactExistsWithinGroup (limb : string) (cur : St) : bool :=
  existsb (fun l => has l (positions cur)) (groupOf S limb).

(** algorithm.cc:136-192.  [status_ == STABLE_CONTACT || REACHABLE_CONTACT] is
    always true: [stable] is set whatever the outcome. *)
Definition ComputeStableContact (cur : St) (limb : string) (t : Z) (ifFails one chkGen post : bool)
  : status * St * bool :=
  let h := with_reach false false
             (new_helper cur (configuration cur) t 1 1 false chkGen ifFails one post) in
  let '(rep, post) := generate_contact h limb cur in
  (rstatus rep, with_stable true (state_assign cur (result rep)), post).

(** algorithm.cc:213-230: the limbs in name order; [checkStabilityGenerate] is
    only set by the limb of index size-1, if its group is free *)
Fixpoint compute_limbs (t : Z) (limbs : list string) (cur : St) (post : bool) : St * bool :=
  match limbs with
  | [] => (cur, post)
  | l :: limbs' =>
    let '(cur, post) :=
      if ContactExistsWithinGroup l cur then (cur, post)
      else let '(_, cur, post) :=
             ComputeStableContact cur l t false false (bool_decide (limbs' = [])) post in (cur, post) in
    compute_limbs t limbs' (with_nb (Z.of_nat (size (normals cur))) cur) post
  end.

(** algorithm.cc:194-233 *)
Definition ComputeContacts_initial (cfg : Cfg) (t : Z) (post : bool) : St * bool :=
  compute_limbs t (limbNames S) (with_configuration cfg fresh_state) post.

(** algorithm.cc:235-275 *)
Definition ComputeContacts_next (fuel : nat) (prev : St) (cfg : Cfg) (t : Z) (test qs post : bool)
  : option (contact_report * Hlp) :=
  let h := with_reach test qs (new_helper prev cfg t 1 1 false true false false post) in
  match oneStep fuel h with
  | None => None
  | Some (cr, h) =>
    let r := cr_rep cr in
    let r := if success r
             then mkReport true (with_configuration (copyExtra S (configuration (result r)) cfg) (result r))
                    (rstatus r)
             else r in
    Some (mkContactReport r (contactMaintained cr) (multipleBreaks cr) (contactCreated cr)
            (repositionedInPlace cr), h)
  end.
End Gen.
