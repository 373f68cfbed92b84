From Coq Require Import Reals.
From Verif Require Import SampModel ReachSpec StabProofs2 ReachProofs ReachProofs2 ReachProofs3 ReachProofs4 ReachProofs5 ReachProofs6 ReachExamples.
From Verif Require Import StateModel.
Local Open Scope R_scope.

(** * C96: kinematic constraints loaded from a mesh *)
Theorem C96_loaded m d NV : loadConstraintsFromObj (Some m) d = Ok NV ->
  forall T p, inside NV T p <-> inside_mesh m (in_frame T p) /\ (0 < d -> d <= vz (in_frame T p)).
Proof. exact (loaded_mesh m d NV). Qed.
Print Assumptions C96_loaded.
Theorem C96_defined m d : mesh_ok m -> exists NV, loadConstraintsFromObj (Some m) d = Ok NV.
Proof. exact (loaded_defined m d). Qed.
Print Assumptions C96_defined.
(** a missing file gives no constraint at all *)
Theorem C96_missing d : exists NV, loadConstraintsFromObj None d = Ok NV /\ forall T p, inside NV T p.
Proof. exact (missing_all d). Qed.
Print Assumptions C96_missing.
Theorem C96_verified NV T p : is_rotation (rot T) -> verifyAtTransform NV T p = true <-> inside NV T p.
Proof. exact (verify_inside NV T p). Qed.
Print Assumptions C96_verified.
(** the answer does not depend on the world frame *)
Theorem C96_moved NV G T p : is_rotation (rot G) -> inside NV (se3mul G T) (se3act G p) <-> inside NV T p.
Proof. exact (inside_moved NV G T p). Qed.
Print Assumptions C96_moved.
(** a mesh on whose vertices the constraints hold contains its convex hull *)
Theorem C96_hull m p : (forall v, v ∈ verts m -> inside_mesh m v) -> in_hull (verts m) p -> inside_mesh m p.
Proof. exact (hull_inside m p). Qed.
Print Assumptions C96_hull.
Example C96_case : mesh_ok extetra /\ (forall v, v ∈ verts extetra -> inside_mesh extetra v) /\
  ~ inside_mesh extetra (V3 1 1 1) /\ in_hull (verts extetra) (V3 (1/4) (1/4) (1/4)).
Proof. exact ex_tetra. Qed.

(** * C97: the kinematic constraints of a state are those of its limbs in contact *)
Theorem C97_state B : lawful_body B -> forall s Ab, computeKinematicsConstraintsForState B s = Ok Ab ->
  forall x, feasible Ab x <-> within_reach B s x.
Proof. exact (state_kinematics B). Qed.
Print Assumptions C97_state.
Theorem C97_verify B : lawful_body B -> forall s x b, verifyKinematicConstraints B s x = Ok b -> (b = true <-> within_reach B s x).
Proof. exact (verify_state B). Qed.
Print Assumptions C97_verify.
Theorem C97_all B : lawful_body B -> forall q x, feasible (computeAllKinematicsConstraints B q) x <->
  forall e l, rlimbs B !! e = Some l -> inside (rkin l) (reffpose l q) x.
Proof. exact (all_kinematics B). Qed.
Print Assumptions C97_all.
Theorem C97_limb B : lawful_body B -> forall s e Ab, computeKinematicsConstraintsForLimb B s e = Ok Ab ->
  forall x, feasible Ab x <->
    (contacts s !! e = Some true -> forall l, rlimbs B !! e = Some l -> inside (rkin l) (reffpose l (configuration s)) x).
Proof. exact (limb_kinematics B). Qed.
Print Assumptions C97_limb.
Theorem C97_throws B s : (known_limbs B s <-> exists Ab, computeKinematicsConstraintsForState B s = Ok Ab) /\
  (computeKinematicsConstraintsForState B s = Throw <-> ~ known_limbs B s).
Proof. exact (kinematics_outcome B s). Qed.
Print Assumptions C97_throws.
Example C97_case : lawful_body exbody /\ known_limbs exbody (exLR 0) /\ within_reach exbody (exLR 0) (V3 0 0 1) /\
  ~ within_reach exbody (exLR 0) (V3 0 0 3).
Proof. exact ex_kinematics. Qed.

(** * C98: the balance constraints on the centre of mass *)
Theorem C98_rows lib B k acc Ab : computeStabilityConstraints lib B k acc = Some Ab -> nonzero_rows lib k ->
  forall x, feasible Ab x <-> balanced_at lib (rmass B) k acc x.
Proof. exact (balance_rows lib B k acc Ab). Qed.
Print Assumptions C98_rows.
Example C98_case : exists k Ab, computeContactConeForState exaxis exlib exbody (exLR 0) = Ok (Some k) /\
  computeStabilityConstraints exlib exbody k vzero = Some Ab /\ nonzero_rows exlib k /\
  feasible Ab (V3 0 0 1) /\ ~ feasible Ab (V3 0 (-1) 1).
Proof. exact ex_balance. Qed.

(** * C99: statuses of the reachability test *)
Theorem C99_statuses axis lib B qp prev next acc ui r : isReachable axis lib B qp prev next acc ui = Ok r ->
  (rstatus r = NO_CONTACT_VARIATION <-> none_varies prev next) /\
  (rstatus r = TOO_MANY_CONTACTS_VARIATION <-> several_vary prev next) /\
  rstatus r <> SAME_ROOT_POSITION /\ rstatus r <> QUASI_STATIC /\
  (rstatus r = CONTACT_BREAK_FAILED \/ rstatus r = CONTACT_CREATION_FAILED -> ui = true /\ exists e, only_moved prev next e).
Proof. exact (reach_statuses axis lib B qp prev next acc ui r). Qed.
Print Assumptions C99_statuses.
Theorem C99_defined axis lib B qp prev next acc : complete_state B prev -> complete_state B next ->
  exists r, isReachable axis lib B qp prev next acc false = Ok r /\ (working_lib lib -> rstatus r <> UNABLE_TO_COMPUTE).
Proof. exact (reach_defined axis lib B qp prev next acc). Qed.
Print Assumptions C99_defined.
(** with an empty queue of contacts in the state with fewer contacts, its front is read *)
Theorem C99_empty_queue axis lib B qp prev next acc ui e :
  (only_broken prev next e -> order next = [] -> isReachable axis lib B qp prev next acc ui = Ub) /\
  (only_created prev next e -> order prev = [] -> isReachable axis lib B qp prev next acc ui = Ub).
Proof. exact (conj (reach_empty_queue_broken axis lib B qp prev next acc ui e) (reach_empty_queue_created axis lib B qp prev next acc ui e)). Qed.
Print Assumptions C99_empty_queue.
Example C99_case : complete_state exbody (exLR 0) /\ complete_state exbody exL /\ working_lib exlib /\
  only_broken (exLR 0) exL "rf" /\ only_created exL (exLR 0) "rf" /\ only_moved (exLR 0) (exLR 1) "rf".
Proof. exact (conj (exLR_complete 0) (conj exL_complete (conj exlib_works (conj ex_broken (conj ex_created ex_moved))))). Qed.

(** * C100: reachable exactly when a centre of mass fits both states; the point reported is
    the nearest to the one aimed at *)
Theorem C100_broken axis lib B qp : lawful_body B -> good_polytopes lib -> sound_qp qp -> complete_qp qp ->
  forall prev next acc ui r e, isReachable axis lib B qp prev next acc ui = Ok r -> only_broken prev next e ->
  rstatus r <> UNABLE_TO_COMPUTE ->
  let ok y := state_balanced axis lib B next acc y /\ within_reach B prev y in
  (rstatus r = REACHABLE <-> exists y, ok y) /\
  (rstatus r = REACHABLE \/ rstatus r = UNREACHABLE) /\
  (rstatus r = REACHABLE -> ok (resx r) /\
    (flags_ok prev -> flags_ok next -> same_placement B prev next -> within_reach B next (resx r)) /\
    exists c, aim B prev next next c /\ forall y, ok y -> dist3 (resx r) c <= dist3 y c).
Proof. exact (reach_broken axis lib B qp). Qed.
Print Assumptions C100_broken.
Theorem C100_created axis lib B qp : lawful_body B -> good_polytopes lib -> sound_qp qp -> complete_qp qp ->
  forall prev next acc ui r e, isReachable axis lib B qp prev next acc ui = Ok r -> only_created prev next e ->
  rstatus r <> UNABLE_TO_COMPUTE ->
  let ok y := state_balanced axis lib B prev acc y /\ within_reach B next y in
  (rstatus r = REACHABLE <-> exists y, ok y) /\
  (rstatus r = REACHABLE \/ rstatus r = UNREACHABLE) /\
  (rstatus r = REACHABLE -> ok (resx r) /\
    (flags_ok prev -> flags_ok next -> same_placement B prev next -> within_reach B prev (resx r)) /\
    exists c, aim B prev next prev c /\ forall y, ok y -> dist3 (resx r) c <= dist3 y c).
Proof. exact (reach_created axis lib B qp). Qed.
Print Assumptions C100_created.
Theorem C100_moved axis lib B qp : lawful_body B -> good_polytopes lib -> sound_qp qp -> complete_qp qp ->
  forall prev next acc r e, isReachable axis lib B qp prev next acc false = Ok r -> only_moved prev next e ->
  rstatus r <> UNABLE_TO_COMPUTE ->
  let ok y := state_balanced axis lib B prev acc y /\ within_reach B prev y /\
              state_balanced axis lib B next acc y /\ within_reach B next y in
  (rstatus r = REACHABLE <-> exists y, ok y) /\
  (rstatus r = REACHABLE \/ rstatus r = UNREACHABLE) /\
  (rstatus r = REACHABLE -> ok (resx r) /\
    exists c, aim B prev next (snd (RemoveContact e prev)) c /\ forall y, ok y -> dist3 (resx r) c <= dist3 y c).
Proof. exact (reach_moved axis lib B qp). Qed.
Print Assumptions C100_moved.
Example C100_laws : lawful_body exbody /\ good_polytopes exlib /\ sound_qp exqp /\ complete_qp exqp.
Proof. exact (conj exbody_lawful (conj exlib_good (conj exqp_sound exqp_complete))). Qed.
Example C100_broken_case : exists r, isReachable exaxis exlib exbody exqp (exLR 0) exL vzero false = Ok r /\ rstatus r = REACHABLE.
Proof. exact ex_reach_broken. Qed.
Example C100_created_case : exists r, isReachable exaxis exlib exbody exqp exL (exLR 0) vzero false = Ok r /\ rstatus r = REACHABLE.
Proof. exact ex_reach_created. Qed.
Example C100_moved_case : exists r, isReachable exaxis exlib exbody exqp (exLR 0) (exLR 1) vzero false = Ok r /\ rstatus r = REACHABLE.
Proof. exact ex_reach_moved. Qed.
Example C100_flags : flags_ok (exLR 0) /\ flags_ok exL /\ same_placement exbody (exLR 0) exL.
Proof. exact ex_flags. Qed.
Print Assumptions C100_laws.

(** * C101: the test through an intermediate state *)
Theorem C101_intermediate axis lib B qp prev mid next r : isReachableIntermediate axis lib B qp prev mid next = Ok r ->
  exists rb rc, isReachable axis lib B qp prev mid vzero false = Ok rb /\ isReachable axis lib B qp mid next vzero false = Ok rc /\
  let reached x := rstatus x = REACHABLE \/ rstatus x = NO_CONTACT_VARIATION in
  (rstatus r = REACHABLE <-> reached rb /\ reached rc) /\
  (rstatus r = UNREACHABLE <-> rstatus rb = UNREACHABLE /\ rstatus rc = UNREACHABLE) /\
  (rstatus r = CONTACT_BREAK_FAILED <-> ~ reached rb /\ ~ (rstatus rb = UNREACHABLE /\ rstatus rc = UNREACHABLE)) /\
  (rstatus r = CONTACT_CREATION_FAILED <-> reached rb /\ ~ reached rc) /\
  (rstatus r = REACHABLE -> resx r = vscale (/ 2) (vadd (resx rb) (resx rc)) /\ xBreak r = resx rb /\ xCreate r = resx rc).
Proof. exact (intermediate_cases axis lib B qp prev mid next r). Qed.
Print Assumptions C101_intermediate.
(** when nothing is broken the first point is the origin, and the point reported is half-way
    to it *)
Theorem C101_no_break axis lib B qp prev next r : isReachableIntermediate axis lib B qp prev prev next = Ok r ->
  rstatus r = REACHABLE -> xBreak r = vzero /\ resx r = vscale (/ 2) (xCreate r).
Proof. exact (intermediate_no_break axis lib B qp prev next r). Qed.
Print Assumptions C101_no_break.
(** the acceleration is not used *)
Theorem C101_acceleration axis lib B qp prev next acc acc' e : only_moved prev next e ->
  isReachable axis lib B qp prev next acc true = isReachable axis lib B qp prev next acc' true.
Proof. exact (reposition_ignores_acc axis lib B qp prev next acc acc' e). Qed.
Print Assumptions C101_acceleration.
Example C101_case : exists r, isReachableIntermediate exaxis exlib exbody exqp (exLR 0) exL (exLR 0) = Ok r /\ rstatus r = REACHABLE.
Proof. exact ex_intermediate. Qed.
Example C101_no_break_case : exists r, isReachableIntermediate exaxis exlib exbody exqp exL exL (exLR 0) = Ok r /\ rstatus r = REACHABLE.
Proof. exact ex_no_break. Qed.

(** * C102: the cases the dynamic test answers without computing *)
Theorem C102_guards axis lib B qp solveTraj prev next qs tm np r q' :
  isReachableDynamic axis lib B qp solveTraj prev next qs tm np = Ok (r, q') ->
  let answers st := rstatus r = st /\ rpath r = None /\ rtimings r = [] /\ rphases r = [] /\ q' = configuration next in
  (head3 (configuration prev) = head3 (configuration next) -> answers SAME_ROOT_POSITION) /\
  (head3 (configuration prev) <> head3 (configuration next) ->
    (none_varies prev next -> answers NO_CONTACT_VARIATION) /\
    (several_lost prev next \/ several_made prev next -> answers TOO_MANY_CONTACTS_VARIATION) /\
    (~ none_varies prev next -> ~ several_lost prev next -> ~ several_made prev next ->
       (~ some_lost prev next /\ (nbContacts prev <= 1)%Z) \/ (~ some_made prev next /\ (nbContacts next <= 1)%Z) ->
       answers UNABLE_TO_COMPUTE)).
Proof. exact (guards axis lib B qp solveTraj prev next qs tm np r q'). Qed.
Print Assumptions C102_guards.
Theorem C102_defined axis lib B qp solveTraj prev next tm npts : complete_state B prev -> complete_state B next ->
  let n := (rconfSize B - rextra B + 6)%nat in
  (n <= length (configuration prev))%nat -> (n <= length (configuration next))%nat ->
  exists r, isReachableDynamic axis lib B qp solveTraj prev next false tm npts = Ok r.
Proof. exact (dynamic_defined axis lib B qp solveTraj prev next tm npts). Qed.
Print Assumptions C102_defined.
Example C102_case : exists r q', isReachableDynamic exaxis exlib exbody exqp exsolve exL (exLR 0) false [] 0 = Ok (r, q') /\
  rstatus r = SAME_ROOT_POSITION.
Proof. exact ex_guard. Qed.

(** * C103: otherwise, the quasi-static answer or the first durations that work *)
Theorem C103_dynamic axis lib B qp solveTraj : lawful_body B -> forall prev next qs tm npts r q',
  isReachableDynamic axis lib B qp solveTraj prev next qs tm npts = Ok (r, q') ->
  head3 (configuration prev) <> head3 (configuration next) /\ ~ none_varies prev next /\
  ~ several_lost prev next /\ ~ several_made prev next /\
  ~ (~ some_lost prev next /\ (nbContacts prev <= 1)%Z) /\ ~ (~ some_made prev next /\ (nbContacts next <= 1)%Z) ->
  let answers st := rstatus r = st /\ rpath r = None /\ rtimings r = [] /\ rphases r = [] /\ q' = configuration next in
  exists mid, state_between prev next mid /\
  let idv := (rconfSize B - rextra B)%nat in
  ((qs = true /\ exists ri, isReachableIntermediate axis lib B qp prev mid next = Ok ri /\ success ri = true /\
      rstatus r = QUASI_STATIC /\ resx r = resx ri /\ q' = configuration next /\
      rpath r = Some (mkCP [rcom B (configuration prev); resx ri; rcom B (configuration next)] (configuration prev) (configuration next) 0 1)) \/
   (answers UNABLE_TO_COMPUTE /\ exists s, (s = prev \/ s = mid \/ s = next) /\ computeContactConeForState axis lib B s = Ok None) \/
   exists n ps,
     ((some_lost prev next /\ some_made prev next /\ n = 3%nat) \/ (~ (some_lost prev next /\ some_made prev next) /\ n = 2%nat)) /\
     Forall2 (phase_of axis lib B) (if (n =? 3)%nat then [prev; mid; next] else [prev; next]) ps /\
     let pb := mkProblem ps (rcom B (configuration prev)) (rcom B (configuration next))
                 (vec_at (configuration prev) idv) (vec_at (configuration next) idv) in
     let run t := solveTraj pb t (if (0 <? npts)%Z then Some npts else None) in
     ((exists pre t post, tried tm n = (pre ++ t :: post)%list /\ (forall u, u ∈ pre -> tjOk (run u) = false) /\
        tjOk (run t) = true /\ rstatus r = REACHABLE /\ rtimings r = t /\
        with_velocity (configuration next) idv (tjDc1 (run t)) (tjDdc1 (run t)) q' /\
        (exists p, rpath r = Some p /\ cpFrom p = 0 /\ cpTo p = fold_right Rplus 0 t) /\
        contiguous 0 t (rphases r) /\
        (forall p, p ∈ rphases r \/ rpath r = Some p -> cpPoints p = tjPoints (run t) /\ cpInit p = configuration prev /\ cpEnd p = q')) \/
      ((forall u, u ∈ tried tm n -> tjOk (run u) = false) /\ answers UNREACHABLE))).
Proof. exact (dynamic axis lib B qp solveTraj). Qed.
Print Assumptions C103_dynamic.
Example C103_case : exists r q', isReachableDynamic exaxis exlib exbody exqp exsolve (exLR 0) (exLR 1) false [] 0 = Ok (r, q') /\
  rstatus r = REACHABLE /\ rtimings r = [1; 12/10; 1].
Proof. exact ex_dynamic. Qed.
Example C103_hypotheses : head3 (configuration (exLR 0)) <> head3 (configuration (exLR 1)) /\ ~ none_varies (exLR 0) (exLR 1) /\
  ~ several_lost (exLR 0) (exLR 1) /\ ~ several_made (exLR 0) (exLR 1) /\
  ~ (~ some_lost (exLR 0) (exLR 1) /\ (nbContacts (exLR 0) <= 1)%Z) /\ ~ (~ some_made (exLR 0) (exLR 1) /\ (nbContacts (exLR 1) <= 1)%Z).
Proof. exact ex_proceeds. Qed.
