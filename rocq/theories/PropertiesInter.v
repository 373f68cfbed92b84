(** C134-C140: interpolation between contact states (time-constraint-helper.inl, limb-rrt.cc,
    com-rrt.cc, time-constraint-shooter.cc). *)
From Coq Require Import Reals Lra Lia.
From Verif Require Import SampModel TrajModel TrajSpec.
From Verif Require Import Maps Vec StateModel StateSpec StateReal ProjModel ProjSpec InterModel InterSpec
  InterProofs InterProofs2 InterProofs3 InterProofs4 InterEntry ProjExamples InterExamples.
Local Open Scope nat_scope.

Section P.
(** reference paths, and elements of the planner's paths with their first and last
    configurations and the configurations they go through *)
Variables P E : Type.
Variables (einit eend : E -> list R).
Variable on : E -> list R -> Prop.
(** robot, current configuration of its copy with a time, planner, optimizers *)
Variable B : fullbody.
Variable cur : list R.
Variable solve : nat -> nat -> rrtProblem P -> solveResult E.
Variables randomShortcut partialShortcut : nat -> nat -> nat -> rrtProblem P -> list E -> outcome (list E).
(** random shots, further constraints, threshold, iterations, number of optimizations *)
Variables (sf : shooterFactory P) (cf : constraintFactory P) (th : R) (maxIter numOpt : nat).
(** states, and the reference path between two of them *)
Variable X : Type.
Variable get : X -> PSt.
Variable getPath : X -> X -> outcome P.
Notation Inter := (@interpolate P E B cur solve randomShortcut partialShortcut X sf cf th maxIter numOpt get getPath).
Notation Solved_as := (solved_as P E B cur solve randomShortcut partialShortcut sf cf th maxIter numOpt X get getPath).
Notation Unsolved := (unsolved P E B cur solve sf cf th maxIter X get getPath).
Notation All_solved := (all_solved P E B cur solve randomShortcut partialShortcut sf cf th maxIter numOpt X get getPath).
Notation No_failure := (no_failure P E B cur solve randomShortcut partialShortcut sf cf th maxIter numOpt X get getPath).
Notation Sound := (sound_planner P E einit eend on B solve randomShortcut partialShortcut).
Notation Defined_calls := (defined_calls P E cur randomShortcut partialShortcut cf X get getPath).
Notation Asked := (asked P B cur sf cf th maxIter X get getPath).

(** C134.  The path returned is made of the paths of the pairs of consecutive states, in order,
    each one solved and then optimised at the first attempt at which all pairs are solved; it is
    returned as it is, or each of its elements without the time. *)
Theorem C134_result keep states fuel sched l : fair (length states - 1) sched ->
  (Inter keep states fuel sched = Some (IPath E l) <->
   2 <= length states <= 100 /\ exists k segs, k < fuel /\ length segs = length states - 1 /\
     (forall i a b, pair_at X states i a b -> exists seg, segs !! i = Some seg /\ Solved_as k i a b seg) /\
     (forall m, m < k -> No_failure states m /\ ~ All_solved states m) /\
     l = map (if keep then Full E else Reduced E) (concat segs)).
Proof. exact (result P E B cur solve randomShortcut partialShortcut sf cf th maxIter numOpt X get getPath keep states fuel sched l). Qed.
(** with a sound planner the path without time goes from the first state to the last one without
    jump *)
Theorem C134_continuous x0 states fuel sched l : Sound -> fair (length states) sched -> sized cur X get (x0 :: states) ->
  Inter false (x0 :: states) fuel sched = Some (IPath E l) ->
  l <> [] /\ joins (pieceInit E einit) (pieceEnd E eend) (StateModel.configuration (get x0)) (StateModel.configuration (get (List.last states x0))) l.
Proof. exact (fun S => continuous P E einit eend on B cur solve randomShortcut partialShortcut S sf cf th maxIter numOpt X get getPath x0 states fuel sched l). Qed.
(** with the time, each part goes from time 0 to time 1: the time jumps at each state *)
Theorem C134_time states fuel sched l : Sound -> fair (length states - 1) sched -> sized cur X get states ->
  Inter true states fuel sched = Some (IPath E l) ->
  exists segs, length segs = length states - 1 /\ l = map (Full E) (concat segs) /\
    forall i a b, pair_at X states i a b -> exists seg, segs !! i = Some seg /\ seg <> [] /\
      joins einit eend (StateModel.configuration (get a) ++ [0%R]) (StateModel.configuration (get b) ++ [1%R]) seg.
Proof.
  exact (fun S F Z H => match segments P E einit eend on B cur solve randomShortcut partialShortcut S sf cf th maxIter numOpt X get getPath true states fuel sched l F Z H with
    | ex_intro _ segs (conj L (conj El Hp)) => ex_intro _ segs (conj L (conj El (fun i a b Hab => match Hp i a b Hab with
        ex_intro _ seg (conj Hi (conj Hn (conj Hj _))) => ex_intro _ seg (conj Hi (conj Hn Hj)) end))) end).
Qed.

(** C135.  The call ends with a path iff at some attempt all pairs are solved, and nothing else
    than a failure of the planner happened before; as long as some pair is not solved it goes on,
    for ever if the planner never solves some pair. *)
Theorem C135_ends keep states sched : fair (length states - 1) sched ->
  ((exists fuel l, Inter keep states fuel sched = Some (IPath E l)) <->
   2 <= length states <= 100 /\ exists k, All_solved states k /\ forall m, m < k -> No_failure states m).
Proof. exact (ends P E B cur solve randomShortcut partialShortcut sf cf th maxIter numOpt X get getPath keep states sched). Qed.
Theorem C135_running keep states fuel sched : fair (length states - 1) sched ->
  (Inter keep states fuel sched = None <->
   length states <= 100 /\ forall m, m < fuel -> No_failure states m /\ ~ All_solved states m).
Proof. exact (running P E B cur solve randomShortcut partialShortcut sf cf th maxIter numOpt X get getPath keep states fuel sched). Qed.
Theorem C135_never keep states fuel sched i a b pb : fair (length states - 1) sched -> length states <= 100 ->
  pair_at X states i a b -> Asked a b pb -> (forall k, solve k i pb = Solved E None \/ solve k i pb = RuntimeError E \/ solve k i pb = ProjectionError E) ->
  (forall k, No_failure states k) ->
  Inter keep states fuel sched = None.
Proof. exact (never P E B cur solve randomShortcut partialShortcut sf cf th maxIter numOpt X get getPath keep states fuel sched i a b pb). Qed.
(** an exception other than the planner's stops the process; less than two states, or more than
    a hundred, is undefined behaviour *)
Theorem C135_terminates keep states fuel sched : fair (length states - 1) sched -> Defined_calls states ->
  (Inter keep states fuel sched = Some (ITerminate E) <->
   length states <= 100 /\ exists k, k < fuel /\ ~ No_failure states k /\ forall m, m < k -> No_failure states m /\ ~ All_solved states m).
Proof. exact (terminates P E B cur solve randomShortcut partialShortcut sf cf th maxIter numOpt X get getPath keep states fuel sched). Qed.
Theorem C135_too_many keep states fuel sched : 100 < length states -> Inter keep states fuel sched = Some (IUndef E).
Proof. exact (too_many P E B cur solve randomShortcut partialShortcut sf cf th maxIter numOpt X get getPath keep states fuel sched). Qed.
Theorem C135_too_few keep states fuel sched : length states <= 1 -> fair 0 sched -> Inter keep states (S fuel) sched = Some (IUndef E).
Proof. exact (too_few P E B cur solve randomShortcut partialShortcut sf cf th maxIter numOpt X get getPath keep states fuel sched). Qed.

(** C136.  The order in which the threads treat the pairs does not matter. *)
Theorem C136_any_order keep states fuel sched1 sched2 : fair (length states - 1) sched1 -> fair (length states - 1) sched2 ->
  Defined_calls states ->
  Inter keep states fuel sched1 = Inter keep states fuel sched2.
Proof. exact (any_order P E B cur solve randomShortcut partialShortcut sf cf th maxIter numOpt X get getPath keep states fuel sched1 sched2). Qed.

(** C140.  Between two states the planner is asked a path from the first configuration at time 0
    to the second one at time 1, with the constraints of the contacts common to both (within the
    threshold) and no other than those of the factory, shooting the limbs without such contact. *)
Theorem C140_problem (ref : P) from to pb : S (length (StateModel.configuration from)) = length cur -> S (length (StateModel.configuration to)) = length cur ->
  problemBetween P B cur sf cf th maxIter ref from to = Ok pb ->
  rStart P pb = StateModel.configuration from ++ [0%R] /\ rGoal P pb = StateModel.configuration to ++ [1%R] /\
  thr (rProj P pb) = th /\ iters (rProj P pb) = 1000 /\ rIter P pb = maxIter /\
  rShootPath P pb = (match sf with LimbShooter _ => ref | ComShooter _ g => g | EffectorShooter _ g => g end) /\
  (forall n, n ∈ rShootLimbs P pb <->
     (match sf with EffectorShooter _ _ => False | _ => is_Some (limbsOf B !! n) /\ ~ stays from to n end)) /\
  exists more tds, cf = Ok (more, tds) /\ rTds P pb = tds /\
  (forall c, c ∈ cs (rProj P pb) <-> c ∈ more \/ exists n le, stays from to n /\ contactConstraint B from n = Ok le /\ c ∈ le).
Proof. exact (problem_content P B cur sf cf th maxIter ref from to pb). Qed.
Theorem C140_defined (ref : P) from to : length (StateModel.configuration from) < length cur -> length (StateModel.configuration to) < length cur ->
  ((exists pb, problemBetween P B cur sf cf th maxIter ref from to = Ok pb) <-> known_common B from to /\ exists more, cf = Ok more).
Proof. exact (problem_defined P B cur sf cf th maxIter ref from to). Qed.
(** with a sound planner, all along the path from one state to the next the contacts common to
    both are held *)
Theorem C140_held keep states fuel sched l : Sound -> lawful_robot (dev B) -> fair (length states - 1) sched -> sized cur X get states ->
  (keep = false -> time_is_extra (dev B) (pred (length cur))) ->
  Inter keep states fuel sched = Some (IPath E l) ->
  exists segs, length segs = length states - 1 /\ l = concat segs /\
    forall i a b, pair_at X states i a b -> exists seg, segs !! i = Some seg /\ seg <> [] /\
      forall p q n, p ∈ seg -> onPiece E on p q -> stays (get a) (get b) n -> contact_held B th (get a) q n.
Proof. exact (fun S LR => held P E einit eend on B cur solve randomShortcut partialShortcut S sf cf th maxIter numOpt X get getPath keep states fuel sched l LR). Qed.
End P.
Print Assumptions C134_result.
Print Assumptions C134_continuous.
Print Assumptions C134_time.
Print Assumptions C135_ends.
Print Assumptions C135_running.
Print Assumptions C135_never.
Print Assumptions C135_terminates.
Print Assumptions C135_too_many.
Print Assumptions C135_too_few.
Print Assumptions C136_any_order.
Print Assumptions C140_problem.
Print Assumptions C140_defined.
Print Assumptions C140_held.

(** three states, the planner finds nothing at the first attempt *)
Example C134_case keep : fair (length istates - 1) isched /\ sized icur PSt (fun s => s) istates /\
  sound_planner unit iE fst snd ion ebody isolve ishort ishort /\
  iInter keep istates 2 isched = Some (IPath iE (map (if keep then Full iE else Reduced iE)
    [(eq0 ++ [0%R], iq1 ++ [1%R]); (iq1 ++ [0%R], eq0 ++ [1%R])])).
Proof. split; [exact ifair|]. split; [exact isized|]. split; [exact isound|exact (ex_inter keep)]. Qed.
Example C135_never_case keep fuel : interpolate unit iE ebody icur (fun _ _ _ => RuntimeError iE) ishort ishort (LimbShooter unit) (contactsOnly unit) (1/1000) 0 3 (fun s : PSt => s) ipath keep istates fuel isched = None.
Proof. exact (ex_never keep fuel). Qed.
Example C135_terminates_case keep : interpolate unit iE ebody icur isolve (fun _ _ _ _ _ => Throw) ishort (LimbShooter unit) (contactsOnly unit) (1/1000) 0 3 (fun s : PSt => s) ipath keep istates 2 isched = Some (ITerminate iE).
Proof. exact (ex_terminate keep). Qed.
Example C136_case keep : fair (length istates - 1) isched /\ fair (length istates - 1) isched2 /\
  defined_calls unit iE icur ishort ishort (contactsOnly unit) PSt (fun s => s) ipath istates /\
  iInter keep istates 2 isched2 = Some (IPath iE (iresult keep)).
Proof. split; [exact ifair|]. split; [exact ifair2|]. split; [exact idefined|exact (ex_other_order keep)]. Qed.
Example C140_case : lawful_robot (dev ebody) /\ time_is_extra (dev ebody) (pred (length icur)) /\
  stays estate istate1 "leg" /\ ~ stays estate istate1 "arm".
Proof. exact (conj erobot_lawful (conj itime istays_leg)). Qed.

(** The library's calls: limbRRT and limbRRTFromPath shoot along the reference path between the two
    states (that of the steering method, or the part of the path given between their times), and
    comRRTFromPath along the guide; the contacts are kept up to 1 mm; only limbRRT bounds the
    iterations of the planner; the time is removed from the result. *)
Theorem C140_limbRRT P E B cur solve randomShortcut partialShortcut numOpt steer states maxIter fuel sched l :
  sized cur PSt (fun s => s) states -> fair (length states - 1) sched ->
  limbRRT P E B cur solve randomShortcut partialShortcut steer states numOpt maxIter fuel sched = Some (IPath E l) ->
  exists k segs, length segs = length states - 1 /\ l = map (Reduced E) (concat segs) /\
    forall i a b, pair_at PSt states i a b -> exists seg ref, segs !! i = Some seg /\
      steer (StateModel.configuration a) (StateModel.configuration b) = Ok ref /\
      part P E B solve randomShortcut partialShortcut numOpt (1 / 1000)%R maxIter k i ref a b seg.
Proof. exact (limb_parts P E B cur solve randomShortcut partialShortcut numOpt steer states maxIter fuel sched l). Qed.
Theorem C140_limb_from_path P E B cur solve randomShortcut partialShortcut numOpt extract states fuel sched l :
  sized cur (R * PSt) snd states -> fair (length states - 1) sched ->
  limbRRTFromPath P E B cur solve randomShortcut partialShortcut extract states numOpt fuel sched = Some (IPath E l) ->
  exists k segs, length segs = length states - 1 /\ l = map (Reduced E) (concat segs) /\
    forall i a b, pair_at (R * PSt) states i a b -> exists seg ref, segs !! i = Some seg /\
      extract (fst a) (fst b) = Ok ref /\
      part P E B solve randomShortcut partialShortcut numOpt (1 / 1000)%R 0 k i ref (snd a) (snd b) seg.
Proof. exact (limb_from_path_parts P E B cur solve randomShortcut partialShortcut numOpt extract states fuel sched l). Qed.
Theorem C140_com_from_path P E B cur solve randomShortcut partialShortcut numOpt extract guide states fuel sched l :
  sized cur (R * PSt) snd states -> fair (length states - 1) sched ->
  comRRTFromPath P E B cur solve randomShortcut partialShortcut extract guide states numOpt fuel sched = Some (IPath E l) ->
  exists k segs, length segs = length states - 1 /\ l = map (Reduced E) (concat segs) /\
    forall i a b, pair_at (R * PSt) states i a b -> exists seg ref, segs !! i = Some seg /\
      extract (fst a) (fst b) = Ok ref /\
      part P E B solve randomShortcut partialShortcut numOpt (1 / 1000)%R 0 k i guide (snd a) (snd b) seg.
Proof. exact (com_from_path_parts P E B cur solve randomShortcut partialShortcut numOpt extract guide states fuel sched l). Qed.
Print Assumptions C140_limbRRT.
Print Assumptions C140_limb_from_path.
Print Assumptions C140_com_from_path.
Example C140_entries_case : (exists l, limbRRT unit iE ebody icur isolve ishort ishort isteer [estate; istate1] 2 10 2 ione = Some (IPath iE l)) /\
  (exists l, limbRRTFromPath unit iE ebody icur isolve ishort ishort iextract itimed 2 2 ione = Some (IPath iE l)) /\
  exists l, comRRTFromPath unit iE ebody icur isolve ishort ishort iextract tt itimed 2 2 ione = Some (IPath iE l).
Proof. exact ex_entries. Qed.

(** C137.  A random configuration: the time is random, the entries the limbs' samples do not
    describe are those of the path at that time (a fraction [u] of its range), the others come
    from one sample per limb, drawn among all but the last one; the time dependent constraints
    have their values at this time.  A limb with less than two samples makes it throw. *)
Theorem C137_shoot (at_ : R -> list R) a b rank tds limbs u rs w : length (at_ ((b - a) * u + a)%R) = rank -> length limbs <= length rs ->
  samples_fit limbs rank ->
  ((exists ss, ss ∈ limbs /\ length ss <= 1) -> shoot (at_, a, b) rank tds limbs u rs w = Throw) /\
  ((forall ss, ss ∈ limbs -> 2 <= length ss) ->
   exists l q' w', shoot (at_, a, b) rank tds limbs u rs w = Ok (q', w') /\
     drawn limbs rs l /\ loaded l (at_ (a + u * (b - a))%R ++ [u]) q' /\ length q' = S rank /\ q' !! rank = Some u /\
     (forall k, k < rank -> outside_limbs limbs k -> q' !! k = at_ (a + u * (b - a))%R !! k) /\
     rightHandSides tds u w w').
Proof. exact (shot at_ a b rank tds limbs u rs w). Qed.
Print Assumptions C137_shoot.
Theorem C137_never_last limbs rs l : drawn limbs rs l -> Forall2 (fun ss s => exists j, j < length ss - 1 /\ ss !! j = Some s) limbs l.
Proof. exact (never_last limbs rs l). Qed.
Print Assumptions C137_never_last.
Example C137_case : samples_fit ilimbs 9 /\ (forall ss, ss ∈ ilimbs -> 2 <= length ss) /\
  shoot (iat, 2, 4)%R 9 [] ilimbs (1/2)%R [5; 3] (fun _ => []) =
  Ok ([((4 - 2) * (1/2) + 2); 0; 1; 0; 0; 0; 1; 2; 4; 1/2]%R, fun _ => []).
Proof. split; [exact ifit|]. split; [exact ienough|exact ex_shoot]. Qed.

(** C138.  Projecting a state on a centre of mass: the configuration has the size of the robot's
    and the extra degrees of freedom of the state; if the answer is yes, the contacts of the state
    are held and the centre of mass is where asked, up to 1e-3.  It throws if a contact is unknown. *)
Theorem C138_project (proj : projector -> list R -> bool * list R) B size extra junk model target :
  length (StateModel.configuration model) = size -> extra <= size ->
  (forall p q, length (snd (proj p q)) = length q) ->
  (known_contacts B model -> exists ok q, projectOnCom proj B size extra junk model target = Ok (ok, q) /\
     length q = size /\ drop (size - extra) q = drop (size - extra) (StateModel.configuration model) /\
     (ok = true -> sound_solver (dev B) proj -> lawful_robot (dev B) -> extra_dofs (dev B) (size - extra) ->
        (forall e, contact_held B (1 / 1000) model q e) /\ (dist3 (comOf (dev B) q) target <= 1 / 1000)%R)) /\
  (~ known_contacts B model -> projectOnCom proj B size extra junk model target = Throw).
Proof. exact (project_on_com proj B size extra junk model target). Qed.
Print Assumptions C138_project.
Example C138_case : known_contacts ebody imodel /\ sound_solver (dev ebody) check /\ lawful_robot (dev ebody) /\ extra_dofs (dev ebody) (11 - 2) /\
  (forall p q, length (snd (check p q)) = length q) /\ exists q, projectOnCom check ebody 11 2 9 imodel (V3 0 0 1) = Ok (true, q).
Proof.
  split; [exact imodel_known|]. split; [exact check_sound|]. split; [exact erobot_lawful|]. split; [exact iextra|].
  split; [exact check_size|exact ex_project_on_com].
Qed.

(** C139.  comRRT does not follow the path of the centre of mass: it is only cut, and any other
    one that can be cut gives the same path. *)
Theorem C139_ignored P E B cur solve randomShortcut partialShortcut steer free guideOf range1 extract1 range2 extract2 start next numOpt keep fuel1 fuel sched1 sched p1 p2 :
  extract1 (fst range1) (snd range1) = Ok p1 -> extract2 (fst range2) (snd range2) = Ok p2 ->
  comRRT P E B cur solve randomShortcut partialShortcut steer free guideOf range1 extract1 start next numOpt keep fuel1 fuel sched1 sched =
  comRRT P E B cur solve randomShortcut partialShortcut steer free guideOf range2 extract2 start next numOpt keep fuel1 fuel sched1 sched.
Proof. exact (com_path_ignored P E B cur solve randomShortcut partialShortcut steer free guideOf range1 extract1 range2 extract2 start next numOpt keep fuel1 fuel sched1 sched p1 p2). Qed.
Print Assumptions C139_ignored.
(** its random configurations follow the path of limbRRT when some limb is without a common
    contact, else a path free of any constraint; the only constraints are the common contacts,
    within 5 cm *)
Theorem C139_guide P E B cur solve randomShortcut partialShortcut steer free guideOf range extract start next numOpt keep fuel1 fuel sched1 sched l :
  S (length (StateModel.configuration start)) = length cur -> S (length (StateModel.configuration next)) = length cur ->
  fair 1 sched ->
  comRRT P E B cur solve randomShortcut partialShortcut steer free guideOf range extract start next numOpt keep fuel1 fuel sched1 sched = Some (IPath E l) ->
  exists g pb k l0 l1 l2,
    (((forall n, is_Some (limbsOf B !! n) -> stays start next n) /\ free (StateModel.configuration start) (StateModel.configuration next) = Some g) \/
     ((exists n, is_Some (limbsOf B !! n) /\ ~ stays start next n) /\
      exists gl, limbRRT P E B cur solve randomShortcut partialShortcut steer [start; next] numOpt 10000 fuel1 sched1 = Some (IPath E gl) /\ g = guideOf gl)) /\
    rStart P pb = StateModel.configuration start ++ [0%R] /\ rGoal P pb = StateModel.configuration next ++ [1%R] /\
    rShootPath P pb = g /\ (forall n, n ∈ rShootLimbs P pb <-> is_Some (limbsOf B !! n) /\ ~ stays start next n) /\
    rTds P pb = [] /\ thr (rProj P pb) = (5 / 100)%R /\ rIter P pb = 10000 /\
    (forall c, c ∈ cs (rProj P pb) <-> exists n le, stays start next n /\ contactConstraint B start n = Ok le /\ c ∈ le) /\
    solve k 0 pb = Solved E (Some l0) /\ optimised E (fun j => randomShortcut k 0 j pb) numOpt 0 l0 l1 /\
    optimised E (fun j => partialShortcut k 0 j pb) numOpt 0 l1 l2 /\ l = map (if keep then Full E else Reduced E) l2.
Proof. exact (com_result P E B cur solve randomShortcut partialShortcut steer free guideOf range extract start next numOpt keep fuel1 fuel sched1 sched l). Qed.
Print Assumptions C139_guide.
Example C139_case : exists l, comRRT unit iE ebody icur isolve ishort ishort isteer ifree (fun _ => tt) (0, 1)%R iextract estate istate1 2 true 2 2 ione ione = Some (IPath iE l).
Proof. exact ex_com_rrt. Qed.
