(** Model of the interpolation between contact states:
    include/hpp/rbprm/interpolation/time-constraint-helper.{hh,inl} (the planning problem
    built for two states, the loop over the states), time-constraint-utils.hh,
    src/interpolation/time-constraint-shooter.cc, com-rrt-shooter.cc, limb-rrt-shooter.cc,
    limb-rrt.cc and com-rrt.cc.  Exact reals.  The planner, the optimizers and the paths of
    hpp-core are parameters.  The collision pairs removed by
    DisableUnNecessaryCollisions are in CollModel.v.  Not modelled: logs and timers. *)
From Coq Require Import Reals ZArith.
From Verif Require Import SampModel TrajModel.
From Verif Require Export Maps Vec StateModel StateReal ProjModel.
Local Open Scope R_scope.

(** sequencing of C++ calls that may throw (time-constraint-helper.inl:133-201) *)
Definition ibind {A C} (x : outcome A) (f : A -> outcome C) : outcome C :=
  match x with Ok a => f a | Throw => Throw | Ub => Ub end.

(** * Configurations with a time *)
(** time-constraint-utils.hh:50-58; [cur]: the current configuration of the helper's device,
    which has one more extra degree of freedom than the robot.  head of more entries than
    there are is an Eigen assertion *)
Definition TimeConfigFromDevice (cur conf : list R) (t : R) : outcome (list R) :=
  match cur with
  | [] => Ub
  | _ => if (length conf <=? length cur)%nat
         then Ok (<[Nat.pred (length cur) := t]> (conf ++ drop (length conf) cur))
         else Ub
  end.

(** * The shooter *)
(** com-rrt-shooter.cc:28-45 and limb-rrt-shooter.cc:27-53 (the variations are computed but
    not used): the limbs that are not in a contact common to both states *)
Definition GetFreeLimbs (B : fullbody) (from to : PSt) : list string :=
  filter (fun n => inb n (fixedContacts moved3 to from) = false) (skeys (limbsOf B)).

(** time-constraint-shooter.cc:79-92; [rs]: the values of rand() *)
Fixpoint loadRandom (limbs : list (list (sample R))) (rs : list nat) (q : list R) : outcome (list R) :=
  match limbs with
  | [] => Ok q
  | ss :: limbs' =>
    if (length ss <=? 1)%nat then Throw
    else
      match rs with
      | r :: rs' =>
        match ss !! (r mod (length ss - 1))%nat with
        | Some s => ibind (Load (content s) q) (loadRandom limbs' rs')
        | None => Ub
        end
      | [] => Ub
      end
  end.
(** time-constraint-shooter.cc:59-95: [u]: rand()/RAND_MAX; [path]: time range and evaluation
    of rootPath_ (whose answer is ignored); [rank]: pathDofRank_.  The configuration and the
    right hand sides after the call *)
Definition shoot (path : (R -> list R) * R * R) (rank : nat) (tds : list timeDep) (limbs : list (list (sample R)))
  (u : R) (rs : list nat) (w : world) : outcome (list R * world) :=
  let '(at_, a, b) := path in
  let q := at_ ((b - a) * u + a) in
  if (length q =? rank)%nat then
    ibind (loadRandom limbs rs (q ++ [u])) (fun q' => Ok (q', updateRhs tds (qi q' rank) w))
  else Ub.

(** * The problem between two states *)
Section inter.
(** [P]: core::Path (reference paths); [E]: the elements of a path vector, with their first
    and last configurations *)
Variables P E : Type.
Variables (einit eend : E -> list R).
Variable B : fullbody.
(** the current configuration of the helper's device *)
Variable cur : list R.

(** what the planner (BiRRTPlanner) is given: first and last configurations, constraints,
    time dependent constraints, the shooter's path and limbs, the bound on the number of
    iterations (0: none) (time-constraint-helper.inl:158-177) *)
Inductive tdConstraint := TdCom (ref : P) | TdPos (eff : frame) (ref : P) | TdOri (eff : frame) (ref : P).
Record rrtProblem := mkRrt {
  rStart : list R; rGoal : list R; rProj : projector; rTds : list tdConstraint;
  rShootPath : P; rShootLimbs : list string; rIter : nat
}.
(** the shooter factories: limb-rrt-shooter.cc:55-63, com-rrt-shooter.cc:47-65 *)
Inductive shooterFactory := LimbShooter | ComShooter (guide : P) | EffectorShooter (guide : P).
Definition shooterPath (s : shooterFactory) (ref : P) : P :=
  match s with LimbShooter => ref | ComShooter g => g | EffectorShooter g => g end.
Definition shooterLimbs (s : shooterFactory) (from to : PSt) : list string :=
  match s with EffectorShooter _ => [] | _ => GetFreeLimbs B from to end.
(** the constraint factories: what they add to the projector's contacts *)
Definition constraintFactory : Type := outcome (list cstr * list tdConstraint).
(** limb-rrt.cc:26-29 and com-rrt.cc:36-49: nothing else than the contacts *)
Definition contactsOnly : constraintFactory := Ok ([], []).

(** the helper (time-constraint-helper.hh:55-79), SetConstraints, Run
    (time-constraint-helper.inl:133-177) up to the call of the planner;
    interpolation-constraints.hh:390-396 for the contacts *)
Definition problemBetween (sf : shooterFactory) (cf : constraintFactory) (thr : R) (maxIter : nat) (ref : P) (from to : PSt)
  : outcome rrtProblem :=
  ibind (addContactConstraints B from (fixedContacts moved3 to from)) (fun cl =>
  ibind cf (fun '(more, tds) =>
  ibind (TimeConfigFromDevice cur (configuration from) 0) (fun q0 =>
  ibind (TimeConfigFromDevice cur (configuration to) 1) (fun q1 =>
  Ok (mkRrt q0 q1 (addCs more (addCs cl (newProj thr 1000))) tds (shooterPath sf ref) (shooterLimbs sf from to) maxIter))))).

(** answers of planner->solve(): a path vector (or a null pointer), the two exceptions that
    are caught, another one *)
Inductive solveResult := Solved (l : option (list E)) | RuntimeError | ProjectionError | OtherError.
(** time-constraint-helper.inl:180-200 *)
Definition catchSolve (r : solveResult) : outcome (option (list E)) :=
  match r with Solved l => Ok l | RuntimeError => Ok None | ProjectionError => Ok None | OtherError => Throw end.

(** the planner at the [k]-th attempt for the [i]-th pair; the two shortcut optimizers (call
    number [j]), which may throw *)
Variable solve : nat -> nat -> rrtProblem -> solveResult.
Variables randomShortcut partialShortcut : nat -> nat -> nat -> rrtProblem -> list E -> outcome (list E).

(** time-constraint-helper.inl:204-220: [n] calls from number [j] *)
Fixpoint repeatOpt (f : nat -> list E -> outcome (list E)) (n j : nat) (l : list E) : outcome (list E) :=
  match n with O => Ok l | S n' => ibind (f j l) (repeatOpt f n' (S j)) end.
Definition optimizeBoth (k i : nat) (pb : rrtProblem) (numOpt : nat) (l : list E) : outcome (list E) :=
  ibind (repeatOpt (fun j => randomShortcut k i j pb) numOpt 0 l) (repeatOpt (fun j => partialShortcut k i j pb) numOpt 0).

Section loop.
Variables (sf : shooterFactory) (cf : constraintFactory) (thr : R) (maxIter numOpt : nat).
(** [X]: what the iterators point to; [get]: its state; [getPath]: the reference path between
    two of them (None, a null pointer, is never dereferenced here: it is given as such) *)
Variable X : Type.
Variable get : X -> PSt.
Variable getPath : X -> X -> outcome P.

(** time-constraint-helper.inl:321-340, the body for the pair [i]: what is written in valid[i]
    and res[i] *)
Definition body (k i : nat) (ab : X * X) : outcome (option (list E)) :=
  let '(a, b) := ab in
  ibind (getPath a b) (fun ref =>
  ibind (problemBetween sf cf thr maxIter ref (get a) (get b)) (fun pb =>
  ibind (catchSolve (solve k i pb)) (fun r =>
  match r with
  | Some l => ibind (optimizeBoth k i pb numOpt l) (fun l' => Ok (Some l'))
  | None => Ok None
  end))).
(** the pairs of consecutive elements (time-constraint-helper.inl:322-324) *)
Fixpoint pairsOf (l : list X) : list (X * X) :=
  match l with a :: ((b :: _) as tl) => (a, b) :: pairsOf tl | _ => [] end.

(** the parallel loop (#pragma omp parallel for): the iterations are run in the order
    [order]; [tbl]: the cells written so far.  Iterations share no variable, so that runs
    that overlap give what one of these orders gives (time-constraint-helper.inl:320-340) *)
Fixpoint parallel (k : nat) (ps : list (X * X)) (order : list nat) (tbl : list (option (list E))) : outcome (list (option (list E))) :=
  match order with
  | [] => Ok tbl
  | i :: order' =>
    match ps !! i with
    | Some ab => ibind (body k i ab) (fun r => parallel k ps order' (<[i := r]> tbl))
    | None => Ub
    end
  end.

(** time-constraint-helper.inl:222-236: the number of leading valid cells *)
Fixpoint checkPath (tbl : list (option (list E))) : nat :=
  match tbl with Some _ :: tl => S (checkPath tl) | _ => O end.

(** time-constraint-helper.inl:319-342: attempts until all pairs are solved; [sched k]: the order of attempt [k];
    the cells start with what they contained.  [None]: more than [fuel] attempts *)
Fixpoint attempts (fuel k : nat) (ps : list (X * X)) (sched : nat -> list nat) (tbl : list (option (list E)))
  : option (outcome (list (option (list E)))) :=
  match fuel with
  | O => None
  | S f =>
    match parallel k ps (sched k) tbl with
    | Ok tbl' => if (checkPath tbl' <? length ps)%nat then attempts f (S k) ps sched tbl' else Some (Ok tbl')
    | Throw => Some Throw
    | Ub => Some Ub
    end
  end.
End loop.

(** an element of the result: as it is, or without its last coordinate (core::SubchainPath) (time-constraint-helper.inl:253-269) *)
Inductive piece := Full (e : E) | Reduced (e : E).
Definition pieceInit (p : piece) : list R := match p with Full e => einit e | Reduced e => removelast (einit e) end.
Definition pieceEnd (p : piece) : list R := match p with Full e => eend e | Reduced e => removelast (eend e) end.

(** how a call ends: a path; std::terminate, because an exception leaves the body of an OpenMP
    loop (CMakeLists.txt:30-48 requires OpenMP); an exception; undefined behaviour *)
Inductive iend := IPath (l : list piece) | ITerminate | IThrow | IUndef.

(** time-constraint-helper.inl:238-270 and 295-347 (the assert limits the pairs to 99; with
    none, the null pointer of res[0] is dereferenced).  [None]: it does not end within [fuel]
    attempts *)
Definition interpolate {X} (sf : shooterFactory) (cf : constraintFactory) (thr : R) (maxIter numOpt : nat)
  (get : X -> PSt) (getPath : X -> X -> outcome P) (keepExtraDof : bool) (states : list X)
  (fuel : nat) (sched : nat -> list nat) : option iend :=
  let ps := pairsOf X states in
  if (100 <=? length ps)%nat then Some IUndef
  else
    match attempts sf cf thr maxIter numOpt X get getPath fuel 0 ps sched (replicate (length ps) None) with
    | None => None
    | Some (Ok tbl) =>
      match ps with
      | [] => Some IUndef
      | _ => Some (IPath (map (if keepExtraDof then Full else Reduced) (concat (omap (fun x => x) tbl))))
      end
    | Some Throw => Some ITerminate
    | Some Ub => Some IUndef
    end.

(** limb-rrt.cc:31-43: the reference path is that of the steering method of the problem *)
Definition limbRRT (steer : list R -> list R -> outcome P) (states : list PSt) (numOpt maxIter : nat)
  (fuel : nat) (sched : nat -> list nat) : option iend :=
  interpolate LimbShooter contactsOnly (1 / 1000) maxIter numOpt (fun s => s)
    (fun a b => steer (configuration a) (configuration b)) false states fuel sched.

(** time-constraint-helper.inl:349-364: states with times, the reference path is extracted *)
Definition fromPath (extract : R -> R -> outcome P) (a b : R * PSt) : outcome P := extract (fst a) (fst b).
(** limb-rrt.cc:45-57 *)
Definition limbRRTFromPath (extract : R -> R -> outcome P) (states : list (R * PSt)) (numOpt : nat)
  (fuel : nat) (sched : nat -> list nat) : option iend :=
  interpolate LimbShooter contactsOnly (1 / 1000) 0 numOpt snd (fromPath extract) false states fuel sched.
(** com-rrt.cc:151-164 *)
Definition comRRTFromPath (extract : R -> R -> outcome P) (guide : P) (states : list (R * PSt)) (numOpt : nat)
  (fuel : nat) (sched : nat -> list nat) : option iend :=
  interpolate (ComShooter guide) contactsOnly (1 / 1000) 0 numOpt snd (fromPath extract) false states fuel sched.

(** com-rrt.cc:61-149: [range]: the time range of comPath; [extract]: its extraction; [free]:
    the path the planner finds when no limb moves, without constraint nor obstacle (None when
    it throws); [guideOf]: the path made of the pieces of limbRRT.  [fuel1], [sched1]: attempts
    and schedules of limbRRT *)
Definition comRRT (steer : list R -> list R -> outcome P) (free : list R -> list R -> option P) (guideOf : list piece -> P)
  (range : R * R) (extract : R -> R -> outcome P) (start next : PSt) (numOpt : nat) (keepExtraDof : bool)
  (fuel1 fuel : nat) (sched1 sched : nat -> list nat) : option iend :=
  let along g :=
    interpolate (ComShooter g) contactsOnly (5 / 100) 10000 numOpt snd (fromPath extract) keepExtraDof
      [(fst range, start); (snd range, next)] fuel sched in
  match allVariations moved3 next start (skeys (limbsOf B)) with
  | [] => match free (configuration start) (configuration next) with Some g => along g | None => Some IThrow end
  | _ =>
    match limbRRT steer [start; next] numOpt 10000 fuel1 sched1 with
    | Some (IPath l) => along (guideOf l)
    | r => r
    end
  end.
End inter.

(** * com-rrt.cc:166-216: projection of a state on a centre of mass.  [proj]: hpp-core's
    projector; [junkTime]: the uninitialised last entry; [extra]: the number of extra degrees
    of freedom of the robot, whose configurations have [size] entries.  The answer and the
    configuration returned; blocks out of range are assertions *)
Definition projectOnCom (proj : projector -> list R -> bool * list R) (B : fullbody) (size extra : nat) (junkTime : R)
  (model : PSt) (target : vec3) : outcome (bool * list R) :=
  if (length (configuration model) =? size)%nat && (extra <=? size)%nat then
    ibind (addContactConstraints B model (fixedContacts moved3 model model)) (fun cl =>
    let '(ok, q) := proj (addC (CCom target) (addCs cl (newProj (1 / 1000) 100))) (configuration model ++ [junkTime]) in
    if (length q =? size + 1)%nat then
      let q' := take (size - extra) q ++ drop (size - extra) (configuration model) ++ drop size q in
      Ok (ok, removelast q')
    else Ub)
  else Ub.
