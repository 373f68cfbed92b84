(** Model of src/interpolation/effector-rrt.cc (declared in
    include/hpp/rbprm/interpolation/spline/effector-rrt.hh) and of getEffectorLimb and
    getEffector of src/interpolation/interpolation-constraints.cc: the trajectories of the end
    effector between two states and the whole body paths that follow them.  Exact reals.  The
    curves of ndcurves, the solver of hpp-bezier-com-traj, the planner and the paths of hpp-core
    are parameters.  splineFromEffectorTraj, getWayPoints, Is2d, IsLine and genHeight are in
    WayModel.v.  Not modelled: getEffectorConfigAt and getEffectorTransformAt (lines 78-90,
    99-106), which nothing calls and no header declares; logs. *)
From Coq Require Import Reals ZArith.
From Verif Require Import SampModel TrajModel.
From Verif Require Export Maps Vec StateModel StateReal ProjModel InterModel BodyModel.
From Verif Require Import StateModel.
Local Open Scope R_scope.

(** * Which effector moves *)
(** interpolation-constraints.cc:65-67: front() of an empty vector is undefined *)
Definition getEffectorLimb (start next : PSt) : outcome string :=
  match contactCreations moved3 next start with n :: _ => Ok n | [] => Ub end.
(** interpolation-constraints.cc:69-74: the name of the frame and the frame *)
Definition getEffector (B : fullbody) (start next : PSt) : outcome (string * frame) :=
  ibind (getEffectorLimb start next) (fun n =>
  match limbsOf B !! n with
  | Some l => match frames (dev B) !! effName l with Some f => Ok (effName l, f) | None => Throw end
  | None => Throw
  end).
(** effector-rrt.cc:134-145 *)
Definition getNormal (n : string) (s : PSt) : vec3 * bool :=
  match normals s !! n with Some v => (v, true) | None => (V3 0 0 1, false) end.

(** * Times and heights *)
(** effector-rrt.cc:422-431: posOffset; the two other outputs are not assigned *)
Definition computePredefConstants (p_max t_total t_predef : R) : R :=
  let timeMid := (t_total - 2 * t_predef) / 2 in
  p_max / (1 + 4 * timeMid / t_predef + 6 * timeMid * timeMid / (t_predef * t_predef) -
           timeMid * timeMid * timeMid / (t_predef * t_predef * t_predef)).
(** effector-rrt.cc:459-463, 472-487, 494-495, 626-636, 656-657: [len]: the length of the path *)
Definition totalTime (len : R) : R := len - 2 * (5 / 100).
Definition timeTakeoff : R := 3 / 10.
Definition timeMiddle (len : R) : R := totalTime len - 2 * timeTakeoff.

(** * Reference trajectories of the end effector *)
(** the configuration of the free flying end effector: position and quaternion
    (lines 108-117) *)
Definition quat : Type := R * R * R * R.
Definition cfg7 (p : vec3) (o : quat) : list R :=
  let '(x, y, z, w) := o in [vx p; vy p; vz p; x; y; z; w].
(** bezier_com_traj::ProblemData, the entries used here (used at effector-rrt.cc:275-371) *)
Record pdata := PD { pc0 : vec3; pc1 : vec3; pdc0 : vec3; pdc1 : vec3; pddc0 : vec3; pddc1 : vec3; pj0 : vec3; pj1 : vec3 }.

Section curves.
(** [ff]: the device of createFreeFlyerDevice (effector-rrt.cc:119-132); [pd0]: a ProblemData as the
    constructor makes it; [junkV], [junkA]: velOffset and a_max_predefined, never assigned;
    [predefInit], [predefGoal]: the control points of bezier_com_traj; [bezierOf pts d]:
    new bezier_t(begin, end, d); [deriv c n t]: the value of the derivatives of a curve;
    [fit]: solveEndEffector, with 1, 3 or 5 free variables *)
Variable ff : device.
Variable pd0 : pdata.
Variables junkV junkA : R.
Variables predefInit predefGoal : pdata -> R -> list vec3.
Variable bezierOf : list vec3 -> R -> bezier.
Variable deriv : bezier -> nat -> R -> vec3.
Variable fit : nat -> pdata -> (R -> vec3) -> R -> R -> option bezier.

(** derivate(t, order): evaluated with the same check as the curve (used at effector-rrt.cc:319-364) *)
Definition derivate (c : bezier) (t : R) (n : nat) : outcome vec3 :=
  if Rleb (bz_min c) t && Rleb t (bz_max c) then Ok (deriv c n t) else Throw.

(** effector-rrt.cc:275-371: the path and the data, whose derivatives become those of the curve.  The
    position of [offsetConfig] is c1 in both cases (line 304).  The constructor of BezierPath is
    bezier-path.cc:53-71 *)
Definition buildPredefinedPath (normal : vec3) (pos : vec3) (o : quat) (posOffset velOffset time : R) (init : bool) (aOffset : R)
  : outcome (bezPath * pdata) :=
  let c0 := if init then pos else vadd pos (vscale posOffset normal) in
  let c1 := if init then vadd pos (vscale posOffset normal) else pos in
  let dc0 := if init then vzero else vscale velOffset normal in
  let dc1 := if init then vscale velOffset normal else vzero in
  let ddc0 := if init then vzero else vscale aOffset normal in
  let ddc1 := if init then vscale aOffset normal else vzero in
  let d := PD c0 c1 dc0 dc1 ddc0 ddc1 (pj0 pd0) (pj1 pd0) in
  let offsetConfig := cfg7 c1 o in
  if init then
    let c := bezierOf (predefInit d time) (time - 0) in
    ibind (derivate c time 3) (fun j1 => ibind (derivate c time 2) (fun a1 => ibind (derivate c time 1) (fun v1 =>
    Ok (BP c (cfg7 pos o) offsetConfig 0 time, PD c0 c1 dc0 v1 ddc0 a1 (pj0 pd0) j1))))
  else
    let c := bezierOf (predefGoal d time) (time - 0) in
    ibind (derivate c 0 3) (fun j0 => ibind (derivate c 0 2) (fun a0 => ibind (derivate c 0 1) (fun v0 =>
    Ok (BP c offsetConfig (cfg7 pos o) 0 time, PD c0 c1 v0 dc1 a0 ddc1 j0 (pj1 pd0))))).

(** effector-rrt.cc:373-420; [eff]: the path of the effector along the whole body path.  The assertions of
    bezier-path.cc:35-51 *)
Definition computeBezierPath (vars : nat) (d : pdata) (eff : R -> vec3) (timeMid weight : R) (takeoff landing : bezPath)
  : outcome (option (list bezPath)) :=
  match fit vars d eff timeMid weight with
  | None => Ok None
  | Some c =>
    ibind (bp_end ff takeoff) (fun q0 => ibind (bp_init ff landing) (fun q1 =>
    if Rleb (bz_min c) 0 && Rleb timeMid (bz_max c) then Ok (Some [takeoff; BP c q0 q1 0 timeMid; landing]) else Ub))
  end.

(** effector-rrt.cc:516-537 and 665-688: the two predefined parts and the data of the middle *)
Definition threePhases (posOffset : R) (n0 n1 : vec3) (p0 : vec3) (o0 : quat) (p1 : vec3) (o1 : quat) : outcome (bezPath * bezPath * pdata) :=
  ibind (buildPredefinedPath n0 p0 o0 posOffset junkV timeTakeoff true junkA) (fun '(takeoff, dt) =>
  ibind (buildPredefinedPath n1 p1 o1 posOffset (- junkV) timeTakeoff false junkA) (fun '(landing, dl) =>
  Ok (takeoff, landing, PD (pc1 dt) (pc0 dl) (pdc1 dt) (pdc0 dl) (pddc1 dt) (pddc0 dl) (pj1 dt) (pj0 dl)))).

(** * Along a whole body path *)
(** core::Path: its length, its last configuration and its evaluation (the answer is ignored) *)
Variable P : Type.
Variable plen : P -> R.
Variable pend : P -> list R.
Variable pat : P -> R -> list R.
Variable B : fullbody.
(** the orientation of a frame, as a quaternion; the uninitialised vector given to
    createPositionMethod (Vec3f()) *)
Variable quatOf : mat3 -> quat.
Variable junkT : vec3.

(** GetEffectorPositionAt (effector-rrt.cc:92-97) at a configuration: constraints::Position gives the
    position in the frame whose origin is the target *)
Definition effectorPositionAt (f : frame) (q : list R) : vec3 := vsub (tra (fpose (dev B) q f)) junkT.
(** effector-rrt.cc:1014-1045: the first multiple of 0.01 at which the last coordinate reaches the time;
    the end if there is none.  The loop stops before step [fuel] *)
Fixpoint lookTime (at_ : R -> R) (len t : R) (fuel k : nat) : option R :=
  match fuel with
  | O => None
  | S fuel' =>
    let c := INR k * (1 / 100) in
    if Rltb c len then (if Rleb t (at_ c) then Some c else lookTime at_ len t fuel' (S k)) else None
  end.
Definition endEffectorPath (f : frame) (p : P) (offset : vec3) (u : R) : vec3 :=
  let t := u * List.last (pend p) 0 in
  let index := match lookTime (fun c => List.last (pat p c) 0) (plen p) t (S (Z.to_nat (up (plen p * 100)))) 0 with
               | Some c => c | None => plen p end in
  vadd (effectorPositionAt f (pat p index)) offset.

(** what a path vector contains (effector-rrt.cc:373-420) *)
Inductive vpart := PBez (b : bezPath) | PWhole (p : P).
(** problemSolver->paths() and the trajectories of the effectors stored in the robot (effector-rrt.cc:571-588, rbprm-fullbody.cc:209-262) *)
Record solverState := SST { paths : list (list vpart); stored : gmap nat (gmap string (list bezier)) }.
Definition addPath (v : list vpart) (w : solverState) : solverState := SST (paths w ++ [v]) (stored w).
Definition addTrajectory (id : nat) (eff : string) (l : list bezier) (w : solverState) : solverState :=
  SST (paths w) (fst (addEffectorTrajectories id eff l (stored w))).

(** effector-rrt.cc:433-590: the path (None: a null pointer) and the state after the call *)
Definition generateEndEffectorBezier (comPath : P) (start next : PSt) (w : solverState) : outcome (option (list bezPath) * solverState) :=
  ibind (getEffector B start next) (fun '(en, f) => ibind (getEffectorLimb start next) (fun limb =>
  let pose s := fpose (dev B) (configuration s) f in
  let p_max := if bool_decide (limb = "hrp2_rleg_rom") || bool_decide (limb = "hrp2_lleg_rom") then 3 / 100 else 5 / 100 in
  let posOffset := computePredefConstants p_max (totalTime (plen comPath)) timeTakeoff in
  let normalOf s := match normals s !! limb with Some v => v | None => V3 0 0 1 end in
  ibind (threePhases posOffset (normalOf start) (normalOf next) (tra (pose start)) (quatOf (rot (pose start)))
           (tra (pose next)) (quatOf (rot (pose next)))) (fun '(takeoff, landing, d) =>
  ibind (computeBezierPath 1 d (endEffectorPath f comPath vzero) (timeMiddle (plen comPath)) 0 takeoff landing) (fun r =>
  match r with
  | None => Ok (None, w)
  | Some l =>
    let w1 := addPath (map PBez l) w in
    Ok (Some l, addTrajectory (length (paths w1) - 1) en (map bp_curve l) w1)
  end)))).

(** one of the loops of effector-rrt.cc:728-783 *)
Fixpoint fitAll (vars : nat) (d : pdata) (eff : R -> vec3) (timeMid : R) (takeoff landing : bezPath) (whole : P) (ws : list R)
  : outcome (list (list vpart)) :=
  match ws with
  | [] => Ok []
  | wt :: ws' =>
    ibind (computeBezierPath vars d eff timeMid wt takeoff landing) (fun r =>
    ibind (fitAll vars d eff timeMid takeoff landing whole ws') (fun tl =>
    Ok ((match r with Some l => map PBez l | None => [PWhole whole] end) :: tl)))
  end.
(** effector-rrt.cc:708-715 *)
Definition weightRRT : list R := [0; 1/2; 75/100; 85/100; 90/100; 95/100; 1].
(** effector-rrt.cc:592-786 *)
Definition fitBeziersToPath (f : frame) (comLength : R) (whole : P) (start next : PSt) : outcome (list (list vpart)) :=
  ibind (getEffectorLimb start next) (fun limb =>
  let pose s := fpose (dev B) (configuration s) f in
  let posOffset := computePredefConstants (3 / 100) (totalTime comLength) timeTakeoff in
  match normals start !! limb, normals next !! limb with
  | Some n0, Some n1 =>
    ibind (threePhases posOffset n0 n1 (tra (pose start)) (quatOf (rot (pose start)))
             (tra (pose next)) (quatOf (rot (pose next)))) (fun '(takeoff, landing, d) =>
    let loop vars := fitAll vars d (endEffectorPath f whole vzero) (timeMiddle comLength) takeoff landing whole in
    ibind (loop 1%nat weightRRT) (fun l1 => ibind (loop 3%nat (tl weightRRT)) (fun l3 => ibind (loop 5%nat (tl weightRRT)) (fun l5 =>
    Ok (l1 ++ l3 ++ l5)))))
  | _, _ => Throw
  end).

(** * Whole body paths *)
Variable E : Type.
Variable cur : list R.
Variable solve : nat -> nat -> rrtProblem P -> solveResult E.
Variables randomShortcut partialShortcut : nat -> nat -> nat -> rrtProblem P -> list E -> outcome (list E).
(** [asPath]: a path vector as a path; [wholeOf]: the path made of the pieces found by the
    planner; [reduce]: core::SubchainPath without the last coordinate; [hasJoint]: the names
    getJointByName knows (it throws for another one) *)
Variable asPath : list vpart -> P.
Variable wholeOf : list (piece E) -> P.
Variable reduce : P -> P.
Variable hasJoint : string -> bool.

(** effector-rrt.cc:255-263 *)
Definition getJointsByName (names : list string) : outcome (list string) :=
  if forallb hasJoint names then Ok names else Throw.

(** effector-rrt.cc:978-1012, SetEffectorRRTConstraints: what it adds to the contacts
    (interpolation-constraints.hh:127-147, 255-272, 355-382); [refFull]: None is a null pointer.
    constrainedLockedJoints_ is never read *)
Fixpoint constrainJoints (r : P) (names : list string) : outcome (list cstr * list (tdConstraint P)) :=
  match names with
  | [] => Ok ([], [])
  | n :: names' =>
    match frames (dev B) !! n with
    | Some f => ibind (constrainJoints r names') (fun '(c, t) => Ok (createOrientationMethod f mid :: c, TdOri P f r :: t))
    | None => Throw
    end
  end.
Definition setEffectorConstraints (refCom refEff : P) (refFull : option P) (f : frame) (constrained : list string)
  : constraintFactory P :=
  ibind (match refFull with Some r => constrainJoints r constrained | None => Ok ([], []) end) (fun '(c, t) =>
  Ok (CCom junkT :: createPositionMethod f junkT :: c, TdCom P refCom :: TdPos P f refEff :: t)).

(** how a call ends (InterModel.iend), with the state at that point (effector-rrt.cc:788-922) *)
Inductive fend := FPath (p : P) (w : solverState) | FTerminate (w : solverState) | FThrow (w : solverState) | FUndef.

(** effector-rrt.cc:883-911: the trajectory kept for the path that is found; dynamic_pointer_cast of a path
    that is not a BezierPath is null *)
Definition trajectoryOf (v : list vpart) : outcome (list bezier) :=
  match v with [PBez a; PBez b; PBez c] => Ok [bp_curve a; bp_curve b; bp_curve c] | _ => Ub end.

(** effector-rrt.cc:829-881: the candidates in order until one is followed; [cf]: the constraints for a
    candidate.  runtime_error is caught; [fuel], [sched]: attempts and schedule of the
    interpolation *)
Fixpoint tryCandidates (run : list vpart -> option (iend E)) (names locked : list string) (cands : list (list vpart))
  : option (outcome (option (list (piece E) * list vpart)) + unit) :=
  match cands with
  | [] => Some (inl (Ok None))
  | v :: cands' =>
    match getJointsByName names, getJointsByName locked with
    | Ok _, Ok _ =>
      match run v with
      | None => None
      | Some (IPath _ l) => Some (inl (Ok (Some (l, v))))
      | Some (IThrow _) => tryCandidates run names locked cands'
      | Some (ITerminate _) => Some (inr tt)
      | Some (IUndef _) => Some (inl Ub)
      end
    | _, _ => Some (inl Throw)
    end
  end.

(** effector-rrt.cc:788-922; [range], [extract]: time range and extraction of comPath; [com]: comPath *)
Definition effectorRRTWithPath (com : P) (range : R * R) (extract : R -> R -> outcome P) (whole : P) (start next : PSt) (keepExtraDof : bool)
  (refFull : option P) (constrained locked : list string) (fuel : nat) (sched : nat -> list nat) (w : solverState) : option fend :=
  match getEffector B start next with
  | Ub => Some FUndef
  | Throw => Some (FThrow w)
  | Ok (en, f) =>
    match fitBeziersToPath f (plen com) whole start next with
    | Ub => Some FUndef
    | Throw => Some (FThrow w)
    | Ok cands =>
      let run v := interpolate P E B cur solve randomShortcut partialShortcut (EffectorShooter P (reduce whole))
                     (setEffectorConstraints com (asPath v) refFull f constrained) (1 / 1000) 500 1 snd (fromPath P extract) keepExtraDof
                     [(fst range, start); (snd range, next)] fuel sched in
      match tryCandidates run constrained locked cands with
      | None => None
      | Some (inr _) => Some (FTerminate w)
      | Some (inl Ub) => Some FUndef
      | Some (inl Throw) => Some (FThrow w)
      | Some (inl (Ok None)) => Some (FPath whole w)
      | Some (inl (Ok (Some (l, v)))) =>
        let w1 := addPath v w in
        match trajectoryOf v with
        | Ok curves => Some (FPath (wholeOf l) (addTrajectory (length (paths w1)) en curves w1))
        | _ => Some FUndef
        end
      end
    end
  end.

(** effector-rrt.cc:924-952 *)
Definition effectorRRTFromPath (steer : list R -> list R -> outcome P) (free : list R -> list R -> option P)
  (com : P) (range : R * R) (extract : R -> R -> outcome P) (start next : PSt) (numOpt : nat) (keepExtraDof : bool)
  (refFull : option P) (constrained locked : list string)
  (fuel1 fuel2 fuel : nat) (sched1 sched2 sched : nat -> list nat) (w : solverState) : option fend :=
  match comRRT P E B cur solve randomShortcut partialShortcut steer free wholeOf range extract start next numOpt true fuel1 fuel2 sched1 sched2 with
  | None => None
  | Some (ITerminate _) => Some (FTerminate w)
  | Some (IThrow _) => Some (FThrow w)
  | Some (IUndef _) => Some FUndef
  | Some (IPath _ l) =>
    let whole := wholeOf l in
    let w1 := addPath [PWhole whole] w in
    if Rltb (effectorDistance start next) (3 / 100) then Some (FPath whole w1)
    else effectorRRTWithPath com range extract whole start next keepExtraDof refFull constrained locked fuel sched w1
  end.

(** effector-rrt.cc:954-976 *)
Definition effectorRRT (steer : list R -> list R -> outcome P) (free : list R -> list R -> option P)
  (com : P) (range : R * R) (extract : R -> R -> outcome P) (start next : PSt) (numOpt : nat) (keepExtraDof : bool)
  (constrained locked : list string)
  (fuel1 fuel2 fuel : nat) (sched1 sched2 sched : nat -> list nat) (w : solverState) : option fend :=
  effectorRRTFromPath steer free com range extract start next numOpt keepExtraDof None constrained locked fuel1 fuel2 fuel sched1 sched2 sched w.
End curves.
