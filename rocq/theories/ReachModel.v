(** Model of src/contact_generation/kinematics_constraints.cc and
    src/contact_generation/reachability.cc (QHULL, STAT_TIMINGS and FULL_TIME_SAMPLING
    are 0, as in the build).  Exact reals; the quadratic program and the trajectory
    optimiser of hpp-bezier-com-traj, the wrench cone of hpp-centroidal-dynamics and
    the mesh loader are parameters. *)
From Coq Require Import Reals ZArith.
From Verif Require Import SampModel.
From Verif Require Export StabModel.
Local Open Scope R_scope.

(** * kinematics_constraints.cc *)
(** a mesh: vertices and triangles (fcl::BVHModel); out-of-range indices are
    undefined behaviour *)
Record mesh := mkMesh { verts : list vec3; faces : list (nat * nat * nat) }.
(** rows (normal, vertex) of the pair (N, V) *)
Notation kinrows := (list (vec3 * vec3)).
(** rows (A_i, b_i) of an inequality A x <= b (used in reachability.cc:20-640) *)
Notation ineqs := (list (vec3 * R)).

Definition vert (m : mesh) (i : nat) : outcome vec3 := match verts m !! i with Some v => Ok v | None => Ub end.

(** kinematics_constraints.cc:19-33 and one turn of the loop :95-103 *)
Definition faceRow (m : mesh) (f : nat * nat * nat) : outcome (vec3 * vec3) :=
  let '(i, j, k) := f in
  obind (vert m i) (fun a => obind (vert m j) (fun b => obind (vert m k) (fun c =>
  Ok (vnormalize (vcross (vsub b a) (vsub c a)), a)))).
Fixpoint faceRows (m : mesh) (fs : list (nat * nat * nat)) : outcome kinrows :=
  match fs with
  | [] => Ok []
  | f :: fs' => obind (faceRow m f) (fun r => obind (faceRows m fs') (fun rs => Ok (r :: rs)))
  end.
(** kinematics_constraints.cc:57-114; [None]: the file is missing or cannot be read *)
Definition loadConstraintsFromObj (file : option mesh) (minDistance : R) : outcome kinrows :=
  match file with
  | None => Ok []
  | Some m =>
    obind (faceRows m (faces m)) (fun rs =>
    Ok (if Rltb 0 minDistance then (rs ++ [(V3 0 0 (-1), V3 0 0 minDistance)])%list else rs))
  end.

(** kinematics_constraints.cc:209-228 *)
Definition getInequalitiesAtTransform (NV : kinrows) (T : se3) : ineqs :=
  map (fun nv => let n := mapp (rot T) (fst nv) in let v := se3act T (snd nv) in (n, vdot v n)) NV.

(** kinematics_constraints.cc:237-250 *)
Definition verifyIneqs (Ab : ineqs) (p : vec3) : bool :=
  forallb (fun ab => negb (Rltb (snd ab) (vdot (fst ab) p))) Ab.
(** kinematics_constraints.cc:230-235 *)
Definition verifyAtTransform (NV : kinrows) (T : se3) (p : vec3) : bool :=
  verifyIneqs (getInequalitiesAtTransform NV T) p.

Section Reach.
Variable axis : vec3 -> vec3 -> vec3.
Variable lib : eqlib.
Variable B : rbody.

(** the inequalities of one limb at configuration [q] (kinematics_constraints.cc:137-140, 175-178) *)
Definition limbIneqs (l : rlimb) (q : list R) : ineqs := getInequalitiesAtTransform (rkin l) (reffpose l q).

(** kinematics_constraints.cc:119-147 *)
Definition computeAllKinematicsConstraints (q : list R) : ineqs :=
  concat (map (fun kl => limbIneqs (snd kl) q) (sitems (rlimbs B))).

(** GetLimb(name) (rbprm-fullbody.cc): throws std::runtime_error when unknown *)
Fixpoint inContactIneqs (q : list R) (cs : list (string * bool)) : outcome ineqs :=
  match cs with
  | [] => Ok []
  | (n, b) :: cs' =>
    if b : bool then
      obind (at_ (rlimbs B) n) (fun l => obind (inContactIneqs q cs') (fun r => Ok (limbIneqs l q ++ r)%list))
    else inContactIneqs q cs'
  end.
(** kinematics_constraints.cc:149-185: the limbs whose flag is set in contacts_ *)
Definition computeKinematicsConstraintsForState (s : PSt) : outcome ineqs :=
  inContactIneqs (configuration s) (sitems (contacts s)).

(** kinematics_constraints.cc:187-207 (the empty pair when the limb is not in contact) *)
Definition computeKinematicsConstraintsForLimb (s : PSt) (name : string) : outcome ineqs :=
  match contacts s !! name with
  | Some true => obind (at_ (rlimbs B) name) (fun l => Ok (limbIneqs l (configuration s)))
  | _ => Ok []
  end.

(** kinematics_constraints.cc:252-256 *)
Definition verifyKinematicConstraints (s : PSt) (p : vec3) : outcome bool :=
  obind (computeKinematicsConstraintsForState s) (fun Ab => Ok (verifyIneqs Ab p)).

(** * reachability.cc *)
(** reachability.hh:18-28 *)
Inductive status :=
| UNREACHABLE | UNABLE_TO_COMPUTE | SAME_ROOT_POSITION | TOO_MANY_CONTACTS_VARIATION
| NO_CONTACT_VARIATION | CONTACT_BREAK_FAILED | CONTACT_CREATION_FAILED | QUASI_STATIC | REACHABLE.

(** the centre-of-mass path stored in a Result (BezierPath::create): control points,
    the configurations at both ends and the interval of definition.  [None] points:
    the curve found by the optimiser (reachability.cc:768-815) *)
Record comPath := mkCP { cpPoints : list vec3; cpInit : list R; cpEnd : list R; cpFrom : R; cpTo : R }.

(** reachability.hh:30-77 *)
Record result := mkRes {
  rstatus : status;
  resx : vec3;
  xBreak : vec3;
  xCreate : vec3;
  rconstraints : ineqs;
  rpath : option comPath;
  rtimings : list R;
  rphases : list comPath
}.
Definition resultOf (s : status) : result := mkRes s vzero vzero vzero [] None [] [].
(** reachability.hh:55-58 *)
Definition success (r : result) : bool :=
  match rstatus r with REACHABLE | NO_CONTACT_VARIATION | SAME_ROOT_POSITION | QUASI_STATIC => true | _ => false end.

(** reachability.cc:84-95 *)
Definition stackConstraints (Ab Cd : ineqs) : ineqs := (Ab ++ Cd)%list.

(** reachability.cc:102-106: the cost 1/2 x'Hx + g'x *)
Definition computeDistanceCost (c0 : vec3) : mat3 * vec3 := (mid, vopp c0).

(** bezier_com_traj::skew (used at reachability.cc:128-129) *)
Definition skew (v : vec3) : mat3 :=
  M3 (V3 0 (- vz v) (vy v)) (V3 (vz v) 0 (- vx v)) (V3 (- vy v) (vx v) 0).
(** norm of a row with six entries (used in reachability.cc:20-640) *)
Definition norm6 (r : row6) : R := R_sqrt.sqrt (vnorm2 (lin r) + vnorm2 (ang r)).

(** reachability.cc:121-165.  None: the polytope could not be computed.  A row of norm 0
    would become a row of NaN; here it becomes a row of zeros (the theorems exclude
    such rows) *)
Definition computeStabilityConstraints (k : contactSet) (acc : vec3) : option ineqs :=
  let '(st, (Hrow, h)) := polytope lib k in
  if isOptimal st then
    let g := gravity lib in
    let gmA := mapp (mtr (M3 (vsub (row1 (skew g)) (row1 (skew acc))) (vsub (row2 (skew g)) (row2 (skew acc)))
                            (vsub (row3 (skew g)) (row3 (skew acc))))) in
    Some (map (fun '(r, hi) =>
      let nl := vscale (rmass B) (vscale (- / norm6 r) (lin r)) in
      let na := vscale (rmass B) (vscale (- / norm6 r) (ang r)) in
      (gmA na, hi + vdot nl (vsub g acc))) (combine Hrow h))
  else None.

(** reachability.cc:167-187: the exception of setupLibrary is caught when it is a
    std::runtime_error; a missing map entry throws std::out_of_range, which is not.
    [Ok None]: setNewContacts refused *)
Definition computeContactConeForState (s : PSt) : outcome (option contactSet) :=
  obind (splitGrasps B (skeys (positions s))) (fun '(cs, gs) =>
  obind (contactRows axis B s vnormalize (5 / 100) (5 / 100) cs) (fun r1 =>
  obind (contactRows axis B s (fun n => n) 0 0 gs) (fun r2 =>
  let rows := (r1 ++ r2)%list in
  let k := mkCS (map fst rows) (map snd rows) (rfriction B) ALG_PP in
  Ok (if setNew lib k then Some k else None)))).

(** reachability.cc:189-207.  front() of an empty queue is undefined behaviour;
    None: success is false *)
Definition computeStabilityConstraintsForState (s : PSt) (acc : vec3) : outcome (option ineqs) :=
  match order s with
  | [] => Ub
  | f :: _ =>
    obind (computeContactConeForState s) (fun ok =>
    match ok with
    | None => Ok None
    | Some k =>
      obind (at_ (positions s) f) (fun _ =>
      match computeStabilityConstraints k acc with
      | Some [] => Ok None
      | o => Ok o
      end)
    end)
  end.

(** reachability.cc:209-219 *)
Definition computeConstraintsForState (s : PSt) (acc : vec3) : outcome (option ineqs) :=
  obind (computeStabilityConstraintsForState s acc) (fun o =>
  match o with
  | None => Ok None
  | Some Ab => obind (computeKinematicsConstraintsForState s) (fun K => Ok (Some (stackConstraints K Ab)))
  end).

(** bezier_com_traj::solve: minimises 1/2 x'Hx + g'x subject to A x <= b from an
    initial guess *)
Variable qp : ineqs -> mat3 * vec3 -> vec3 -> bool * vec3.
(** reachability.cc:108-119 *)
Definition intersectionExist (Ab : ineqs) (c : vec3) : bool * vec3 := qp Ab (computeDistanceCost c) c.

(** reachability.cc:428-437: sum of the contact points of a state; the offset is
    placed by the recorded rotation and position *)
Fixpoint sumContacts (s : PSt) (items : list (string * vec3)) : outcome vec3 :=
  match items with
  | [] => Ok vzero
  | (n, p) :: it =>
    obind (at_ (rotations s) n) (fun r => obind (at_ (rlimbs B) n) (fun l =>
    obind (sumContacts s it) (fun rest => Ok (vadd (se3act (SE3 r p) (roffset l)) rest))))
  end.
(** reachability.cc:404-439.  Division by the number of recorded positions *)
Definition robustPoint (prev next smaller : PSt) : outcome vec3 :=
  obind (sumContacts smaller (sitems (positions smaller))) (fun c =>
  let m := vscale (/ INR (length (sitems (positions smaller)))) c in
  Ok (V3 (vx m) (vy m) ((vz (rcom B (configuration prev)) + vz (rcom B (configuration next))) / 2))).

(** a default State, then operator= (rbprm-state.cc:34-48) *)
Definition freshState (s : PSt) : PSt := state_assign (state_default [] (rjunk B)) s.

(** reachability.cc:441-454: the QP and the result *)
Definition decideReach (prev next smaller : PSt) (Ab : ineqs) : outcome result :=
  obind (robustPoint prev next smaller) (fun c =>
  let '(ok, x) := intersectionExist Ab c in
  Ok (mkRes (if ok : bool then REACHABLE else UNREACHABLE) x vzero vzero Ab None [] [])).

(** reachability.cc:322-336, then the QP: a contact is repositioned *)
Definition reachReposition (prev next intermediate : PSt) (acc : vec3) : outcome result :=
  obind (computeConstraintsForState prev acc) (fun op =>
  match op with
  | None => Ok (resultOf UNABLE_TO_COMPUTE)
  | Some Ap =>
    obind (computeConstraintsForState next acc) (fun on =>
    match on with
    | None => Ok (resultOf UNABLE_TO_COMPUTE)
    | Some An => decideReach prev next (freshState intermediate) (stackConstraints Ap An)
    end)
  end).
(** reachability.cc:340-371, then the QP: a contact is broken *)
Definition reachBreak (prev next : PSt) (acc : vec3) : outcome result :=
  obind (computeStabilityConstraintsForState next acc) (fun o =>
  match o with
  | None => Ok (resultOf UNABLE_TO_COMPUTE)
  | Some An =>
    obind (computeKinematicsConstraintsForState prev) (fun Kp =>
    decideReach prev next (freshState next) (stackConstraints An Kp))
  end).
(** reachability.cc:371-402, then the QP: a contact is created *)
Definition reachCreate (prev next : PSt) (acc : vec3) : outcome result :=
  obind (computeStabilityConstraintsForState prev acc) (fun o =>
  match o with
  | None => Ok (resultOf UNABLE_TO_COMPUTE)
  | Some Ap =>
    obind (computeKinematicsConstraintsForState next) (fun Kn =>
    decideReach prev next (freshState prev) (stackConstraints Ap Kn))
  end).

(** reachability.cc:265-497.  [inter]: isReachableIntermediate, called when a contact is
    repositioned and useIntermediateState is set.  The calls to the device only set
    its current configuration *)
Definition isReachableWith (inter : PSt -> PSt -> PSt -> outcome result) (prev next : PSt) (acc : vec3)
  (useIntermediateState : bool) : outcome result :=
  let breaks := contactBreaks moved3 next prev in
  let creations := contactCreations moved3 next prev in
  match breaks, creations with
  | [], [] => Ok (resultOf NO_CONTACT_VARIATION)
  | [b], [c] =>
    if (length (contactVariations moved3 next prev) =? 1)%nat then
      let intermediate := snd (RemoveContact b (freshState (state_copy prev))) in
      if useIntermediateState then inter prev intermediate next
      else reachReposition prev next intermediate acc
    else Ok (resultOf TOO_MANY_CONTACTS_VARIATION)
  | [b], [] => reachBreak prev next acc
  | [], [c] => reachCreate prev next acc
  | _, _ => Ok (resultOf TOO_MANY_CONTACTS_VARIATION)
  end.

(** reachability.cc:221-263: the acceleration is not forwarded: isReachable is called
    with its default arguments (zero acceleration, no intermediate state) *)
Definition isReachableIntermediate (prev inter next : PSt) : outcome result :=
  let plain a b := isReachableWith (fun _ _ _ => Ok (resultOf UNABLE_TO_COMPUTE)) a b vzero false in
  obind (plain prev inter) (fun rb =>
  obind (plain inter next) (fun rc =>
  Ok (if success rb && success rc then
        mkRes REACHABLE (vscale (/ 2) (vadd (resx rb) (resx rc))) (resx rb) (resx rc) [] None [] []
      else match rstatus rb, rstatus rc with
           | UNREACHABLE, UNREACHABLE => resultOf UNREACHABLE
           | _, _ => if negb (success rb) then resultOf CONTACT_BREAK_FAILED
                     else resultOf CONTACT_CREATION_FAILED
           end))).
(** reachability.cc:265-497 *)
Definition isReachable (prev next : PSt) (acc : vec3) (useIntermediateState : bool) : outcome result :=
  isReachableWith isReachableIntermediate prev next acc useIntermediateState.

(** * isReachableDynamic *)
(** one phase given to the optimiser: kinematic rows and contact set
    (bezier_com_traj::ContactData) (reachability.cc:660-765) *)
Record phase := mkPhase { phKin : ineqs; phCone : contactSet }.
(** bezier_com_traj::ProblemData: c0, c1, dc0, dc1 (ddc0 and ddc1 are zero) *)
Record problem := mkProblem { phs : list phase; pc0 : vec3; pc1 : vec3; pdc0 : vec3; pdc1 : vec3 }.
(** bezier_com_traj::ResultDataCOMTraj (used at reachability.cc:768) *)
Record comTraj := mkTraj { tjOk : bool; tjPoints : list vec3; tjDc1 : vec3; tjDdc1 : vec3 }.
(** computeCOMTraj(problem, timings) and computeCOMTrajFixedSize(problem, timings, n) *)
Variable solveTraj : problem -> list R -> option Z -> comTraj.

(** reachability.cc:738-745 *)
Definition timingsMatrix : list (list R) :=
  [[6/10; 12/10; 6/10]; [1; 12/10; 1]; [8/10; 7/10; 8/10]; [3/10; 6/10; 3/10];
   [5/10; 6/10; 5/10]; [6/10; 6/10; 6/10]; [8/10; 6/10; 8/10]; [3/10; 8/10; 3/10]; [3/10; 7/10; 3/10];
   [6/10; 8/10; 6/10]; [1; 7/10; 1];
   [15/10; 7/10; 1]; [8/10; 8/10; 8/10];
   [1; 6/10; 1]; [12/10; 6/10; 12/10]; [15/10; 6/10; 15/10]; [1/10; 2/10; 1/10]; [2/10; 3/10; 2/10]].

Definition sumR (l : list R) : R := fold_left Rplus l 0.

(** configuration.segment<3>(i) = v (used at reachability.cc:803-804) *)
Definition setSeg3 (q : list R) (i : nat) (v : vec3) : list R :=
  <[(i + 2)%nat := vz v]> (<[(i + 1)%nat := vy v]> (<[i := vx v]> q)).

(** reachability.cc:790-829: the result of a success with timings [t]; [next] is the
    configuration of the next state, which is overwritten *)
Definition wrap (idv : nat) (prevq nextq : list R) (t : list R) (r : comTraj) : result * list R :=
  let total := sumR t in
  let nextq' := setSeg3 (setSeg3 nextq idv (tjDc1 r)) (idv + 3) (tjDdc1 r) in
  let path a b := mkCP (tjPoints r) prevq nextq' a b in
  let t0 := nth 0 t 0 in
  let t1 := nth 1 t 0 in
  (mkRes REACHABLE vzero vzero vzero [] (Some (path 0 total)) t
     ([path 0 t0; path t0 (t0 + t1)] ++ (if (2 <? length t)%nat then [path (t0 + t1) total] else []))%list,
   nextq').

(** reachability.cc:766-873: [rows] are the timings still to try after the current one.
    t_id runs from 1: a row is loaded, then t_id is compared with the number of rows,
    so that the last row is loaded but never tried *)
Fixpoint tryTimings (run : list R -> comTraj) (onOk : list R -> comTraj -> result * list R) (nextq : list R)
  (current : list R) (rows : list (list R)) : result * list R :=
  let r := run current in
  if tjOk r then onOk current r
  else match rows with
       | [] => (resultOf UNREACHABLE, nextq)
       | [_] => (resultOf UNREACHABLE, nextq)
       | row :: rows' => tryTimings run onOk nextq row rows'
       end.

(** the contact set of a state; [None] when a cone cannot be computed (reachability.cc:660-765) *)
Definition conesOf (prev mid next : PSt) : outcome (option (contactSet * contactSet * contactSet)) :=
  obind (computeContactConeForState prev) (fun kp =>
  obind (computeContactConeForState mid) (fun km =>
  obind (computeContactConeForState next) (fun kn =>
  Ok (match kp, km, kn with Some a, Some b, Some c => Some (a, b, c) | _, _, _ => None end)))).

(** reachability.cc:506-901.  Returns the result and the configuration left in [next].
    configuration_.head<3>() and the velocity entries of the configurations are read by
    index (undefined behaviour out of range: [velocity_ok]).  The release of the cones at the end
    is not modelled *)
Definition isReachableDynamic (prev next : PSt) (tryQuasiStatic : bool) (timings : list R) (npoints : Z)
  : outcome (result * list R) :=
  let breaks := contactBreaks moved3 next prev in
  let creations := contactCreations moved3 next prev in
  let q0 := configuration prev in
  let q1 := configuration next in
  let idv := (rconfSize B - rextra B)%nat in
  let out r := Ok (resultOf r, q1) in
  if (length q0 <? 3)%nat || (length q1 <? 3)%nat then Ub
  else if Reqb (vx (head3 q0)) (vx (head3 q1)) && Reqb (vy (head3 q0)) (vy (head3 q1)) && Reqb (vz (head3 q0)) (vz (head3 q1))
  then out SAME_ROOT_POSITION
  else if (length creations =? 0)%nat && (length breaks =? 0)%nat then out NO_CONTACT_VARIATION
  else if (2 <? length breaks + length creations)%nat || (1 <? length breaks)%nat || (1 <? length creations)%nat
  then out TOO_MANY_CONTACTS_VARIATION
  else if (length breaks =? 0)%nat && (nbContacts prev <=? 1)%Z then out UNABLE_TO_COMPUTE
  else if (length creations =? 0)%nat && (nbContacts next <=? 1)%Z then out UNABLE_TO_COMPUTE
  else
    let mid := match breaks with b :: _ => snd (RemoveContact b (state_copy prev)) | [] => state_copy prev end in
    let c0 := rcom B q0 in
    let c1 := rcom B q1 in
    obind (if tryQuasiStatic then
             obind (isReachableIntermediate prev mid next) (fun r =>
             Ok (if success r then
                   Some (mkRes QUASI_STATIC (resx r) (xBreak r) (xCreate r) [] (Some (mkCP [c0; resx r; c1] q0 q1 0 1)) [] [])
                 else None))
           else Ok None) (fun quasi =>
    match quasi with
    | Some r => Ok (r, q1)
    | None =>
      obind (computeKinematicsConstraintsForState prev) (fun Kp =>
      obind (if (0 <? length breaks)%nat then computeKinematicsConstraintsForState mid else Ok []) (fun Km =>
      obind (computeKinematicsConstraintsForState next) (fun Kn =>
      obind (conesOf prev mid next) (fun oc =>
      match oc with
      | None => out UNABLE_TO_COMPUTE
      | Some (kp, km, kn) =>
        if (length q0 <? idv + 6)%nat || (length q1 <? idv + 6)%nat then Ub
        else
        let three := (length breaks =? 1)%nat && (length creations =? 1)%nat in
        let phs := if three then [mkPhase Kp kp; mkPhase Km km; mkPhase Kn kn] else [mkPhase Kp kp; mkPhase Kn kn] in
        let pb := mkProblem phs c0 c1 (seg3 q0 idv) (seg3 q1 idv) in
        let run t := solveTraj pb t (if (0 <? npoints)%Z then Some npoints else None) in
        let np := length phs in
        if (length timings =? np)%nat then
          Ok (tryTimings run (wrap idv q0 q1) q1 timings [])
        else match map (firstn np) timingsMatrix with
             | row :: rows => Ok (tryTimings run (wrap idv q0 q1) q1 row rows)
             | [] => Ub
             end
      end))))
    end).
End Reach.
