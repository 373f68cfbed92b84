(** Model of src/projection/projection.cc (the projections onto a root, a centre
    of mass or an obstacle), of the constraint builders of
    src/interpolation/interpolation-constraints.cc and
    include/hpp/rbprm/interpolation/interpolation-constraints.hh they share, and of
    tools::GetRotationMatrix (src/tools.cc:30-35).
    Exact reals; the numerical solver of hpp-core is a parameter [solve]. *)
From Coq Require Import Reals ZArith.
From Verif Require Import SampModel TriModel.
From Verif Require Export Maps Vec ToolModel StateReal StateModel.
Local Open Scope R_scope.

(** * Rotations and rigid motions (Eigen::Matrix3d, pinocchio::SE3) (used in projection.cc:47-649) *)
Record mat3 := M3 { row1 : vec3; row2 : vec3; row3 : vec3 }.
Definition mapp (m : mat3) (v : vec3) : vec3 := V3 (vdot (row1 m) v) (vdot (row2 m) v) (vdot (row3 m) v).
Definition mtr (m : mat3) : mat3 :=
  M3 (V3 (vx (row1 m)) (vx (row2 m)) (vx (row3 m))) (V3 (vy (row1 m)) (vy (row2 m)) (vy (row3 m)))
     (V3 (vz (row1 m)) (vz (row2 m)) (vz (row3 m))).
Definition mmul (a b : mat3) : mat3 :=
  M3 (mapp (mtr b) (row1 a)) (mapp (mtr b) (row2 a)) (mapp (mtr b) (row3 a)).
Definition mid : mat3 := M3 (V3 1 0 0) (V3 0 1 0) (V3 0 0 1).
Definition mzero : mat3 := M3 vzero vzero vzero.
Definition mtrace (m : mat3) : R := vx (row1 m) + vy (row2 m) + vz (row3 m).
Record se3 := SE3 { rot : mat3; tra : vec3 }.
Definition se3id : se3 := SE3 mid vzero.
Definition se3mul (a b : se3) : se3 := SE3 (mmul (rot a) (rot b)) (vadd (mapp (rot a) (tra b)) (tra a)).
Definition se3act (a : se3) (p : vec3) : vec3 := vadd (mapp (rot a) p) (tra a).

(** * The robot: what hpp-pinocchio provides *)
(** pinocchio::Frame: the joint it is attached to and its placement in that joint (used at projection.cc:352-456) *)
Record frame := mkFrame { fjoint : string; placement : se3 }.
(** [jpose q j]: placement of joint [j] after computeForwardKinematics at [q];
    [rootName] is device->rootJoint()->name(); [log3] is the rotation vector of a
    rotation matrix (pinocchio::log3); [postErr ref w q] the value of the postural
    ConfigurationConstraint (used in projection.cc:47-649) *)
Record robot := mkRobot {
  jpose : list R -> string -> se3;
  comOf : list R -> vec3;
  tree : jnt;
  frames : gmap string frame;
  ndof : nat;
  log3 : mat3 -> vec3;
  postErr : list R -> list R -> list R -> R
}.
Definition rootName (r : robot) : string := jname (tree r).
(** Frame::currentTransformation at configuration [q] (used at projection.cc:352-456) *)
Definition fpose (r : robot) (q : list R) (f : frame) : se3 := se3mul (jpose r q (fjoint f)) (placement f).

(** include/hpp/rbprm/rbprm-limb.hh: the fields used here (rbprm-limb.hh:122-138) *)
Inductive contactType := _6_DOF | _3_DOF.
Definition is6 (c : contactType) : bool := match c with _6_DOF => true | _3_DOF => false end.
Record plimb := mkPlimb {
  limbJoint : string;       (* limb_->name() *)
  limbParent : option string; (* limb_->parentJoint(), null for the root *)
  effName : string;         (* effector_.name() *)
  loffset : vec3;           (* offset_ *)
  lnormal : vec3;           (* normal_ *)
  ltype : contactType;      (* contactType_ *)
  lsamples : list (sample R) (* sampleContainer_.samples_ *)
}.
(** include/hpp/rbprm/rbprm-fullbody.hh: the fields used here.  [wholeValid]:
    GetCollisionValidation(); [limbValids]: GetLimbCollisionValidation() (rbprm-fullbody.hh:187-205) *)
Record fullbody := mkFullbody {
  dev : robot;
  limbsOf : gmap string plimb;
  reference : list R;
  pweights : list R;
  postural : bool;          (* usePosturalTaskContactCreation() *)
  wholeValid : list R -> bool;
  limbValids : gmap string (list R -> bool);
  junk : R                  (* uninitialised robustness of a fresh State *)
}.
Notation PSt := (State (list R) vec3 mat3 R).

(** * Constraints and projector (hpp-constraints, hpp-core)
    [CPos j local global]: constraints::Position, all three axes active;
    [COri j local target mask]: constraints::Orientation;
    [CLock]: LockedJoint; [CCom]: PointCom with its right-hand side;
    [CPost]: ConfigurationConstraint. (used in projection.cc:47-649) *)
Inductive cstr :=
| CPos (j : string) (loc glob : se3)
| COri (j : string) (loc target : mat3) (mask : bool * bool * bool)
| CLock (l : string * list R)
| CCom (target : vec3)
| CPost (ref w : list R).
(** ConfigProjector: constraints of priority 0, of priority 1, lastIsOptional,
    errorThreshold and maxIterations (used in projection.cc:47-649) *)
Record projector := mkProj {
  cs : list cstr;
  cs1 : list cstr;
  lastOpt : bool;
  thr : R;
  iters : nat
}.
Definition newProj (t : R) (n : nat) : projector := mkProj [] [] false t n.
Definition addC (c : cstr) (p : projector) : projector := mkProj (cs p ++ [c]) (cs1 p) (lastOpt p) (thr p) (iters p).
Definition addCs (l : list cstr) (p : projector) : projector := mkProj (cs p ++ l) (cs1 p) (lastOpt p) (thr p) (iters p).
Definition addC1 (c : cstr) (p : projector) : projector := mkProj (cs p) (cs1 p ++ [c]) (lastOpt p) (thr p) (iters p).
Definition withOpt (t : R) (n : nat) (p : projector) : projector := mkProj (cs p) (cs1 p) true t n.

(** ProjectionReport (projection.hh): success_, result_ (status_ is left at its default) *)
Record preport := mkPRep { psuccess : bool; presult : PSt }.
(** [res.result_ = currentState]: State::operator= on a default State (rbprm-state.cc:34-48) *)
Definition into_fresh (B : fullbody) (s : PSt) : PSt := state_assign (state_default [] (junk B)) s.
Definition with_conf (c : list R) (s : PSt) : PSt :=
  mkState c (contacts s) (normals s) (positions s) (rotations s) (order s) (nbContacts s) (stable s) (robustness s).

(** projection.cc:47-102.  The constraints of one contact; [.at] throws
    std::out_of_range, getFrameByName throws on an unknown name *)
Definition contactConstraint (B : fullbody) (s : PSt) (e : string) : outcome (list cstr) :=
  match limbsOf B !! e with
  | None => Throw
  | Some l =>
    match positions s !! e with
    | None => Throw
    | Some p =>
      match frames (dev B) !! effName l with
      | None => Throw
      | Some f =>
        let pos := CPos (fjoint f) (se3mul (placement f) se3id) (SE3 mid p) in
        if is6 (ltype l) then
          match rotations s !! e with
          | None => Throw
          | Some r =>
            Ok [pos; COri (fjoint f) mid (mmul r (mtr (rot (placement f)))) (true, true, true)]
          end
        else Ok [pos]
      end
    end
  end.
Fixpoint contactConstraintsOf (B : fullbody) (s : PSt) (es : list string) : outcome (list cstr) :=
  match es with
  | [] => Ok []
  | e :: es' =>
    match contactConstraint B s e with
    | Ok l => match contactConstraintsOf B s es' with Ok l' => Ok (l ++ l') | Throw => Throw | Ub => Ub end
    | Throw => Throw
    | Ub => Ub
    end
  end.
(** projection.cc:47-102; interpolation-constraints.cc:27-63 builds the same
    constraints for [active = state.fixedContacts(state)] *)
Definition CreateContactConstraints (B : fullbody) (s : PSt) : outcome (list cstr) :=
  contactConstraintsOf B s (fixedContacts moved3 s s).
(** interpolation-constraints.cc:27-63 with an explicit list of active contacts *)
Definition addContactConstraints (B : fullbody) (s : PSt) (active : list string) : outcome (list cstr) :=
  contactConstraintsOf B s active.

(** projection.cc:104-116 *)
Definition rootPosConstraint (B : fullbody) (target : vec3) : cstr :=
  CPos (rootName (dev B)) se3id (SE3 mid target).

(** projection.cc:142-202: the weights used when their number is numberDof, else all 1;
    the mask is computed but not passed *)
Definition posturalConstraint (B : fullbody) : cstr :=
  CPost (reference B)
    (if (length (pweights B) =? ndof (dev B))%nat then pweights B else repeat 1 (ndof (dev B))).

Section Solver.
(** proj->apply(configuration) (hpp-core ConfigProjector): result and the
    configuration it leaves *)
Variable solve : projector -> list R -> bool * list R.
Variable B : fullbody.

(** the common end: apply, copy the current state, set the configuration (projection.cc:104-116, 142-217) *)
Definition applyAndReport (p : projector) (s : PSt) : preport :=
  let '(ok, c) := solve p (configuration s) in mkPRep ok (with_conf c (into_fresh B s)).

(** projection.cc:204-217 *)
Definition projectToRootPosition (target : vec3) (s : PSt) : outcome preport :=
  match CreateContactConstraints B s with
  | Ok l => Ok (applyAndReport (addC (rootPosConstraint B target) (addCs l (newProj (1 / 10000) 100))) s)
  | Throw => Throw
  | Ub => Ub
  end.

(** projection.cc:221-233 *)
Definition not_a_limb (n : string) (limbs : list string) : bool := negb (inb n limbs).
(** projection.cc:235-251 *)
Fixpoint LockFromRootRec (limbs : list string) (q : list R) (j : jnt) : list (string * list R) :=
  match j with
  | Jnt n _ _ _ kids =>
    if not_a_limb n limbs then lockOf q j :: concat (map (LockFromRootRec limbs q) kids) else []
  end.
(** projection.cc:253-260; the joints of the limbs in the order of the limb map *)
Definition LockFromRoot (q : list R) : list (string * list R) :=
  LockFromRootRec (map (fun kl => limbJoint (snd kl)) (sitems (limbsOf B))) q (tree (dev B)).

(** head<3>() of a configuration (used at projection.cc:274) *)
Definition head3 (q : list R) : vec3 := V3 (nth 0 q 0) (nth 1 q 0) (nth 2 q 0).

(** projection.cc:262-300 *)
Definition projectToRootConfiguration (conf : list R) (s : PSt) (offset : vec3) : outcome preport :=
  match CreateContactConstraints B s with
  | Ok l =>
    let p := addCs l (newProj (1 / 10000) 100) in
    if Reqb (vx offset) 0 && Reqb (vy offset) 0 && Reqb (vz offset) 0 then
      Ok (applyAndReport (addCs (map CLock (LockFromRoot conf)) p) s)
    else match frames (dev B) !! "root_joint"%string with
         | None => Throw
         | Some f =>
           Ok (applyAndReport
                 (addC (CPos (fjoint f) (se3mul (placement f) (SE3 mid offset)) (SE3 mid (head3 conf))) p) s)
         end
  | Throw => Throw
  | Ub => Ub
  end.

(** projection.cc:685-704 *)
Definition projectToComPosition (target : vec3) (s : PSt) : outcome preport :=
  match CreateContactConstraints B s with
  | Ok l => Ok (applyAndReport (addC (CCom target) (addCs l (newProj (1 / 10000) 1000))) s)
  | Throw => Throw
  | Ub => Ub
  end.

(** projection.cc:302-335 on the samples of a limb (SampModel.setCollisionFree); only
    success_ is used by the caller below *)
Definition setCollisionFreeP (valid : list R -> bool) (name : string) (q : list R) : outcome (bool * list R) :=
  if valid q then Ok (true, q)
  else match limbsOf B !! name with
       | None => Throw
       | Some l => tryAll valid (lsamples l) q q
       end.
(** projection.cc:737-749: every free limb is tried on the same configuration
    [q]; what setCollisionFree found is dropped *)
Fixpoint freeLimbsLoop (names : list string) (q : list R) : outcome bool :=
  match names with
  | [] => Ok true
  | n :: ns =>
    match limbValids B !! n with
    | None => Throw
    | Some valid =>
      match setCollisionFreeP valid n q with
      | Ok (true, _) => freeLimbsLoop ns q
      | Ok (false, _) => Ok false
      | Throw => Throw
      | Ub => Ub
      end
    end
  end.
(** projection.cc:714-772 *)
Definition projectToColFreeComPosition (target : vec3) (s : PSt) : outcome preport :=
  match CreateContactConstraints B s with
  | Ok l =>
    let p := withOpt (1 / 100) 500
               (addC1 (posturalConstraint B) (addC (CCom target) (addCs l (newProj (1 / 1000) 1000)))) in
    let '(ok, c) := solve p (configuration s) in
    let first := mkPRep ok (with_conf c (into_fresh B s)) in
    if ok then
      match freeLimbsLoop (freeEffectors s (skeys (limbsOf B))) c with
      | Ok true =>
        let '(ok2, c2) := solve p c in
        Ok (mkPRep (ok2 && wholeValid B c2) (with_conf c2 (into_fresh B s)))
      | Ok false => Ok (mkPRep false (presult first))
      | Throw => Throw
      | Ub => Ub
      end
    else Ok first
  | Throw => Throw
  | Ub => Ub
  end.

(** * Alignment of the effector with the contact *)
(** Eigen Quaternion::setFromTwoVectors; [axis v0 v1] stands for the third column of
    the SVD's V matrix, used for (nearly) opposite vectors.  A quaternion is (w, vec) (used at tools.cc:33) *)
Variable axis : vec3 -> vec3 -> vec3.
Definition setFromTwoVectors (a b : vec3) : R * vec3 :=
  let v0 := vnormalize a in
  let v1 := vnormalize b in
  let c := vdot v1 v0 in
  if Rltb c (-1 + / 10 ^ 12) then
    let c' := Rmax c (-1) in
    let w2 := (1 + c') * (1 / 2) in
    (R_sqrt.sqrt w2, vscale (R_sqrt.sqrt (1 - w2)) (axis v0 v1))
  else
    let s := R_sqrt.sqrt ((1 + c) * 2) in
    (s * (1 / 2), vscale (/ s) (vcross v0 v1)).
(** Eigen Quaternion::toRotationMatrix *)
Definition toRotationMatrix (q : R * vec3) : mat3 :=
  let '(w, V3 x y z) := q in
  let tx := 2 * x in let ty := 2 * y in let tz := 2 * z in
  let twx := tx * w in let twy := ty * w in let twz := tz * w in
  let txx := tx * x in let txy := ty * x in let txz := tz * x in
  let tyy := ty * y in let tyz := tz * y in let tzz := tz * z in
  M3 (V3 (1 - (tyy + tzz)) (txy - twz) (txz + twy))
     (V3 (txy + twz) (1 - (txx + tzz)) (tyz - twx))
     (V3 (txz - twy) (tyz + twx) (1 - (txx + tyy))).
(** src/tools.cc:30-35 *)
Definition GetRotationMatrix (from to : vec3) : mat3 := toRotationMatrix (setFromTwoVectors from to).

(** Eigen's rotation.isZero(0) (used at projection.cc:476) *)
Definition isZero0 (m : mat3) : bool :=
  let z v := Reqb (vx v) 0 && Reqb (vy v) 0 && Reqb (vz v) 0 in z (row1 m) && z (row2 m) && z (row3 m).

(** projection.cc:458-489; [f] is the effector frame of the limb; epsilon = 10e-4 *)
Definition computeProjectionMatrix (l : plimb) (f : frame) (q : list R) (normal position : vec3) (rotation : mat3)
  : se3 :=
  let reff := rot (fpose (dev B) q f) in
  let z := mapp reff (lnormal l) in
  let r := if isZero0 rotation then mmul (GetRotationMatrix z normal) reff else rotation in
  SE3 r (vadd (vsub position (mapp r (loffset l))) (vscale (10 / 10000) normal)).

(** projection.cc:352-456; [valid] is the validation passed by the caller.  Returns
    the report; [configuration] (an output argument) and the device's current
    configuration are not returned *)
Definition projectEffector (p : projector) (limbId : string) (l : plimb) (f : frame) (valid : list R -> bool)
  (q : list R) (target : se3) (normal : vec3) (cur : PSt) : preport :=
  let mask := (true, true, negb (postural B)) in
  let p1 := addC (CPos (fjoint f) (se3mul (placement f) se3id) (SE3 mid (tra target))) p in
  let p2 := if is6 (ltype l) then
              addC (COri (fjoint f) (rot (se3mul (placement f) se3id)) (rot target) mask) p1
            else p1 in
  let p3 := if postural B then withOpt (1 / 1000) 1000 (addC1 (posturalConstraint B) p2) else p2 in
  let '(ok, c) := solve p3 q in
  if ok && valid c then
    mkPRep true (into_fresh B (addContact limbId c (tra (fpose (dev B) c f)) normal (rot (fpose (dev B) c f)) cur))
  else mkPRep false (into_fresh B cur).

(** projection.cc:491-504 *)
Definition projectToObstacle (p : projector) (limbId : string) (l : plimb) (valid : list R -> bool)
  (q : list R) (cur : PSt) (normal position : vec3) (rotation : mat3) : outcome preport :=
  match frames (dev B) !! effName l with
  | None => Throw
  | Some f =>
    Ok (projectEffector p limbId l f valid q (computeProjectionMatrix l f q normal position rotation) normal cur)
  end.

(** projection.cc:602-649.  [devq]: the device's current configuration when the
    function is called (used by LockJointRec and for the limb's root placement);
    the orthogonal projection computed first is overwritten *)
Definition projectSampleToObstacle (devq : list R) (limbId : string) (l : plimb) (smp : sample R)
  (rnormal v1 v2 v3 : vec3) (valid : list R -> bool) (q : list R) (cur : PSt) : outcome preport :=
  match Load (content smp) q with
  | Ok q' =>
    match limbsOf B !! limbId with
    | None => Throw
    | Some l0 =>
      let normal := vnormalize rnormal in
      let rootT := jpose (dev B) devq (match limbParent l0 with Some j => j | None => limbJoint l0 end) in
      let pEndEff := se3act rootT (let '(a, b, c) := effectorPosition (content smp) in V3 a b c) in
      let pos := closestPointInTriangle pEndEff v1 v2 v3 0 in
      let p := addCs (map CLock (LockJointRec1 devq (limbJoint l) (tree (dev B)))) (newProj (1 / 10000) 100) in
      projectToObstacle p limbId l valid q' cur normal pos mzero
    end
  | Throw => Throw
  | Ub => Ub
  end.

(** projection.cc:651-683 *)
Definition projectStateToObstacle (devq : list R) (limbId : string) (l : plimb) (current : PSt)
  (normal position : vec3) (valid : list R -> bool) (lockOtherJoints : bool) (rotation : mat3)
  : outcome preport :=
  let st := snd (RemoveContact limbId current) in
  match addContactConstraints B st (fixedContacts moved3 st st) with
  | Ok cl =>
    let p := addCs cl (newProj (1 / 10000) 1000) in
    let p := if lockOtherJoints then addCs (map CLock (LockJointRec1 devq (limbJoint l) (tree (dev B)))) p else p in
    projectToObstacle p limbId l valid (configuration current) st normal position rotation
  | Throw => Throw
  | Ub => Ub
  end.
End Solver.

(** include/hpp/rbprm/interpolation/interpolation-constraints.hh:219-236
    (positionInParentFrame is the frame's placement in its joint) *)
Definition createPositionMethod (f : frame) (target : vec3) : cstr :=
  CPos (fjoint f) (se3mul (placement f) se3id) (SE3 mid target).
(** interpolation-constraints.hh:238-253: the placement multiplies the target on the left *)
Definition createOrientationMethod (f : frame) (target : mat3) : cstr :=
  COri (fjoint f) mid (mmul (rot (placement f)) target) (true, true, true).

(** interpolation-constraints.hh:149-217: weights of the postural task of the
    interpolation; [None]: entry 9 is written out of range, or the first loop reads
    a negative index *)
Definition rawWeight (nd i : nat) : R :=
  if (3 <=? i)%nat && (i <? 6)%nat then 50
  else if (7 <=? i)%nat && (i <=? 9)%nat then 1
  else if (i =? 6)%nat then 10
  else if (i <? 3)%nat then 0
  else if (i <? nd - 7)%nat then 1 else 0.
Definition taskMask (i : nat) : bool := (3 <=? i)%nat && (i <=? 9)%nat.
Definition meanActive (nd : nat) : R :=
  let idx := List.filter taskMask (seq 0 nd) in
  fold_left (fun a i => a + rawWeight nd i) idx 0 / INR (length idx).
Definition interpWeights (nd : nat) : option (list R) :=
  if (nd <? 10)%nat then None
  else Some (map (fun i => rawWeight nd i / meanActive nd) (seq 0 nd)).
