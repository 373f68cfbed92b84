(** Model of src/rbprm-limb.cc (creation of a limb, its text file) and of the generation of
    samples of src/sampling/sample.cc.  Exact reals where there is arithmetic. *)
From Coq Require Import Reals ZArith Ascii.
From Verif Require Import ProjModel.
From Verif Require Export Maps Vec SampModel.

(** * Generation of samples *)
(** the product jacobian * jacobian.transpose(), entries in row-major order (sample.cc:107-108) *)
Definition entry (m : matrix R) (i j : nat) : R := nth (i * mcols m + j) (mdata m) 0%R.
Definition rsum (l : list R) : R := fold_right Rplus 0%R l.
Definition gram (m : matrix R) : matrix R :=
  mkMat (mrows m) (mrows m)
    (concat (map (fun i => map (fun j => rsum (map (fun k => entry m i k * entry m j k)%R (seq 0 (mcols m))))
                               (seq 0 (mrows m))) (seq 0 (mrows m)))).

Section samples.
Local Open Scope R_scope.
(** placements once the forward kinematics has been computed at a configuration: of the
    effector frame, of the limb's joint and of its parent joint (if any); [jac]: the block
    of the effector's jacobian of lines 84-90 of sample.cc; [det]: Eigen's determinant *)
Variables (effT limbT : list R -> se3) (parentT : option (list R -> se3)) (jac : list R -> matrix R) (det : matrix R -> R).
(** limb->rankInConfiguration(), and rankInConfiguration() + configSize() of the effector's
    joint *)
Variables (start stop : nat).
Variables (offset limbOffset : vec3).

(** sample.cc:30-37; a negative length is no segment *)
Definition ComputeLength : outcome nat := if (stop <? start)%nat then Ub else Ok (stop - start)%nat.
(** Eigen's segment (used at rbprm-limb.cc:92-95) *)
Definition segment (q : list R) (n : nat) : outcome (list R) :=
  if (start + n <=? length q)%nat then Ok (take n (drop start q)) else Ub.

Definition triple (v : vec3) : R * R * R := (vx v, vy v, vz v).
(** fcl::Transform3f::inverse then the action on a point (used at rbprm-limb.cc:103) *)
Definition inverseAct (t : se3) (p : vec3) : vec3 :=
  vadd (mapp (mtr (rot t)) p) (mapp (mtr (rot t)) (vopp (tra t))).

(** sample.cc:39-53; [k]: the configuration the kinematics were last computed at *)
Definition ComputeEffectorPosition (k : list R) : vec3 :=
  inverseAct (match parentT with Some p => p k | None => limbT k end) (vadd (tra (effT k)) offset).
(** sample.cc:64-82 *)
Definition ComputeEffectorPositionInLimbFrame (k : list R) : vec3 :=
  vsub (vadd (tra (effT k)) offset) (tra (se3mul (limbT k) (SE3 mid limbOffset))).
(** sample.cc:92-95 *)
Definition Manipulability (product : matrix R) : R := if Rltb 0 (det product) then R_sqrt.sqrt (det product) else 0.

(** sample.cc:133-149: the sample of the configuration segment [conf], the rest from the
    robot's current placements *)
Definition makeSample (k : list R) (conf : list R) (n id : nat) : sample R :=
  let j := jac k in
  mkSample id (Manipulability (gram j))
    (mkContent start n conf (triple (ComputeEffectorPosition k)) (triple (ComputeEffectorPositionInLimbFrame k)) j (gram j)).

(** sample.cc:171-209, the loop: samples [i], ..., [i + n - 1]; [shoot i] is the
    configuration the uniform shooter gives *)
Fixpoint shootSamples (shoot : nat -> list R) (len : nat) (n i : nat) : outcome (list (sample R)) :=
  match n with
  | O => Ok []
  | S n' =>
    match segment (shoot i) len with
    | Ok c =>
      match shootSamples shoot len n' (S i) with
      | Ok l => Ok (makeSample (shoot i) c len i :: l)
      | e => e
      end
    | Throw => Throw
    | Ub => Ub
    end
  end.
(** sample.cc:171-209; the clone has the placements of the robot it is cloned from, those
    of configuration [k]: they are not computed again before sample 0 *)
Definition GenerateSamples (neutral k : list R) (shoot : nat -> list R) (nbSamples : nat) : outcome (list (sample R)) :=
  match ComputeLength with
  | Ok len =>
    match segment neutral len with
    | Ok c =>
      match shootSamples shoot len (nbSamples - 1) 1 with
      | Ok l => Ok (makeSample k c len 0 :: l)
      | e => e
      end
    | Throw => Throw
    | Ub => Ub
    end
  | Throw => Throw
  | Ub => Ub
  end.

(** rbprm-limb.cc:149-153 *)
Definition octreeRoot (k : list R) : se3 := match parentT with Some p => p k | None => limbT k end.
End samples.

(** * Creation *)
Section create.
Local Open Scope R_scope.
(** a device: its current configuration and the one its placements were last computed at
    (by computeForwardKinematics) (used at rbprm-limb.cc:84-110) *)
Record device := mkDevice { current : list R; computed : list R }.
Variables (effT : list R -> se3) (neutral : list R).

(** rbprm-limb.cc:77-84: the placements are not computed at the neutral configuration *)
Definition GetEffectorTransform (d : device) : mat3 * device :=
  let save := current d in
  let d1 := mkDevice neutral (computed d) in
  let r := rot (effT (computed d1)) in
  (mtr r, mkDevice save (computed d1)).

(** rbprm-limb.cc:86-106; Eigen::Quaterniond of a vector: x, y, z, w.  A configuration
    with less than 7 entries is an Eigen assertion *)
Definition computeEffectorReferencePosition (d : device) : outcome (vec3 * device) :=
  match neutral with
  | px :: py :: pz :: x :: y :: z :: w :: _ =>
    let tRoot := SE3 (toRotationMatrix (w, V3 x y z)) (V3 px py pz) in
    let d' := mkDevice neutral neutral in
    let tJoint_world := effT (computed d') in
    Ok (inverseAct tRoot (tra tJoint_world), d')
  | _ => Ub
  end.

(** what the constructor of rbprm-limb.cc:108-147 computes: effectorDefaultRotation_,
    offset_, normal_, the samples (the robot they are cloned from has the placements of
    [computed d]), effectorReferencePosition_; and the robot afterwards *)
Definition createLimb (samplesOf : list R -> outcome (list (sample R))) (offset normal : vec3) (d : device)
  : outcome (mat3 * vec3 * vec3 * list (sample R) * vec3 * device) :=
  let '(r, d1) := GetEffectorTransform d in
  match samplesOf (computed d1) with
  | Ok ss =>
    match computeEffectorReferencePosition d1 with
    | Ok (p, d2) => Ok (r, mapp r offset, mapp r normal, ss, p, d2)
    | Throw => Throw
    | Ub => Ub
    end
  | Throw => Throw
  | Ub => Ub
  end.
End create.

(** rbprm-limb.cc:66-75: the name of the effector's frame; [Node name children]: a joint *)
Inductive jtree := Node (name : string) (children : list jtree).
Fixpoint lastFirst (j : jtree) : string :=
  match j with
  | Node n [] => n
  | Node _ (c :: _) => lastFirst c
  end.
Definition GetEffector (j : jtree) (name : string) : string :=
  if String.eqb name "" then lastFirst j else name.

(** * The text file *)
(** rbprm-limb.hh:130-149; the rotation by rows; [limbOffset_]: [None] if not initialised;
    the heuristic is left out; of the kinematic constraints, the file and distance they are
    loaded with *)
Record limbFile (T : Type) := mkLimb {
  limbName : string;
  effectorName : string;
  defaultRotation : (T * T * T) * (T * T * T) * (T * T * T);
  offset_ : T * T * T;
  limbOffset_ : option (T * T * T);
  normal_ : T * T * T;
  x_ : T;
  y_ : T;
  contactType_ : Z;
  database : sampleDB T;
  disableCollision : bool;
  grasps_ : bool;
  constraintsFrom : string * T
}.
Arguments mkLimb {T}.
Arguments limbName {T}.
Arguments effectorName {T}.
Arguments defaultRotation {T}.
Arguments offset_ {T}.
Arguments limbOffset_ {T}.
Arguments normal_ {T}.
Arguments x_ {T}.
Arguments y_ {T}.
Arguments contactType_ {T}.
Arguments database {T}.
Arguments disableCollision {T}.
Arguments grasps_ {T}.
Arguments constraintsFrom {T}.

Section text.
Context {T : Type}.
Variable nt : numtext T.

(** src/tools.cc:250-256 *)
Definition writeRot (m : (T * T * T) * (T * T * T) * (T * T * T)) : string :=
  let '((a, b, c), (d, e, f), (g, h, i)) := m in writeEntries nt [a; b; c; d; e; f; g; h; i].
(** src/tools.cc:263-275 *)
Definition readRot (st : list string) : outcome (((T * T * T) * (T * T * T) * (T * T * T)) * list string) :=
  let '(line, st') := getline st EmptyString in
  match splitString line with
  | a :: b :: c :: d :: e :: f :: g :: h :: i :: _ =>
    Ok ((StrToD nt a, StrToD nt b, StrToD nt c), (StrToD nt d, StrToD nt e, StrToD nt f), (StrToD nt g, StrToD nt h, StrToD nt i), st')
  | _ => Ub
  end.

(** rbprm-limb.cc:155-169 *)
Definition saveLimbInfoAndDatabase (l : limbFile T) : string :=
  (limbName l ++ endl ++ effectorName l ++ endl ++ writeRot (defaultRotation l) ++ endl
   ++ writeVec nt (offset_ l) ++ endl ++ writeVec nt (normal_ l) ++ endl
   ++ fmt nt (x_ l) ++ endl ++ fmt nt (y_ l) ++ endl ++ fmtZ nt (contactType_ l) ++ endl
   ++ saveLimbDatabase nt (database l))%string.

(** sample-db.cc:371-396 on what remains of the file *)
Definition loadDBfrom (voxel : T * T * T -> Z) (loadValues : bool) (st : list string) : outcome (sampleDB T) :=
  let '(l1, st1) := getline st EmptyString in
  let size := toSize (StrToI nt l1) in
  let '(l2, st2) := getline st1 l1 in
  match loadLoop nt (length st2) loadValues size st2 l2 [] ∅ with
  | Ok (ss, vals) => alignSampleOrderWithOctree voxel (mkDB (StrToD nt l2) ss vals ∅ ∅)
  | Throw => Throw
  | Ub => Ub
  end.

(** the file of the constraints (rbprm-limb.cc:136-142 and 216-219) *)
Definition constraintsFile (robotName limb : string) : string :=
  ("package://" ++ robotName ++ "-rbprm/com_inequalities/" ++ limb ++ "_com_constraints.obj")%string.

(** rbprm-limb.cc:174-221: members are initialised in the order of their declaration.
    getJointByName and getFrameByName throw for unknown names ([hasJoint], [hasFrame]);
    [d03] is 0.3 *)
Definition loadLimb (hasJoint hasFrame : string -> bool) (robotName : string) (d03 : T) (voxel : T * T * T -> Z)
  (loadValues disableEndEffectorCollision grasps : bool) (text : string) : outcome (limbFile T) :=
  let '(n, st1) := getline (lines text) EmptyString in
  if negb (hasJoint n) then Throw else
  let '(e, st2) := getline st1 EmptyString in
  if negb (hasFrame e) then Throw else
  match readRot st2 with
  | Ok (r, st3) =>
    match readVec nt st3 EmptyString with
    | Ok (o, st4, _) =>
      match readVec nt st4 EmptyString with
      | Ok (nrm, st5, _) =>
        let '(x, st6) := StrToD_in nt st5 in
        let '(y, st7) := StrToD_in nt st6 in
        let '(ct, st8) := StrToI_in nt st7 in
        match loadDBfrom voxel loadValues st8 with
        | Ok db => Ok (mkLimb n e r o None nrm x y ct db disableEndEffectorCollision grasps (constraintsFile robotName n, d03))
        | Throw => Throw
        | Ub => Ub
        end
      | _ => Ub
      end
    | _ => Ub
    end
  | _ => Ub
  end.
End text.
