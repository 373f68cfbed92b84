(** Model of the functions of src/tools.cc and include/hpp/rbprm/tools.hh on quaternions,
    rotation matrices and trees of joints, and of the obstacles RbPrmFullBody::AddLimb gives
    to the collision validations.  Exact reals instead of doubles. *)
From Verif Require Export Maps Vec.
Local Open Scope R_scope.

(** * Quaternions: vectors of size 4 (used in tools.cc:37-68) *)
Record quat := Q4 { qx : R; qy : R; qz : R; qw : R }.
Definition qdot (p q : quat) : R := qx p * qx q + qy p * qy q + qz p * qz q + qw p * qw q.
Definition qscale (k : R) (q : quat) : quat := Q4 (k * qx q) (k * qy q) (k * qz q) (k * qw q).
Definition qadd (p q : quat) : quat := Q4 (qx p + qx q) (qy p + qy q) (qz p + qz q) (qw p + qw q).
Definition quat_eq_dec (p q : quat) : {p = q} + {p <> q}.
Proof.
  destruct p as [a b c d], q as [a' b' c' d'].
  destruct (Req_EM_T a a') as [->|H1]; [|right; congruence].
  destruct (Req_EM_T b b') as [->|H2]; [|right; congruence].
  destruct (Req_EM_T c c') as [->|H3]; [|right; congruence].
  destruct (Req_EM_T d d') as [->|H4]; [left; done|right; congruence].
Defined.

(** tools.cc:70-84; the returned angle and cosIsNegative.  [Throw]: the assertion *)
Definition angleBetweenQuaternions (q1 q2 : quat) : outcome (R * bool) :=
  if quat_eq_dec q1 q2 then Ok (0, false)
  else
    let p := qdot q1 q2 in
    if Rltb (Rabs p) (1001/1000) then
      let p := if Rltb p (-1) then -1 else p in
      let p := if Rltb 1 p then 1 else p in
      Ok (acos p, Rltb p 0)
    else Throw.

(** tools.cc:86-102 *)
Definition interpolate (q1 q2 : quat) (u : R) : outcome quat :=
  match angleBetweenQuaternions q1 q2 with
  | Ok (angle, cosIsNegative) =>
    let invertor := if cosIsNegative then -1 else 1 in
    let theta := if cosIsNegative then PI - angle else angle in
    Ok (if Rltb (1/10000) (Rabs theta) then
          let sintheta_inv := 1 / sin theta in
          qadd (qscale (sin ((1 - u) * theta) * sintheta_inv) q1)
               (qscale (invertor * (sin (u * theta) * sintheta_inv)) q2)
        else qadd (qscale (1 - u) q1) (qscale (invertor * u) q2))
  | Throw => Throw
  | Ub => Ub
  end.

(** tools.cc:104-109 *)
Definition qdistance (q1 q2 : quat) : outcome R :=
  match angleBetweenQuaternions q1 q2 with
  | Ok (theta, cosIsNegative) => Ok (2 * (if cosIsNegative then PI - theta else theta))
  | Throw => Throw
  | Ub => Ub
  end.

(** * Rotation matrices: the entries written; the others are not initialised.
    tools.cc:37-46, 48-57, 59-68 *)
Definition GetZRotMatrix (t : R) (i j : nat) : option R :=
  match i, j with
  | 0, 0 => Some (cos t) | 0, 1 => Some (- sin t) | 1, 0 => Some (sin t) | 1, 1 => Some (cos t) | 2, 2 => Some 1%R
  | _, _ => None
  end%nat.
Definition GetYRotMatrix (t : R) (i j : nat) : option R :=
  match i, j with
  | 0, 0 => Some (cos t) | 0, 2 => Some (sin t) | 1, 1 => Some 1%R | 2, 0 => Some (- sin t) | 2, 2 => Some (cos t)
  | _, _ => None
  end%nat.
Definition GetXRotMatrix (t : R) (i j : nat) : option R :=
  match i, j with
  | 0, 0 => Some 1%R | 1, 1 => Some (cos t) | 1, 2 => Some (- sin t) | 2, 0 => Some (sin t) | 2, 2 => Some (cos t)
  | _, _ => None
  end%nat.

(** * Trees of joints: name, rank and size in the configuration, whether it has a body,
    children (walked by tools.cc:70-155) *)
Inductive jnt := Jnt (n : string) (rank size : nat) (body : bool) (kids : list jnt).
Definition jname (j : jnt) : string := let 'Jnt n _ _ _ _ := j in n.
Definition jkids (j : jnt) : list jnt := let 'Jnt _ _ _ _ k := j in k.
Definition jbody (j : jnt) : bool := let 'Jnt _ _ _ b _ := j in b.

(** the value a LockedJoint is made with: c.segment(rank, size) (tools.hh:102-142) *)
Definition lockOf {T} (c : list T) (j : jnt) : string * list T :=
  let 'Jnt n r s _ _ := j in (n, take s (drop r c)).

(** tools.cc:127-139: the locked joints added to the projector, in order *)
Fixpoint LockJointRec1 {T} (c : list T) (spared : string) (j : jnt) : list (string * list T) :=
  match j with
  | Jnt n _ _ _ kids =>
    if bool_decide (n = spared) then []
    else lockOf c j :: concat (map (LockJointRec1 c spared) kids)
  end.
(** tools.cc:141-155 *)
Fixpoint LockJointRec {T} (c : list T) (spared : list string) (j : jnt) : list (string * list T) :=
  match j with
  | Jnt n _ _ _ kids =>
    if inb n spared then []
    else lockOf c j :: concat (map (LockJointRec c spared) kids)
  end.

(** * Obstacles: pairs (joint, obstacle) of a validation *)
Notation pairs := (gset (string * string)).

(** hpp-core's removeObstacleFromJoint: throws ([None]) iff the pair is not there (called at tools.hh:144-211) *)
Definition removeObstacleFromJoint (j o : string) (S : pairs) : option pairs :=
  if bool_decide ((j, o) ∈ S) then Some (S ∖ {[ (j, o) ]}) else None.

(** tools.hh:102-116 *)
Fixpoint RemoveEffectorCollisionRec (o : string) (j : jnt) (S : pairs) : pairs :=
  match j with
  | Jnt n _ _ _ kids =>
    match removeObstacleFromJoint n o S with
    | None => S
    | Some S' => fold_left (fun S k => RemoveEffectorCollisionRec o k S) kids S'
    end
  end.
(** tools.hh:127-142 *)
Definition RemoveEffectorCollision1 (o : string) (j : jnt) (S : pairs) : pairs :=
  match removeObstacleFromJoint (jname j) o S with
  | None => S
  | Some S' => fold_left (fun S k => RemoveEffectorCollisionRec o k S) (jkids j) S'
  end.
(** tools.hh:118-125 *)
Definition RemoveEffectorCollision (os : list string) (j : jnt) (S : pairs) : pairs :=
  fold_left (fun S o => RemoveEffectorCollision1 o j S) os S.

(** tools.hh:144-164 *)
Fixpoint addLimbCollisionRec (eff effJoint : string) (os : list string) (disable : bool) (j : jnt) (S : pairs) : pairs :=
  match j with
  | Jnt n _ _ _ kids =>
    if disable && (bool_decide (n = eff) || bool_decide (n = effJoint) || (length kids =? 0)%nat) then S
    else fold_left (fun S k => addLimbCollisionRec eff effJoint os disable k S) kids
           (fold_left (fun S o => {[ (n, o) ]} ∪ S) os S)
  end.

(** tools.hh:166-189, the overload for one limb: an exception only skips its pair *)
Definition dropAll (n : string) (os : list string) (S : pairs) : pairs :=
  fold_left (fun S o => match removeObstacleFromJoint n o S with Some S' => S' | None => S end) os S.
Fixpoint RemoveNonLimbCollisionRec1 (limb : string) (os : list string) (j : jnt) (S : pairs) : pairs :=
  match j with
  | Jnt n _ _ body kids =>
    if bool_decide (n = limb) then S
    else fold_left (fun S k => RemoveNonLimbCollisionRec1 limb os k S) kids (if body then dropAll n os S else S)
  end.
(** tools.hh:191-211, the overload for several: an exception leaves the function *)
Fixpoint dropUntil (n : string) (os : list string) (S : pairs) : pairs * bool :=
  match os with
  | [] => (S, true)
  | o :: os' => match removeObstacleFromJoint n o S with
                | None => (S, false)
                | Some S' => dropUntil n os' S'
                end
  end.
Fixpoint RemoveNonLimbCollisionRec (keepers : list string) (os : list string) (j : jnt) (S : pairs) : pairs :=
  match j with
  | Jnt n _ _ _ kids =>
    if inb n keepers then S
    else match dropUntil n os S with
         | (S', false) => S'
         | (S', true) => fold_left (fun S k => RemoveNonLimbCollisionRec keepers os k S) kids S'
         end
  end.

(** * The obstacles of the full body, rbprm-fullbody.cc:62-123.  A registration: the limb's
    first joint, the frame and joint of its effector, the obstacles, disableEffectorCollision,
    nonContactingLimb *)
Record registration := mkReg {
  r_id : string; r_joint : jnt; r_eff : string; r_effJoint : string; r_obs : list string; r_disable : bool; r_non : bool
}.
(** the numbers of registered limbs of the two kinds, the pairs of collisionValidation_ and
    those of the limbs' validations.  Left out: filterCollisionPairs (rbprm-fullbody.cc:84-125) *)
Record collisions := mkCol { c_limbs : gset string; c_non : gset string; c_body : pairs; c_limb : gmap string pairs }.
Definition noCollisions : collisions := mkCol ∅ ∅ ∅ ∅.
Definition addLimbCollisions (root : jnt) (c : collisions) (r : registration) : collisions :=
  let known := if r_non r then c_non c else c_limbs c in
  let limbVal := addLimbCollisionRec (r_eff r) (r_effJoint r) (r_obs r) (r_disable r) (r_joint r) ∅ in
  let bodyVal := if bool_decide (known = ∅)
                 then addLimbCollisionRec (r_eff r) (r_effJoint r) (r_obs r) (r_disable r) root (c_body c)
                 else c_body c in
  mkCol (if r_non r then c_limbs c else {[ r_id r ]} ∪ c_limbs c)
        (if r_non r then {[ r_id r ]} ∪ c_non c else c_non c)
        bodyVal
        (match c_limb c !! r_id r with Some _ => c_limb c | None => <[ r_id r := limbVal ]> (c_limb c) end).
Definition addLimbs (root : jnt) (rs : list registration) : collisions := fold_left (addLimbCollisions root) rs noCollisions.
