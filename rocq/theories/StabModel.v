(** Model of src/stability/stability.cc: the contact points and normals handed to
    the centroidal-dynamics library, the balance test and the wrench cone.
    Exact reals; the library itself (hpp-centroidal-dynamics) is a parameter: a
    function of the contact set it was given. *)
From Coq Require Import Reals ZArith.
From Verif Require Import SampModel.
From Verif Require Export ProjModel.
Local Open Scope R_scope.

(** sequencing of C++ calls that may throw (used for stability.cc:45-349) *)
Definition obind {A B} (o : outcome A) (f : A -> outcome B) : outcome B :=
  match o with Ok a => f a | Throw => Throw | Ub => Ub end.

(** include/hpp/rbprm/rbprm-limb.hh: the fields of a limb used here.  [reffpose q] is
    effector_.currentTransformation() after computeForwardKinematics at [q];
    [rkin] the rows of kinematicConstraints_ (normal, vertex) (rbprm-limb.hh:122-138) *)
Record rlimb := mkRlimb {
  rtype : contactType;
  roffset : vec3;
  rnormal : vec3;
  rx : R;
  ry : R;
  rgrasp : bool;
  reffpose : list R -> se3;
  rkin : list (vec3 * vec3)
}.
(** include/hpp/rbprm/rbprm-fullbody.hh and the device.  [rconfSize]: configSize();
    [rextra]: extraConfigSpace().dimension() (rbprm-fullbody.hh:187-205) *)
Record rbody := mkRbody {
  rlimbs : gmap string rlimb;
  rcom : list R -> vec3;
  rmass : R;
  rfriction : R;
  rstatic : bool;            (* staticStability() *)
  rconfSize : nat;
  rextra : nat;
  rjunk : R                  (* uninitialised robustness of a default State *)
}.

(** centroidal_dynamics::EquilibriumAlgorithm: PP and the LP-based ones (used in stability.cc:45-349) *)
Inductive eqAlg := ALG_PP | ALG_LP (n : nat).
Definition isPP (a : eqAlg) : bool := match a with ALG_PP => true | ALG_LP _ => false end.
(** centroidal_dynamics::LP_status (used in stability.cc:45-349) *)
Inductive lpStatus := LP_OPTIMAL | LP_INFEASIBLE | LP_UNBOUNDED | LP_OTHER (n : nat).
Definition isOptimal (s : lpStatus) : bool := match s with LP_OPTIMAL => true | _ => false end.

(** the arguments of Equilibrium::setNewContacts (stability.cc:230) *)
Record contactSet := mkCS { cpts : list vec3; cnrms : list vec3; cmu : R; calg : eqAlg }.
(** a row of the wrench polytope: its first three and last three columns (stability.cc:257) *)
Record row6 := R6 { lin : vec3; ang : vec3 }.

(** hpp-centroidal-dynamics: setNewContacts, checkRobustEquilibrium,
    computeEquilibriumRobustness (None: without acceleration), getPolytopeInequalities,
    m_gravity (used at stability.cc:230, 237-349) *)
Record eqlib := mkEqlib {
  setNew : contactSet -> bool;
  checkEq : contactSet -> vec3 -> option vec3 -> lpStatus * bool;
  robEq : contactSet -> vec3 -> option vec3 -> lpStatus * R;
  polytope : contactSet -> lpStatus * (list row6 * list R);
  gravity : vec3
}.

(** stability.cc:50 *)
Definition corners (lx ly : R) : list vec3 := [V3 lx ly 0; V3 lx (-ly) 0; V3 (-lx) (-ly) 0; V3 (-lx) ly 0].

(** map.at(name) (used in stability.cc:45-349) *)
Definition at_ {V} (m : gmap string V) (k : string) : outcome V :=
  match m !! k with Some v => Ok v | None => Throw end.

Section Stab.
(** the axis Eigen's setFromTwoVectors chooses for opposite vectors (ProjModel) *)
Variable axis : vec3 -> vec3 -> vec3.
Variable lib : eqlib.
Variable B : rbody.

(** stability.cc:45-98, the branch of contacts that are not _3_DOF (the other one
    is not reached: a _3_DOF limb has one contact point).  The inverse of a rotation
    matrix is its transpose *)
Definition computeRectangleContact (name : string) (l : rlimb) (s : PSt) (fx fy : R) : outcome (list vec3) :=
  let lx := if Reqb fx 0 then rx l else fx in
  let ly := if Reqb fy 0 then ry l else fy in
  obind (at_ (positions s) name) (fun position =>
  let rotationLocal := mtr (GetRotationMatrix axis (V3 0 0 1) (rnormal l)) in
  obind (at_ (rotations s) name) (fun r =>
  Ok (map (fun c => se3act (SE3 r position) (vadd (mapp rotationLocal c) (roffset l))) (corners lx ly)))).

(** stability.cc:100-113 *)
Definition computePointContact (name : string) (l : rlimb) (s : PSt) : outcome vec3 :=
  obind (at_ (positions s) name) (fun position =>
  obind (at_ (normals s) name) (fun normal =>
  let reff := rot (reffpose l (configuration s)) in
  let z_current := mapp reff (rnormal l) in
  let rotation := mmul (GetRotationMatrix axis z_current normal) reff in
  Ok (vadd position (mapp rotation (roffset l))))).

(** stability.cc:120-125 *)
Definition numContactPoints (l : rlimb) : nat := match rtype l with _3_DOF => 1 | _6_DOF => 4 end.

(** stability.cc:152-161: the recorded positions in map order, split by grasps_ *)
Fixpoint splitGrasps (names : list string) : outcome (list string * list string) :=
  match names with
  | [] => Ok ([], [])
  | n :: ns =>
    obind (at_ (rlimbs B) n) (fun l =>
    obind (splitGrasps ns) (fun '(cs, gs) => Ok (if rgrasp l then (cs, n :: gs) else (n :: cs, gs))))
  end.

(** stability.cc:171-190 and 191-213: the rows of one list of contacts; [norm]
    normalises the normal (non-grasp contacts only) *)
Fixpoint contactRows (s : PSt) (norm : vec3 -> vec3) (fx fy : R) (names : list string)
  : outcome (list (vec3 * vec3)) :=
  match names with
  | [] => Ok []
  | n :: ns =>
    obind (at_ (rlimbs B) n) (fun l =>
    obind (at_ (normals s) n) (fun nn =>
    obind (if (1 <? numContactPoints l)%nat then computeRectangleContact n l s fx fy
           else obind (computePointContact n l s) (fun p => Ok [p])) (fun ps =>
    obind (contactRows s norm fx fy ns) (fun rest =>
    Ok (map (fun p => (p, norm nn)) ps ++ rest)%list))))
  end.

(** stability.cc:141-235.  The friction argument is overwritten by the robot's; the
    device's current configuration (saved through a reference to it) is not
    modelled.  Returns the contact set given to the library and the centre of
    mass; throws when the library refuses the contacts *)
Definition setupLibrary (s : PSt) (alg : eqAlg) (fx fy : R) : outcome (contactSet * vec3) :=
  obind (splitGrasps (skeys (positions s))) (fun '(cs, gs) =>
  obind (contactRows s vnormalize fx fy cs) (fun r1 =>
  obind (contactRows s (fun n => n) 0 0 gs) (fun r2 =>
  let rows := (r1 ++ r2)%list in
  let alg' := if negb (length gs =? 0)%nat then ALG_PP else alg in
  let k := mkCS (map fst rows) (map snd rows) (rfriction B) alg' in
  if setNew lib k then Ok (k, rcom B (configuration s)) else Throw))).

(** std::numeric_limits<double>::max() (used in stability.cc:267-349) *)
Definition dmax : R := IZR ((2 ^ 53 - 1) * 2 ^ 971).
(** Eigen isZero() of a vector: every entry at most 1e-12 in absolute value *)
Definition isZero12 (v : vec3) : bool :=
  Rleb (Rabs (vx v)) (/ 10 ^ 12) && Rleb (Rabs (vy v)) (/ 10 ^ 12) && Rleb (Rabs (vz v)) (/ 10 ^ 12).
(** configuration.segment<3>(i) (used in stability.cc:267-349) *)
Definition seg3 (q : list R) (i : nat) : vec3 := V3 (nth i q 0) (nth (i + 1) q 0) (nth (i + 2) q 0).

(** stability.cc:277-288: the acceleration used; segment<3> out of range is
    undefined behaviour *)
Definition chosenAcc (s : PSt) (acc : vec3) : outcome vec3 :=
  if (6 <=? rextra B)%nat && Reqb (vnorm acc) 0 then
    let i := (rconfSize B - rextra B + 3)%nat in
    if (i + 3 <=? length (configuration s))%nat then Ok (seg3 (configuration s) i) else Ub
  else Ok acc.

(** stability.cc:267-349 *)
Definition IsStable (s : PSt) (acc com : vec3) (algorithm : eqAlg) : outcome R :=
  obind (chosenAcc s acc) (fun acc =>
  obind (setupLibrary s algorithm 0 0) (fun '(k, comComputed) =>
  let c := if isZero12 com then comComputed else com in
  let a := if rstatic B then None else Some acc in
  let '(status, res) :=
    if isPP (calg k) then
      let '(st, ok) := checkEq lib k c a in (st, if ok : bool then dmax else -1)
    else robEq lib k c a in
  Ok (match status with
      | LP_OPTIMAL => res
      | LP_INFEASIBLE | LP_UNBOUNDED => - (11 / 10)
      | LP_OTHER _ => - dmax
      end))).

(** stability.cc:237-265; the friction argument is not used *)
Definition ComputeCentroidalCone (s : PSt) : outcome (list row6 * list R) :=
  obind (setupLibrary s ALG_PP 0 0) (fun '(k, _) =>
  let '(status, Hh) := polytope lib k in
  if isOptimal status then Ok Hh
  else Ok (repeat (R6 vzero vzero) 6, repeat 0 6)).
End Stab.
