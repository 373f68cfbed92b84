(** Model of src/planner/rbprm-node.cc (the matrices of the dynamic constraints at a node
    and the choice of the contact surfaces) and of
    src/planner/rbprm-steering-kinodynamic.cc (steering under these constraints).  Doubles
    are reals. *)
From Coq Require Import Reals ZArith.
From Verif Require Import SampModel.
From Verif Require Export Maps Vec ToolModel.
Local Open Scope R_scope.

(** * Matrices (Eigen): a matrix is a function of the row and the column (used in rbprm-node.cc:144-415) *)
Definition matx := nat -> nat -> R.
Fixpoint sumn (n : nat) (f : nat -> R) : R := match n with O => 0 | S n => sumn n f + f n end.
Definition comp (v : vec3) (i : nat) : R := match i with O => vx v | S O => vy v | _ => vz v end.
(** M.block<nr, nc>(r, c) = B (used at rbprm-node.cc:199-228, 297-325) *)
Definition setBlock (M : matx) (r c nr nc : nat) (B : matx) : matx := fun i j =>
  if (r <=? i)%nat && (i <? r + nr)%nat && (c <=? j)%nat && (j <? c + nc)%nat then B (i - r)%nat (j - c)%nat else M i j.
Definition identity3 : matx := fun i j => if Nat.eqb i j then 1 else 0.
(** centroidal_dynamics::crossMatrix (used at rbprm-node.cc:201, 220, 298, 325) *)
Definition crossMatrix (p : vec3) : matx := fun i j =>
  match i, j with
  | O, S O => - vz p | O, S (S O) => vy p
  | S O, O => vz p | S O, S (S O) => - vx p
  | S (S O), O => - vy p | S (S O), S O => vx p
  | _, _ => 0
  end.

(** Eigen: quaternion (w, x, y, z) * Vector3(1, 0, 0) (used at rbprm-node.cc:154) *)
Definition quatX (w x y z : R) : vec3 := V3 (1 - 2 * y * y - 2 * z * z) (2 * w * z + 2 * x * y) (2 * x * z - 2 * w * y).

(** rbprm-node.cc:152-160: the tangent vectors *)
Definition tangent1 (pn tq : vec3) : vec3 :=
  let tProj := vnormalize (V3 (vx tq) (vy tq) 0) in
  let ti1 := vcross pn tProj in
  let ti1 := if Rltb (vdot ti1 ti1) (1 / 1000) then vcross pn (V3 1 0 0) else ti1 in
  if Rltb (vdot ti1 ti1) (1 / 1000) then vcross pn (V3 0 1 0) else ti1.
(** rbprm-node.cc:165-172 *)
Definition rays (mu : R) (pn ti1 ti2 : vec3) (j : nat) : vec3 :=
  vnormalize (match j with
  | O => vadd pn (vscale mu ti1)
  | S O => vsub pn (vscale mu ti1)
  | S (S O) => vadd pn (vscale mu ti2)
  | _ => vsub pn (vscale mu ti2)
  end).

(** the matrices under construction and their sizes: V is (3 np) x (4 np), IP_hat 6 x (3 np) (rbprm-node.cc:102-142) *)
Record acc := mkAcc { np : nat; idx : nat; mV : matx; mIP : matx }.

(** rbprm-node.cc:198-212, 217-230: one contact point.  A block outside of the matrices is
    an error *)
Definition putPoint (x : acc) (p : vec3) (col : nat -> vec3) : outcome acc :=
  let k := idx x in
  if (k <? np x)%nat then
    Ok (mkAcc (np x) (S k)
          (setBlock (mV x) (3 * k) (4 * k) 3 4 (fun i j => comp (col j) i))
          (setBlock (setBlock (mIP x) 0 (3 * k) 3 3 identity3) 3 (3 * k) 3 3 (crossMatrix p)))
  else Ub.

(** rbprm-node.cc:186-196: the corners of the contact rectangle *)
Definition corner (center shiftX shiftY : vec3) (i : nat) : vec3 :=
  let p := if (i <? 2)%nat then vadd center shiftX else vsub center shiftX in
  if (i mod 2 =? 0)%nat then vadd p shiftY else vsub p shiftY.

Definition nbind {A B} (o : outcome A) (f : A -> outcome B) : outcome B :=
  match o with Ok a => f a | Throw => Throw | Ub => Ub end.

(** rbprm-node.cc:144-232.  [tq]: the orientation of the root applied to (1, 0, 0) *)
Definition onePoint (pn center : vec3) (sizeX sizeY : R) (rect : bool) (mu : R) (tq : vec3) (x : acc) : outcome acc :=
  let ti1 := tangent1 pn tq in
  let ti2 := vcross pn ti1 in
  let col := rays mu pn ti1 ti2 in
  if rect then
    let sX := vscale sizeX ti2 in
    let sY := vscale sizeY ti1 in
    nbind (putPoint x (corner center sX sY 0) col) (fun x =>
    nbind (putPoint x (corner center sX sY 1) col) (fun x =>
    nbind (putPoint x (corner center sX sY 2) col) (fun x =>
    putPoint x (corner center sX sY 3) col)))
  else putPoint x center col.

(** the part of RbprmNode used here (rbprm-node.hh:85-95) *)
Record nodeMx := mkNode { nPoints : nat; nG : matx; nH : matx; nh : nat -> R }.

Section Fill.
(** rbprm-node.cc:102-142: the contact point of a ROM (name): success, normal, point.
    When it fails the normal and the point are those of uninitialised variables: any
    value *)
Variable approx : string -> bool * vec3 * vec3.

Fixpoint allPoints (roms : list string) (sizeX sizeY : R) (rect : bool) (mu : R) (tq : vec3) (x : acc) : outcome acc :=
  match roms with
  | [] => Ok x
  | r :: roms =>
      let '(_, pn, p) := approx r in
      nbind (onePoint pn p sizeX sizeY rect mu tq x) (allPoints roms sizeX sizeY rect mu tq)
  end.

(** rbprm-node.cc:234-346.  [roms]: the names of the ROM reports (std::map, in order);
    [c]: the first three components of the configuration; [m]: the mass.  The matrices set
    when a contact point is not found (lines 293-316) are overwritten at the end *)
Definition fillNodeMatrices (roms : list string) (rect : bool) (sizeX sizeY m mu : R) (c tq : vec3) : outcome nodeMx :=
  let n := (length roms + 3 * (if rect then 1 else 0) * length roms)%nat in
  nbind (allPoints roms sizeX sizeY rect mu tq (mkAcc n 0 (fun _ _ => 0) (fun _ _ => 0))) (fun x =>
  let G : matx := fun i j => sumn (3 * n) (fun k => mIP x i k * mV x k j) in
  let H : matx := fun i j => m * (setBlock (setBlock (fun _ _ => 0) 0 0 3 3 identity3) 3 0 3 3 (crossMatrix c)) i j in
  let mg := vopp (V3 0 0 (- (981 / 100))) in
  let h := fun i => m * (if (i <? 3)%nat then comp mg i else comp (vcross c mg) (i - 3)) in
  Ok (mkNode n G H h)).
End Fill.

(** * rbprm-node.cc:348-415: chooseBestContactSurface.  [S]: the reports of one ROM with one
    surface; [inter s]: None when the intersection is empty, else the distance between the
    reference and its projection inside the intersection.  The largest double is taken to be
    above all distances: None *)
Section Choose.
Variable S : Type.
Variable inter : string -> S -> option R.
Fixpoint bestOf (rom : string) (l : list S) (best : S) (minD : option R) : S :=
  match l with
  | [] => best
  | s :: l =>
      match inter rom s with
      | Some d =>
          if match minD with None => true | Some m => Rltb d m end then bestOf rom l s (Some d)
          else bestOf rom l best minD
      | None => bestOf rom l best minD
      end
  end.
(** [reps]: for each ROM the surface its report designates and, when the report has all of
    them (computeAllContacts), the list of the surfaces.  The function returns at the first
    report without that list (rbprm-node.cc:102-142) *)
Fixpoint chooseBest (reps : list (string * (S * option (list S)))) : list (string * (S * option (list S))) :=
  match reps with
  | [] => []
  | (rom, (cur, None)) :: _ => reps
  | (rom, (cur, Some l)) :: reps =>
      (match l with
       | front :: _ :: _ => (rom, (bestOf rom l front None, Some l))
       | _ => (rom, (cur, Some l))
       end) :: chooseBest reps
  end.
End Choose.

(** * The kinodynamic steering method *)
Section Kino.
(** core::KinodynamicPath: length (its time range is [0, length]), A1, the durations T0, T1
    and Tv of the phases of the first three axes, the acceleration at a time, extraction *)
Variable K : Type.
Variable klen : K -> R.
Variable kA1 : K -> vec3.
Variables (kt0 kt1 ktv : K -> nat -> R).
Variable kacc : K -> R -> vec3.
Variable kextract : K -> R -> R -> K.
(** core::steeringMethod::Kinodynamic::impl_compute under the bounds aMax_ (None: no path);
    aMaxFixed_, aMaxFixed_Z_ *)
Variable kino : vec3 -> list R -> list R -> option K.
Variables (aMaxFixed aMaxFixedZ : R).
(** centroidal_dynamics::Equilibrium with the matrices of the node: checkAdmissibleAcceleration
    and the value alpha0 computed by findMaximumAcceleration in a direction (its status is
    not used) (used at rbprm-steering-kinodynamic.cc:204-446) *)
Variable admissible : vec3 -> bool.
Variable findMax : vec3 -> R.

Definition keps : R := 1 / 10000.

(** rbprm-steering-kinodynamic.cc:321-343: the path and lastDirection_ *)
Definition computeDirection (aMax : vec3) (from to : list R) (reverse : bool) : option K * vec3 :=
  let path := if reverse then kino aMax to from else kino aMax from to in
  (path, match path with Some p => vnormalize (kA1 p) | None => vzero end).

(** rbprm-steering-kinodynamic.cc:345-446: the path returned, aMax_ and boundsUpToDate_ *)
Definition setBounds (nodeq target : list R) (reverse : bool) : option K * vec3 * bool :=
  let aMax := V3 aMaxFixed aMaxFixed aMaxFixedZ in
  let '(path, dir) := computeDirection aMax nodeq target reverse in
  if Rleb (vnorm dir) (/ 2 ^ 52) then (None, aMax, true)
  else
    let alpha0 := findMax dir in
    let '(aMax, upToDate) :=
      if Rleb alpha0 aMaxFixed then
        let v := vscale (alpha0 - 1 / 100) dir in
        (V3 (Rabs (vx v)) (Rabs (vy v)) (Rabs (vz v)), false)
      else (aMax, true) in
    let aMax := if Rltb (vz aMax) aMaxFixedZ then V3 (vx aMax) (vy aMax) aMaxFixedZ else aMax in
    (path, aMax, upToDate).

(** rbprm-steering-kinodynamic.cc:147-182: for one axis, the instants checked, starting from
    [t]; the first one is t0 + [shift] *)
Definition axisTimes (p : K) (shift : R) (i : nat) : list R :=
  let t := shift in
  let '(t, l0) := if Rltb 0 (kt0 p i) then (kt0 p i + shift, [kt0 p i + shift]) else (t, []) in
  let '(t, l1) := if Rltb 0 (kt1 p i) then (t + kt1 p i, [t + kt1 p i]) else (t, []) in
  let l2 := if Rltb 0 (ktv p i) then [t + ktv p i] else [] in
  (l0 ++ l1 ++ l2)%list.
Definition allTimes (p : K) (shift : R) : list R :=
  (axisTimes p shift 0 ++ axisTimes p shift 1 ++ axisTimes p shift 2)%list.

(** rbprm-steering-kinodynamic.cc:80-201 (the node is not null) *)
Definition steerFrom (nodeq q2 : list R) : option K :=
  let '(unbounded, aMax, upToDate) := setBounds nodeq q2 false in
  if Rleb (Rabs (vx aMax) + Rabs (vy aMax)) 0 then None
  else if upToDate then unbounded
  else match kino aMax nodeq q2 with
  | None => None
  | Some p =>
      if Rltb 50 (klen p) then None
      else if negb (admissible (kacc p keps)) then None
      else
        let maxT := fold_left (fun maxT t =>
          if negb (admissible (kacc p t)) && Rltb t maxT then t else maxT) (allTimes p keps) (klen p) in
        if Rltb maxT (klen p) then Some (kextract p 0 (0 + (maxT - keps))) else Some p
  end.

(** rbprm-steering-kinodynamic.cc:204-319 *)
Definition steerTo (q1 nodeq : list R) : option K :=
  let '(unbounded, aMax, upToDate) := setBounds nodeq q1 true in
  if Rleb (Rabs (vx aMax) + Rabs (vy aMax)) 0 then None
  else if upToDate then unbounded
  else match kino aMax q1 nodeq with
  | None => None
  | Some p =>
      if Rltb 50 (klen p) then None
      else if negb (admissible (kacc p (klen p - keps))) then None
      else
        let minT := fold_left (fun minT t =>
          if negb (admissible (kacc p t)) && Rltb minT t then t else minT) (allTimes p (- keps)) 0 in
        if Rltb 0 minT then Some (kextract p (minT + keps) (klen p)) else Some p
  end.
End Kino.
