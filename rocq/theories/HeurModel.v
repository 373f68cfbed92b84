(** Model of src/sampling/heuristic-tools.cc and of the heuristics of src/sampling/heuristic.cc.
    Doubles are exact reals; a Vec2D is a vector with third coordinate 0; an angle that is not
    a number is [None]. *)
From Verif Require Export Maps Vec.
Local Open Scope R_scope.

(** ** parameters of the heuristics *)
(** heuristic-tools.hh:30-60; [T]: transforms, [P]: paths; [None] for what is not initialised,
    and for a null comPath_ *)
Record hparam (T P : Type) := mkHP {
  contactPositions : gmap string vec3;
  comPosition : vec3; comSpeed : vec3; comAcceleration : vec3;
  sampleLimbName : string;
  tfWorldRoot : T;
  comPath : option P;
  currentPathId : option R;
  limbReferenceOffset : option vec3
}.
Arguments mkHP {T P}. Arguments contactPositions {T P}. Arguments comPosition {T P}. Arguments comSpeed {T P}.
Arguments comAcceleration {T P}. Arguments sampleLimbName {T P}. Arguments tfWorldRoot {T P}. Arguments comPath {T P}.
Arguments currentPathId {T P}. Arguments limbReferenceOffset {T P}.
(** heuristic-tools.cc:18-24: the last three fields are not copied *)
Definition copyParam {T P} (z : hparam T P) : hparam T P :=
  mkHP (contactPositions z) (comPosition z) (comSpeed z) (comAcceleration z) (sampleLimbName z) (tfWorldRoot z) None None None.
(** heuristic-tools.cc:25-37: the last three fields keep their values *)
Definition assignParam {T P} (self z : hparam T P) : hparam T P :=
  mkHP (contactPositions z) (comPosition z) (comSpeed z) (comAcceleration z) (sampleLimbName z) (tfWorldRoot z)
       (comPath self) (currentPathId self) (limbReferenceOffset self).

(** ** contacts *)
(** heuristic-tools.cc:39-45; [ro]: the rows of the matrix *)
Definition transform (p tr : vec3) (ro : vec3 * vec3 * vec3) : vec3 :=
  V3 (vdot p ro.1.1 + vx tr) (vdot p ro.1.2 + vy tr) (vdot p ro.2 + vz tr).
(** heuristic-tools.cc:90-97 *)
Definition orthogonalProjection (p : vec3) (a b c d : R) : vec3 :=
  let k := (a * vx p + b * vy p + c * vz p + d) / (a * a + b * b + c * c) in
  V3 (vx p - k * a) (vy p - k * b) (vz p - k * c).
(** heuristic-tools.cc:99-113 *)
Definition computeSupportPolygon (contacts : gmap string vec3) : list vec3 :=
  map (fun kv : string * vec3 => let proj := orthogonalProjection kv.2 0 0 1 0 in V3 (vx proj) (vy proj) 0) (sitems contacts).
(** heuristic-tools.cc:333-347: begin() of an empty map is dereferenced *)
Definition removeNonGroundContacts (contacts : gmap string vec3) (threshold : R) : outcome (gmap string vec3) :=
  match sitems contacts with
  | [] => Ub
  | (_, c0) :: _ =>
    let minZ := fold_left (fun m (kv : string * vec3) => if Rltb (vz kv.2) m then vz kv.2 else m) (sitems contacts) (vz c0) in
    let out := omap (fun kv : string * vec3 => if Rltb (Rabs threshold) (Rabs (vz kv.2 - minZ)) then Some kv.1 else None) (sitems contacts) in
    Ok (fold_left (fun m k => delete k m) out contacts)
  end.

(** ** planar hull *)
(** heuristic-tools.cc:68-70 *)
Definition euclideanDist (a b : vec3) : R := sqrt ((vx a - vx b) * (vx a - vx b) + (vy a - vy b) * (vy a - vy b)).
(** heuristic-tools.cc:71-74 *)
Definition close (a b : vec3) : bool := Rltb (Rabs (vx a - vx b)) (1 / 1000000000) && Rltb (Rabs (vy a - vy b)) (1 / 1000000000).
(** heuristic-tools.cc:115-129; a zero norm gives 0/0 *)
Definition computeAngle (center end1 end2 : vec3) : option R :=
  if close end1 end2 then Some 0
  else
    let x1 := vx end1 - vx center in let y1 := vy end1 - vy center in
    let x2 := vx end2 - vx center in let y2 := vy end2 - vy center in
    let norm1 := sqrt (x1 * x1 + y1 * y1) in
    let norm2 := sqrt (x2 * x2 + y2 * y2) in
    if Reqb (norm1 * norm2) 0 then None
    else Some (acos ((x1 * x2 + y1 * y2) / (norm1 * norm2))).
(** comparisons are false when one side is not a number (those of heuristic.cc:37-310) *)
Definition oleb (a b : option R) : bool := match a, b with Some x, Some y => Rleb x y | _, _ => false end.
Definition oltb (a b : option R) : bool := match a, b with Some x, Some y => Rltb x y | _, _ => false end.
(** the angle with the horizontal direction of the scan *)
Definition opening (dir : R) (base p : vec3) : option R := computeAngle base (V3 (vx base + dir) (vy base) 0) p.
(** heuristic-tools.cc:160-175, the while loop; the subset is kept last element first; the
    result is the subset and the last opening *)
Fixpoint popWhile (dir : R) (p : vec3) (subset : list vec3) (op : option R) : list vec3 * option R :=
  match subset with
  | last :: (base :: _) as rest =>
    if oltb (opening dir base last) op then popWhile dir p rest (opening dir base p) else (subset, op)
  | _ => (subset, op)
  end.
(** heuristic-tools.cc:131-180; [hi] and [dir] are 1 or -1; back() of an empty subset is undefined *)
Definition scanningProcess (base : vec3) (hi dir : R) (st : list vec3 * option R) (p : vec3) : outcome (list vec3 * option R) :=
  let '(subset, angle) := st in
  match subset with
  | [] => Ub
  | [_] => Ok (p :: subset, opening dir base p)
  | last :: rest =>
    if Rleb (hi * vy last) (hi * vy p) then
      let op := opening dir last p in
      if oleb op angle then Ok (p :: subset, op)
      else
        match rest with
        | [] => Ub
        | last' :: _ =>
          let '(subset', op') := popWhile dir p rest (opening dir last' p) in
          Ok (p :: subset', op')
        end
    else Ok st
  end.
(** heuristic-tools.cc:188-199: the first point of smallest x is moved to the end of the
    result, again and again *)
Fixpoint minIndex (best : vec3) (bi i : nat) (l : list vec3) : nat * vec3 :=
  match l with
  | [] => (bi, best)
  | p :: l' => if Rltb (vx p) (vx best) then minIndex p i (S i) l' else minIndex best bi (S i) l'
  end.
Fixpoint selectionSort (n : nat) (l : list vec3) : list vec3 :=
  match n, l with
  | S n', p :: _ => let '(i, m) := minIndex p 0 0 l in m :: selectionSort n' (take i l ++ drop (S i) l)
  | _, _ => []
  end.
(** heuristic-tools.cc:202-238: one scan of the other points *)
Fixpoint scanPoints (base : vec3) (dir : R) (up low : list vec3 * option R) (l : list vec3)
  : outcome ((list vec3 * option R) * (list vec3 * option R)) :=
  match l with
  | [] => Ok (up, low)
  | p :: l' =>
    if Rleb (vy base) (vy p) then
      match scanningProcess base 1 dir up p with Ok up' => scanPoints base dir up' low l' | Throw => Throw | Ub => Ub end
    else
      match scanningProcess base (-1) dir low p with Ok low' => scanPoints base dir up low' l' | Throw => Throw | Ub => Ub end
  end.
(** heuristic-tools.cc:254-256 *)
Fixpoint mergeNew (res l : list vec3) : list vec3 :=
  match l with
  | [] => res
  | p :: l' => if existsb (fun q => close q p) res then mergeNew res l' else mergeNew (res ++ [p]) l'
  end.
(** heuristic-tools.cc:182-260 *)
Definition convexHull2D (set : list vec3) : outcome (list vec3) :=
  match selectionSort (length set) set with
  | [] => Ok []
  | p0 :: sorted' =>
    let sorted := p0 :: sorted' in
    match scanPoints p0 1 ([p0], None) ([p0], None) sorted' with
    | Ok ((trUp, _), (trLow, _)) =>
      let pn := List.last sorted p0 in
      match scanPoints pn (-1) ([pn], None) ([pn], None) (rev (removelast sorted)) with
      | Ok ((tlUp, _), (tlLow, _)) =>
        (* the subsets are kept last element first *)
        Ok (mergeNew [] (rev trUp ++ tlUp ++ rev tlLow ++ trLow))
      | Throw => Throw
      | Ub => Ub
      end
    | Throw => Throw
    | Ub => Ub
    end
  end.

(** ** weighted centre *)
(** heuristic-tools.cc:278-283 *)
Fixpoint consecutive (p : vec3) (l : list vec3) : list R :=
  match l with [] => [] | q :: l' => euclideanDist p q :: consecutive q l' end.
Definition longest (first : vec3) (l : list vec3) (* the other vertices *) : R :=
  fold_left (fun m d => if Rltb m d then d else m) (consecutive first l) (euclideanDist (List.last (first :: l) first) first).
(** heuristic-tools.cc:288-291: [None] when the fuel is used up *)
Fixpoint shift (fuel : nat) (threshold : R) (l : list vec3) : option (list vec3) :=
  match fuel, l with
  | S fuel', p :: l' =>
    if Rleb (euclideanDist (List.last l p) p) threshold then shift fuel' threshold (l' ++ [p]) else Some l
  | _, _ => None
  end.
Definition mean (l : list vec3) : vec3 :=
  V3 (fold_left (fun s p => s + vx p) l 0 / INR (length l)) (fold_left (fun s p => s + vy p) l 0 / INR (length l)) 0.
(** heuristic-tools.cc:294-319: [cur] is the subset being gathered, [next] the following vertices
    (the first vertex is repeated at the end) *)
Fixpoint gather (threshold : R) (cur : list vec3) (l : list vec3) (closing : vec3) : list vec3 :=
  match l with
  | [] => []
  | p :: l' =>
    let q := match l' with [] => closing | q :: _ => q end in
    if Rltb threshold (euclideanDist p q) then
      match cur with
      | [] => p :: gather threshold [] l' closing
      | _ => mean (cur ++ [p]) :: gather threshold [] l' closing
      end
    else gather threshold (cur ++ [p]) l' closing
  end.
(** heuristic-tools.cc:262-331; [None]: the fuel of the shifting loop is used up *)
Definition weightedCentroidConvex2D (fuel : nat) (polygon : list vec3) : outcome (option vec3) :=
  match polygon with
  | [] => Throw
  | [p] => Ok (Some p)
  | [p; q] => Ok (Some (V3 ((vx p + vx q) / 2) ((vy p + vy q) / 2) 0))
  | p :: l =>
    let threshold := longest p l / 10 in
    match shift fuel threshold polygon with
    | Some (s0 :: s) => Ok (Some (mean (gather threshold [] (s0 :: s) s0)))
    | _ => Ok None
    end
  end.

(** ** heuristics *)
(** what the heuristics read of a sample *)
(** the last field: the rows of the 3x3 translation block of jacobianProduct_ *)
Record hsample := mkHS { staticValue : R; effectorPosition : vec3; effectorPositionInLimbFrame : vec3; configurationNorm : R;
                         jacobianBlock : vec3 * vec3 * vec3 }.
(** heuristic.cc:50-61: the two loops; [None] when the fuel is used up *)
Fixpoint enlarge (fuel : nat) (w1 speed bound : R) : option R :=
  match fuel with
  | O => None
  | S fuel' => if Rleb (Rabs (w1 * speed)) (Rabs bound) then enlarge fuel' (w1 * (15 / 10)) speed bound else Some w1
  end.
Definition neq0 (x : R) : bool := negb (Reqb x 0).
Definition gravity : R := - (980665 / 100000).
(** heuristic.cc:31-82; [rows], [tr]: the transform from the root to the world; the guard of the
    second loop looks at the first component of the acceleration *)
Definition interest {T P} (fuel : nat) (z : hparam T P) : option vec3 :=
  let w2 := vz (comPosition z) / gravity in
  let w1x := if neq0 (vx (comSpeed z)) && neq0 (w2 * vx (comAcceleration z))
             then enlarge fuel (-100 * w2) (vx (comSpeed z)) (w2 * vx (comAcceleration z)) else Some (-100 * w2) in
  let w1y := if neq0 (vy (comSpeed z)) && neq0 (w2 * vx (comAcceleration z))
             then enlarge fuel (-100 * w2) (vy (comSpeed z)) (w2 * vy (comAcceleration z)) else Some (-100 * w2) in
  match w1x, w1y with
  | Some x, Some y =>
    Some (V3 (vx (comPosition z) + x * vx (comSpeed z) + w2 * vx (comAcceleration z))
             (vy (comPosition z) + y * vy (comSpeed z) + w2 * vy (comAcceleration z)) 0)
  | _, _ => None
  end.
(** the contacts considered: map::insert keeps an existing entry (heuristic.cc:37-41) *)
Definition consideredContacts {T P} (z : hparam T P) (eff : vec3) : gmap string vec3 :=
  match contactPositions z !! sampleLimbName z with
  | Some _ => contactPositions z
  | None => <[sampleLimbName z := eff]> (contactPositions z)
  end.
Definition dynamicHeuristic {P} (fuel : nat) (s : hsample) (z : hparam ((vec3 * vec3 * vec3) * vec3) P) : outcome (option R) :=
  let eff := transform (effectorPosition s) (tfWorldRoot z).2 (tfWorldRoot z).1 in
  match removeNonGroundContacts (consideredContacts z eff) (25 / 100) with
  | Ok contacts =>
    match interest fuel z with
    | None => Ok None
    | Some i =>
      match convexHull2D (computeSupportPolygon contacts) with
      | Ok hull =>
        match weightedCentroidConvex2D fuel hull with
        | Ok (Some c) => Ok (Some (- euclideanDist i c))
        | Ok None => Ok None
        | Throw => Ok (Some (- (2 ^ 1024))) (* - the largest double, in round numbers *)
        | Ub => Ub
        end
      | Throw => Throw
      | Ub => Ub
      end
    end
  | Throw => Throw
  | Ub => Ub
  end.
(** heuristic.cc:221-295: [at path t]: the placement on the path; [act]: root placement applied
    to a point; unitialised parameters are read when there is a path *)
Definition fixedStepHeuristic {T P} (at_ : P -> R -> T) (act : T -> vec3 -> vec3) (t_step : R) (s : hsample) (z : hparam T P) : outcome R :=
  match comPath z with
  | None => Ok (staticValue s)
  | Some path =>
    match currentPathId z, limbReferenceOffset z with
    | Some t, Some off =>
      let pTarget := act (at_ path (t + t_step)) off in
      let pSample := act (tfWorldRoot z) (effectorPosition s) in
      Ok (1 - vnorm2 (vsub pSample pTarget) + 1 / 10 * staticValue s)
    | _, _ => Ub
    end
  end.
(** heuristic.cc:84-100: the quadratic form of the direction *)
Definition mulMat (m : vec3 * vec3 * vec3) (v : vec3) : vec3 := V3 (vdot m.1.1 v) (vdot m.1.2 v) (vdot m.2 v).
Definition EFORT (s : hsample) (direction : vec3) : R := vdot (vscale (-1) direction) (mulMat (jacobianBlock s) (vscale (-1) direction)).
Definition EFORTHeuristic (s : hsample) (direction normal : vec3) : R := EFORT s direction * vz normal.
Definition EFORTNormalHeuristic (s : hsample) (direction normal : vec3) : R := EFORT s direction * vdot direction normal.
(** heuristic.cc:102-110; [rnd]: the random number drawn, in [0, 1] *)
Definition ManipulabilityHeuristic (rnd : R) (s : hsample) (normal : vec3) : R :=
  if Rltb (vz normal) (7 / 10) then -1 else staticValue s * 10000 * vz normal * 100000 + rnd.
(** heuristic.cc:112-117 *)
Definition RandomHeuristic (rnd : R) : R := rnd.
(** heuristic.cc:119-132 *)
Definition ForwardHeuristic (rnd : R) (s : hsample) (direction normal : vec3) : R :=
  staticValue s * 1000 * vz normal
  + 100 * vdot (effectorPositionInLimbFrame s) (V3 (vx direction) (vy direction) (vz (effectorPositionInLimbFrame s))) + rnd.
(** heuristic.cc:297-305 *)
Definition BackwardHeuristic (rnd : R) (s : hsample) (direction normal : vec3) : R :=
  staticValue s * 10000 * vz normal - 100 * vdot (effectorPosition s) direction + rnd.
(** heuristic.cc:134-203: the sign of the angle is that of [atan2 y x]: negative when y < 0, positive
    when y > 0 or when y = 0 and x < 0. Eigen's normalize leaves a null vector unchanged. The
    direction is not NaN here; [tfWorldRoot] is (rotation rows, translation). *)
Definition normalize0 (v : vec3) : vec3 := if Reqb (vnorm2 v) 0 then v else vscale (/ sqrt (vnorm2 v)) v.
Definition DynamicWalkHeuristic {P} (rnd : R) (s : hsample) (direction normal : vec3) (z : hparam ((vec3 * vec3 * vec3) * vec3) P) : R :=
  let n := normalize0 normal in
  let '(weightStatic, weightDir, dir, pos) :=
    if Reqb (vnorm2 direction) 0 then (100, 0, V3 0 0 1, effectorPositionInLimbFrame s)
    else
      let dir := normalize0 (V3 (vx direction) (vy direction) 0) in
      let q := mulMat (tfWorldRoot z).1 (effectorPositionInLimbFrame s) in
      let pos := V3 (vx q) (vy q) 0 in
      let limbRoot := vsub (effectorPosition s) (effectorPositionInLimbFrame s) in
      let y := vdot (vcross dir pos) n in
      let x := vdot dir pos in
      let wrong := if Rltb 0 (vy limbRoot) then Rltb y 0 else Rltb 0 y || (Reqb y 0 && Rltb x 0) in
      if wrong then (100 * vz normal, 100 / 10, vscale (-1) dir, pos) else (100 * vz normal, 100, dir, pos)
  in weightStatic * staticValue s + weightDir * vdot pos dir + 1 * vdot pos (V3 (vx (comAcceleration z)) (vy (comAcceleration z)) (vz dir)) + rnd.
(** heuristic.cc:307-312 *)
Definition DistanceToLimitHeuristic (s : hsample) : R := configurationNorm s.
(** heuristic.cc:342-347 *)
Definition AddHeuristic {H} (heuristics : gmap string H) (name : string) (f : H) : bool * gmap string H :=
  match heuristics !! name with
  | Some _ => (false, heuristics)
  | None => (true, <[name := f]> heuristics)
  end.
