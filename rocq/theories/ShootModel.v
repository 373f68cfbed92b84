(** Model of src/rbprm-shooter.cc.  Doubles are exact reals; rand(), the uniform shooter of
    hpp-core and the reachability validation are services. *)
From Verif Require Export Maps Vec GeomModel.
Local Open Scope R_scope.

(** ** triangles *)
(** rbprm-shooter.cc:60-67 *)
Definition TriangleArea (t : triangle3) : R :=
  let '(p1, p2, p3) := t in
  let a := vnorm (vsub p1 p2) in
  let b := vnorm (vsub p2 p3) in
  let c := vnorm (vsub p3 p1) in
  let s := 1 / 2 * (a + b + c) in
  sqrt (s * (s - a) * (s - b) * (s - c)).

(** a collision object: its placement (rotation and translation) and its triangles; [None]:
    not a mesh of triangles, GetModel returns a null pointer (rbprm-shooter.cc:41-58, 322-332) *)
Record surface := mkSurface { place : vec3 -> vec3; mesh : option (list triangle3) }.
Definition placed (s : surface) (t : triangle3) : triangle3 := (place s t.1.1, place s t.1.2, place s t.2).

(** rbprm-shooter.cc:257-290; [affordances.map]: type to objects *)
Fixpoint usedOfTypes {O} (affordances : gmap string (list O)) (types : list string) (added : list string) : list O * list string :=
  match types with
  | [] => ([], added)
  | t :: types' =>
    if inb t added then usedOfTypes affordances types' added
    else let '(l, added') := usedOfTypes affordances types' (added ++ [t]) in
         (match affordances !! t with Some objs => objs | None => [] end ++ l, added')
  end.
Fixpoint usedOfFilters {O} (affordances : gmap string (list O)) (filters : list (string * list string)) (added : list string) : list O :=
  match filters with
  | [] => []
  | (_, types) :: filters' =>
    let '(l, added') := usedOfTypes affordances types added in
    l ++ usedOfFilters affordances filters' added'
  end.
Definition getUsedSurfaces {O} (affordances : gmap string (list O)) (affFilters : gmap string (list string)) : list O :=
  usedOfFilters affordances (sitems affFilters) [].

(** rbprm-shooter.cc:317-341: triangles with their normals, in order; null model dereferenced *)
Fixpoint allTriangles (objs : list surface) : outcome (list (vec3 * triangle3)) :=
  match objs with
  | [] => Ok []
  | o :: objs' =>
    match mesh o with
    | None => Ub
    | Some ts =>
      match allTriangles objs' with
      | Ok l => Ok (map (fun t => (TriangleNormal (placed o t), placed o t)) ts ++ l)
      | Throw => Throw
      | Ub => Ub
      end
    end
  end.
(** rbprm-shooter.cc:342-350 *)
Fixpoint cumulate (previous sum : R) (l : list R) : list R :=
  match l with
  | [] => []
  | w :: l' => let p := previous + w / sum in p :: cumulate p sum l'
  end.
(** [None]: the sum is zero and every weight a NaN (rbprm-shooter.cc:317-351) *)
Definition weightsOf (areas : list R) : option (list R) :=
  let sum := fold_left Rplus areas 0 in
  if Reqb sum 0 then None else Some (cumulate 0 sum areas).
Record shooter := mkShooter { triangles : list (vec3 * triangle3); weights : option (list R) }.
Definition InitWeightedTriangles (objs : list surface) : outcome shooter :=
  match allTriangles objs with
  | Ok l => Ok (mkShooter l (weightsOf (map (fun t => TriangleArea t.2) l)))
  | Throw => Throw
  | Ub => Ub
  end.

(** rbprm-shooter.cc:358-366: the index; triangles_[size - 1] of no triangles is undefined *)
Fixpoint firstAtLeast (r : R) (ws : list R) (i : nat) : option nat :=
  match ws with
  | [] => None
  | w :: ws' => if Rleb r w then Some i else firstAtLeast r ws' (S i)
  end.
Definition weightedIndex (s : shooter) (r : R) : outcome nat :=
  match weights s with
  | Some ws =>
    match firstAtLeast r ws 0 with
    | Some i => Ok i
    | None => if (length (triangles s) =? 0)%nat then Ub else Ok (length (triangles s) - 1)%nat
    end
  | None => if (length (triangles s) =? 0)%nat then Ub else Ok (length (triangles s) - 1)%nat
  end.

(** rbprm-shooter.cc:416-420 *)
Definition pointInTriangle (r1 r2 : R) (t : triangle3) : vec3 :=
  let '(p1, p2, p3) := t in
  vadd (vadd (vscale (1 - sqrt r1) p1) (vscale (sqrt r1 * (1 - r2)) p2)) (vscale (sqrt r1 * r2) p3).

(** ** configurations (rbprm-shooter.cc:85-136) *)
Record quat := Q4 { qx : R; qy : R; qz : R; qw : R }.
(** Eigen's product of quaternions *)
Definition qmul (a b : quat) : quat :=
  Q4 (qw a * qx b + qx a * qw b + qy a * qz b - qz a * qy b)
     (qw a * qy b + qy a * qw b + qz a * qx b - qx a * qz b)
     (qw a * qz b + qz a * qw b + qx a * qy b - qy a * qx b)
     (qw a * qw b - qx a * qx b - qy a * qy b - qz a * qz b).
(** rbprm-shooter.cc:127-129 *)
Definition eulerZYX (z y x : R) : quat :=
  qmul (qmul (Q4 0 0 (sin (z / 2)) (cos (z / 2))) (Q4 0 (sin (y / 2)) 0 (cos (y / 2)))) (Q4 (sin (x / 2)) 0 0 (cos (x / 2))).

(** the first three numbers, the four of the orientation, the others (rbprm-shooter.cc:85-136) *)
Record conf (C : Type) := mkConf { trans : vec3; orientation : quat; rest : C }.
Arguments mkConf {C}. Arguments trans {C}. Arguments orientation {C}. Arguments rest {C}.

(** the six translation bounds, lower and upper per axis (rbprm-shooter.cc:69-83): the largest doubles where
    the joint is not bounded *)
Record bounds := mkBounds { lo : vec3; hi : vec3 }.
(** std::min(upper, std::max(lower, v)) (rbprm-shooter.cc:85-102) *)
Definition bound (l u v : R) : R := Rmin u (Rmax l v).
Definition bound3 (b : bounds) (v : vec3) : vec3 :=
  V3 (bound (vx (lo b)) (vx (hi b)) (vx v)) (bound (vy (lo b)) (vy (hi b)) (vy v)) (bound (vz (lo b)) (vz (hi b)) (vz v)).
(** rbprm-shooter.cc:85-92 *)
Definition SetConfigTranslation {C} (b : bounds) (q : conf C) (t : vec3) : conf C := mkConf (bound3 b t) (orientation q) (rest q).
(** rbprm-shooter.cc:94-102 *)
Definition Translate {C} (b : bounds) (q : conf C) (t : vec3) : conf C := mkConf (bound3 b (vadd (trans q) t)) (orientation q) (rest q).

(** what the validator says: verdict, trunk in collision, normal and |penetration depth| of
    the first contact with the trunk (rbprm-shooter.cc:400-480) *)
Record vreport := mkVrep { accepted : bool; trunkInCollision : bool; firstContact : option (vec3 * R) }.

Section shoot.
Context {W C : Type}.
(** rand() / RAND_MAX *)
Variable unit01 : W -> R * W.
(** rand() % n *)
Variable randMod : nat -> W -> nat * W.
(** uniformShooter_->shoot *)
Variable uniform : W -> conf C * W.
(** validator_->validate(config, report, filter_) *)
Variable validate : conf C -> vreport.
Variable bnds : bounds.
(** eulerSo3_: BoundSO3 *)
Variable euler : list R.
Variable ratioWeighted : R.
Variables (shootLimit displacementLimit : nat).

(** rbprm-shooter.cc:118-136: the assertion on the size is compiled out; fewer than six
    numbers are read out of range *)
Definition SampleRotation (q : conf C) (w : W) : outcome (conf C * W) :=
  match euler with
  | [] => Ok (q, w)
  | z0 :: z1 :: y0 :: y1 :: x0 :: x1 :: _ =>
    let '(rz, w1) := unit01 w in
    let '(ry, w2) := unit01 w1 in
    let '(rx, w3) := unit01 w2 in
    Ok (mkConf (trans q) (eulerZYX (z0 + (z1 - z0) * rz) (y0 + (y1 - y0) * ry) (x0 + (x1 - x0) * rx)) (rest q), w3)
  | _ => Ub
  end.
(** rbprm-shooter.cc:368-375 *)
Definition randConfigAtPos (p : vec3) (w : W) : outcome (conf C * W) :=
  let '(q, w1) := uniform w in SampleRotation (SetConfigTranslation bnds q p) w1.

(** rbprm-shooter.cc:440-457, the for loop: found, configuration, validations done *)
Fixpoint rotateLoop (limitDis : nat) (p dir : vec3) (q : conf C) (w : W) (n : nat) : outcome (bool * conf C * W * nat) :=
  match limitDis with
  | O => Ok (false, q, w, n)
  | S limitDis' =>
    match randConfigAtPos p w with
    | Ok (q1, w1) =>
      let '(q2, w2) :=
        if accepted (validate q1) then (q1, w1)
        else let '(r, w') := unit01 w1 in (Translate bnds q1 (vscale r (vscale (2 / 10) (vopp dir))), w') in
      let rep := validate q2 in
      if accepted rep then Ok (true, q2, w2, (n + 2)%nat)
      else if trunkInCollision rep then Ok (false, q2, w2, (n + 2)%nat)
      else rotateLoop limitDis' p dir q2 w2 (n + 2)
    | Throw => Throw
    | Ub => Ub
    end
  end.
(** rbprm-shooter.cc:430-471, the inner while loop; a trunk collision without a contact
    is read out of range *)
Fixpoint moveLoop (limitDis : nat) (p dir : vec3) (q : conf C) (w : W) (n : nat) : outcome (bool * conf C * W * nat) :=
  match limitDis with
  | O => Ok (false, q, w, n)
  | S limitDis' =>
    let rep := validate q in
    if accepted rep then Ok (true, q, w, S n)
    else if trunkInCollision rep then
      match firstContact rep with
      | None => Ub
      | Some (nrm, depth) => moveLoop limitDis' p nrm (Translate bnds q (vscale (depth + 3 / 100) nrm)) w (S n)
      end
    else rotateLoop limitDis p dir q w (S n)
  end.
(** rbprm-shooter.cc:353-356 and 408-413 *)
Definition pickTriangle (s : shooter) (w : W) : outcome ((vec3 * triangle3) * W) :=
  let '(r, w1) := unit01 w in
  let at_ i w' := match triangles s !! i with Some t => Ok (t, w') | None => Ub end in
  if Rltb ratioWeighted r then
    if (length (triangles s) =? 0)%nat then Ub
    else let '(i, w2) := randMod (length (triangles s)) w1 in at_ i w2
  else
    let '(r', w2) := unit01 w1 in
    match weightedIndex s r' with Ok i => at_ i w2 | Throw => Throw | Ub => Ub end.
(** rbprm-shooter.cc:406-473, the outer while loop *)
Fixpoint shootLoop (limit : nat) (s : shooter) (q : conf C) (w : W) (n : nat) : outcome (bool * conf C * W * nat) :=
  match limit with
  | O => Ok (false, q, w, n)
  | S limit' =>
    match pickTriangle s w with
    | Ok ((nrm, tri), w1) =>
      let '(r1, w2) := unit01 w1 in
      let '(r2, w3) := unit01 w2 in
      let p := pointInTriangle r1 r2 tri in
      match randConfigAtPos p w3 with
      | Ok (q1, w4) =>
        match moveLoop displacementLimit p nrm q1 w4 n with
        | Ok (true, q2, w5, n') => Ok (true, q2, w5, n')
        | Ok (false, q2, w5, n') => shootLoop limit' s q2 w5 n'
        | Throw => Throw
        | Ub => Ub
        end
      | Throw => Throw
      | Ub => Ub
      end
    | Throw => Throw
    | Ub => Ub
    end
  end.
(** rbprm-shooter.cc:400-477: found (only printed), the configuration *)
Definition impl_shoot (s : shooter) (w : W) : outcome (bool * conf C * W * nat) :=
  let '(q, w1) := uniform w in shootLoop shootLimit s q w1 0.
End shoot.
