(** Model of the way points of the end effector (src/interpolation/effector-rrt.cc:46-252):
    Is2d, IsLine, getWayPoints, genHeight and splineFromEffectorTraj.  Nothing in the library calls
    them.  Exact reals.  [at_time] is the position of the effector along the path
    (GetEffectorPositionAt, lines 92-97), [t0] and [t1] are the bounds of its time range and
    path->length() is their difference.  The spline of ndcurves is a parameter.  Logs are left
    out. *)
From Coq Require Import Reals ZArith List.
From Verif Require Import SampModel.
From Verif Require Export Maps Vec StateModel StateReal ProjModel InterModel EffModel.
From Verif Require Import StateModel.
Local Open Scope R_scope.

(** a way point: its time and its position (effector-rrt.cc:39-40) *)
Definition waypoint : Type := R * vec3.
(** std::numeric_limits<double>::epsilon() (effector-rrt.cc:44) *)
Definition weps : R := / 2 ^ 52.

(** effector-rrt.cc:46-55: front() of an empty vector is undefined *)
Definition Is2d (w : list waypoint) : outcome bool :=
  match w with
  | [] => Ub
  | a :: w' => Ok (Rltb (fold_left (fun z c => Rmax z (Rabs (vz (snd c) - vz (snd a)))) w' 0) (2 / 100))
  end.

(** effector-rrt.cc:64-73: [dir] is normalized, unless null; with a null [dir] a string is thrown *)
Fixpoint lineLoop (dir init : vec3) (w : list waypoint) : outcome bool :=
  match w with
  | [] => Ok true
  | c :: w' =>
    if Rltb weps (vnorm dir) then
      if Rltb (vdot dir (vnormalize (vsub (snd c) init))) (1 - weps * 4) then Ok false else lineLoop dir init w'
    else Throw
  end.
(** effector-rrt.cc:57-76: with less than two points the loop starts after its end *)
Definition IsLine (w : list waypoint) : outcome bool :=
  match w with
  | a :: _ :: _ =>
    match last w with
    | Some z => lineLoop (vnormalize (vsub (snd z) (snd a))) (snd a) (removelast (tail w))
    | None => Ub
    end
  | _ => Ub
  end.

(** effector-rrt.cc:155-157 *)
Definition nbWayPoints : nat := let n := 30%nat in if (n mod 2 =? 0)%nat then (n + 1)%nat else n.

(** effector-rrt.cc:162-165: [k] points from the [i]-th *)
Fixpoint sampleLoop (at_time : R -> vec3) (inc : R) (k i : nat) (t : R) : list waypoint :=
  match k with
  | O => []
  | S k => (INR i, at_time (t + inc)) :: sampleLoop at_time inc k (S i) (t + inc)
  end.
(** effector-rrt.cc:158-168 *)
Definition sampled_points (at_time : R -> vec3) (t0 t1 : R) : list waypoint :=
  let inc := (t1 - t0) / INR nbWayPoints in
  (0, at_time t0) :: sampleLoop at_time inc (nbWayPoints - 2) 1 t0 ++ [(INR (nbWayPoints - 1), at_time t1)].

(** effector-rrt.cc:172-175 and 191-194 *)
Definition wayHeight (d : R) : R :=
  if Rltb d (1 / 10) then 3 / 100 else Rmin (7 / 100) (Rmax (INR nbWayPoints * (1 / 100)) (2 / 100)).

(** effector-rrt.cc:198-209: [fac] is unsigned, so that going below 0 would wrap around; it never
    does (see WayProofs.v) *)
Fixpoint liftLoop (apex : nat) (inc : R) (w : list waypoint) (current fac : nat) : list waypoint :=
  match w with
  | [] => []
  | [z] => [z]
  | (t, p) :: w' =>
    (t, V3 (vx p) (vy p) (vz p + INR fac * inc)) ::
    liftLoop apex inc w' (S current)
      (if (apex <? current)%nat then Nat.pred fac else if (current =? apex)%nat then Nat.pred fac else S fac)
  end.

(** effector-rrt.cc:147-212: the way points and isLine *)
Definition getWayPoints (at_time : R -> vec3) (t0 t1 d : R) (isLine : bool) : outcome (list waypoint * bool) :=
  let res := sampled_points at_time t0 t1 in
  ibind (IsLine res) (fun line =>
  if (line && Rltb (3 / 100) d)%bool then
    let h := wayHeight d in
    match res, last res with
    | (ta, a) :: _, Some (_, z) =>
      Ok ([(ta, a); (1, vadd (vadd (vscale h (V3 1 1 1)) a) (vscale (/ 2) (vsub z a))); (2, z)], true)
    | _, _ => Ub
    end
  else
    ibind (Is2d res) (fun flat =>
    if (flat && Rltb (3 / 100) d)%bool then
      let apex := (nbWayPoints / 2)%nat in
      Ok (liftLoop apex (wayHeight d / INR apex) res 0 0, true)
    else Ok (res, isLine))).

(** effector-rrt.cc:214-219 *)
Definition genHeight (normalFound : bool) : R := if normalFound then 1 / 100 else 0.

(** effector-rrt.cc:221-253: the curve and isLine; the normals and the heights are computed and not
    used *)
Definition splineFromEffectorTraj {K : Type} (cubic : list waypoint -> K) (at_time : R -> vec3) (t0 t1 : R) (start next : PSt) (isLine : bool)
  : outcome (K * bool) :=
  ibind (getWayPoints at_time t0 t1 (effectorDistance start next) isLine) (fun '(w, _) =>
  ibind (getEffectorLimb start next) (fun effLimb =>
  let '(_, f1) := getNormal effLimb start in
  let '(_, f2) := getNormal effLimb next in
  let _ := (genHeight f1, genHeight f2) in
  Ok (cubic w, true))).
