(** Model of the contact surface between a range of motion and an obstacle
    (src/planner/rbprm-node.cc:47-142, 348-415; src/utils/algorithms.cc:21-36, 672-680).
    Doubles are reals. *)
From Verif Require Import NodeModel ProjModel GeomModel.
Local Open Scope R_scope.

(** fcl::BVHModel: vertices and triangles, as indices of vertices (used in algorithms.cc:21-36, 628-693) *)
Record mesh := mkMesh { verts : list vec3; tris : list (nat * nat * nat) }.
(** algorithms.cc:21-36: a copy with the vertices moved by the placement of the object *)
Definition GetModel (T : se3) (m : mesh) : mesh := mkMesh (map (se3act T) (verts m)) (tris m).
(** algorithms.cc:640-644, 684-689: the points of a triangle; an index out of the array is
    an error *)
Definition triPoints (vs : list vec3) (t : nat * nat * nat) : outcome triangle3 :=
  match nth_error vs t.1.1, nth_error vs t.1.2, nth_error vs t.2 with
  | Some a, Some b, Some c => Ok (a, b, c)
  | _, _, _ => Ub
  end.
Fixpoint allTriangles (vs : list vec3) (ts : list (nat * nat * nat)) : outcome (list triangle3) :=
  match ts with
  | [] => Ok []
  | t :: ts => nbind (triPoints vs t) (fun p => nbind (allTriangles vs ts) (fun l => Ok (p :: l)))
  end.
(** algorithms.cc:672-680 *)
Definition convertBVH (fuel : nat) (m : mesh) : option (list vec3) := convexHull fuel (verts m).

(** rbprm-node.cc:47-74: the normal written in pn and the points written in inter; the
    function returns true iff there are some.  [Ok None]: out of fuel (or a NaN) *)
Definition computeIntersectionSurface (fuel : nat) (Trom : se3) (rom : mesh) (Tenv : se3) (env : mesh)
  : outcome (option (vec3 * list vec3)) :=
  let mrom := GetModel Trom rom in
  let menv := GetModel Tenv env in
  nbind (allTriangles (verts mrom) (tris mrom)) (fun r =>
  match tris menv with
  | [] => Ub
  | t :: _ =>
    nbind (triPoints (verts menv) t) (fun t =>
    let pn := TriangleNormal t in
    match intersectPolygonePlane fuel r [t] with
    | Ok (Some []) => Ok (Some (pn, []))
    | Ok (Some plane) =>
      match convertBVH fuel menv with
      | None => Ok None
      | Some hull =>
        match compute3DIntersection fuel plane hull with
        | Ok (Some inter) => Ok (Some (pn, inter))
        | Ok None => Ok None
        | Throw => Throw
        | Ub => Ub
        end
      end
    | Ok None => Ok None
    | Throw => Throw
    | Ub => Ub
    end)
  end).

(** what the two functions below produce: false, or true with the normal and the point
    ([None]: the point is not written) (rbprm-node.cc:76-142) *)
Inductive guess := NoSurface | Guess (pn : vec3) (p : option vec3).

(** rbprm-node.cc:76-89 *)
Definition centerOfRomIntersection (fuel : nat) (Trom : se3) (rom : mesh) (Tenv : se3) (env : mesh) : outcome (option guess) :=
  match computeIntersectionSurface fuel Trom rom Tenv env with
  | Ok (Some (_, [])) => Ok (Some NoSurface)
  | Ok (Some (pn, hull)) => nbind (center hull) (fun c => Ok (Some (Guess pn c)))
  | Ok None => Ok None
  | Throw => Throw
  | Ub => Ub
  end.

(** Eigen::Quaternion (w, x, y, z).matrix() (used at rbprm-node.cc:120-122) *)
Definition quatMatrix (w x y z : R) : mat3 :=
  M3 (V3 (1 - (2 * y * y + 2 * z * z)) (2 * x * y - 2 * z * w) (2 * x * z + 2 * y * w))
     (V3 (2 * x * y + 2 * z * w) (1 - (2 * x * x + 2 * z * z)) (2 * y * z - 2 * x * w))
     (V3 (2 * x * z - 2 * y * w) (2 * y * z + 2 * x * w) (1 - (2 * x * x + 2 * y * y))).
(** rbprm-node.cc:117-123, 377-384: the reference in the frame of the world.  The
    configuration of the root starts with its position and its quaternion (x, y, z, w);
    a shorter configuration is not modelled *)
Definition refPoint (q : list R) (reference : vec3) : vec3 :=
  se3act (SE3 (quatMatrix (nth 6 q 0) (nth 3 q 0) (nth 4 q 0) (nth 5 q 0)) (V3 (nth 0 q 0) (nth 1 q 0) (nth 2 q 0))) reference.

(** rbprm-node.cc:102-142; [reference] is device->getEffectorReference(romName) *)
Definition approximateContactPoint (fuel : nat) (reference : vec3) (q : list R) (Trom : se3) (rom : mesh) (Tenv : se3) (env : mesh)
  : outcome (option guess) :=
  match computeIntersectionSurface fuel Trom rom Tenv env with
  | Ok (Some (_, [])) => Ok (Some NoSurface)
  | Ok (Some (pn, hull)) =>
      if negb (Reqb (vnorm reference) 0) then
        nbind (projectPointInsidePlan hull (refPoint q reference) pn (front hull)) (fun r =>
        Ok (Some (Guess pn (match r with Some (_, p) => Some p | None => None end))))
      else nbind (center hull) (fun c => Ok (Some (Guess pn c)))
  | Ok None => Ok None
  | Throw => Throw
  | Ub => Ub
  end.

(** rbprm-node.cc:393-403: the distance by which chooseBestContactSurface ranks a surface;
    [Ok (Some None)]: no intersection, or the distance stays the largest double *)
Definition surfaceDistance (fuel : nat) (reference : vec3) (q : list R) (Trom : se3) (rom : mesh) (Tenv : se3) (env : mesh)
  : outcome (option (option R)) :=
  match computeIntersectionSurface fuel Trom rom Tenv env with
  | Ok (Some (_, [])) => Ok (Some None)
  | Ok (Some (pn, hull)) =>
      nbind (projectPointInsidePlan hull (refPoint q reference) pn (front hull)) (fun r =>
      Ok (Some (match r with Some (d, _) => Some d | None => None end)))
  | Ok None => Ok None
  | Throw => Throw
  | Ub => Ub
  end.
