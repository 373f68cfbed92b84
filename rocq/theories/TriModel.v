(** Model of closestPointInTriangle and of the contact position chosen by
    projectSampleToObstacle (src/projection/projection.cc).  Doubles are exact reals; a
    division by zero (degenerate triangle) is not modelled: the theorems ask for a positive
    determinant. *)
From Verif Require Export Maps Vec GeomModel.
Local Open Scope R_scope.

(** projection.cc:520-522 *)
Definition clamp (val lo hi : R) : R := Rmin (Rmax val lo) hi.
(** projection.cc:507-512 *)
Definition SameSide (p1 p2 a b : vec3) : bool :=
  let cp1 := vcross (vsub b a) (vsub p1 a) in
  let cp2 := vcross (vsub b a) (vsub p2 a) in
  Rleb 0 (vdot cp1 cp2).
(** projection.cc:515-518 *)
Definition PointInTriangle (p a b c : vec3) : bool := SameSide p a b c && SameSide p b a c && SameSide p c a b.

(** projection.cc:533-594: the two parameters; [a]..[e] as in the code *)
Definition closestParams (a b c d e : R) : R * R :=
  let det := a * c - b * b in
  let s := b * e - c * d in
  let t := b * d - a * e in
  if Rltb (s + t) det then
    if Rltb s 0 then
      if Rltb t 0 then
        if Rltb d 0 then (clamp (- d / a) 0 1, 0)
        else (0, clamp (- e / c) 0 1)
      else (0, clamp (- e / c) 0 1)
    else if Rltb t 0 then (clamp (- d / a) 0 1, 0)
    else let invDet := 1 / det in (s * invDet, t * invDet)
  else
    if Rltb s 0 then
      let tmp0 := b + d in
      let tmp1 := c + e in
      if Rltb tmp0 tmp1 then
        let numer := tmp1 - tmp0 in
        let denom := a - 2 * b + c in
        let s' := clamp (numer / denom) 0 1 in (s', 1 - s')
      else (0, clamp (- e / c) 0 1)
    else if Rltb t 0 then
      if Rltb (b + e) (a + d) then
        let numer := c + e - b - d in
        let denom := a - 2 * b + c in
        let s' := clamp (numer / denom) 0 1 in (s', 1 - s')
      else (clamp (- e / c) 0 1, 0)
    else
      let numer := c + e - b - d in
      let denom := a - 2 * b + c in
      let s' := clamp (numer / denom) 0 1 in (s', 1 - s').
(** Eigen's normalized(): the zero vector is left alone *)
Definition normalizedOrZero (v : vec3) : vec3 := if Reqb (vnorm2 v) 0 then v else vscale (/ vnorm v) v.
(** projection.cc:524-600 *)
Definition closestPointInTriangle (src t0 t1 t2 : vec3) (epsilon : R) : vec3 :=
  let edge0 := vsub t1 t0 in
  let edge1 := vsub t2 t0 in
  let v0 := vsub t0 src in
  let '(s, t) := closestParams (vdot edge0 edge0) (vdot edge0 edge1) (vdot edge1 edge1) (vdot edge0 v0) (vdot edge1 v0) in
  let res := vadd (vadd t0 (vscale s edge0)) (vscale t edge1) in
  vadd res (vscale epsilon (normalizedOrZero (vsub res src))).
(** projection.cc:620-632: where projectSampleToObstacle asks for the contact; the orthogonal
    projection computed first is overwritten.  [rootT]: the limb's parent placement *)
Definition contactPosition (rootT : vec3 -> vec3) (effectorPosition v1 v2 v3 : vec3) : vec3 :=
  closestPointInTriangle (rootT effectorPosition) v1 v2 v3 0.
