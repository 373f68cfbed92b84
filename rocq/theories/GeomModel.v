(** Model of the planar geometry of src/utils/algorithms.cc (namespace geom).
    Doubles are exact reals.  A division by zero, which in the code gives an infinity or a
    NaN, is [None]. *)
From Verif Require Export Maps Vec.
Local Open Scope R_scope.

Global Instance vec3_eq_dec : EqDecision vec3.
Proof. intros [a b c] [a' b' c']. destruct (Req_EM_T a a'), (Req_EM_T b b'), (Req_EM_T c c'); subst; [by left|right; congruence..]. Defined.
(** Eigen's operator==, all three coordinates (used at algorithms.cc:143-146) *)
Definition veqb (a b : vec3) : bool := bool_decide (a = b).
(** std::find(l.begin(), l.end(), p) != l.end() (used at algorithms.cc:145) *)
Definition inList (p : vec3) (l : list vec3) : bool := bool_decide (p ∈ l).
(** v[0] for a non-empty list; only used where the list is not empty *)
Definition front (l : list vec3) : vec3 := default vzero (head l).
(** const double EPSILON = 1e-5 (algorithms.h:42) *)
Definition EPSILON : R := 1 / 100000.

(** algorithms.cc:40-42 *)
Definition isLeft (lA lB p2 : vec3) : R :=
  (vx lB - vx lA) * (vy p2 - vy lA) - (vx p2 - vx lA) * (vy lB - vy lA).

(** algorithms.cc:44-52: the first among those of least x *)
Fixpoint leftMostFrom (res : vec3) (l : list vec3) : vec3 :=
  match l with
  | [] => res
  | p :: l' => leftMostFrom (if Rltb (vx p) (vx res) then p else res) l'
  end.
Definition leftMost (l : list vec3) : option vec3 :=
  match l with [] => None | p :: l' => Some (leftMostFrom p l') end.

(** algorithms.cc:54-66; undefined for no case: sizes 0 and 1 give 0 *)
Fixpoint areaSum (prev cur : vec3) (l : list vec3) : R :=
  match l with
  | [] => 0
  | next :: l' => vx cur * (vy next - vy prev) + areaSum cur next l'
  end.
Definition area (l : list vec3) : R :=
  match l with
  | [] | [_] => 0
  | p0 :: p1 :: l' =>
    let lst := List.last l vzero in
    let beforeLast := List.last (removelast l) vzero in
    Rabs ((areaSum p0 p1 l' + vx lst * (vy p1 - vy beforeLast)) / 2)
  end.

(** algorithms.cc:68-84: the mean of all points but the last; 0/0 for one point, the loop
    runs off the array for none *)
Definition vsum (l : list vec3) : vec3 := fold_right vadd vzero l.
Definition center (l : list vec3) : outcome (option vec3) :=
  match l with
  | [] => Ub
  | _ =>
    let l' := removelast l in
    if (length l' =? 0)%nat then Ok None
    else Ok (Some (vscale (/ INR (length l')) (vsum l')))
  end.

(** algorithms.cc:109-127: reads n[3] of a vector of three numbers *)
Definition centerPlanar (points : list vec3) (n : vec3) (t : R) : outcome vec3 := Ub.

(** algorithms.cc:129-133 *)
Definition projectZ (l : list vec3) : list vec3 := map (fun p => V3 (vx p) (vy p) 0) l.

(** algorithms.cc:143-150, the for loop: [p0] first, then [l] *)
Definition pick (h : vec3) (res : list vec3) (last current : vec3) : vec3 :=
  if veqb last h || Rltb 0 (isLeft h last current) then
    if negb (inList current res) || veqb current (front res) then current else last
  else last.
Definition scan (h : vec3) (res : list vec3) (p0 : vec3) (l : list vec3) : vec3 :=
  fold_left (pick h res) l p0.
(** algorithms.cc:140-155, the do while loop; [None]: out of fuel *)
Fixpoint hullLoop (fuel : nat) (p0 : vec3) (l : list vec3) (res : list vec3) (h : vec3) : option (list vec3) :=
  match fuel with
  | O => None
  | S fuel' =>
    let lastPoint := scan h res p0 l in
    let res' := res ++ [h] in
    if veqb lastPoint (front res') then Some (res' ++ [lastPoint])
    else hullLoop fuel' p0 l res' lastPoint
  end.
(** algorithms.cc:135-157 *)
Definition convexHull (fuel : nat) (l : list vec3) : option (list vec3) :=
  match l with
  | [] => Some []
  | p0 :: l' => hullLoop fuel p0 l' [] (leftMostFrom p0 l')
  end.

(** algorithms.cc:172-177 *)
Fixpoint rightOfEdges (l : list vec3) (p : vec3) : bool :=
  match l with
  | a :: (b :: _) as l' => if Rltb 0 (isLeft a b p) then false else rightOfEdges l' p
  | _ => true
  end.
(** algorithms.cc:158-179 *)
Definition containsHull (hull : list vec3) (p : vec3) (epsilon : R) : bool :=
  match hull with
  | [] => false
  | [a] =>
    let x := vx p - vx a in let y := vy p - vy a in Rltb (sqrt (x * x + y * y)) epsilon
  | [a; b] =>
    let x := vx b - vx a in let y := vy b - vy a in Rltb (sqrt (x * x + y * y)) epsilon
  | _ => rightOfEdges hull p
  end.
(** algorithms.cc:181-184 *)
Definition contains (fuel : nat) (points : list vec3) (p : vec3) (epsilon : R) : option bool :=
  match convexHull fuel points with
  | Some hull => Some (containsHull hull p epsilon)
  | None => None
  end.

(** algorithms.cc:186-212: x and y of the result; its z is not set *)
Definition lineSect (p1 p2 p3 p4 : vec3) : option (R * R) :=
  let d := (vx p1 - vx p2) * (vy p3 - vy p4) - (vy p1 - vy p2) * (vx p3 - vx p4) in
  let pre := vx p1 * vy p2 - vy p1 * vx p2 in
  let post := vx p3 * vy p4 - vy p3 * vx p4 in
  if Reqb d 0 then None
  else Some ((pre * (vx p3 - vx p4) - (vx p1 - vx p2) * post) / d,
             (pre * (vy p3 - vy p4) - (vy p1 - vy p2) * post) / d).

(** algorithms.cc:214-255 *)
Definition lineSect3D (p1 p2 p3 p4 : vec3) : option vec3 :=
  match lineSect p1 p2 p3 p4 with
  | None => None
  | Some (x, y) =>
    let u := vsub p2 p1 in
    let t := if negb (Reqb (vx u) 0) then (x - vx p1) / vx u
             else if negb (Reqb (vy u) 0) then (y - vy p1) / vy u
             else 1 in
    Some (V3 x y (vz p1 + t * vz u))
  end.

(** algorithms.cc:296-317 and 328-349, the loop over e for one edge (a, b) of the clip
    polygon; [sect] is the intersection; [None] if a NaN is produced *)
Section clip.
Variable sect : vec3 -> vec3 -> vec3 -> vec3 -> option vec3.
Fixpoint clipLoop (a b s : vec3) (l : list vec3) : option (list vec3) :=
  match l with
  | [] => Some []
  | e :: l' =>
    let dirS := isLeft a b s in
    let dirE := isLeft a b e in
    match clipLoop a b e l' with
    | None => None
    | Some out =>
      if Rleb dirE 0 then
        if Rltb 0 dirS then
          match sect s e a b with Some i => Some (i :: e :: out) | None => None end
        else Some (e :: out)
      else if Rleb dirS 0 then
        match sect s e a b with Some i => Some (i :: out) | None => None end
      else Some out
    end
  end.
(** one edge: [inputList.end() - 1] of an empty list is read *)
Definition clipEdge (a b : vec3) (l : list vec3) : outcome (option (list vec3)) :=
  match l with
  | [] => Ub
  | _ => Ok (clipLoop a b (List.last l vzero) l)
  end.
(** algorithms.cc:293-318: all edges *)
Fixpoint clipEdges (clip : list vec3) (l : list vec3) : outcome (option (list vec3)) :=
  match clip with
  | a :: (b :: _) as clip' =>
    match clipEdge a b l with
    | Ok (Some out) => clipEdges clip' out
    | res => res
    end
  | _ => Ok (Some l)
  end.
Definition clipPolygon (sub clip : list vec3) : outcome (option (list vec3)) :=
  match clip with
  | [] => Ub
  | _ => clipEdges clip sub
  end.
End clip.
(** the two-dimensional version leaves the third coordinate of intersection points unset:
    [junk] is what is there *)
Definition sect2D (junk : R) (p1 p2 p3 p4 : vec3) : option vec3 :=
  match lineSect p1 p2 p3 p4 with Some (x, y) => Some (V3 x y junk) | None => None end.
(** algorithms.cc:290-320 *)
Definition compute2DIntersection (junk : R) (sub clip : list vec3) : outcome (option (list vec3)) :=
  clipPolygon (sect2D junk) sub clip.
(** algorithms.cc:322-368 *)
Definition compute3DIntersection (fuel : nat) (sub clip : list vec3) : outcome (option (list vec3)) :=
  match clipPolygon lineSect3D sub clip with
  | Ok (Some out) => Ok (convexHull fuel out)
  | res => res
  end.

(** algorithms.cc:261-278: the version with iterators, for one edge *)
Fixpoint walkEdge (sect : vec3 -> vec3 -> vec3 -> vec3 -> option vec3) (a b e : vec3) (l : list vec3) : option (list vec3) :=
  match l with
  | [] => Some []
  | s :: l' =>
    let dirE := isLeft a b e in
    let dirS := isLeft a b s in
    match walkEdge sect a b s l' with
    | None => None
    | Some out =>
      if Rltb dirE 0 then
        if Rltb dirS 0 then Some (s :: out)
        else match sect s e a b with Some i => Some (i :: out) | None => None end
      else if Rltb dirS 0 then
        match sect s e a b with Some i => Some (i :: s :: out) | None => None end
      else Some out
    end
  end.
(** algorithms.cc:257-288; [result] is inputList, empty before the first edge *)
Fixpoint walkEdges (sect : vec3 -> vec3 -> vec3 -> vec3 -> option vec3) (clip : list vec3) (cur result : list vec3) : outcome (option (list vec3)) :=
  match clip with
  | a :: (b :: _) as clip' =>
    match cur with
    | [] => Ub
    | e :: l =>
      match walkEdge sect a b e l with
      | None => Ok None
      | Some [] => Ok (Some [])
      | Some out =>
        let input := if (3 <? length out)%nat then out ++ [front out] else out in
        walkEdges sect clip' input input
      end
    end
  | _ => Ok (Some result)
  end.
Definition compute2DIntersectionIter (junk : R) (sub clip : list vec3) : outcome (option (list vec3)) :=
  match clip with
  | [] => Ub
  | _ => walkEdges (sect2D junk) clip sub []
  end.

(** algorithms.cc:370-372 *)
Definition distanceToPlaneOffset (n : vec3) (t : R) (v : vec3) : R := vdot n v - t.
(** algorithms.cc:374-377 *)
Definition distanceToPlane (point Pn P0 : vec3) : R := Rabs (vdot (vsub point P0) Pn).
(** algorithms.cc:379-387 *)
Definition projectPointOnPlane (point Pn P0 : vec3) : vec3 :=
  vsub point (vscale (vdot (vsub point P0) Pn) Pn).

(** algorithms.cc:411-418: lines parallel to an edge give infinities, which are never
    smaller; [best] is d_min and res, [None] while d_min is the largest double *)
Fixpoint bestOnEdges (point proj c : vec3) (plan : list vec3) (best : option (R * vec3)) : option (R * vec3) :=
  match plan with
  | a :: (b :: _) as plan' =>
    let best' :=
      match lineSect3D proj c a b with
      | None => best
      | Some i =>
        let d := Rabs (vnorm (vsub i point)) in
        match best with
        | None => Some (d, i)
        | Some (dmin, _) => if Rltb d dmin then Some (d, i) else best
        end
      end in
    bestOnEdges point proj c plan' best'
  | _ => best
  end.
(** algorithms.cc:389-423; [None]: res is not written *)
Definition projectPointInsidePlan (plan : list vec3) (point Pn P0 : vec3) : outcome (option (R * vec3)) :=
  let proj := projectPointOnPlane point Pn P0 in
  if containsHull plan proj (1 / 10000) then Ok (Some (Rabs (vnorm (vsub proj point)), proj))
  else match center plan with
       | Ok (Some c) => Ok (bestOnEdges point proj c plan None)
       | Ok None => Ok None
       | Throw => Throw
       | Ub => Ub
       end.

(** algorithms.cc:438-453 *)
Definition insideTriangle (a b c p : vec3) : bool :=
  let n := vcross (vsub b a) (vsub c a) in
  let pa := vsub a p in let pb := vsub b p in let pc := vsub c p in
  if Rltb (vdot (vcross pb pc) n) (- EPSILON) then false
  else if Rltb (vdot (vcross pc pa) n) (- EPSILON) then false
  else if Rltb (vdot (vcross pa pb) n) (- EPSILON) then false
  else true.

(** algorithms.cc:602-626 *)
Definition intersectSegmentPlane (s0 s1 pn p0 : vec3) : list vec3 :=
  let u := vsub s1 s0 in
  let w := vsub s0 p0 in
  let d := vdot pn u in
  let n := - vdot pn w in
  if Rltb (Rabs d) EPSILON then
    if Rltb (Rabs n) EPSILON then [s0; s1] else []
  else
    let di := n / d in
    if Rltb di 0 || Rltb 1 di then []
    else [vadd s0 (vscale di u)].

(** a mesh: vertices and triangles (indices); BVHModel.  Out of range indices are not
    modelled (fcl checks them), so triangles carry their points (read at algorithms.cc:22-50) *)
Definition triangle3 := (vec3 * vec3 * vec3)%type.
(** Eigen normalize(): v / |v|, nothing if |v| = 0 *)
Definition normalize (v : vec3) : vec3 := if Rltb 0 (vnorm2 v) then vscale (/ vnorm v) v else v.
(** algorithms.cc:15-20 *)
Definition TriangleNormal (t : triangle3) : vec3 :=
  let '(p1, p2, p3) := t in normalize (vcross (vsub p2 p1) (vsub p3 p1)).
(** algorithms.cc:682-693: the first triangle *)
Definition computePlanEquation (t : triangle3) : vec3 * vec3 := (TriangleNormal t, t.1.1).
(** algorithms.cc:637-650 *)
Definition planePoints (tris : list triangle3) (Pn P0 : vec3) : list vec3 :=
  concat (map (fun t : triangle3 => let '(a, b, c) := t in
    intersectSegmentPlane a b Pn P0 ++ intersectSegmentPlane b c Pn P0 ++ intersectSegmentPlane c a Pn P0) tris).
(** algorithms.cc:628-670 *)
Definition intersectPolygonePlane (fuel : nat) (polygone plane : list triangle3) : outcome (option (list vec3)) :=
  match plane with
  | [] => Ub
  | t :: _ =>
    let '(Pn, P0) := computePlanEquation t in
    match planePoints polygone Pn P0 with
    | [] => Ok (Some [])
    | res => Ok (convexHull fuel res)
    end
  end.

(** algorithms.cc:425-436: the number of points less than EPSILON over the plane *)
Definition penetrating (d : list R) : nat := length (List.filter (fun x => Rltb x EPSILON) d).
(** algorithms.cc:508-523: three values; the third positive one is written past the end of
    dpos and ppos; with no negative one pneg is not set *)
Definition separate (dt : list (R * vec3)) : outcome ((R * vec3) * (R * vec3) * (R * vec3)) :=
  let neg := List.filter (fun x => Rltb (fst x) 0) dt in
  let pos := List.filter (fun x => negb (Rltb (fst x) 0)) dt in
  match pos with
  | [p1; p2] => match List.last (map Some neg) None with Some n => Ok (n, p1, p2) | None => Ub end
  | _ => Ub
  end.
(** algorithms.cc:481-544 *)
Definition intersectTriangles (tri tri2 : triangle3) : outcome (list vec3) :=
  let '(a, b, c) := tri in
  let '(a2, b2, c2) := tri2 in
  let n2 := TriangleNormal tri2 in
  let t2 := vdot n2 a2 in
  let dist := map (distanceToPlaneOffset n2 t2) [a; b; c] in
  let num := penetrating dist in
  if (2 <? num)%nat then Ok []
  else
    let dist' := if (num =? 2)%nat then map Ropp dist else dist in
    match separate (zip dist' [a; b; c]) with
    | Ok ((dneg, pneg), (dp1, pp1), (dp2, pp2)) =>
      let i1 := vadd pneg (vscale (dneg / (dneg - dp1)) (vsub pp1 pneg)) in
      let i2 := vadd pneg (vscale (dneg / (dneg - dp2)) (vsub pp2 pneg)) in
      Ok ((if insideTriangle a2 b2 c2 i1 then [i1] else []) ++
          (if insideTriangle a2 b2 c2 i2 then [i2] else []))
    | Throw => Throw
    | Ub => Ub
    end.
