(** Model of src/stability/support.cc. Doubles are exact reals. *)
From Coq Require Import ZArith.
From Verif Require Export Maps Vec GeomModel.
Local Open Scope R_scope.

(** support.cc:22-25 is the same formula as algorithms.cc:40-42, [isLeft] *)
(** support.cc:27-35: the first among those of least x, [leftMostFrom] *)
(** support.cc:48-52, the for loop: [pi] the current point, [p0] the first point, [l] the others *)
Definition giftNext (p0 : vec3) (l : list vec3) (pi : vec3) : vec3 :=
  fold_left (fun e c => if veqb e pi || Rltb 0 (isLeft pi e c) then c else e) l p0.
(** support.cc:44-55, the do while loop; [None]: out of fuel *)
Fixpoint giftLoop (fuel : nat) (p0 : vec3) (l : list vec3) (res : list vec3) (pi : vec3) : option (list vec3) :=
  match fuel with
  | O => None
  | S fuel' =>
    let endPoint := giftNext p0 l pi in
    let res' := res ++ [pi] in
    if veqb endPoint (front res') then Some (res' ++ [endPoint]) else giftLoop fuel' p0 l res' endPoint
  end.
(** support.cc:39-58; there is always a point *)
Definition giftWrap (fuel : nat) (p0 : vec3) (l : list vec3) : option (list vec3) := giftLoop fuel p0 l [] (leftMostFrom p0 l).

(** support.cc:60-84. When the segment is parallel to an axis, a quotient is infinite or not a
    number, and so is Xint: both comparisons are false and the closest extremity is taken. *)
Definition planarNorm (x y : R) : R := sqrt (x * x + y * y).
Definition DistancePointSegment (pt A B : vec3) : R :=
  let ends := Rmin (planarNorm (vx pt - vx A) (vy pt - vy A)) (planarNorm (vx pt - vx B) (vy pt - vy B)) in
  if Reqb (vx A) (vx B) || Reqb (vy A) (vy B) then ends
  else
    let a := (vy A - vy B) / (vx A - vx B) in
    let b := vy B - a * vx B in
    let c := - (1 / a) in
    let d := vy pt - vx pt * c in
    let Xint := (d - b) / (c - a) in
    let Yint := a * Xint + b in
    if Rltb 0 ((Xint - vx A) * (vx B - vx A) + (Yint - vy A) * (vy B - vy A)) &&
       Rltb (planarNorm (Xint - vx A) (Yint - vy A)) (planarNorm (vx B - vx A) (vy B - vy A))
    then planarNorm (vx pt - Xint) (vy pt - Yint)
    else ends.
(** support.cc:108-122: the contribution of an edge *)
Definition windEdge (P a b : vec3) : Z :=
  if Rleb (vy a) (vy P) then
    if Rltb (vy P) (vy b) then if Rltb 0 (isLeft a b P) then 1%Z else 0%Z else 0%Z
  else
    if Rleb (vy b) (vy P) then if Rltb (isLeft a b P) 0 then (-1)%Z else 0%Z else 0%Z.
Fixpoint winding (P : vec3) (l : list vec3) : Z :=
  match l with
  | a :: (b :: _) as l' => (windEdge P a b + winding P l')%Z
  | _ => 0%Z
  end.
(** support.cc:92-124; Epsilon = 0.001 *)
Definition InPolygon (points : list vec3) (P : vec3) : bool :=
  match points with
  | [] => false
  | [p0] => Rltb (planarNorm (vx P - vx p0) (vy P - vy p0)) (1 / 1000)
  | [p0; p1] => Rltb (DistancePointSegment P p0 p1) (1 / 1000)
  | _ => negb (winding P points =? 0)%Z
  end.
(** support.cc:135-141: the corners of the rectangles; an access past the end of xs or ys is undefined *)
Fixpoint corners (support : list vec3) (xs ys : list R) : outcome (list vec3) :=
  match support with
  | [] => Ok []
  | p :: support' =>
    match xs, ys with
    | x :: xs', y :: ys' =>
      match corners support' xs' ys' with
      | Ok l => Ok (vadd p (V3 x y 0) :: vadd p (V3 (- x) y 0) :: vadd p (V3 (- x) (- y) 0) :: vadd p (V3 x (- y) 0) :: l)
      | o => o
      end
    | _, _ => Ub
    end
  end.
(** support.cc:128-144; [None]: out of fuel *)
Definition Contains (fuel : nat) (support : list vec3) (P : vec3) (xs ys : list R) : outcome (option bool) :=
  match support with
  | [] => Ok (Some false)
  | _ =>
    match corners support xs ys with
    | Ok (p0 :: l) => match giftWrap fuel p0 l with Some hull => Ok (Some (InPolygon hull P)) | None => Ok None end
    | Ok [] => Ok None
    | Throw => Throw
    | Ub => Ub
    end
  end.
