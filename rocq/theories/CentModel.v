(** Model of the centroid of a polygon (src/utils/algorithms.cc:86-103, declared for users in
    include/hpp/rbprm/utils/algorithms.h:149).  Exact reals. *)
From Coq Require Import Reals.
From Verif Require Export Maps Vec GeomModel.
Local Open Scope R_scope.

(** algorithms.cc:93-99: the sums over the consecutive points *)
Fixpoint centroidSums (area cx cy : R) (l : list vec3) : R * R * R :=
  match l with
  | p :: ((q :: _) as l') =>
    centroidSums (area + (vx p * vy q - vx q * vy p))
      (cx + (vx p + vx q) * (vx p * vy q - vx q * vy p))
      (cy + (vy p + vy q) * (vx p * vy q - vx q * vy p)) l'
  | _ => (area, cx, cy)
  end.
(** algorithms.cc:87-103: the area written to the argument, and the point returned; None: the
    coordinates are not numbers (division by 0).  Without points the loop runs off the array *)
Definition centroid (l : list vec3) : outcome (R * option vec3) :=
  match l with
  | [] => Ub
  | _ =>
    let '(a, cx, cy) := centroidSums 0 0 0 l in
    let area := a / 2 in
    Ok (area, if Reqb area 0 then None else Some (V3 (cx / (6 * area)) (cy / (6 * area)) 0))
  end.
