(** Specification vocabulary of the centroid. *)
From Coq Require Import Reals.
From Verif Require Import Maps Vec GeomSpec.
Local Open Scope R_scope.

(** the signed area of a triangle: positive when a, b, c turn counterclockwise *)
Definition signed_area (a b c : vec3) : R := orient a b c / 2.
(** the triangles that share the vertex [v], over the polyline [vs] *)
Definition fan (v : vec3) (vs : list vec3) : list (vec3 * vec3 * vec3) := map (fun e : vec3 * vec3 => (v, e.1, e.2)) (edges vs).
Definition total_area (ts : list (vec3 * vec3 * vec3)) : R := fold_right (fun t s => signed_area t.1.1 t.1.2 t.2 + s) 0 ts.
(** the sum of a coordinate of the triangles' centres, weighted by their areas *)
Definition moment (f : vec3 -> R) (ts : list (vec3 * vec3 * vec3)) : R :=
  fold_right (fun t s => signed_area t.1.1 t.1.2 t.2 * ((f t.1.1 + f t.1.2 + f t.2) / 3) + s) 0 ts.
