(** Specification vocabulary for the planar geometry. *)
From Verif Require Import Maps Vec GeomModel.
Local Open Scope R_scope.

(** the same place in the plane *)
Definition same_xy (a b : vec3) : Prop := vx a = vx b /\ vy a = vy b.

(** [p] is, in the plane, a convex combination of the points of [l] *)
Fixpoint weighted (f : vec3 -> R) (ws : list R) (l : list vec3) : R :=
  match ws, l with
  | w :: ws', p :: l' => w * f p + weighted f ws' l'
  | _, _ => 0
  end.
Definition in_hull (l : list vec3) (p : vec3) : Prop :=
  exists ws, length ws = length l /\ Forall (fun w => 0 <= w) ws /\ weighted (fun _ => 1) ws l = 1 /\
    weighted vx ws l = vx p /\ weighted vy ws l = vy p.

(** the directed edges of a polyline *)
Fixpoint edges (l : list vec3) : list (vec3 * vec3) :=
  match l with
  | a :: (b :: _) as l' => (a, b) :: edges l'
  | _ => []
  end.

(** twice the signed area of the triangle a b p: positive iff p is on the left of the
    directed line from a to b *)
Definition orient (a b p : vec3) : R := (vx b - vx a) * (vy p - vy a) - (vy b - vy a) * (vx p - vx a).
(** the edges of a polygon given by its vertices, including the one that closes it *)
Definition cyclic_edges (l : list vec3) : list (vec3 * vec3) :=
  match l with [] => [] | _ => edges (List.last l vzero :: l) end.

Section side.
Variable side : vec3 -> vec3 -> vec3 -> R.
(** points with the same x and y are equal, and no three distinct ones are aligned *)
Definition general_position_ (l : list vec3) : Prop :=
  (forall a b, a ∈ l -> b ∈ l -> same_xy a b -> a = b) /\
  (forall a b c, a ∈ l -> b ∈ l -> c ∈ l -> a <> b -> b <> c -> a <> c -> side a b c <> 0).

(** the points of [l] are on the right of the directed line from a to b *)
Definition right_of_ (l : list vec3) (a b : vec3) : Prop := forall p, p ∈ l -> side a b p <= 0.

(** a closed clockwise strictly convex polygon: a first vertex, the others, and the first
    again; every other vertex strictly on the right of each edge *)
Record convex_polygon_ (l : list vec3) : Prop := {
  cp_closed : exists v vs, l = v :: vs ++ [v] /\ (2 <= length vs)%nat /\ NoDup (v :: vs);
  cp_right : forall a b p, (a, b) ∈ edges l -> p ∈ l -> p <> a -> p <> b -> side a b p < 0
}.
(** the half planes of a clip polygon *)
Definition inside_edges_ (l : list vec3) (p : vec3) : Prop := forall a b, (a, b) ∈ edges l -> side a b p <= 0.
(** a clockwise convex polygon, possibly with repeated or aligned vertices: all vertices on
    the right of (or on) every edge *)
Definition weakly_convex_ (l : list vec3) : Prop := forall a b, (a, b) ∈ cyclic_edges l -> right_of_ l a b.
(** the area of a triangle, and of the fan of triangles from [v] over a polyline *)
Definition triangle_area_ (a b c : vec3) : R := Rabs (side a b c) / 2.
Definition fan_area_ (v : vec3) (vs : list vec3) : R :=
  fold_right Rplus 0 (map (fun e : vec3 * vec3 => triangle_area_ v e.1 e.2) (edges vs)).
(** [q] is where the line through [p] and [c] crosses the line of an edge of the polygon *)
Definition line_crossing_ (plan : list vec3) (p c q : vec3) : Prop :=
  exists a b t, (a, b) ∈ edges plan /\ side a b p <> side a b c /\
    q = vadd p (vscale t (vsub c p)) /\ side a b q = 0.
End side.
Notation general_position := (general_position_ orient).
Notation right_of := (right_of_ orient).
Notation convex_polygon := (convex_polygon_ orient).
Notation inside_edges := (inside_edges_ orient).
Notation weakly_convex := (weakly_convex_ orient).
Notation triangle_area := (triangle_area_ orient).
Notation fan_area := (fan_area_ orient).
Notation line_crossing := (line_crossing_ orient).

(** membership in a triangle of space *)
Definition in_triangle3 (t : triangle3) (p : vec3) : Prop :=
  exists u v w, 0 <= u /\ 0 <= v /\ 0 <= w /\ u + v + w = 1 /\
    p = vadd (vadd (vscale u t.1.1) (vscale v t.1.2)) (vscale w t.2).
Definition on_segment (a b p : vec3) : Prop := exists t, 0 <= t <= 1 /\ p = vadd a (vscale t (vsub b a)).
(** the plane through P0 with normal n *)
Definition in_plane (n P0 p : vec3) : Prop := vdot n (vsub p P0) = 0.
(** the sides of the triangles of a mesh *)
Definition mesh_edge (tris : list triangle3) (s e : vec3) : Prop :=
  exists a b c, (a, b, c) ∈ tris /\ ((s, e) = (a, b) \/ (s, e) = (b, c) \/ (s, e) = (c, a)).
(** both end points are vertices of the triangle *)
Definition triangle_edge (t : triangle3) (s e : vec3) : Prop :=
  s ∈ [t.1.1; t.1.2; t.2] /\ e ∈ [t.1.1; t.1.2; t.2].
(** signed distances of three points: one strictly on one side, the others on the other, the
    positive ones by at least 1e-5 *)
Definition straddles (d1 d2 d3 : R) : Prop :=
  (d1 < 0 /\ 1 / 100000 <= d2 /\ 1 / 100000 <= d3) \/ (d2 < 0 /\ 1 / 100000 <= d1 /\ 1 / 100000 <= d3) \/ (d3 < 0 /\ 1 / 100000 <= d1 /\ 1 / 100000 <= d2) \/
  (1 / 100000 <= d1 /\ d2 < 0 /\ d3 < 0) \/ (1 / 100000 <= d2 /\ d1 < 0 /\ d3 < 0) \/ (1 / 100000 <= d3 /\ d1 < 0 /\ d2 < 0).
