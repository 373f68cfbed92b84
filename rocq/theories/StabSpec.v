(** Specification vocabulary of the balance properties. *)
From Coq Require Import Reals.
From Verif Require Import SampModel.
From Verif Require Export ProjSpec StabModel.
Local Open Scope R_scope.

(** four points [c + u + v, c + u - v, c - u - v, c - u + v]: a rectangle of centre [c]
    and half sides [u] and [v] *)
Definition rectangle (c u v : vec3) (ps : list vec3) : Prop :=
  ps = [vadd (vadd c u) v; vsub (vadd c u) v; vsub (vsub c u) v; vadd (vsub c u) v] /\ vdot u v = 0.

(** a limb's half sizes, replaced by [fx], [fy] when these are not 0 *)
Definition size_or (f x r : R) : Prop := (f = 0 /\ r = x) \/ (f <> 0 /\ r = f).

(** the points of the contact of limb [l], recorded in [s] under name [e], given the
    requested half sizes *)
Definition points_of (s : PSt) (e : string) (l : rlimb) (fx fy : R) (ps : list vec3) : Prop :=
  exists p n, positions s !! e = Some p /\ normals s !! e = Some n /\
  match rtype l with
  | _3_DOF => (* the effector's offset, after the effector has been turned so that its normal is the contact's *)
      exists G, ps = [vadd p (mapp G (mapp (rot (reffpose l (configuration s))) (roffset l)))] /\
        (rnormal l <> vzero -> n <> vzero -> is_rotation (rot (reffpose l (configuration s))) ->
         let from := mapp (rot (reffpose l (configuration s))) (rnormal l) in
         is_rotation G /\ dist3 (mapp G (vnormalize from)) (vnormalize n) <= 3 / 10 ^ 6)
  | _6_DOF =>
      exists r lx ly u v, rotations s !! e = Some r /\ size_or fx (rx l) lx /\ size_or fy (ry l) ly /\
        (rnormal l <> vzero -> is_rotation r ->
         rectangle (vadd (mapp r (roffset l)) p) u v ps /\ vnorm u = Rabs lx /\ vnorm v = Rabs ly)
  end.

(** the contacts of [s] in alphabetical order, those of limbs that do not grasp
    first *)
Definition contact_list (B : rbody) (s : PSt) (names : list string) : Prop :=
  let grasping e := match rlimbs B !! e with Some l => rgrasp l | None => false end in
  names = (filter (fun e => grasping e = false) (skeys (positions s)) ++
           filter (fun e => grasping e = true) (skeys (positions s)))%list.

(** the axis chosen for opposite vectors is a unit vector orthogonal to the first *)
Definition good_axis (axis : vec3 -> vec3 -> vec3) : Prop :=
  forall v0 v1, vnorm2 v0 = 1 -> vnorm2 v1 = 1 -> vnorm2 (axis v0 v1) = 1 /\ vdot (axis v0 v1) v0 = 0.

Definition has_grasp (B : rbody) (s : PSt) : Prop :=
  exists e l, is_Some (positions s !! e) /\ rlimbs B !! e = Some l /\ rgrasp l = true.

(** [w], a wrench (force, moment), satisfies the inequalities [H w <= h] *)
Definition dot6 (r w : row6) : R := vdot (lin r) (lin w) + vdot (ang r) (ang w).
Definition in_polytope (Hh : list row6 * list R) (w : row6) : Prop :=
  Forall2 (fun r hi => dot6 r w <= hi) (fst Hh) (snd Hh).

(** the rows (point, normal) given to the library for contact [e]: one point or four,
    the requested sizes being used, and the normal scaled to length 1, only for limbs that
    do not grasp *)
Definition contact_part (B : rbody) (s : PSt) (fx fy : R) (e : string) (rows : list (vec3 * vec3)) : Prop :=
  exists l n ps, rlimbs B !! e = Some l /\ normals s !! e = Some n /\
    (if rgrasp l then points_of s e l 0 0 ps else points_of s e l fx fy ps) /\
    length ps = (match rtype l with _3_DOF => 1 | _6_DOF => 4 end)%nat /\
    rows = map (fun p => (p, if rgrasp l then n else vnormalize n)) ps.

(** [k] describes the contacts recorded in [s]: alphabetical order, limbs that grasp last *)
Definition describes (B : rbody) (s : PSt) (fx fy : R) (k : contactSet) : Prop :=
  exists names parts, contact_list B s names /\ Forall2 (contact_part B s fx fy) names parts /\
    cpts k = map fst (concat parts) /\ cnrms k = map snd (concat parts) /\ cmu k = rfriction B.
