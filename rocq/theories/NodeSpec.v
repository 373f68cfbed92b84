(** Specification vocabulary: the dynamic constraints at a node and the kinodynamic
    steering. *)
From Coq Require Import Reals.
From Verif Require Export NodeModel.
Local Open Scope R_scope.

(** a contact point: its position, its normal and two tangent vectors *)
Record contact := Contact { cpos : vec3; cnormal : vec3; ctan1 : vec3; ctan2 : vec3 }.

(** the force [F] is in the friction pyramid of the contact *)
Definition in_pyramid (mu : R) (c : contact) (F : vec3) : Prop := exists alpha beta gamma,
  F = vadd (vscale alpha (cnormal c)) (vadd (vscale beta (ctan1 c)) (vscale gamma (ctan2 c))) /\
  0 <= alpha /\ Rabs beta + Rabs gamma <= mu * alpha.
(** the force [F] is in the friction cone of normal [n] (of length 1): it pushes, and its
    tangential part is at most [mu] times its normal part *)
Definition in_cone (mu : R) (n F : vec3) : Prop :=
  0 <= vdot n F /\ vnorm (vsub F (vscale (vdot n F) n)) <= mu * vdot n F.

Definition vsum (l : list vec3) : vec3 := foldr vadd vzero l.
(** the sum of the moments of the forces at the origin *)
Fixpoint moments (cs : list contact) (Fs : list vec3) : vec3 :=
  match cs, Fs with
  | c :: cs, F :: Fs => vadd (vcross (cpos c) F) (moments cs Fs)
  | _, _ => vzero
  end.
Definition gravity_ : vec3 := V3 0 0 (- (981 / 100)).
(** Newton and Euler's equations of a mass [m] at [c], of acceleration [a] and constant
    angular momentum *)
Definition newton_euler (m : R) (c a : vec3) (cs : list contact) (Fs : list vec3) : Prop :=
  vsum Fs = vscale m (vsub a gravity_) /\ moments cs Fs = vcross c (vscale m (vsub a gravity_)).

(** the tangent vectors of a contact of normal [n], for a root whose first axis is [tq] *)
Definition tangents (tq n t1 t2 : vec3) : Prop :=
  t2 = vcross n t1 /\ 1 / 1000 <= vnorm2 t1 <= 1 /\
  exists d, t1 = vcross n d /\ vnorm2 d = 1 /\ vz d = 0 /\
    forall d0 k, vnorm2 d0 = 1 -> 0 < k -> V3 (vx tq) (vy tq) 0 = vscale k d0 -> 1 / 1000 <= vnorm2 (vcross n d0) -> d = d0.

(** the contact points of a ROM: the point found, or the four corners of the rectangle of
    half sides [sx] and [sy] around it *)
Definition rom_contacts (rect : bool) (sx sy : R) (tq n p : vec3) (cs : list contact) : Prop :=
  exists t1 t2, tangents tq n t1 t2 /\
  cs = map (fun x => Contact x n t1 t2)
    (if rect then [vadd (vadd p (vscale sx t2)) (vscale sy t1); vsub (vadd p (vscale sx t2)) (vscale sy t1);
                   vadd (vsub p (vscale sx t2)) (vscale sy t1); vsub (vsub p (vscale sx t2)) (vscale sy t1)]
     else [p]).
Definition contacts_of (approx : string -> bool * vec3 * vec3) (rect : bool) (sx sy : R) (tq : vec3)
  (roms : list string) (cs : list contact) : Prop := exists parts,
  cs = concat parts /\
  Forall2 (fun r part => rom_contacts rect sx sy tq (snd (fst (approx r))) (snd (approx r)) part) roms parts.

(** the linear problem of the node: coefficients [f >= 0] with [G f = H a + h] *)
Definition lp_solution (x : nodeMx) (a : vec3) (f : nat -> R) : Prop :=
  (forall j, (j < 4 * nPoints x)%nat -> 0 <= f j) /\
  forall i, (i < 6)%nat ->
    sumn (4 * nPoints x) (fun j => nG x i j * f j) = sumn 3 (fun j => nH x i j * comp a j) + nh x i.

(** * Steering.  The end of phase [j] (0, 1, 2) of axis [i] *)
Definition phase (t0 t1 tv : nat -> R) (i j : nat) : R := match j with O => t0 i | S O => t1 i | _ => tv i end.
Definition phase_end (t0 t1 tv : nat -> R) (i j : nat) : R :=
  match j with O => t0 i | S O => t0 i + t1 i | _ => t0 i + t1 i + tv i end.

(** the surface designated for a ROM among [l]: one whose intersection with the ROM is not
    empty, at the least distance and the first of these, or the first of [l] when all
    the intersections are empty *)
Definition best_surface {S} (inter : S -> option R) (l : list S) (s : S) : Prop :=
  (exists i d, l !! i = Some s /\ inter s = Some d /\
     forall j s' d', l !! j = Some s' -> inter s' = Some d' -> d <= d' /\ ((j < i)%nat -> d < d')) \/
  ((forall s', s' ∈ l -> inter s' = None) /\ head l = Some s).

(** the bounds of the acceleration used along [dir] when the largest admissible one is
    [alpha] *)
Definition bounds_along (alpha zmin : R) (dir b : vec3) : Prop :=
  vx b = Rabs (alpha - 1 / 100) * Rabs (vx dir) /\ vy b = Rabs (alpha - 1 / 100) * Rabs (vy dir) /\
  vz b = Rmax (Rabs (alpha - 1 / 100) * Rabs (vz dir)) zmin.

(** [t] is [shift] after the end of a phase of positive duration of one of the three axes *)
Definition instant (t0 t1 tv : nat -> R) (shift t : R) : Prop := exists i j, (i < 3)%nat /\ (j < 3)%nat /\
  0 < phase t0 t1 tv i j /\ t = phase_end t0 t1 tv i j + shift.
(** the durations of the phases are not negative *)
Definition durations_ok (t0 t1 tv : nat -> R) : Prop := forall i, (i < 3)%nat -> 0 <= t0 i /\ 0 <= t1 i /\ 0 <= tv i.
