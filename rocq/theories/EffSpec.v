(** Vocabulary of the properties of the end effector trajectories. *)
From Coq Require Import Reals.
From Verif Require Import SampModel TrajModel.
From Verif Require Export Maps Vec StateSpec ProjSpec InterSpec EffModel.
From Verif Require Import StateModel.
Local Open Scope R_scope.

(** the first contact, in alphabetical order, of the second state that is not one of the first
    state or has moved *)
Definition moves_first (start next : PSt) (n : string) : Prop :=
  created moved3 start next n /\ forall m, created moved3 start next m -> str_le n m.
(** the limb [n] of the robot, whose effector is the frame [f], named [en] *)
Definition effector_of (B : fullbody) (n en : string) (f : frame) : Prop :=
  exists l, limbsOf B !! n = Some l /\ effName l = en /\ frames (dev B) !! en = Some f.

(** * Curves *)
Section S.
Variable ff : device.
Variables predefInit predefGoal : pdata -> R -> list vec3.
Variable bezierOf : list vec3 -> R -> bezier.
Variable deriv : bezier -> nat -> R -> vec3.
Variable fit : nat -> pdata -> (R -> vec3) -> R -> R -> option bezier.

(** what is expected of ndcurves and of hpp-bezier-com-traj: a curve made of control points and
    a duration is defined from 0 to that duration; the predefined curves have the positions asked
    at both ends, the derivatives asked at the end that touches the ground; a fitted curve has
    the positions and derivatives asked at both ends *)
Record good_curves : Prop := {
  gc_range : forall pts T, bz_min (bezierOf pts T) = 0 /\ bz_max (bezierOf pts T) = T;
  gc_init : forall d T, 0 < T -> let c := bezierOf (predefInit d T) T in
    bz_eval c 0 = pc0 d /\ bz_eval c T = pc1 d /\ deriv c 1 0 = pdc0 d /\ deriv c 2 0 = pddc0 d;
  gc_goal : forall d T, 0 < T -> let c := bezierOf (predefGoal d T) T in
    bz_eval c 0 = pc0 d /\ bz_eval c T = pc1 d /\ deriv c 1 T = pdc1 d /\ deriv c 2 T = pddc1 d;
  gc_fit : forall v d eff T wt c, 0 < T -> fit v d eff T wt = Some c ->
    bz_min c = 0 /\ bz_max c = T /\ bz_eval c 0 = pc0 d /\ bz_eval c T = pc1 d /\
    deriv c 1 0 = pdc0 d /\ deriv c 1 T = pdc1 d /\ deriv c 2 0 = pddc0 d /\ deriv c 2 T = pddc1 d /\
    deriv c 3 0 = pj0 d /\ deriv c 3 T = pj1 d
}.
(** interpolation of the free flying end effector between two of its configurations *)
Definition free_flyer : Prop :=
  forall q1 q2, length q1 = 7%nat -> length q2 = 7%nat -> interp ff q1 q2 0 = q1 /\ interp ff q1 q2 1 = q2.

(** at times [t1] and [t2] two curves have the same position, velocity, acceleration and jerk *)
Definition meet (c1 : bezier) (t1 : R) (c2 : bezier) (t2 : R) : Prop :=
  bz_eval c1 t1 = bz_eval c2 t2 /\ forall n, (1 <= n <= 3)%nat -> deriv c1 n t1 = deriv c2 n t2.
(** three paths of durations 0.3, [T] and 0.3 from the pose [p0], [o0] to the pose [p1], [o1]:
    at rest at both ends, going through the positions at a height [off] along the normals, and
    following one another without any jump *)
Definition swing (off T : R) (n0 n1 p0 : vec3) (o0 : quat) (p1 : vec3) (o1 : quat) (a b c : bezPath) : Prop :=
  (bp_first a = 0 /\ bp_second a = 3/10 /\ bp_first b = 0 /\ bp_second b = T /\ bp_first c = 0 /\ bp_second c = 3/10) /\
  (bp_init ff a = Ok (cfg7 p0 o0) /\ bp_end ff a = bp_init ff b /\ bp_end ff b = bp_init ff c /\ bp_end ff c = Ok (cfg7 p1 o1)) /\
  (bz_eval (bp_curve a) (3/10) = vadd p0 (vscale off n0) /\ bz_eval (bp_curve c) 0 = vadd p1 (vscale off n1)) /\
  (meet (bp_curve a) (3/10) (bp_curve b) 0 /\ meet (bp_curve b) T (bp_curve c) 0) /\
  (forall n, (1 <= n <= 2)%nat -> deriv (bp_curve a) n 0 = vzero /\ deriv (bp_curve c) n (3/10) = vzero).

(** the height, for a motion of duration [total] *)
Definition height_is (p_max total off : R) : Prop :=
  exists x, total = 6/10 * (1 + x) /\ off = p_max / (1 + 4 * x + 6 * (x * x) - x * x * x).
End S.

(** the trajectory kept at a path number for an effector *)
Definition kept_at (s : gmap nat (gmap string (list bezier))) (id : nat) (en : string) : option (list bezier) :=
  match s !! id with Some m => m !! en | None => None end.
(** the only change is at [id], [en], if nothing was there *)
Definition kept_once (s s' : gmap nat (gmap string (list bezier))) (id : nat) (en : string) (l : list bezier) : Prop :=
  kept_at s' id en = Some (default l (kept_at s id en)) /\
  forall id' en', (id', en') <> (id, en) -> kept_at s' id' en' = kept_at s id' en'.

(** the fits tried: number of free variables and weight of the path of the planner *)
Definition fits_tried : list (nat * R) :=
  [(1%nat, 0); (1%nat, 1/2); (1%nat, 3/4); (1%nat, 17/20); (1%nat, 9/10); (1%nat, 19/20); (1%nat, 1);
   (3%nat, 1/2); (3%nat, 3/4); (3%nat, 17/20); (3%nat, 9/10); (3%nat, 19/20); (3%nat, 1);
   (5%nat, 1/2); (5%nat, 3/4); (5%nat, 17/20); (5%nat, 9/10); (5%nat, 19/20); (5%nat, 1)].

(** [k]/100 is the first time, among the multiples of 1/100 before [len], at which [at_] reaches
    [t]; [len] if there is none *)
Definition first_index (at_ : R -> R) (len t i : R) : Prop :=
  (exists k, i = INR k / 100 /\ i < len /\ t <= at_ i /\ forall k', (k' < k)%nat -> at_ (INR k' / 100) < t) \/
  (i = len /\ forall k, INR k / 100 < len -> at_ (INR k / 100) < t).

(** * Whole body paths that follow a swing *)
Section F.
Variables P E : Type.
Variable B : fullbody.
Variable junkT : vec3.
Variable solve : nat -> nat -> rrtProblem P -> solveResult E.
Variables randomShortcut partialShortcut : nat -> nat -> nat -> rrtProblem P -> list E -> outcome (list E).

(** the reference paths the planner is given: the centre of mass follows [com], the effector
    [f] follows [eff], the frames of the [constrained] joints have the orientations they have
    along the reference [full], if there is one *)
Definition references (com eff : P) (full : option P) (f : frame) (constrained : list string) (l : list (tdConstraint P)) : Prop :=
  match full with
  | None => l = [TdCom P com; TdPos P f eff]
  | Some r => exists gs, Forall2 (fun n g => frames (dev B) !! n = Some g) constrained gs /\
                l = TdCom P com :: TdPos P f eff :: map (fun g => TdOri P g r) gs
  end.
(** the constraints of the planner: those references, and the contacts common to both states *)
Definition constrained_by (full : option P) (f : frame) (constrained : list string) (start next : PSt) (c : cstr) : Prop :=
  c = CCom junkT \/ c = createPositionMethod f junkT \/
  (full <> None /\ exists n g, n ∈ constrained /\ frames (dev B) !! n = Some g /\ c = createOrientationMethod g mid) \/
  (exists n le, stays start next n /\ contactConstraint B start n = Ok le /\ c ∈ le).
(** [l]: the path found by the planner, at most 500 iterations per attempt and random
    configurations along [guide], then each optimizer once *)
Definition followed (com eff guide : P) (full : option P) (f : frame) (constrained : list string) (start next : PSt) (keep : bool) (l : list (piece E)) : Prop :=
  exists pb k l0 l1 l2,
    rStart P pb = configuration start ++ [0] /\ rGoal P pb = configuration next ++ [1] /\
    rShootPath P pb = guide /\ rShootLimbs P pb = [] /\ rIter P pb = 500%nat /\ thr (rProj P pb) = 1/1000 /\
    references com eff full f constrained (rTds P pb) /\
    (forall c, c ∈ cs (rProj P pb) <-> constrained_by full f constrained start next c) /\
    solve k 0 pb = Solved E (Some l0) /\ randomShortcut k 0 0 pb l0 = Ok l1 /\ partialShortcut k 0 0 pb l1 = Ok l2 /\
    l = map (if keep then Full E else Reduced E) l2.
End F.
