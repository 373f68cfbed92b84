(** Model of the time-parameterised trajectories: src/interpolation/com-trajectory.cc,
    polynom-trajectory.cc, bezier-path.cc, time-constraint-path.cc,
    time-constraint-path-validation.cc, and of the right hand sides that depend on time
    (time-dependant.hh, time-constraint-utils.hh, interpolation-constraints.hh).
    Doubles are reals. *)
From Verif Require Export Maps Vec ParaModel.
Local Open Scope R_scope.

(** * ComTrajectory (com-trajectory.hh:125-130, com-trajectory.cc:31-45).  The time range is
    [0, length] *)
Record comTraj := CT { ct_init : vec3; ct_end : vec3; ct_speed : vec3; ct_acc : vec3; ct_len : R }.
(** com-trajectory.cc:47-56 *)
Definition ct_normalize (p : comTraj) (t : R) : R :=
  if Reqb (ct_len p) 0 then 0 else (t - 0) / (ct_len p - 0).
(** com-trajectory.cc:67-78 (operator() of core::Path adds nothing: no constraints) *)
Definition ct_at (p : comTraj) (t : R) : vec3 :=
  if Reqb t 0 || Reqb (ct_len p) 0 then ct_init p
  else if Reqb t (ct_len p) then ct_end p
  else
    let u := ct_normalize p t * ct_len p in
    vadd (vadd (vscale (/ 2) (vscale u (vscale u (ct_acc p)))) (vscale u (ct_speed p))) (ct_init p).
(** com-trajectory.cc:80-92 *)
Definition ct_extract (p : comTraj) (a b : R) : comTraj :=
  let l := Rmin (Rabs (b - a)) (ct_len p) in
  let q1 := ct_at p a in
  let q2 := ct_at p b in
  let u := ct_normalize p a * ct_len p in
  let speedAtQ1 := vadd (vscale u (ct_acc p)) (ct_speed p) in
  CT q1 q2 speedAtQ1 (ct_acc p) l.

(** * PolynomTrajectory (polynom-trajectory.cc:31-42).  The polynomial is evaluated by
    ndcurves, outside this repository: any function.  The time range is [start, end] *)
Record polTraj := PT { pt_pol : R -> vec3; pt_start : R; pt_stop : R }.
(** polynom-trajectory.hh:91-96 *)
Definition pt_initial (p : polTraj) : vec3 := pt_pol p (pt_start p).
Definition pt_end (p : polTraj) : vec3 := pt_pol p (pt_stop p).
(** polynom-trajectory.hh:131 *)
Definition pt_len (p : polTraj) : R := pt_stop p - pt_start p.
(** polynom-trajectory.cc:64-72 *)
Definition pt_at (p : polTraj) (t : R) : vec3 :=
  if Reqb t (pt_start p) || Reqb (pt_stop p) 0 then pt_initial p else pt_pol p t.
(** polynom-trajectory.cc:74-77 *)
Definition pt_extract (p : polTraj) (a b : R) : polTraj := PT (pt_pol p) a b.

(** * BezierPath (bezier-path.hh, bezier-path.cc:35-51).  The curve is that of ndcurves,
    instantiated with its checks: evaluation outside of [min, max] throws *)
Record bezier := Bez { bz_min : R; bz_max : R; bz_eval : R -> vec3 }.
Definition bz_at (c : bezier) (t : R) : outcome vec3 :=
  if Rleb (bz_min c) t && Rleb t (bz_max c) then Ok (bz_eval c t) else Throw.
Record bezPath := BP { bp_curve : bezier; bp_initial : config; bp_final : config; bp_first : R; bp_second : R }.
(** result.head<3>() = v *)
Definition setHead (q : config) (v : vec3) : config := <[2%nat := vz v]> (<[1%nat := vy v]> (<[0%nat := vx v]> q)).
(** bezier-path.cc:91-100 *)
Definition bp_init (d : device) (p : bezPath) : outcome config :=
  let c := bp_curve p in
  let u := bz_min c + bp_first p / (bz_max c - bz_min c) in
  let u := if Rltb u 0 then 0 else u in
  match bz_at c (bp_first p) with Ok v => Ok (setHead (interp d (bp_initial p) (bp_final p) u) v) | Throw => Throw | Ub => Ub end.
(** bezier-path.cc:103-112 *)
Definition bp_end (d : device) (p : bezPath) : outcome config :=
  let c := bp_curve p in
  let u := bz_min c + bp_second p / (bz_max c - bz_min c) in
  let u := if Rltb 1 u then 1 else u in
  match bz_at c (bp_second p) with Ok v => Ok (setHead (interp d (bp_initial p) (bp_final p) u) v) | Throw => Throw | Ub => Ub end.
(** bezier-path.cc:114-131, and operator() of bezier-path.hh (without constraints) *)
Definition bp_at (d : device) (p : bezPath) (t : R) : outcome config :=
  let c := bp_curve p in
  if Rltb t (bp_first p) then bp_init d p
  else if Rltb (bp_second p) t then bp_end d p
  else
    let u := bz_min c + t / (bz_max c - bz_min c) in
    let u := if Reqb (bp_second p) 0 then 0 else u in
    match bz_at c t with Ok v => Ok (setHead (interp d (bp_initial p) (bp_final p) u) v) | Throw => Throw | Ub => Ub end.

(** * Right hand sides that depend on time *)
(** The equations are objects shared by the paths: the world is the right hand side of
    each of them, as left by the last assignment (time-constraint-path.cc:147-206) *)
Definition world := nat -> list R.
(** a reference path: its time range and its operator(); the success flag is ignored by the
    callers (it is only read by assertions) *)
Record refPath := Ref { r_first : R; r_second : R; r_at : R -> list R }.
(** interpolation-constraints.hh:74-118 (VecRightSide) and 283-318 (funEvaluator): the map
    applied to the value of the reference, the first coefficients in one case, the value of
    a function in the other *)
Record rhsFun := Rhs { f_ref : refPath; f_map : list R -> list R }.
Definition headMap (dim : nat) (l : list R) : list R := take dim l.
(** time-dependant.hh:36-57: the equation and its functor *)
Record timeDep := TD { td_eq : nat; td_fun : rhsFun }.
(** interpolation-constraints.hh:97-112, 306-318 *)
Definition rhsAt (f : rhsFun) (s : R) : list R :=
  let r := f_ref f in f_map f (r_at r ((r_second r - r_first r) * s + r_first r)).
(** eq->rightHandSide(value) (called at time-constraint-path.cc:147-206) *)
Definition assign (w : world) (e : nat) (v : list R) : world := fun e' => if Nat.eqb e' e then v else w e'.
Definition td_apply (t : timeDep) (s : R) (w : world) : world := assign w (td_eq t) (rhsAt (td_fun t) s).
(** time-constraint-utils.hh:60-67: the loop over the vector; no functor of this repository
    writes the configuration *)
Fixpoint updateRhs (tds : list timeDep) (s : R) (w : world) : world :=
  match tds with
  | [] => w
  | t :: tl => updateRhs tl s (td_apply t s w)
  end.

(** The constraints of a path: apply and isSatisfied of core::ConstraintSet; with a config
    projector they read the right hand sides of its equations (used at time-constraint-path.cc:147-206) *)
Inductive constraintSet :=
| NoProjector (apply : config -> config * bool) (sat : config -> bool)
| Projector (apply : world -> config -> config * bool) (sat : world -> config -> bool).

(** * TimeConstraintPath (time-constraint-path.hh:210-216) *)
Record tcPath := TCP { tc_init : config; tc_end : config; tc_len : R; tc_cons : option constraintSet;
                       tc_rank : nat; tc_tds : list timeDep }.
(** time-constraint-path.cc:82-88; Eigen's operator[]: out of range is undefined, here the
    configurations have all their entries *)
Definition extraDof (rank : nat) (q1 q2 : config) (u : R) : R := (qi q2 rank - qi q1 rank) * u + qi q1 rank.
(** time-constraint-path.cc:90-95 *)
Definition tc_update (p : tcPath) (q : config) (w : world) : world :=
  match tc_cons p with
  | Some (Projector _ _) => updateRhs (tc_tds p) (qi q (tc_rank p)) w
  | _ => w
  end.
(** time-constraint-path.cc:97-117: the configuration before the update *)
Definition tc_raw (d : device) (p : tcPath) (t : R) : config :=
  if Reqb t 0 || Reqb (tc_len p) 0 then tc_init p
  else if Reqb t (tc_len p) then tc_end p
  else
    let u := (t - 0) / (tc_len p - 0) in
    <[tc_rank p := extraDof (tc_rank p) (tc_init p) (tc_end p) u]> (interp d (tc_init p) (tc_end p) u).
(** core::Path::operator() (hpp-core): impl_compute, then the constraints are applied *)
Definition tc_at (d : device) (p : tcPath) (t : R) (w : world) : world * (config * bool) :=
  let q := tc_raw d p t in
  let w' := tc_update p q w in
  (w', match tc_cons p with
       | None => (q, true)
       | Some (NoProjector apply _) => apply q
       | Some (Projector apply _) => apply w' q
       end).
(** time-constraint-path.cc:147-206 and the calls in create (time-constraint-path.hh:47-84):
    [Throw]: projection_error *)
Definition satisfied (c : constraintSet) (w : world) (q : config) : bool :=
  match c with NoProjector _ sat => sat q | Projector _ sat => sat w q end.
Definition tc_check (p : tcPath) (w : world) : world * outcome unit :=
  let w1 := tc_update p (tc_init p) w in
  match tc_cons p with
  | None => (w1, Ok tt)
  | Some c =>
    if negb (satisfied c w1 (tc_init p)) then (w1, Throw)
    else
      let w2 := tc_update p (tc_end p) w1 in
      if negb (satisfied c w2 (tc_end p)) then (w2, Throw) else (w2, Ok tt)
  end.
Definition tc_create (p : tcPath) (w : world) : world * outcome tcPath :=
  let '(w', r) := tc_check p w in
  (w', match r with Ok _ => Ok p | Throw => Throw | Ub => Ub end).

(** time-constraint-path.cc:119-143.  For a path of length zero the quotients are 0/0: the
    time entries of the ends are not numbers, here [NotANumber] *)
Inductive extraction := Extracted (r : outcome tcPath) | NotANumber.
Definition tc_extract (d : device) (p : tcPath) (a b : R) (w : world) : world * extraction :=
  let l := Rabs (b - a) in
  let '(w1, (q1, ok1)) := tc_at d p a w in
  if negb ok1 then (w1, Extracted Throw)
  else if Reqb (tc_len p) 0 then (w1, NotANumber)
  else
    let q1 := <[tc_rank p := extraDof (tc_rank p) (tc_init p) (tc_end p) ((a - 0) / (tc_len p - 0))]> q1 in
    let '(w2, (q2, ok2)) := tc_at d p b w1 in
    if negb ok2 then (w2, Extracted Throw)
    else
      let q2 := <[tc_rank p := extraDof (tc_rank p) (tc_init p) (tc_end p) ((b - 0) / (tc_len p - 0))]> q2 in
      let '(w3, r) := tc_create (TCP q1 q2 l (tc_cons p) (tc_rank p) (tc_tds p)) w2 in
      (w3, Extracted r).

(** time-constraint-path.hh:130-150 *)
Definition tc_initialConfig (p : tcPath) (q : config) : tcPath :=
  TCP (<[tc_rank p := qi (tc_init p) (tc_rank p)]> q) (tc_end p) (tc_len p) (tc_cons p) (tc_rank p) (tc_tds p).
Definition tc_endConfig (p : tcPath) (q : config) : tcPath :=
  TCP (tc_init p) (<[tc_rank p := qi (tc_end p) (tc_rank p)]> q) (tc_len p) (tc_cons p) (tc_rank p) (tc_tds p).

(** * TimeConstraintPathValidation *)
(** q.tail(dim) with dim = rows - 7, and the norm of a difference (used at time-constraint-path-validation.cc:52, 61) *)
Definition tailOf (q : config) : list R := drop 7 q.
Fixpoint sumSq (l : list R) : R := match l with [] => 0 | x :: tl => x * x + sumSq tl end.
Fixpoint diff (a b : list R) : list R :=
  match a, b with x :: a', y :: b' => (x - y) :: diff a' b' | _, _ => [] end.
Definition tailDist (a b : config) : R := sqrt (sumSq (diff (tailOf a) (tailOf b))).
(** distance / totalDistance > 0.2 with the division of doubles: by zero, infinite unless
    the distance is zero too *)
Definition jumpy (distance total : R) : bool :=
  if Reqb total 0 then negb (Reqb distance 0) else Rltb (1/5) (distance / total).
(** time-constraint-path-validation.cc:57-68: for (double i = 1; i < 10; ++i); [at_] is
    path->operator().  [true]: no jump *)
Fixpoint noJump (at_ : R -> world -> world * config) (length total : R) (n : nat) (i : R) (last : config) (w : world) : world * bool :=
  match n with
  | O => (w, true)
  | S n' =>
    let '(w', q) := at_ (i / 10 * length) w in
    if jumpy (tailDist last q) total then (w', false)
    else noJump at_ length total n' (i + 1) q w'
  end.
(** time-constraint-path-validation.cc:40-71 for a TimeConstraintPath; [discretized] is
    core::pathValidation::Discretized::validate of hpp-core (verdict and valid part);
    rows < 7 makes tail(dim) undefined.  Returns the verdict and the valid part *)
Inductive verdict (A : Type) := Refused (part : extraction) | Discretized (a : A).
Arguments Refused {A} part.
Arguments Discretized {A} a.
Definition tc_validate {A} (discretized : tcPath -> world -> A) (d : device) (rank : nat) (p : tcPath) (w : world) : outcome (verdict A) :=
  if Rltb (qi (tc_end p) rank) (qi (tc_init p) rank) then Ok (Refused (snd (tc_extract d p 0 0 w)))
  else if Nat.ltb (length (tc_init p)) 7 then Ub
  else
    let total := tailDist (tc_end p) (tc_init p) in
    let '(w', ok) := noJump (fun t w => let '(w', (q, _)) := tc_at d p t w in (w', q)) (tc_len p) total 9 1 (tc_init p) w in
    if ok then Ok (Discretized (discretized p w')) else Ok (Refused (snd (tc_extract d p 0 0 w'))).
