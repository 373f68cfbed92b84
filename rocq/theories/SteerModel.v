(** Model of interpolation/time-constraint-steering.hh: the steering method that builds paths
    whose constraints depend on time, with the validation that the helper installs
    (time-constraint-utils.hh:41-48).  Doubles are reals. *)
From Verif Require Export Maps Vec ParaModel TrajModel.
Local Open Scope R_scope.

Section Steering.
(** problem()->distance() of hpp-core *)
Context (distance : config -> config -> R).
(** ConstraintSet::copy followed by rightHandSideFromConfig on the projector of the copy, both
    of hpp-core: some constraints with a projector, that depend on the configuration.  The copy
    is not the original: no later call sees the change *)
Context (copyFrom : (world -> config -> config * bool) -> (world -> config -> bool) -> config ->
                    (world -> config -> config * bool) * (world -> config -> bool)).

(** time-constraint-steering.hh:126-132 and constraints_ of core::SteeringMethod *)
Record steering := Steer { st_cons : option constraintSet; st_rank : nat; st_tds : list timeDep }.

(** time-constraint-steering.hh:84-90 *)
Definition steerConstraints (s : steering) (q1 : config) : option constraintSet :=
  match st_cons s with
  | Some (Projector apply sat) => let '(a, b) := copyFrom apply sat q1 in Some (Projector a b)
  | c => c
  end.
(** time-constraint-steering.hh:80-94 *)
Definition steerImpl (s : steering) (q1 q2 : config) (w : world) : world * outcome tcPath :=
  let length := distance q1 q2 in
  let c := steerConstraints s q1 in
  tc_create (TCP q1 q2 length c (st_rank s) (st_tds s)) w.
(** core::SteeringMethod::operator() (hpp-core): a projection error gives no path (which calls time-constraint-steering.hh:80-94) *)
Definition steer (s : steering) (q1 q2 : config) (w : world) : world * option tcPath :=
  let '(w', r) := steerImpl s q1 q2 w in
  (w', match r with Ok p => Some p | _ => None end).

(** time-constraint-steering.hh:67-78, 113-118 and the copy constructor of core::SteeringMethod
    (hpp-core), which copies the constraints *)
Definition steerCopy (copyCons : constraintSet -> constraintSet) (s : steering) : steering :=
  Steer (option_map copyCons (st_cons s)) (st_rank s) (st_tds s).
End Steering.
