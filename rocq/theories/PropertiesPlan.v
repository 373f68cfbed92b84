(** C114-C118: the roadmap built by the dynamic planner. *)
From Coq Require Import Reals ZArith Lra Lia.
From Verif Require Import PlanExamples.
Local Open Scope R_scope.

(** C114.  Every edge of the roadmap built from the first node and the goals, by the direct
    connections and any number of steps, joins the configurations of its nodes by a path
    that was found valid (or is reduced to a point); the others, only made when jumps
    are asked for, join them but for the velocities, which are those of the jump. *)
Theorem C114_edges P M pinit pend prange plen pV0 pVimp shoot nearest same sm smParabola validate giwc constraints projector trunkValid indexECS tryJump valid
    init start goals ends n qs (s s' : rm P M) :
  nearest_ok nearest -> steering_ok pinit pend sm -> parabola_ok pinit pend smParabola ->
  validation_ok pinit pend prange valid validate -> projector_ok pinit prange projector ->
  reaches_goals pend sm projector constraints qs ->
  (forall g n, g ∈ goals -> nodes s !! g = Some n -> cfg n ∈ qs) ->
  fresh_roadmap init start goals ends s ->
  plan P M pinit pend prange plen pV0 pVimp shoot nearest same sm smParabola validate giwc constraints projector trunkValid indexECS tryJump init start goals ends n s = Ok (tt, s') ->
  every_edge (fun p a b => joined pinit pend valid p a b \/ tryJump = true /\ jumped pinit pend plen pV0 pVimp indexECS p a b) s'.
Proof. exact (plan_edges init start goals ends n qs s s'). Qed.
Print Assumptions C114_edges.

(** A step keeps this property of any roadmap; it never makes a jump, and needs nothing about
    the goals. *)
Theorem C114_step P M pinit pend prange shoot nearest same sm validate giwc constraints valid start ends (s s' : rm P M) :
  nearest_ok nearest -> steering_ok pinit pend sm -> validation_ok pinit pend prange valid validate ->
  (exists i n, nodes s !! i = Some n /\ comp n = start) ->
  (forall c, c ∈ ends -> exists i n, nodes s !! i = Some n /\ comp n = c) ->
  every_edge (joined pinit pend valid) s -> oneStep P M pinit pend prange shoot nearest same sm validate giwc constraints start ends s = Ok (tt, s') ->
  every_edge (joined pinit pend valid) s'.
Proof. exact (step_edges start ends s s'). Qed.
Print Assumptions C114_step.

Example C114_case n : nearest_ok znearest /\ steering_ok zinit zend zsm /\ parabola_ok zinit zend zpara /\
  validation_ok zinit zend zrange zvalid zvalidate /\ projector_ok zinit zrange None /\
  reaches_goals zend zsm None None zqs /\ (forall g n, g ∈ [1; 2]%nat -> nodes zs !! g = Some n -> cfg n ∈ zqs) /\
  fresh_roadmap 0 0 [1; 2]%nat [1; 2]%nat zs /\ exists s', zplan true 0%nat 0%nat [1; 2]%nat [1; 2]%nat n zs = Ok (tt, s').
Proof.
  split; [exact znearest_ok|]. split; [exact zsteering_ok|]. split; [exact zparabola_ok|]. split; [exact zvalidation_ok|].
  split; [exact zprojector_ok|]. split; [exact zreaches|]. split; [exact zgoals|]. split; [exact zfresh|exact (zruns n)].
Qed.
(** the path of a direct connection is not checked to reach the goal *)
Example C114_stops_short : exists s' p ng,
  tryConnectInitAndGoals zP nat zinit zend zrange zlen zV zV zsame zcut zpara zvalidate' zgiwc None None (fun _ _ _ => true) 1 false 0%nat [1]%nat
    (mkRm [mkNode [0; 0; 0; 0] 0 None; mkNode [4; 0; 0; 0] 1 None] [] 0) = Ok (tt, s') /\
  (0%nat, 1%nat, p) ∈ edges s' /\ nodes s' !! 1%nat = Some ng /\ zend p <> cfg ng.
Proof.
  eexists _, _, _. split; [exact zshort|]. split; [cbn; left|]. split; [reflexivity|]. cbn. intros [= H]. lra.
Qed.

(** C115.  In this roadmap the nodes of the start component are reached from the first node and
    those of the component of a goal reach it; so an edge from the first ones to the others
    means that the goal is reached. *)
Theorem C115_trees P M pinit pend prange plen pV0 pVimp shoot nearest same sm smParabola validate giwc constraints projector trunkValid indexECS tryJump valid
    init start goals ends n qs (s s' : rm P M) :
  nearest_ok nearest -> steering_ok pinit pend sm -> parabola_ok pinit pend smParabola ->
  validation_ok pinit pend prange valid validate -> projector_ok pinit prange projector ->
  reaches_goals pend sm projector constraints qs ->
  (forall g n, g ∈ goals -> nodes s !! g = Some n -> cfg n ∈ qs) ->
  fresh_roadmap init start goals ends s ->
  plan P M pinit pend prange plen pV0 pVimp shoot nearest same sm smParabola validate giwc constraints projector trunkValid indexECS tryJump init start goals ends n s = Ok (tt, s') ->
  trees init start goals s'.
Proof. exact (plan_trees init start goals ends n qs s s'). Qed.
Print Assumptions C115_trees.

Example C115_case n s' : zplan true 0%nat 0%nat [1; 2]%nat [1; 2]%nat n zs = Ok (tt, s') -> trees 0 0 [1; 2]%nat s' /\ grows zs s' /\ all_filled zgiwc s'.
Proof.
  intros H. split; [|exact (plan_grows (valid := zvalid) 0%nat 0%nat [1; 2]%nat [1; 2]%nat n zqs zs s' znearest_ok zsteering_ok zparabola_ok zvalidation_ok zprojector_ok zreaches zgoals zfresh H)].
  exact (C115_trees _ _ _ _ _ _ _ _ _ _ _ _ _ _ _ _ _ _ _ _ _ _ _ _ _ _ zqs zs s' znearest_ok zsteering_ok zparabola_ok zvalidation_ok zprojector_ok zreaches zgoals zfresh H).
Qed.
Theorem C115_connected P M init start goals (s : rm P M) i j p ni nj g ng : trees init start goals s ->
  (i, j, p) ∈ edges s -> nodes s !! i = Some ni -> nodes s !! j = Some nj -> comp ni = start ->
  g ∈ goals -> nodes s !! g = Some ng -> comp nj = comp ng -> reach s init g.
Proof. exact (trees_connect init start goals s i j p ni nj g ng). Qed.
Print Assumptions C115_connected.

(** C116.  When the configuration drawn can be joined from every node of the start
    component and to every node of the first end component, the step connects the goal of
    this component to the first node; when a goal can be joined from the first node, the
    direct connections do. *)
Theorem C116_step P M pinit pend prange shoot nearest same sm validate giwc valid
    init start goals ends c cs (s : rm P M) g ng :
  nearest_ok nearest -> steering_ok pinit pend sm -> validation_ok pinit pend prange valid validate ->
  ends = c :: cs -> start ∉ ends -> (exists i n, nodes s !! i = Some n /\ comp n = start) ->
  (forall c, c ∈ ends -> exists i n, nodes s !! i = Some n /\ comp n = c) ->
  (forall g, g ∈ goals -> exists n, nodes s !! g = Some n /\ comp n ∈ ends) ->
  trees init start goals s -> all_filled giwc s ->
  always_joined pinit pend prange sm validate false start (shoot (clock s)) ->
  always_joined pinit pend prange sm validate true c (shoot (clock s)) ->
  g ∈ goals -> nodes s !! g = Some ng -> comp ng = c ->
  exists s', oneStep P M pinit pend prange shoot nearest same sm validate giwc None start ends s = Ok (tt, s') /\ reach s' init g.
Proof. exact (step_connects init start goals ends c cs s g ng). Qed.
Print Assumptions C116_step.

Theorem C116_direct P M pinit pend prange plen pV0 pVimp same sm smParabola validate giwc trunkValid indexECS tryJump valid
    init goals qs (s : rm P M) ni goal g s' :
  steering_ok pinit pend sm -> parabola_ok pinit pend smParabola -> validation_ok pinit pend prange valid validate ->
  reaches_goals pend sm None None qs ->
  (forall g, g ∈ goals -> exists n, nodes s !! g = Some n /\ cfg n ∈ qs) ->
  nodes s !! init = Some ni -> goal ∈ goals -> nodes s !! goal = Some g ->
  always_joined pinit pend prange sm validate false (comp ni) (cfg g) ->
  tryConnectInitAndGoals P M pinit pend prange plen pV0 pVimp same sm smParabola validate giwc None None trunkValid indexECS tryJump init goals s = Ok (tt, s') ->
  reach s' init goal.
Proof. exact (direct_connects init goals qs s ni goal g s'). Qed.
Print Assumptions C116_direct.

Example C116_case : validation_ok zinit zend zrange (fun _ => True) zvalidate' /\ trees 0 0 [1]%nat zs' /\ all_filled (fun _ _ => 0%nat) zs' /\
  (forall rev c q, always_joined zinit zend zrange zsm zvalidate' rev c q).
Proof.
  split; [exact zvalidation_ok'|]. split; [exact ztrees'|]. split; [|exact zjoined'].
  intros i n Hi. exists 0%nat. destruct i as [|[|i]]; [| |discriminate]; injection Hi as <-; reflexivity.
Qed.

(** C117.  Nodes and edges are never removed nor changed, but for the matrices of nodes; every
    node has matrices computed for its own configuration. *)
Theorem C117_grows P M pinit pend prange plen pV0 pVimp shoot nearest same sm smParabola validate giwc constraints projector trunkValid indexECS tryJump valid
    init start goals ends n qs (s s' : rm P M) :
  nearest_ok nearest -> steering_ok pinit pend sm -> parabola_ok pinit pend smParabola ->
  validation_ok pinit pend prange valid validate -> projector_ok pinit prange projector ->
  reaches_goals pend sm projector constraints qs ->
  (forall g n, g ∈ goals -> nodes s !! g = Some n -> cfg n ∈ qs) ->
  fresh_roadmap init start goals ends s ->
  plan P M pinit pend prange plen pV0 pVimp shoot nearest same sm smParabola validate giwc constraints projector trunkValid indexECS tryJump init start goals ends n s = Ok (tt, s') ->
  grows s s' /\ all_filled giwc s'.
Proof. exact (plan_grows init start goals ends n qs s s'). Qed.
Print Assumptions C117_grows.

Theorem C117_step P M pinit pend prange shoot nearest same sm validate giwc constraints valid start ends (s s' : rm P M) :
  nearest_ok nearest -> steering_ok pinit pend sm -> validation_ok pinit pend prange valid validate ->
  (exists i n, nodes s !! i = Some n /\ comp n = start) ->
  (forall c, c ∈ ends -> exists i n, nodes s !! i = Some n /\ comp n = c) -> oneStep P M pinit pend prange shoot nearest same sm validate giwc constraints start ends s = Ok (tt, s') ->
  grows s s' /\ (all_filled giwc s -> all_filled giwc s').
Proof. exact (step_grows (valid := valid) start ends s s'). Qed.
Print Assumptions C117_step.

Example C117_case n : exists s', zplan true 0%nat 0%nat [1; 2]%nat [1; 2]%nat n zs = Ok (tt, s') /\ grows zs s' /\ all_filled zgiwc s'.
Proof. destruct (zruns n) as [s' H]. exists s'. split; [exact H|]. exact (proj2 (C115_case n s' H)). Qed.

(** C118.  Nothing undefined happens, no steering from a node without matrices in
    particular, if the validation reports its refusals and, when jumps are asked for,
    configurations have velocities and steered paths a duration; a direct path without
    duration makes the planner read a null report. *)
Theorem C118_defined P M pinit pend prange plen pV0 pVimp shoot nearest same sm smParabola validate giwc constraints projector trunkValid indexECS tryJump valid
    init start goals ends n qs (s : rm P M) :
  nearest_ok nearest -> steering_ok pinit pend sm -> parabola_ok pinit pend smParabola ->
  validation_ok pinit pend prange valid validate -> projector_ok pinit prange projector ->
  reaches_goals pend sm projector constraints qs ->
  (forall g n, g ∈ goals -> nodes s !! g = Some n -> cfg n ∈ qs) ->
  fresh_roadmap init start goals ends s ->
  validation_reports validate ->
  (tryJump = true -> parabola_size pinit pend indexECS smParabola /\ lasting prange sm projector) ->
  exists s', plan P M pinit pend prange plen pV0 pVimp shoot nearest same sm smParabola validate giwc constraints projector trunkValid indexECS tryJump init start goals ends n s = Ok (tt, s').
Proof. exact (plan_defined init start goals ends n qs s). Qed.
Print Assumptions C118_defined.

Example C118_case : validation_reports zvalidate /\ parabola_size zinit zend 1 zpara /\ lasting zrange zsm None.
Proof. split; [exact zvalidation_reports|]. split; [exact zparabola_size|exact zlasting]. Qed.
Example C118_null_report :
  tryConnectInitAndGoals zP nat zinit zend zrange zlen zV zV zsame zstill zpara zvalidate' zgiwc None None (fun _ _ _ => true) 1 true 0%nat [1]%nat
    (mkRm [mkNode [0; 0; 0; 0] 0 None; mkNode [4; 0; 0; 0] 1 None] [] 0) = Ub.
Proof. exact znull. Qed.

(** C160.  When the configurations of the roadmap satisfy the constraints of the steering
    method before planning, all its nodes and all its paths satisfy them afterwards:
    every target is projected before it is steered to. *)
Theorem C160_constrained P M pinit pend prange plen pV0 pVimp shoot nearest same sm smParabola validate giwc constraints projector trunkValid indexECS tryJump C G
    init start goals ends n (s s' : rm P M) :
  keep_constraints pinit pend C G constraints sm smParabola validate projector ->
  (tryJump = true -> forall a b, C a -> but_velocity indexECS a b -> C b) ->
  constrained C G s ->
  plan P M pinit pend prange plen pV0 pVimp shoot nearest same sm smParabola validate giwc constraints projector trunkValid indexECS tryJump init start goals ends n s = Ok (tt, s') ->
  constrained C G s'.
Proof. intros Hk Hv. exact (plan_constrained C G Hk Hv init start goals ends n s s'). Qed.
Print Assumptions C160_constrained.

Example C160_case (n : nat) : keep_constraints zinit zend zC zG zcons zsm zpara zvalidate None /\
  (forall a b, zC a -> but_velocity 1 a b -> zC b) /\ constrained zC zG zs /\
  ~ zC [-1; 0; 0; 0] /\ exists s', zplan_cons 0%nat 0%nat [1; 2]%nat [1; 2]%nat n zs = Ok (tt, s').
Proof.
  split; [exact zkeep|]. split; [exact zvel|]. split; [exact zs_constrained|]. split; [unfold zC, zx; cbn; lra|exact (zruns_cons n)].
Qed.
