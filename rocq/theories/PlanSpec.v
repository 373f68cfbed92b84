(** What C114-C118 say about the roadmap of the dynamic planner. *)
From Coq Require Import Reals ZArith.
From Verif Require Export PlanModel.
Local Open Scope R_scope.

Arguments mkNode {M}.
Arguments cfg {M}.
Arguments comp {M}.
Arguments mats {M}.
Arguments mkRm {P M}.
Arguments nodes {P M}.
Arguments edges {P M}.
Arguments clock {P M}.

Section Spec.
Context {P M : Type}.
Implicit Types (s : rm P M) (n : node M) (p v : P).

(** ** The roadmap *)
(** there is a sequence of edges from a node to another one *)
Inductive reach s : nat -> nat -> Prop :=
| reach_refl i : reach s i i
| reach_step i j k p : (i, j, p) ∈ edges s -> reach s j k -> reach s i k.

(** every edge is between nodes of the roadmap and its path is related to their
    configurations *)
Definition every_edge (rel : P -> list R -> list R -> Prop) s : Prop :=
  forall i j p, (i, j, p) ∈ edges s ->
  exists ni nj, nodes s !! i = Some ni /\ nodes s !! j = Some nj /\ rel p (cfg ni) (cfg nj).

(** the nodes of the start component are reached from the first node, those of the
    component of a goal reach this goal *)
Definition trees (init start : nat) (goals : list nat) s : Prop :=
  forall i n, nodes s !! i = Some n ->
  (comp n = start -> reach s init i) /\
  (forall g ng, g ∈ goals -> nodes s !! g = Some ng -> comp n = comp ng -> reach s i g).

(** the nodes and edges of a roadmap are those of another one, with maybe other matrices, and
    new ones *)
Definition grows s s' : Prop :=
  (forall i n, nodes s !! i = Some n ->
     exists n', nodes s' !! i = Some n' /\ cfg n' = cfg n /\ comp n' = comp n /\ (mats n <> None -> mats n' <> None)) /\
  exists es, edges s' = edges s ++ es.

(** a roadmap before planning: the first node is in the start component, the goals in the
    end ones, there is no edge and no other node *)
Definition fresh_roadmap (init start : nat) (goals ends : list nat) s : Prop :=
  edges s = [] /\ start ∉ ends /\
  (exists n, nodes s !! init = Some n /\ comp n = start) /\
  (forall g, g ∈ goals -> exists n, nodes s !! g = Some n /\ comp n ∈ ends) /\
  (forall c, c ∈ ends -> exists g n, g ∈ goals /\ nodes s !! g = Some n /\ comp n = c) /\
  (forall i n, nodes s !! i = Some n -> i = init \/ i ∈ goals) /\
  (forall g g' n n', g ∈ goals -> g' ∈ goals -> nodes s !! g = Some n -> nodes s !! g' = Some n' -> comp n = comp n' -> g = g').

(** every node has its matrices, computed for its own configuration *)
Definition all_filled (giwc : nat -> list R -> M) s : Prop :=
  forall i n, nodes s !! i = Some n -> exists k, mats n = Some (giwc k (cfg n)).

(** ** Relations of a path and two configurations *)
Variables (pinit pend : P -> list R) (prange : P -> R * R) (plen : P -> R) (valid : P -> Prop).
Variables (pV0 pVimp : P -> R * R * R).
Definition joined p (a b : list R) : Prop := pinit p = a /\ pend p = b /\ (valid p \/ a = b).
(** the same but for the velocity, the three variables from [ix] *)
Definition but_velocity (ix : nat) (a b : list R) : Prop :=
  length a = length b /\ forall i, (i < ix \/ ix + 3 <= i)%nat -> a !! i = b !! i.
(** the velocity of a configuration *)
Definition velocity_is (ix : nat) (q : list R) (v : R * R * R) : Prop :=
  q !! ix = Some (fst (fst v)) /\ q !! (ix + 1)%nat = Some (snd (fst v)) /\ q !! (ix + 2)%nat = Some (snd v).
(** a jump leaves with its initial velocity; it arrives at the configuration, or with its
    velocity of impact *)
Definition jumped (ix : nat) p (a b : list R) : Prop :=
  but_velocity ix (pinit p) a /\ velocity_is ix a (pV0 p) /\ 0 < plen p /\
  (pend p = b \/ but_velocity ix (pend p) b /\ velocity_is ix b (pVimp p)).

(** ** The services *)
(** the node of a component nearest of a configuration is one of this component *)
Definition nearest_ok (nearest : nat -> list (node M) -> list R -> nat -> bool -> nat) : Prop :=
  forall k ns q c rev, (exists i n, ns !! i = Some n /\ comp n = c) ->
  exists n, ns !! nearest k ns q c rev = Some n /\ comp n = c.
(** a path steered from (to) a node starts (ends) at this node *)
Definition steering_ok (sm : nat -> bool -> node M -> list R -> option P) : Prop :=
  forall k n q p, (sm k false n q = Some p -> pinit p = cfg n) /\ (sm k true n q = Some p -> pend p = cfg n).
Definition parabola_ok (smParabola : nat -> list R -> list R -> option P) : Prop :=
  forall k a b p, smParabola k a b = Some p -> pinit p = a /\ pend p = b.
(** the validation accepts only valid paths, as a whole; otherwise it gives a part from
    the start (to the end, in reverse) of the path; this part is valid unless it is reduced
    to a point *)
Definition validation_ok (validate : nat -> P -> bool -> bool * option P * option R) : Prop :=
  forall k p rev b v r, validate k p rev = (b, Some v, r) ->
  (b = true -> v = p /\ valid p) /\
  (rev = false -> pinit v = pinit p /\ (snd (prange v) <> fst (prange p) -> valid v)) /\
  (rev = true -> pend v = pend p /\ (valid v \/ pinit v = pend v)).
(** it gives a part of the paths it accepts and a report on the others *)
Definition validation_reports (validate : nat -> P -> bool -> bool * option P * option R) : Prop :=
  forall k p rev, match validate k p rev with
  | (true, part, _) => part <> None
  | (false, _, report) => report <> None
  end.
(** a path steered from a node to the configuration of a goal ends there, also once
    projected; and this configuration satisfies the constraints *)
Definition reaches_goals (sm : nat -> bool -> node M -> list R -> option P) (projector : option (nat -> P -> option P))
    (constraints : option (option (list R -> list R -> list R) * (list R -> option (list R)))) (qs : list (list R)) : Prop :=
  forall q, q ∈ qs ->
  (forall kernel apply_ b, constraints = Some (kernel, apply_) ->
     kernel = None /\ apply_ q = Some b \/ (exists f a, kernel = Some f /\ apply_ (f a q) = Some b) -> b = q) /\
  forall k n p, sm k false n q = Some p -> pend p = q /\
  forall f k' p', projector = Some f -> f k' p = Some p' -> pend p' = q.
(** the projection of a path keeps its start, and the time of its start *)
Definition projector_ok (projector : option (nat -> P -> option P)) : Prop :=
  forall f k p p', projector = Some f -> f k p = Some p' -> pinit p' = pinit p /\ fst (prange p') = fst (prange p).
(** the jumps computed have a velocity in their configurations *)
Definition parabola_size (ix : nat) (smParabola : nat -> list R -> list R -> option P) : Prop :=
  forall k a b p, smParabola k a b = Some p -> (ix + 3 <= length (pinit p))%nat /\ (ix + 3 <= length (pend p))%nat.
(** a steered path, once projected, does not end at the time it starts *)
Definition lasting (sm : nat -> bool -> node M -> list R -> option P) (projector : option (nat -> P -> option P)) : Prop :=
  forall k n q p, sm k false n q = Some p ->
  match projector with
  | None => snd (prange p) <> fst (prange p)
  | Some f => forall k' p', f k' p = Some p' -> snd (prange p') <> fst (prange p)
  end.
(** steering from any node of a component to the configuration (from the configuration, in
    reverse) gives a path that reaches it, lasts and is found valid *)
Definition always_joined (sm : nat -> bool -> node M -> list R -> option P)
    (validate : nat -> P -> bool -> bool * option P * option R) (rev : bool) (c : nat) (q : list R) : Prop :=
  forall k n, comp n = c -> exists p, sm k rev n q = Some p /\ (if rev then pinit p else pend p) = q /\
  snd (prange p) <> fst (prange p) /\ forall k', exists r, validate k' p rev = (true, Some p, r).

(** ** Constraints *)
(** [C]: a configuration satisfies the constraints; [G]: all the configurations of a path do *)
Variables (C : list R -> Prop) (G : P -> Prop).
(** all the nodes and edges of a roadmap satisfy them *)
Definition constrained s : Prop :=
  (forall i n, nodes s !! i = Some n -> C (cfg n)) /\ (forall i j p, (i, j, p) ∈ edges s -> G p).
(** a configuration to which the constraints were applied satisfies them (all do if there are
    none); the paths computed between
    configurations that satisfy them do, the parts of paths that do and their projections
    also *)
Definition keep_constraints (constraints : option (option (list R -> list R -> list R) * (list R -> option (list R))))
    (sm : nat -> bool -> node M -> list R -> option P) (smParabola : nat -> list R -> list R -> option P)
    (validate : nat -> P -> bool -> bool * option P * option R) (projector : option (nat -> P -> option P)) : Prop :=
  match constraints with None => forall q, C q | Some (_, apply) => forall q b, apply q = Some b -> C b end /\
  (forall k rev n q p, C (cfg n) -> C q -> sm k rev n q = Some p -> G p) /\
  (forall k a b p, C a -> C b -> smParabola k a b = Some p -> G p) /\
  (forall k p rev b v r, validate k p rev = (b, Some v, r) -> G p -> G v) /\
  (forall f k p p', projector = Some f -> f k p = Some p' -> G p -> G p') /\
  (forall p, G p -> C (pinit p) /\ C (pend p)).
End Spec.
