(** Model of src/planner/dynamic-planner.cc: extendInternal, extendParabola,
    tryParabolaPath, oneStep, tryConnectInitAndGoals, and of the roadmap of hpp-core they
    write to.  Doubles are reals; the steering methods, validations, projections, the
    shooter, the search of the nearest node and the computation of the matrices of a node
    are parameters; they may answer differently at each call (their first argument counts
    the calls).  Not modelled: startSolve and solve, which are hpp-core's. *)
From Coq Require Import Reals ZArith.
From Verif Require Export OptModel.
Local Open Scope R_scope.

Section Plan.
(** [P]: core::Path; [M]: what fillNodeMatrices stores in a node *)
Variables P M : Type.
(** first and last configuration, time range, length *)
Variables (pinit pend : P -> list R) (prange : P -> R * R) (plen : P -> R).
(** V0_ and Vimp_ of a ParabolaPath *)
Variables (pV0 pVimp : P -> R * R * R).

(** a node of the roadmap: configuration, connected component, matrices (None: the node was
    created and fillNodeMatrices has not been called, they are empty) (rbprm-node.hh:85-95) *)
Record node := mkNode { cfg : list R; comp : nat; mats : option M }.
(** the roadmap, the nodes being named by their rank; [clock]: number of calls made to
    external services so far (rbprm-roadmap.hh, dynamic-planner.cc:60-435) *)
Record rm := mkRm { nodes : list node; edges : list (nat * nat * P); clock : nat }.

Definition act (A : Type) : Type := rm -> outcome (A * rm).
Definition ret {A} (a : A) : act A := fun s => Ok (a, s).
Definition bind {A B} (m : act A) (f : A -> act B) : act B :=
  fun s => match m s with Ok (a, s') => f a s' | Throw => Throw | Ub => Ub end.
Definition ub {A} : act A := fun _ => Ub.
(** a call to an external service (used in dynamic-planner.cc:60-435) *)
Definition call {A} (f : nat -> A) : act A :=
  fun s => Ok (f (clock s), mkRm (nodes s) (edges s) (S (clock s))).
(** a pointer to a node (used in dynamic-planner.cc:60-435) *)
Definition deref (i : nat) : act node :=
  fun s => match nodes s !! i with Some n => Ok (n, s) | None => Ub end.
Definition getNodes : act (list node) := fun s => Ok (nodes s, s).

(** the services: shoot; nearestNode in a component; the node of the component with this
    configuration that addNode finds, if any; steering (reverse: to the node);
    SteeringMethodParabola; PathValidation::validate (verdict, valid part or null, parameter of
    the report or null); the report of the configuration and the matrices computed from it *)
Variable shoot : nat -> list R.
Variable nearest : nat -> list node -> list R -> nat -> bool -> nat.
Variable same : nat -> list node -> nat -> list R -> option nat.
Variable sm : nat -> bool -> node -> list R -> option P.
Variable smParabola : nat -> list R -> list R -> option P.
Variable validate : nat -> P -> bool -> bool * option P * option R.
Variable giwc : nat -> list R -> M.
(** constraints of the steering method (None: none): projectOnKernel of its configProjector
    if it has one, and apply (None: failed) *)
Variable constraints : option (option (list R -> list R -> list R) * (list R -> option (list R))).
(** the path projector of the problem, if any *)
Variable projector : option (nat -> P -> option P).
(** evaluation of a path at a parameter succeeds and the trunk is valid there *)
Variable trunkValid : nat -> P -> R -> bool.
(** configSize - dimension of the extra configuration space; DynamicPlanner/tryJump *)
Variables (indexECS : nat) (tryJump : bool).

Notation "'do' x <- m ;; k" := (bind m (fun x => k)) (at level 200, x name, m at level 99, k at level 200).

(** core::Roadmap::addNode(q, component): the node found if it has this configuration, or a
    new one *)
Definition addNode (c : nat) (q : list R) : act nat :=
  do ns <- getNodes ;;
  do found <- call (fun k => same k ns c q) ;;
  let new : act nat := fun s => Ok (length (nodes s), mkRm (nodes s ++ [mkNode q c None]) (edges s) (clock s)) in
  match found with
  | Some i => match ns !! i with
              | Some n => if (comp n =? c)%nat && ceqb (cfg n) q then ret i else new
              | None => new
              end
  | None => new
  end.
(** core::Roadmap::addEdge (used in dynamic-planner.cc:60-435) *)
Definition addEdge (i j : nat) (p : P) : act unit :=
  fun s => Ok (tt, mkRm (nodes s) (edges s ++ [(i, j, p)]) (clock s)).
(** core::Roadmap::addNodeAndEdge(node, configuration, path): in the component of the node *)
Definition addNodeAndEdge (i : nat) (q : list R) (p : P) : act nat :=
  do n <- deref i ;; do j <- addNode (comp n) q ;; do _ <- addEdge i j p ;; ret j.
(** core::Roadmap::addNodeAndEdge(configuration, node, path) (used in dynamic-planner.cc:60-435) *)
Definition addNodeAndEdgeRev (q : list R) (j : nat) (p : P) : act nat :=
  do n <- deref j ;; do i <- addNode (comp n) q ;; do _ <- addEdge i j p ;; ret i.

(** dynamic-planner.cc:436-476 (the matrices are a function of the configuration and of the
    answers of the validation) *)
Definition computeGIWC (i : nat) : act unit :=
  do n <- deref i ;;
  do m <- call (fun k => giwc k (cfg n)) ;;
  fun s => Ok (tt, mkRm (alter (fun n => mkNode (cfg n) (comp n) (Some m)) i (nodes s)) (edges s) (clock s)).

(** dynamic-planner.cc:175-187 and 196-208: the target projected *)
Definition projected (from target : list R) : option (list R) :=
  match constraints with
  | None => Some target
  | Some (kernel, apply) =>
      apply (match kernel with Some f => f from target | None => target end)
  end.
(** dynamic-planner.cc:171-191.  The steering method uses the matrices of the node: with
    empty ones it reads out of their range *)
Definition extendInternal (near : nat) (target : list R) (reverse : bool) : act (option P) :=
  do n <- deref near ;;
  match projected (cfg n) target with
  | None => ret None
  | Some q => match mats n with None => ub | Some _ => call (fun k => sm k reverse n q) end
  end.
(** dynamic-planner.cc:193-221 *)
Definition extendParabola (from target : list R) (reverse : bool) : act (option P) :=
  match projected from target with
  | None => ret None
  | Some q => if reverse then call (fun k => smParabola k q from) else call (fun k => smParabola k from q)
  end.
(** the loop of dynamic-planner.cc:258-261 for one configuration; None: out of range *)
Definition setVelocity (q : list R) (v : R * R * R) : option (list R) :=
  if (length q <? indexECS + 3)%nat then None
  else Some (<[indexECS := fst (fst v)]> (<[(indexECS + 1)%nat := snd (fst v)]> (<[(indexECS + 2)%nat := snd v]> q))).

(** dynamic-planner.cc:223-306: x_jump and paraPath when successful *)
Definition tryParabolaPath (near : nat) (last target : list R) (reverse : bool) : act (option (nat * P)) :=
  do para <- extendParabola last target reverse ;;
  match para with
  | None => ret None
  | Some para =>
      if Rltb 0 (plen para) then
        match setVelocity (pend para) (pVimp para), setVelocity (pinit para) (pV0 para) with
        | Some qnew, Some qjump =>
            do kino <- extendInternal near qjump reverse ;;
            match kino with
            | None => ret None
            | Some kino =>
                do v <- call (fun k => validate k kino false) ;;
                match v with
                | (false, _, _) => ret None
                | (true, None, _) => ub
                | (true, Some v, _) =>
                    if negb (Reqb (snd (prange v)) (fst (prange kino))) && ceqb (pend v) qjump then
                      do x <- addNodeAndEdge near qjump kino ;;
                      do _ <- computeGIWC x ;;
                      do y <- addNodeAndEdge x qnew para ;;
                      do _ <- computeGIWC y ;;
                      ret (Some (x, para))
                    else ret None
                end
            end
        | _, _ => ub
        end
      else ret None
  end.

(** dynamic-planner.cc:336-364: the first part of oneStep.  Returns pathValidFromStart, and
    the new node and configuration if startComponentConnected *)
Definition extendStart (q : list R) (start : nat) : act (bool * option (nat * list R)) :=
  do ns <- getNodes ;;
  do near <- call (fun k => nearest k ns q start false) ;;
  do path <- extendInternal near q false ;;
  match path with
  | None => ret (false, None)
  | Some path =>
      do v <- call (fun k => validate k path false) ;;
      let '(ok, part, _) := v in
      match part with
      | None => ret (ok, None)
      | Some v =>
          if negb (Reqb (snd (prange v)) (fst (prange path))) then
            do x <- addNodeAndEdge near (pend v) v ;;
            do _ <- computeGIWC x ;;
            ret (ok && ceqb (pend v) q, Some (x, pend v))
          else ret (false, None)
      end
  end.

(** dynamic-planner.cc:372-432: one turn of the loop on the end components.  [true]: the
    function returns *)
Definition extendEnd (q : list R) (fromStart : bool) (reached : option (nat * list R)) (c : nat) : act bool :=
  do ns <- getNodes ;;
  do near <- call (fun k => nearest k ns q c true) ;;
  do path <- extendInternal near q true ;;
  match path with
  | None => ret false
  | Some path =>
      do v <- call (fun k => validate k path true) ;;
      let '(ok, part, _) := v in
      (* 385-387; None: q_new is null *)
      let fromEnd : option bool :=
        match fromStart, part with
        | true, Some v => match reached with Some (_, qnew) => Some (ok && ceqb (pinit v) qnew) | None => None end
        | _, _ => Some ok
        end in
      match fromEnd with
      | None => ub
      | Some fromEnd =>
          if fromStart && fromEnd then
            match reached, part with
            | Some (x, _), Some v => do _ <- addEdge x near v ;; ret true
            | _, _ => ub
            end
          else
            match part with
            | None => ret false
            | Some v =>
                if negb (Reqb (snd (prange v)) (fst (prange path))) then
                  do x' <- addNodeAndEdgeRev (pinit v) near v ;;
                  do _ <- computeGIWC x' ;;
                  match reached with
                  | None => ret false
                  | Some (x, _) =>
                      do path' <- extendInternal x (pinit v) false ;;
                      match path' with
                      | None => ret false
                      | Some path' =>
                          do w <- call (fun k => validate k path' false) ;;
                          match w with
                          | (false, _, _) => ret false
                          | (true, None, _) => ub
                          | (true, Some w, _) =>
                              if ceqb (pend w) (pinit v) then do _ <- addEdge x x' path' ;; ret true else ret false
                          end
                      end
                  end
                else ret false
            end
      end
  end.
(** dynamic-planner.cc:370-434 *)
Fixpoint extendEnds (q : list R) (fromStart : bool) (reached : option (nat * list R)) (cs : list nat) : act unit :=
  match cs with
  | [] => ret tt
  | c :: cs => do stop <- extendEnd q fromStart reached c ;;
      if (stop : bool) then ret tt else extendEnds q fromStart reached cs
  end.
(** dynamic-planner.cc:308-434.  [start], [ends]: startComponent_, endComponents_ *)
Definition oneStep (start : nat) (ends : list nat) : act unit :=
  do q <- call shoot ;;
  do r <- extendStart q start ;;
  extendEnds q (fst r) (snd r) ends.

(** dynamic-planner.cc:526-551: the jump tried when the direct path is not valid *)
Definition jump (init goal : nat) (target : list R) (path v : P) (report : option R) : act unit :=
  match report with
  | None => ub
  | Some t =>
      do ok <- call (fun k => trunkValid k path t) ;;
      if (ok : bool) then
        do r <- tryParabolaPath init (pend v) target false ;;
        match r with
        | None => ret tt
        | Some (x, para) => addEdge x goal para
        end
      else ret tt
  end.
(** dynamic-planner.cc:488-563: one turn of the loop on the goals *)
Definition tryConnect (init goal : nat) : act unit :=
  do _ <- computeGIWC goal ;;
  do g <- deref goal ;;
  do path <- extendInternal init (cfg g) false ;;
  match path with
  | None => ret tt
  | Some path =>
      do proj <- match projector with None => ret (Some path) | Some apply => call (fun k => apply k path) end ;;
      match proj with
      | None => ret tt
      | Some proj =>
          do v <- call (fun k => validate k proj false) ;;
          let '(ok, part, report) := v in
          match ok, part with
          | true, None => ub
          | true, Some v =>
              if negb (Reqb (snd (prange v)) (fst (prange path))) then addEdge init goal proj
              else if tryJump then jump init goal (cfg g) proj v report else ret tt
          | false, None => ret tt
          | false, Some v =>
              if tryJump then jump init goal (cfg g) proj v report
              else if negb (Reqb (snd (prange v)) (fst (prange path))) then
                do x <- addNodeAndEdge init (pend v) v ;; computeGIWC x
              else ret tt
          end
      end
  end.
Fixpoint tryGoals (init : nat) (goals : list nat) : act unit :=
  match goals with
  | [] => ret tt
  | g :: goals => do _ <- tryConnect init g ;; tryGoals init goals
  end.
(** dynamic-planner.cc:480-564 *)
Definition tryConnectInitAndGoals (init : nat) (goals : list nat) : act unit :=
  do _ <- computeGIWC init ;; tryGoals init goals.

(** the calls that a planner makes: tryConnectInitAndGoals once, then oneStep (core's
    PathPlanner::solve) (dynamic-planner.cc:171-435) *)
Fixpoint steps (start : nat) (ends : list nat) (n : nat) : act unit :=
  match n with O => ret tt | S n => do _ <- oneStep start ends ;; steps start ends n end.
Definition plan (init start : nat) (goals ends : list nat) (n : nat) : act unit :=
  do _ <- tryConnectInitAndGoals init goals ;; steps start ends n.
End Plan.
