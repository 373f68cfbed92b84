(** Vocabulary of the interpolation properties: what is assumed of the planner and of the
    optimizers, what an attempt gives, what a path made of pieces joins. *)
From Coq Require Import Reals.
From Verif Require Import SampModel TrajModel.
From Verif Require Export Maps Vec StateSpec ProjSpec InterModel.
Local Open Scope R_scope.

(** the elements of [l], read from their first ([i]) to their last ([e]) configurations, go
    from [a] to [b] without jump *)
Fixpoint joins {T} (i e : T -> list R) (a b : list R) (l : list T) : Prop :=
  match l with [] => a = b | x :: tl => i x = a /\ joins i e (e x) b tl end.

(** the limb (or contact) [n] is in a contact common to both states, not displaced *)
Definition stays (from to : PSt) (n : string) : Prop := kept moved3 from to n.

(** every contact common to both states is one of a limb of [B] with an effector frame, and
    has a rotation in the first state if the limb's contacts have six degrees of freedom *)
Definition known_common (B : fullbody) (from to : PSt) : Prop :=
  forall n, stays from to n -> exists l f, limbsOf B !! n = Some l /\ frames (dev B) !! effName l = Some f /\
    (ltype l = _6_DOF -> is_Some (rotations from !! n)).

(** * The random configurations *)
(** [n] random numbers choose, for each limb, one sample among all but the last one *)
Inductive drawn : list (list (sample R)) -> list nat -> list (sample R) -> Prop :=
| drawn_nil rs : drawn [] rs []
| drawn_cons ss limbs r rs s l : (2 <= length ss)%nat -> ss !! (r mod (length ss - 1))%nat = Some s ->
    drawn limbs rs l -> drawn (ss :: limbs) (r :: rs) (s :: l).
(** every sample of the limbs fits in a configuration of [n] entries *)
Definition samples_fit (limbs : list (list (sample R))) (n : nat) : Prop :=
  forall ss s, ss ∈ limbs -> s ∈ ss ->
    (startRank (content s) + slength (content s) <= n)%nat /\ length (SampModel.configuration (content s)) = slength (content s).
(** entry [k] belongs to no sample of the limbs *)
Definition outside_limbs (limbs : list (list (sample R))) (k : nat) : Prop :=
  forall ss s, ss ∈ limbs -> s ∈ ss -> ~ (startRank (content s) <= k < startRank (content s) + slength (content s))%nat.

(** * The planner *)
Section S.
Variables P E : Type.
Variables (einit eend : E -> list R).
(** the configurations of an element *)
Variable on : E -> list R -> Prop.
Variable B : fullbody.
Variable cur : list R.

(** an answer to the problem: it goes from the first to the last configuration, and the
    constraints hold all along *)
Definition answers (pb : rrtProblem P) (l : list E) : Prop :=
  l <> [] /\ joins einit eend (rStart P pb) (rGoal P pb) l /\
  forall e q, e ∈ l -> on e q -> length q = length (rStart P pb) /\
    forall c, c ∈ cs (rProj P pb) -> satisfied (dev B) (thr (rProj P pb)) q c.

Variable solve : nat -> nat -> rrtProblem P -> solveResult E.
Variables randomShortcut partialShortcut : nat -> nat -> nat -> rrtProblem P -> list E -> outcome (list E).
(** hpp-core: the planner answers the problem, the optimizers keep answers *)
Record sound_planner : Prop := {
  sp_solve : forall k i pb l, solve k i pb = Solved E (Some l) -> answers pb l;
  sp_random : forall k i j pb l l', answers pb l -> randomShortcut k i j pb l = Ok l' -> answers pb l';
  sp_partial : forall k i j pb l l', answers pb l -> partialShortcut k i j pb l = Ok l' -> answers pb l'
}.

(** [n] successive calls of an optimizer *)
Inductive optimised (f : nat -> list E -> outcome (list E)) : nat -> nat -> list E -> list E -> Prop :=
| opt_none j l : optimised f 0 j l l
| opt_more n j l l1 l2 : f j l = Ok l1 -> optimised f n (S j) l1 l2 -> optimised f (S n) j l l2.

Variables (sf : shooterFactory P) (cf : constraintFactory P) (th : R) (maxIter numOpt : nat).
Variable X : Type.
Variable get : X -> PSt.
Variable getPath : X -> X -> outcome P.

(** the problem given to the planner for a pair of states *)
Definition asked (a b : X) (pb : rrtProblem P) : Prop :=
  exists ref, getPath a b = Ok ref /\ problemBetween P B cur sf cf th maxIter ref (get a) (get b) = Ok pb.
(** at attempt [k], the planner solves pair [i], and [l] is its answer after the optimizers *)
Definition solved_as (k i : nat) (a b : X) (l : list E) : Prop :=
  exists pb l0 l1, asked a b pb /\ solve k i pb = Solved E (Some l0) /\
    optimised (fun j => randomShortcut k i j pb) numOpt 0 l0 l1 /\
    optimised (fun j => partialShortcut k i j pb) numOpt 0 l1 l.
(** at attempt [k], the planner finds nothing for pair [i] *)
Definition unsolved (k i : nat) (a b : X) : Prop :=
  exists pb, asked a b pb /\ (solve k i pb = Solved E None \/ solve k i pb = RuntimeError E \/ solve k i pb = ProjectionError E).
(** consecutive states *)
Definition pair_at (states : list X) (i : nat) (a b : X) : Prop := states !! i = Some a /\ states !! S i = Some b.
(** at attempt [k] all pairs are solved; none makes the planner or the optimizers fail
    otherwise *)
Definition all_solved (states : list X) (k : nat) : Prop :=
  forall i a b, pair_at states i a b -> exists l, solved_as k i a b l.
Definition no_failure (states : list X) (k : nat) : Prop :=
  forall i a b, pair_at states i a b -> (exists l, solved_as k i a b l) \/ unsolved k i a b.
(** the configurations of the states fit in the helper's, and nothing the interpolation calls
    has undefined behaviour *)
Record defined_calls (states : list X) : Prop := {
  dc_size : forall x, x ∈ states -> (length (StateModel.configuration (get x)) < length cur)%nat;
  dc_path : forall a b, a ∈ states -> b ∈ states -> getPath a b <> Ub;
  dc_cons : cf <> Ub;
  dc_random : forall k i j pb l, randomShortcut k i j pb l <> Ub;
  dc_partial : forall k i j pb l, partialShortcut k i j pb l <> Ub
}.
(** every state has the size of the robot's configurations, one less than the helper's *)
Definition sized (states : list X) : Prop := forall x, x ∈ states -> S (length (StateModel.configuration (get x))) = length cur.
(** the configurations of a piece of the result *)
Definition onPiece (p : piece E) (q : list R) : Prop :=
  match p with Full _ e => on e q | Reduced _ e => exists q0, on e q0 /\ q = removelast q0 end.
(** each schedule runs every iteration once *)
Definition fair (n : nat) (sched : nat -> list nat) : Prop := forall k, Permutation (sched k) (seq 0 n).
End S.

(** the last coordinate, the time, does not change the robot *)
Definition time_is_extra (r : robot) (size : nat) : Prop :=
  forall q j, length q = S size -> jpose r q j = jpose r (removelast q) j.
(** only the first [n] entries of a configuration move the robot (neither the extra degrees of
    freedom that follow nor the time do) *)
Definition extra_dofs (r : robot) (n : nat) : Prop :=
  forall q q', take n q = take n q' -> (forall j, jpose r q j = jpose r q' j) /\ comOf r q = comOf r q'.
