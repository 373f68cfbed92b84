(** The parallel loop of the interpolation between states, step by step
    (include/hpp/rbprm/interpolation/time-constraint-helper.inl:295-347): the iterations run
    by several threads, in any interleaving of their accesses to the arrays they share. *)
From Coq Require Import Reals.
From Verif Require Export InterModel.
Local Open Scope nat_scope.

Section omp.
(** [L]: what a non-null PathVectorPtr_t points to; [ans k i]: what iteration [i] of attempt
    [k] computes before it writes (lines 322-332): Some path, or None when the planner gave
    no path; or the exception that leaves it.  Each iteration runs once per attempt: that its
    answer depends on when it runs is a choice of [ans] *)
Variable L : Type.
Variable ans : nat -> nat -> outcome (option L).
(** the number of iterations, [distance] (line 313) *)
Variable n : nat.

(** the two arrays (lines 311-312): PathVectorPtr_t res[100], null at first, and bool
    valid[100], not initialised *)
Record mem := Mem { m_res : list (option L); m_valid : list bool }.
(** where an iteration is: not begun; it has its answer; it has written res[i]; done *)
Inductive phase := Todo | Got (r : option L) | Stored | Done.
(** the iterations and the memory *)
Definition par : Type := list phase * mem.

(** one access of iteration [i] (lines 321-340); None: it is done or there is none.  An
    exception leaves the loop at once *)
Definition tick (k i : nat) (c : par) : option (outcome par) :=
  let '(ph, m) := c in
  match ph !! i with
  | None => None
  | Some Done => None
  | Some Todo =>
    Some match ans k i with
         | Ok r => Ok (<[i := Got r]> ph, m)
         | Throw => Throw
         | Ub => Ub
         end
  | Some (Got (Some l)) => Some (Ok (<[i := Stored]> ph, Mem (<[i := Some l]> (m_res m)) (m_valid m)))
  | Some Stored => Some (Ok (<[i := Done]> ph, Mem (m_res m) (<[i := true]> (m_valid m))))
  | Some (Got None) => Some (Ok (<[i := Done]> ph, Mem (m_res m) (<[i := false]> (m_valid m))))
  end.

(** the executions of the parallel loop: any iteration that is not done may make the next
    access; the loop ends when all are done (the barrier of line 340) or when one throws *)
Inductive region (k : nat) : par -> outcome mem -> Prop :=
| region_end ph m : Forall (eq Done) ph -> region k (ph, m) (Ok m)
| region_tick c i c' o : tick k i c = Some (Ok c') -> region k c' o -> region k c o
| region_throw c i : tick k i c = Some Throw -> region k c Throw
| region_ub c i : tick k i c = Some Ub -> region k c Ub.
(** a beginning of execution: the accesses made so far *)
Inductive begun (k : nat) : par -> list nat -> par -> Prop :=
| begun_none c : begun k c [] c
| begun_tick c i c' tr c'' : tick k i c = Some (Ok c') -> begun k c' tr c'' -> begun k c (i :: tr) c''.

(** time-constraint-helper.inl:222-236 on the array *)
Fixpoint checkValid (distance : nat) (valid : list bool) : nat :=
  match distance, valid with
  | S d, true :: v => S (checkValid d v)
  | _, _ => O
  end.

(** lines 319-342: attempts from number [k] until all iterations are valid; the number of
    attempts made and what they end with *)
Inductive rounds : nat -> mem -> nat -> outcome mem -> Prop :=
| rounds_end k m m' : region k (replicate n Todo, m) (Ok m') -> checkValid n (m_valid m') = n -> rounds k m 1 (Ok m')
| rounds_again k m m' f o : region k (replicate n Todo, m) (Ok m') -> checkValid n (m_valid m') < n ->
    rounds (S k) m' f o -> rounds k m (S f) o
| rounds_throw k m : region k (replicate n Todo, m) Throw -> rounds k m 1 Throw
| rounds_ub k m : region k (replicate n Todo, m) Ub -> rounds k m 1 Ub.
End omp.
Arguments Mem {L}.
Arguments m_res {L}.
Arguments m_valid {L}.
Arguments Todo {L}.
Arguments Got {L}.
Arguments Stored {L}.
Arguments Done {L}.

Section call.
Variables P E : Type.
Variable B : fullbody.
Variable cur : list R.
Variable solve : nat -> nat -> rrtProblem P -> solveResult E.
Variables randomShortcut partialShortcut : nat -> nat -> nat -> rrtProblem P -> list E -> outcome (list E).
Variables (sf : shooterFactory P) (cf : constraintFactory P) (thr : R) (maxIter numOpt : nat).
Variable X : Type.
Variable get : X -> PSt.
Variable getPath : X -> X -> outcome P.

(** the computation of iteration [i]: InterModel.body for the states i and i + 1
    (time-constraint-helper.inl:322-333) *)
Definition iteration (states : list X) (k i : nat) : outcome (option (list E)) :=
  match pairsOf X states !! i with
  | Some ab => body P E B cur solve randomShortcut partialShortcut sf cf thr maxIter numOpt X get getPath k i ab
  | None => Ub
  end.

(** time-constraint-helper.inl:238-246: the paths of the array are put one after the other;
    a null pointer, the first one included, is dereferenced *)
Definition concatenated (keepExtraDof : bool) (n : nat) (m : mem (list E)) : iend E :=
  match n with
  | O => IUndef E
  | _ => match mapM (fun x => x) (take n (m_res m)) with
         | Some segs => IPath E (map (if keepExtraDof then Full E else Reduced E) (concat segs))
         | None => IUndef E
         end
  end.

(** interpolateStatesFromPathGetter (time-constraint-helper.inl:295-347): the possible ends of a call
    and the number of attempts made, whatever the interleavings and the content of valid
    before *)
Inductive interleaved (keepExtraDof : bool) (states : list X) : nat -> iend E -> Prop :=
| inter_too_many f : 100 <= length (pairsOf X states) -> interleaved keepExtraDof states f (IUndef E)
| inter_path valid0 f m : length (pairsOf X states) < 100 -> length valid0 = 100 ->
    rounds (list E) (iteration states) (length (pairsOf X states)) 0 (Mem (replicate 100 None) valid0) f (Ok m) ->
    interleaved keepExtraDof states f (concatenated keepExtraDof (length (pairsOf X states)) m)
| inter_throw valid0 f : length (pairsOf X states) < 100 -> length valid0 = 100 ->
    rounds (list E) (iteration states) (length (pairsOf X states)) 0 (Mem (replicate 100 None) valid0) f Throw ->
    interleaved keepExtraDof states f (ITerminate E)
| inter_ub valid0 f : length (pairsOf X states) < 100 -> length valid0 = 100 ->
    rounds (list E) (iteration states) (length (pairsOf X states)) 0 (Mem (replicate 100 None) valid0) f Ub ->
    interleaved keepExtraDof states f (IUndef E).
End call.
