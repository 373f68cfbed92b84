(** Model of src/dynamic/dynamic-path-validation.cc: the path validation of the kinodynamic
    planner, that tests the configurations of a path in turn by the ROM validation
    (ValidModel.validate) and by the dynamic validation (ValidModel.dynValidate), both of
    which have a state. *)
From Verif Require Import Maps Vec ValidModel.
Local Open Scope nat_scope.
Local Open Scope R_scope.

(** the while loops of dynamic-path-validation.cc:74-89 (reverse) and 108-123; [test t s]
    is the condition of the if, run in state [s].  [None]: out of [fuel] *)
Section loop.
Context {S : Type} (test : R -> S -> outcome (bool * S)) (step tmin tmax : R).
Fixpoint forwardLoopS (fuel : nat) (finished : nat) (t last : R) (s : S)
  : option (outcome (bool * validPart * option R * S)) :=
  match fuel with
  | O => None
  | Datatypes.S fuel' =>
    if (finished <? 2)%nat then
      match test t s with
      | Ok (true, s') =>
        let t' := t + step in
        if Rltb tmax t' then forwardLoopS fuel' (Datatypes.S finished) tmax t s'
        else forwardLoopS fuel' finished t' t s'
      | Ok (false, s') => Some (Ok (false, Extract tmin last, Some t, s'))
      | Throw => Some Throw
      | Ub => Some Ub
      end
    else Some (Ok (true, Whole, None, s))
  end.
Fixpoint reverseLoopS (fuel : nat) (finished : nat) (t last : R) (s : S)
  : option (outcome (bool * validPart * option R * S)) :=
  match fuel with
  | O => None
  | Datatypes.S fuel' =>
    if (finished <? 2)%nat then
      match test t s with
      | Ok (true, s') =>
        let t' := t - step in
        if Rltb t' tmin then reverseLoopS fuel' (Datatypes.S finished) tmin t s'
        else reverseLoopS fuel' finished t' t s'
      | Ok (false, s') => Some (Ok (false, Extract last tmax, Some t, s'))
      | Throw => Some Throw
      | Ub => Some Ub
      end
    else Some (Ok (true, Whole, None, s))
  end.
End loop.

Section validate.
Context {Obj Req Conf Acc Mat : Type} `{EqDecision Obj} `{EqDecision Acc}.
(** config.segment<3>(size - 3), RbprmNode::fillNodeMatrices and
    Equilibrium::checkAdmissibleAcceleration, as in ValidModel *)
Context (accOf : Conf -> Acc) (fill : Conf -> gmap string Obj -> Mat) (admissible : Mat -> Acc -> bool).
(** answers of the collision and bounds libraries at a configuration *)
Context (trunkFree inBounds : Conf -> bool) (hit : Conf -> string -> Obj -> bool).
(** path(q, t) for a vector [q] of the size of the path's configurations: the answer and
    what [q] contains afterwards; [evalEmpty]: for an empty vector *)
Context (eval : R -> bool * Conf) (evalEmpty : R -> outcome Conf).

(** rbprmValidation_ and dynamicValidation_ (rbprm-path-validation.hh:64, dynamic-path-validation.hh:59) *)
Definition dpv : Type := rbValidation Obj Req * dynVal Obj Acc Mat.

(** dynamic-path-validation.cc:75-77 and 109-111; rbprm-validation.cc:196-222 always
    answers with a RbprmValidationReport *)
Definition configTest (filter : list string) (t : R) (s : dpv) : outcome (bool * dpv) :=
  let '(success, q) := eval t in
  if success then
    match validate (trunkFree q) (inBounds q) (hit q) filter (fst s) with
    | Ok (true, v', rep) =>
      match dynValidate accOf fill admissible q (Some (romObjects rep)) (snd s) with
      | Ok (b, d') => Ok (b, (v', d'))
      | Throw => Throw
      | Ub => Ub
      end
    | Ok (false, v', _) => Ok (false, (v', snd s))
    | Throw => Throw
    | Ub => Ub
    end
  else Ok (false, s).

(** dynamic-path-validation.cc:61-62 (and 155-158): the report at configuration [q], with
    the default filter *)
Definition initialReport (q : Conf) (s : dpv) : outcome dpv :=
  match validate (trunkFree q) (inBounds q) (hit q) (defaultFilter (fst s)) (fst s) with
  | Ok (_, v', rep) => Ok (v', setInitialReport (Some (romObjects rep)) (snd s))
  | Throw => Throw
  | Ub => Ub
  end.

(** dynamic-path-validation.cc:48-138 without the asserts and the benchmarks: the overload
    with a filter.  The vector of line 56 is empty, and the answer of the evaluation at
    lines 57-60 is ignored *)
Definition validateFilter (step tmin tmax : R) (reverse : bool) (filter : list string) (fuel : nat) (s : dpv)
  : option (outcome (bool * validPart * option R * dpv)) :=
  match evalEmpty (if reverse then tmax else tmin) with
  | Ok q =>
    match initialReport q s with
    | Ok s' =>
      if reverse then reverseLoopS (configTest filter) step tmin tmax fuel 0 tmax tmax s'
      else forwardLoopS (configTest filter) step tmin tmax fuel 0 tmin tmin s'
    | Throw => Some Throw
    | Ub => Some Ub
    end
  | Throw => Some Throw
  | Ub => Some Ub
  end.

(** dynamic-path-validation.cc:140-165: the overload without filter; [discretized] is
    hpp-core's core::pathValidation::Discretized::validate, which tests the configurations
    by the validations it was given *)
Definition validateDefault {A} (discretized : dpv -> outcome A) (tmin tmax : R) (reverse : bool) (s : dpv) : outcome A :=
  match initialReport (snd (eval (if reverse then tmax else tmin))) s with
  | Ok s' => discretized s'
  | Throw => Throw
  | Ub => Ub
  end.
End validate.
Arguments dpv : clear implicits.
