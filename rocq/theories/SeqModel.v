(** Model of src/interpolation/rbprm-path-interpolation.cc: the sequence of contact states
    along a path.  Exact reals. *)
From Coq Require Import Reals ZArith.
From Verif Require Export Maps Vec StateModel StateReal ProjModel.
Local Open Scope R_scope.

(** rbprm-state.hh: StateFrame, a time and a state *)
Notation sframe := (R * PSt)%type.

(** reports.hh:30-58, the fields the loop reads *)
Record creport := mkCrep {
  crOk : bool;            (* success_ *)
  crMaintained : bool;    (* contactMaintained_ *)
  crMulti : bool;         (* multipleBreaks_ *)
  crCreated : bool;       (* contactCreated_ *)
  crRepos : bool;         (* repositionedInPlace_ *)
  crResult : PSt          (* result_ *)
}.

(** rbprm-path-interpolation.cc:50-64.  [pq]: what evaluating the path at
    min(i, end of the range) leaves (the answer of the evaluation is ignored); the path's
    configurations have [length pq] entries, the last [extra] are extra dofs.  Too short
    configurations are Eigen assertions *)
Definition configPosition (extra : nat) (previous pq : list R) : outcome (list R) :=
  let n := (length pq - extra)%nat in
  if (extra <=? length pq)%nat && (n <=? length previous)%nat && (extra <=? length previous)%nat then
    let c1 := take n pq ++ drop n previous in
    Ok (take (length previous - extra) c1 ++ drop n pq)
  else Ub.

(** rbprm-path-interpolation.cc:79-88, the configurations along the path: [path] evaluates
    it, [t1] is the end of its range.  Equal to the C++ loop as long as it takes less than
    [fuel] iterations ([None] otherwise) *)
Fixpoint sampleFrom (fuel : nat) (extra : nat) (path : R -> list R) (t1 step i : R) (back : list R)
  : option (outcome (list (list R))) :=
  match fuel with
  | O => None
  | S f =>
    if Rltb i t1 then
      match configPosition extra back (path (Rmin i t1)) with
      | Ok c =>
        match sampleFrom f extra path t1 step (i + step) c with
        | Some (Ok l) => Some (Ok (c :: l))
        | o => o
        end
      | Throw => Some Throw
      | Ub => Some Ub
      end
    else
      match configPosition extra back (path (Rmin t1 t1)) with
      | Ok c => Some (Ok [c])
      | Throw => Some Throw
      | Ub => Some Ub
      end
  end.
Definition pathConfigs (fuel extra : nat) (path : R -> list R) (t0 t1 step : R) (start : list R)
  : option (outcome (list (list R))) :=
  match sampleFrom fuel extra path t1 step (t0 + step) start with
  | Some (Ok l) => Some (Ok (start :: l))
  | o => o
  end.

(** rbprm-path-interpolation.cc:218-226 *)
Definition loadPreviousConfiguration (extra : nat) (previous config : list R) : outcome (list R) :=
  if (7 <=? length previous)%nat && (7 <=? length config)%nat && (extra <=? length previous)%nat && (extra <=? length config)%nat then
    let r := take 7 config ++ drop 7 previous in
    Ok (take (length previous - extra) r ++ drop (length config - extra) config)
  else Ub.

(** a state with its number of contacts recomputed, line 361 *)
Definition recount (s : PSt) : PSt :=
  mkState (configuration s) (contacts s) (normals s) (positions s) (rotations s) (order s) (Z.of_nat (size (normals s)) mod 2 ^ 64)
    (stable s) (robustness s).

(** rbprm-path-interpolation.cc:441-445 *)
Definition EqStringVec (a b : list string) : bool := bool_decide (a = b).
Notation creations to from := (contactCreations moved3 to from).
Notation breaks to from := (contactBreaks moved3 to from).

(** * Filters *)
Section filters.
(** rbprm-path-interpolation.cc:483-498: reachability::isReachable or isReachableDynamic
    when the criterion is used, on copies of the states *)
Variable useReach : bool.
Variable reachable : PSt -> PSt -> bool.
Definition testReachability (s0 s1 : PSt) : bool := if useReach then reachable s0 s1 else true.

(** the conditions of rbprm-path-interpolation.cc:507-511 and 566-570; [m1], [c], [p1]: the previous, current and
    next states *)
Definition repositioned (m1 c p1 : PSt) : bool :=
  EqStringVec (breaks c m1) (breaks p1 m1) && EqStringVec (creations c m1) (creations p1 c) && testReachability m1 p1.
Definition brokenCreated (m1 c p1 : PSt) : bool :=
  bool_decide (creations c m1 = []) && bool_decide (breaks p1 c = []) && EqStringVec (creations p1 c) (breaks c m1) &&
  testReachability m1 p1.

(** the recursion of rbprm-path-interpolation.cc:500-557 and 559-578: [l] are the states from [from] to the last of
    the list, [to] being the last; the states appended to [res] *)
Fixpoint skipWith (cond : PSt -> PSt -> PSt -> bool) (m1 : PSt) (l : list sframe) : list sframe :=
  match l with
  | c :: ((p1 :: rest') as rest) =>
    if cond m1 (snd c) (snd p1) then
      match rest' with
      | [] => []
      | _ => p1 :: skipWith cond (snd p1) rest'
      end
    else c :: skipWith cond (snd c) rest
  | _ => []
  end.
(** rbprm-path-interpolation.cc:580-588 and 590-598 *)
Definition filterWith (cond : PSt -> PSt -> PSt -> bool) (l : list sframe) : list sframe :=
  match l with
  | a :: (b :: c :: r) as tl => a :: skipWith cond (snd a) (b :: c :: r) ++ match last l with Some z => [z] | None => [] end
  | _ => l
  end.
Definition FilterRepositioning : list sframe -> list sframe := filterWith repositioned.
Definition FilterBreakCreate : list sframe -> list sframe := filterWith brokenCreated.

(** the norm of the difference of two configurations (of the same size), rbprm-path-interpolation.cc:609-610 *)
Definition confDistance (a b : list R) : R :=
  R_sqrt.sqrt (fold_right Rplus 0 (map (fun '(x, y) => (x - y) * (x - y)) (zip a b))).
Definition epsilon : R := / 2 ^ 52.
Definition keepState (prev cur : PSt) : bool :=
  Rltb epsilon (confDistance (configuration cur) (configuration prev)) &&
  negb (bool_decide (breaks cur prev = []) && bool_decide (creations cur prev = [])).
(** rbprm-path-interpolation.cc:600-641; the loop compares with the previous state of the original list; what is
    printed is left out *)
Fixpoint obsoleteLoop (m1 : PSt) (l : list sframe) : list sframe :=
  match l with
  | c :: ((_ :: _) as rest) =>
    if keepState m1 (snd c) then c :: obsoleteLoop (snd c) rest else obsoleteLoop (snd c) rest
  | _ => []
  end.
Definition FilterObsolete (l : list sframe) : list sframe :=
  match l with
  | a :: (b :: c :: r) as tl => a :: obsoleteLoop (snd a) (b :: c :: r) ++ match last l with Some z => [z] | None => [] end
  | _ => l
  end.

Section replace.
Variable solve : projector -> list R -> bool * list R.
Variable axis : vec3 -> vec3 -> vec3.
Variable B : fullbody.

(** rbprm-path-interpolation.cc:658-662 and 741-745 *)
Definition sameLimbTwice (c0 c1 c2 c3 : PSt) : bool :=
  EqStringVec (breaks c1 c0) (breaks c3 c2) && EqStringVec (breaks c1 c0) (creations c1 c0) &&
  EqStringVec (breaks c1 c0) (creations c3 c2) && negb (EqStringVec (breaks c1 c0) (breaks c2 c1)) &&
  negb (EqStringVec (creations c1 c0) (creations c2 c1)).

(** rbprm-path-interpolation.cc:682-688 (and 766-772): the contact [limb] of [s] (at configuration [q]) is moved to
    [p] with normal [n], then the root of [root] is given back; success and state *)
Definition moveContact (limb : string) (l : plimb) (s : PSt) (q : list R) (n p : vec3) (root : list R) : outcome (bool * PSt) :=
  match projectStateToObstacle solve B axis [] limb l (with_conf q s) n p (wholeValid B) false mzero with
  | Ok rep =>
    if psuccess rep then
      match projectToRootConfiguration solve B root (presult rep) vzero with
      | Ok rep' => Ok (psuccess rep', state_assign (presult rep) (presult rep'))
      | Throw => Throw
      | Ub => Ub
      end
    else Ok (false, presult rep)
  | Throw => Throw
  | Ub => Ub
  end.
Definition at_ {A} (m : gmap string A) (k : string) : outcome A := match m !! k with Some x => Ok x | None => Throw end.
Definition bindo {A C} (x : outcome A) (f : A -> outcome C) : outcome C :=
  match x with Ok a => f a | Throw => Throw | Ub => Ub end.

(** the state that replaces [c1], rbprm-path-interpolation.cc:657-698 *)
Definition replacement (c0 c1 c2 c3 : PSt) : outcome (option PSt) :=
  match creations c3 c2 with
  | [limb] =>
    if sameLimbTwice c0 c1 c2 c3 then
      bindo (at_ (normals c3) limb) (fun n =>
      bindo (at_ (positions c3) limb) (fun x3 =>
      bindo (at_ (limbsOf B) limb) (fun l =>
      bindo (at_ (positions c1) limb) (fun x1 =>
      let p := vadd x3 (loffset l) in
      let p1 := vadd x1 (loffset l) in
      bindo (moveContact limb l c1 (configuration c3) n p (configuration c1)) (fun '(ok, s) =>
      Ok (if Rltb (dist3 p1 p) (2 / 10) && ok && wholeValid B (configuration s) && testReachability s c3
          then Some s else None))))))
    else Ok None
  | _ => Ok None
  end.
(** the state that replaces [c2], [c1] being skipped, rbprm-path-interpolation.cc:740-783 *)
Definition skipping (c0 c1 c2 c3 : PSt) : outcome (option PSt) :=
  match creations c2 c1 with
  | [_] =>
    if sameLimbTwice c0 c1 c2 c3 then
      match creations c1 c0 with
      | limb :: _ =>
        bindo (at_ (normals c0) limb) (fun n =>
        bindo (at_ (positions c0) limb) (fun x0 =>
        bindo (at_ (limbsOf B) limb) (fun l =>
        bindo (at_ (positions c1) limb) (fun x1 =>
        bindo (at_ (normals c1) limb) (fun n1 =>
        let p := vsub (vadd x0 (loffset l)) (vscale (10 / 1000) n) in
        let p1 := vsub (vadd x1 (loffset l)) (vscale (10 / 1000) n1) in
        bindo (moveContact limb l c2 (configuration c0) n p (configuration c2)) (fun '(ok, s) =>
        Ok (if Rltb (dist3 p1 p) (1 / 10) && ok && wholeValid B (configuration s) && testReachability c0 s && testReachability s c3
            then Some s else None)))))))
      | [] => Ub
      end
    else Ok None
  | _ => Ok None
  end.

(** the recursions of rbprm-path-interpolation.cc:643-713 and 726-798: [l] are the states from [from] on, at least
    three; [repl] gives the state replacing the second ([which] = false) or the third of the
    next four *)
Fixpoint replaceWith (repl : PSt -> PSt -> PSt -> PSt -> outcome (option PSt)) (which : bool) (l : list sframe)
  : outcome (list sframe) :=
  match l with
  | c0 :: ((c1 :: ((c2 :: ((c3 :: rest) as l3)) as l2)) as l1) =>
    match repl (snd c0) (snd c1) (snd c2) (snd c3) with
    | Ok (Some s) =>
      let two := [c0; (fst (if which then c2 else c1), s)] in
      match rest with
      | [] => Ok two
      | [_] => Ok (two ++ [c3])
      | _ => bindo (replaceWith repl which l3) (fun r => Ok (two ++ r))
      end
    | Ok None => bindo (replaceWith repl which l1) (fun r => Ok (c0 :: r))
    | Throw => Throw
    | Ub => Ub
    end
  | c0 :: c1 :: _ => Ok [c0; c1]
  | _ => Ok []
  end.
(** rbprm-path-interpolation.cc:715-724 and 800-809 *)
Definition replaceStates (repl : PSt -> PSt -> PSt -> PSt -> outcome (option PSt)) (which : bool) (l : list sframe)
  : outcome (list sframe) :=
  if (length l <? 4)%nat then Ok l
  else bindo (replaceWith repl which l) (fun r => Ok (r ++ match last l with Some z => [z] | None => [] end)).
Definition tryReplaceStates : list sframe -> outcome (list sframe) := replaceStates replacement false.
Definition trySkipStates : list sframe -> outcome (list sframe) := replaceStates skipping true.

(** rbprm-path-interpolation.cc:811-816 *)
Definition FilterStatesRec (l : list sframe) : outcome (list sframe) :=
  bindo (tryReplaceStates (FilterObsolete (FilterBreakCreate (FilterRepositioning l)))) trySkipStates.
(** rbprm-path-interpolation.cc:855-866, the do-while loop; [None]: not finished within [fuel] iterations *)
Fixpoint deepLoop (fuel : nat) (l : list sframe) : option (outcome (list sframe)) :=
  match fuel with
  | O => None
  | S f =>
    match FilterStatesRec l with
    | Ok r => if (length r =? length l)%nat then Some (Ok r) else deepLoop f r
    | o => Some o
    end
  end.
(** rbprm-path-interpolation.cc:818-870; what is printed is left out *)
Definition FilterStates (fuel : nat) (l : list sframe) (deep : bool) : option (outcome (list sframe)) :=
  if (length l <=? 2)%nat then Some (Ok l)
  else if deep then deepLoop fuel l
  else Some (Ok (FilterObsolete l)).
End replace.
End filters.

(** * The goal *)
Section goal.
Variable solve : projector -> list R -> bool * list R.
Variable B : fullbody.
(** robot_->usePosturalTaskContactCreation(b), rbprm-path-interpolation.cc:182-185, 206-207 *)
Definition setPostural (b : bool) : fullbody :=
  mkFullbody (dev B) (limbsOf B) (reference B) (pweights B) b (wholeValid B) (limbValids B) (junk B).
(** the goal state, and the end of the path's range if there is a path *)
Variable goal : PSt.
Variable pathEnd : option R.

(** rbprm-path-interpolation.cc:98-119; the full body is the one whose postural task is
    disabled, lines 183-185 *)
Definition replaceLimbContactForState (s : PSt) (limb : string) : outcome preport :=
  let st := snd (RemoveContact limb s) in
  bindo (addContactConstraints B st (fixedContacts moved3 st st)) (fun cl =>
  bindo (at_ (limbsOf B) limb) (fun l =>
  bindo (at_ (rotations goal) limb) (fun r =>
  bindo (at_ (positions goal) limb) (fun p =>
  bindo (at_ (normals goal) limb) (fun n =>
  bindo (at_ (frames (dev B)) (effName l)) (fun f =>
  Ok (projectEffector solve (setPostural false) (addCs cl (newProj (1 / 10000) 1000)) limb l f (wholeValid B) (configuration st)
        (SE3 r p) n st))))))).

(** rbprm-path-interpolation.cc:132-155: the first limb that can be moved; [before] are those that could not *)
Fixpoint firstMovable (s : PSt) (before after : list string) : outcome (option (PSt * list string)) :=
  match after with
  | [] => Ok None
  | limb :: after' =>
    match replaceLimbContactForState s limb with
    | Ok rep => if psuccess rep then Ok (Some (presult rep, before ++ after')) else firstMovable s (before ++ [limb]) after'
    | Throw => Throw
    | Ub => Ub
    end
  end.
(** rbprm-path-interpolation.cc:123-156; [n]: a bound on the number of variations *)
Fixpoint addGoalConfigRec (n : nat) (states : list sframe) (variations : list string) : outcome (list sframe) :=
  match n with
  | O => Ok states
  | S n' =>
    if (length variations =? 1)%nat then Ok states
    else match last states with
         | None => Ub
         | Some (t, s) =>
           match firstMovable s [] variations with
           | Ok (Some (s', rest)) => addGoalConfigRec n' (states ++ [(t, s')]) rest
           | Ok None => Ok states
           | Throw => Throw
           | Ub => Ub
           end
         end
  end.
(** rbprm-path-interpolation.cc:161-209: the new list, and the robot's postural setting afterwards (not put back
    when an exception goes through) *)
Definition addGoalConfig (states : list sframe) : outcome (list sframe) * bool :=
  match last states with
  | None => (Ub, postural B)
  | Some (t, s) =>
    match contactVariations moved3 s goal with
    | [] => (Ok states, postural B)
    | [_] => (Ok (states ++ [(t, goal)]), postural B)
    | vs =>
      match addGoalConfigRec (length vs) states vs with
      | Ok r =>
        match last r with
        | None => (Ub, false)
        | Some (t', s') =>
          (Ok (if (length (contactVariations moved3 s' goal) =? 1)%nat
               then r ++ [(match pathEnd with Some e => e | None => t' end, goal)] else r), postural B)
        end
      | Throw => (Throw, false)
      | Ub => (Ub, false)
      end
    end
  end.
End goal.

(** * The loop *)
Section interpolate.
(** contact::ComputeContacts at its [k]-th call: previous state, configuration, direction,
    acceleration, path parameter (what it does otherwise is in GenModel.v) *)
Variable compute : nat -> PSt -> list R -> vec3 -> vec3 -> R -> creport.
(** configSize() of the device, extraConfigSpace().dimension() *)
Variables (confSize extra : nat).
Variable configs : list (list R).
Variable step : R.

(** local variables of Interpolate, rbprm-path-interpolation.cc:238-262; [cit]: index in [configs]; [calls]: number
    of calls made; [states] with the last one apart *)
Record ist := mkIst {
  cit : nat;
  currentVal : R;
  older : list sframe;
  back : sframe;
  lastConfig : list R;
  lastIterator : nat;
  nbRecontacts : nat;
  repos : nat;
  allowFailure : bool;
  nbFailures : nat;
  acc : vec3;
  calls : nat
}.
Definition statesOf (x : ist) : list sframe := older x ++ [back x].
Definition initial (initValue : R) (start : PSt) : ist :=
  mkIst 1 initValue [] (initValue, start) (configuration start) 0 0 0 true 0 vzero 0.

(** rbprm-path-interpolation.cc:263-273: the acceleration read from the configuration; the direction computed is
    overwritten by (0,0,1) ([nonZero] is always false) *)
Definition readAcc (x : ist) (c : list R) : outcome vec3 :=
  let i := (confSize - extra + 3)%nat in
  if (i <? length c)%nat then
    if (i + 3 <=? length c)%nat then Ok (V3 (nth i c 0) (nth (i + 1) c 0) (nth (i + 2) c 0)) else Ub
  else if (3 <=? length (configuration (snd (back x))))%nat then Ok (acc x) else Ub.

Inductive turn := Continue (x : ist) | Abort (l : list sframe) | Undefined.

(** rbprm-path-interpolation.cc:260-397, one iteration *)
Definition iteration (x : ist) : turn :=
  match configs !! cit x with
  | None => Undefined
  | Some conf =>
    match loadPreviousConfiguration extra (lastConfig x) conf with
    | Ok c =>
      match readAcc x c with
      | Ok a =>
        let rep := compute (calls x) (snd (back x)) c (V3 0 0 1) a (currentVal x) in
        let same := crOk rep && crMaintained rep && negb (crCreated rep) in
        let failed := allowFailure x && (negb (crOk rep) || crMulti rep) in
        let fails := if failed then S (nbFailures x) else nbFailures x in
        let cit1 := if failed && (S (cit x) <? length configs)%nat then S (cit x) else cit x in
        let val1 := if failed then currentVal x + step else currentVal x in
        if failed && (1 <? fails)%nat then Abort (statesOf x)
        else
          let again := (crMulti rep && negb (allowFailure x)) || (negb (crMulti rep) && crRepos rep) in
          let rec := if again then S (nbRecontacts x) else O in
          let cit2 := if again then Nat.pred cit1 else cit1 in
          let val2 := if again then val1 - step else val1 in
          let reps := if crRepos rep then S (repos x) else repos x in
          if crRepos rep && (20 <? reps)%nat then Abort (statesOf x)
          else
            let cit3 := if crRepos rep then lastIterator x else cit2 in
            let val3 := if crRepos rep then fst (back x) else val2 in
            let ns := recount (crResult rep) in
            Continue (mkIst (S cit3) (val3 + step)
                        (if same then older x else older x ++ [back x])
                        (if same then back x else (val3, ns))
                        (configuration ns)
                        (if same then lastIterator x else cit3)
                        rec reps (rec <? 2)%nat fails a (S (calls x)))
      | Throw => Undefined
      | Ub => Undefined
      end
    | Throw => Undefined
    | Ub => Undefined
    end
  end.
(** rbprm-path-interpolation.cc:260-397, the loop: the states found, and whether it was cut short; [None]: more than [fuel]
    iterations *)
Fixpoint interpLoop (fuel : nat) (x : ist) : option (outcome (bool * list sframe)) :=
  if (length configs <=? cit x)%nat then Some (Ok (true, statesOf x))
  else
    match fuel with
    | O => None
    | S f =>
      match iteration x with
      | Continue y => interpLoop f y
      | Abort l => Some (Ok (false, l))
      | Undefined => Some Ub
      end
    end.
End interpolate.

Section whole.
Variable compute : nat -> PSt -> list R -> vec3 -> vec3 -> R -> creport.
Variables (confSize extra : nat).
Variable useReach : bool.
Variable reachable : PSt -> PSt -> bool.
Variable solve : projector -> list R -> bool * list R.
Variable axis : vec3 -> vec3 -> vec3.
Variable B : fullbody.
Variables (start goal : PSt).

(** rbprm-path-interpolation.cc:228-421; an empty list of configurations moves an iterator
    past the end *)
Definition InterpolateConfigs (fuel : nat) (pathEnd : option R) (configs : list (list R)) (step initValue : R)
  (filterStates : bool) : option (outcome (list sframe)) :=
  match configs with
  | [] => Some Ub
  | _ =>
    match interpLoop compute confSize extra configs step fuel (initial initValue start) with
    | Some (Ok (true, l)) =>
      if (1 <? length l)%nat then
        match fst (addGoalConfig solve B goal pathEnd l) with
        | Ok l' => FilterStates useReach reachable solve axis B fuel l' filterStates
        | o => Some o
        end
      else Some (Ok l)
    | Some (Ok (false, l)) => FilterStates useReach reachable solve axis B fuel l filterStates
    | Some Throw => Some Throw
    | Some Ub => Some Ub
    | None => None
    end
  end.
(** rbprm-path-interpolation.cc:66-90; [None] for the path: the exception of line 73 *)
Definition InterpolatePath (fuel : nat) (path : option ((R -> list R) * R * R)) (step : R) (filterStates : bool)
  : option (outcome (list sframe)) :=
  match path with
  | None => Some Throw
  | Some (p, t0, t1) =>
    match pathConfigs fuel extra p t0 t1 step (configuration start) with
    | Some (Ok configs) => InterpolateConfigs fuel (Some t1) configs step t0 filterStates
    | Some Throw => Some Throw
    | Some Ub => Some Ub
    | None => None
    end
  end.
End whole.
