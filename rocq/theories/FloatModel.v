(** The loops that step through a range of times, with the additions rounded: [rnd] is the
    rounding of the processor.  The same functions with exact additions are sampleFrom
    (SeqModel.v) and forwardLoop, reverseLoop (ValidModel.v). *)
From Coq Require Import Reals.
From Verif Require Import Maps Vec StateModel ValidModel SeqModel ShootModel.
Local Open Scope R_scope.

Section rounded.
Variable rnd : R -> R.
(** rbprm-path-interpolation.cc:79-88; as sampleFrom, the addition of line 81 rounded *)
Fixpoint sampleFromR (fuel : nat) (extra : nat) (path : R -> list R) (t1 step i : R) (back : list R)
  : option (outcome (list (list R))) :=
  match fuel with
  | O => None
  | S f =>
    if Rltb i t1 then
      match configPosition extra back (path (Rmin i t1)) with
      | Ok c =>
        match sampleFromR f extra path t1 step (rnd (i + step)) c with
        | Some (Ok l) => Some (Ok (c :: l))
        | o => o
        end
      | Throw => Some Throw
      | Ub => Some Ub
      end
    else
      match configPosition extra back (path (Rmin t1 t1)) with
      | Ok c => Some (Ok [c])
      | Throw => Some Throw
      | Ub => Some Ub
      end
  end.
(** rbprm-path-interpolation.cc:75-88 *)
Definition pathConfigsR (fuel extra : nat) (path : R -> list R) (t0 t1 step : R) (start : list R)
  : option (outcome (list (list R))) :=
  match sampleFromR fuel extra path t1 step (rnd (t0 + step)) start with
  | Some (Ok l) => Some (Ok (start :: l))
  | o => o
  end.

(** rbprm-path-validation.cc:86-113 and dynamic-path-validation.cc:105-138, the loop; the
    addition rounded.  The part to extract and the time of the report, as in forwardLoop *)
Fixpoint forwardLoopR (ok : R -> bool) (step tmin tmax : R) (fuel finished : nat) (t last : R)
  : option (bool * option (R * R) * option R) :=
  match fuel with
  | O => None
  | S f =>
    if (finished <? 2)%nat then
      if ok t then
        let t' := rnd (t + step) in
        if Rltb tmax t' then forwardLoopR ok step tmin tmax f (S finished) tmax t
        else forwardLoopR ok step tmin tmax f finished t' t
      else Some (false, Some (tmin, last), Some t)
    else Some (true, None, None)
  end.
(** rbprm-path-validation.cc:56-84 and dynamic-path-validation.cc:71-104 *)
Fixpoint reverseLoopR (ok : R -> bool) (step tmin tmax : R) (fuel finished : nat) (t last : R)
  : option (bool * option (R * R) * option R) :=
  match fuel with
  | O => None
  | S f =>
    if (finished <? 2)%nat then
      if ok t then
        let t' := rnd (t - step) in
        if Rltb t' tmin then reverseLoopR ok step tmin tmax f (S finished) tmin t
        else reverseLoopR ok step tmin tmax f finished t' t
      else Some (false, Some (last, tmax), Some t)
    else Some (true, None, None)
  end.
(** rbprm-path-validation.cc:49-115; None: not finished in [fuel] iterations *)
Definition validatePathR (ok : R -> bool) (step tmin tmax : R) (reverse : bool) (fuel : nat)
  : option (bool * option (R * R) * option R) :=
  if reverse then reverseLoopR ok step tmin tmax fuel 0 tmax tmax
  else forwardLoopR ok step tmin tmax fuel 0 tmin tmin.
End rounded.

(** * The weights of the triangles of the shooter *)
Section weights.
Variable rnd : R -> R.
(** rbprm-shooter.cc:318 and 335: the sum of the areas *)
Definition sumR (areas : list R) : R := fold_left (fun s a => rnd (s + a)) areas 0.
(** rbprm-shooter.cc:342-349 *)
Fixpoint cumulateR (previous sum : R) (l : list R) : list R :=
  match l with
  | [] => []
  | w :: l' => let p := rnd (previous + rnd (w / sum)) in p :: cumulateR p sum l'
  end.
(** rbprm-shooter.cc:317-351; None: the weights are NaN *)
Definition weightsR (areas : list R) : option (list R) :=
  if Reqb (sumR areas) 0 then None else Some (cumulateR 0 (sumR areas) areas).
(** rbprm-shooter.cc:358-366, the index of the triangle; [areas] are those of the triangles, computed before *)
Definition weightedIndexR (areas : list R) (r : R) : outcome nat :=
  let last := if (length areas =? 0)%nat then Ub else Ok (length areas - 1)%nat in
  match weightsR areas with
  | Some ws => match firstAtLeast r ws 0 with Some i => Ok i | None => last end
  | None => last
  end.
End weights.

(** * Looking for a time along a whole body path *)
Section look.
Variable rnd : R -> R.
(** effector-rrt.cc:1021-1032; as lookTime (EffModel.v), the addition of line 1031 rounded.  None: not
    finished in [fuel] iterations; Some None: no time is late enough *)
Fixpoint lookTimeR (at_ : R -> R) (len t step : R) (fuel : nat) (c : R) : option (option R) :=
  match fuel with
  | O => None
  | S f =>
    if Rltb c len then (if Rleb t (at_ c) then Some (Some c) else lookTimeR at_ len t step f (rnd (c + step)))
    else Some None
  end.
(** the double nearest to 0.01 (effector-rrt.cc:1031) *)
Definition hundredth : R := IZR 5764607523034235 * powerRZ 2 (-59).
(** effector-rrt.cc:1020-1037: the index at which the effector is read *)
Definition timeIndexR (at_ : R -> R) (len t : R) (fuel : nat) : option R :=
  match lookTimeR at_ len t hundredth fuel 0 with
  | Some (Some c) => Some c
  | Some None => Some len
  | None => None
  end.
End look.
