(** The best state of a repositioning (rbprm-path-interpolation.cc:447-480). *)
From Coq Require Import Reals ZArith.
From Verif Require Import Maps Vec CombModel StateModel SampModel ToolModel ToolSpec ProjModel SeqModel.
From Verif Require Import StateModel ToolSpec ProjModel.
Local Open Scope R_scope.

(** a score, a double: [None] is a score that is not above -infinity (-infinity, or not a number); sums with
    it are such scores again.  Left out: +infinity *)
Definition sadd (a b : option R) : option R := match a, b with Some x, Some y => Some (x + y) | _, _ => None end.
(** rbprm-path-interpolation.cc:465,472: currentScore > bestScore *)
Definition above_score (a b : option R) : bool :=
  match a, b with Some x, Some y => Rltb y x | Some _, None => true | None, _ => false end.
(** head<3>() of a configuration; shorter ones are undefined *)
Definition root3 (q : list R) : option vec3 := match q with x :: y :: z :: _ => Some (V3 x y z) | _ => None end.

Section best.
Variable B : fullbody.
(** [evaluate l q d n]: sampling::Sample of the limb in the configuration, rbprm-limb.hh: evaluate_ of it.
    Left out: what the heuristics compute (HeurModel) *)
Variable evaluate : plimb -> list R -> vec3 -> vec3 -> option R.
(** rbprm-path-interpolation.cc:459-470, the limbs: at() throws *)
Fixpoint scoreOf (d : vec3) (s : PSt) (limbs : list string) (current : option R) : outcome (option R) :=
  match limbs with
  | [] => Ok current
  | l :: limbs' =>
    match limbsOf B !! l with
    | None => Throw
    | Some lb =>
      match normals s !! l with
      | None => Throw
      | Some n => scoreOf d s limbs' (sadd current (evaluate lb (configuration s) d n))
      end
    end
  end.
(** rbprm-path-interpolation.cc:457-476, the candidates *)
Fixpoint bestLoop (d : vec3) (limbs : list string) (candidates : list sframe) (best : sframe) (score : option R) : outcome sframe :=
  match candidates with
  | [] => Ok best
  | c :: cs =>
    match scoreOf d (snd c) limbs (Some 0) with
    | Ok v => if above_score v score then bestLoop d limbs cs c v else bestLoop d limbs cs best score
    | Throw => Throw
    | Ub => Ub
    end
  end.
(** rbprm-path-interpolation.cc:447-480 *)
Definition findBestRepositionState (candidates : list sframe) (limbs : list string) : outcome sframe :=
  match head candidates, last candidates with
  | Some f, Some b =>
    match root3 (configuration (snd b)), root3 (configuration (snd f)) with
    | Some pb, Some pf => bestLoop (vsub pb pf) limbs candidates b None
    | _, _ => Ub
    end
  | _, _ => Ub
  end.
End best.
