(** C141-C147: trajectories of the end effector and the whole body paths that follow them
    (effector-rrt.cc, interpolation-constraints.cc). *)
From Coq Require Import Reals Lra Lia.
From Verif Require Import SampModel TrajModel.
From Verif Require Import Maps Vec StateModel StateSpec StateReal ProjModel ProjSpec InterModel InterSpec
  EffModel EffSpec EffProofs EffProofs2 EffProofs3 EffCurves ProjExamples InterExamples EffExamples.
From Verif Require Import StateModel.
Local Open Scope R_scope.

(** C141.  The effector that moves between two states is that of the first limb, in alphabetical
    order, with a contact of the second state that is new or has moved: undefined behaviour when
    there is none, an exception when the robot does not know the limb or its frame. *)
Theorem C141_limb (start next : PSt) n : getEffectorLimb start next = Ok n <-> moves_first start next n.
Proof. exact (limb_some start next n). Qed.
Theorem C141_no_limb (start next : PSt) : getEffectorLimb start next = Ub <-> forall n, ~ created moved3 start next n.
Proof. exact (limb_none start next). Qed.
Theorem C141_effector B (start next : PSt) en f :
  getEffector B start next = Ok (en, f) <-> exists n, moves_first start next n /\ effector_of B n en f.
Proof. exact (effector_ok B start next en f). Qed.
Theorem C141_effector_throws B (start next : PSt) :
  getEffector B start next = Throw <-> exists n, moves_first start next n /\ forall en f, ~ effector_of B n en f.
Proof. exact (effector_throw B start next). Qed.
Theorem C141_effector_undefined B (start next : PSt) :
  getEffector B start next = Ub <-> forall n, ~ created moved3 start next n.
Proof. exact (effector_ub B start next). Qed.
Theorem C141_normal (n : string) (s : PSt) :
  getNormal n s = (default (V3 0 0 1) (normals s !! n), bool_decide (is_Some (normals s !! n))).
Proof. exact (normal_found n s). Qed.
Print Assumptions C141_limb.
Print Assumptions C141_no_limb.
Print Assumptions C141_effector.
Print Assumptions C141_effector_throws.
Print Assumptions C141_effector_undefined.
Print Assumptions C141_normal.
Example C141_case : moves_first estate ffar "arm" /\ effector_of ebody "arm" "hand" ehand /\
  (forall en f, ~ effector_of fonly "arm" en f) /\ (forall n, ~ created moved3 estate estate n) /\
  normals fleg !! "arm"%string = None.
Proof.
  split; [apply fmoves; lra|]. split; [exact feffector|]. split; [exact fonly_unknown|]. split; [exact fstill|reflexivity].
Qed.

(** C143.  The height of the predefined parts. *)
Theorem C143_height p_max total : height_is p_max total (computePredefConstants p_max total (3 / 10)).
Proof. exact (height_at p_max total). Qed.
(** between 0.6 s and 4.2 s it is positive and at most the maximum asked; at most three times
    this maximum for a shorter motion; from 4.8 s on it is negative: the effector goes into the
    ground *)
Theorem C143_sign p_max total off : 0 < p_max -> height_is p_max total off ->
  (6/10 <= total <= 42/10 -> 0 < off <= p_max) /\ (total < 6/10 -> 0 < off <= 3 * p_max) /\ (48/10 <= total -> off < 0).
Proof. exact (height_facts p_max total off). Qed.
Print Assumptions C143_height.
Print Assumptions C143_sign.
Example C143_case : 0 < 3/100 /\ 6/10 <= 2 <= 42/10 /\ 48/10 <= 5.
Proof. lra. Qed.

Section P.
Variable ff : device.
Variable pd0 : pdata.
Variables junkV junkA : R.
Variables predefInit predefGoal : pdata -> R -> list vec3.
Variable bezierOf : list vec3 -> R -> bezier.
Variable deriv : bezier -> nat -> R -> vec3.
Variable fit : nat -> pdata -> (R -> vec3) -> R -> R -> option bezier.
(** paths: length, last configuration, evaluation; robot; quaternion of a rotation; the vector
    that is never initialised *)
Variable P : Type.
Variable plen : P -> R.
Variable pend : P -> list R.
Variable pat : P -> R -> list R.
Variable B : fullbody.
Variable quatOf : mat3 -> quat.
Variable junkT : vec3.
Notation Good := (good_curves predefInit predefGoal bezierOf deriv fit).
Notation EndEff := (endEffectorPath P plen pend pat B junkT).
Notation Generate := (generateEndEffectorBezier ff pd0 junkV junkA predefInit predefGoal bezierOf deriv fit P plen pend pat B quatOf junkT).
Notation FitBez := (fitBeziersToPath ff pd0 junkV junkA predefInit predefGoal bezierOf deriv fit P plen pend pat B quatOf junkT).
Notation pos s f := (tra (fpose (dev B) (configuration s) f)).
Notation ori s f := (quatOf (rot (fpose (dev B) (configuration s) f))).

(** C142.  The position of the effector along a whole body path, at the fraction [u] of the
    duration: that of the frame at the first multiple of 0.01 at which the last coordinate
    reaches this fraction of its last value, else at the end; from the uninitialised vector,
    plus the offset. *)
Theorem C142_position f p off u : exists i,
  first_index (fun c => List.last (pat p c) 0) (plen p) (u * List.last (pend p) 0) i /\
  EndEff f p off u = vadd (vsub (tra (fpose (dev B) (pat p i) f)) junkT) off.
Proof. exact (end_effector P plen pend pat B junkT f p off u). Qed.
Theorem C142_unique at_ len t i j : 0 < len -> first_index at_ len t i -> first_index at_ len t j -> i = j.
Proof. exact (index_unique at_ len t i j). Qed.

(** C144.  The trajectory generated between two states: a take off of 0.3 s along the normal of
    the first contact, the first fit, and a landing of 0.3 s along the normal of the second one,
    from rest to rest, without any jump; kept among the paths, and for the effector under the
    number of this path unless something is kept there.  A null pointer and no effect when the
    fit fails. *)
Theorem C144_generate com start next w n en f : Good -> free_flyer ff -> 7/10 < plen com -> moves_first start next n -> effector_of B n en f ->
  exists data,
    match fit 1 data (EndEff f com vzero) (plen com - 7/10) 0 with
    | None => Generate com start next w = Ok (None, w)
    | Some z => exists off a b c w', Generate com start next w = Ok (Some [a; b; c], w') /\ bp_curve b = z /\
        height_is (if bool_decide (n = "hrp2_rleg_rom" \/ n = "hrp2_lleg_rom") then 3/100 else 5/100) (plen com - 1/10) off /\
        swing ff deriv off (plen com - 7/10) (default (V3 0 0 1) (normals start !! n)) (default (V3 0 0 1) (normals next !! n))
          (pos start f) (ori start f) (pos next f) (ori next f) a b c /\
        paths P w' = paths P w ++ [[PBez P a; PBez P b; PBez P c]] /\
        kept_once (stored P w) (stored P w') (length (paths P w)) en [bp_curve a; bp_curve b; bp_curve c]
    end.
Proof. exact (generate_ok ff pd0 junkV junkA predefInit predefGoal bezierOf deriv fit P plen pend pat B quatOf junkT com start next w n en f). Qed.
Theorem C144_unknown com start next w n : moves_first start next n -> (forall en f, ~ effector_of B n en f) ->
  Generate com start next w = Throw.
Proof. exact (generate_unknown ff pd0 junkV junkA predefInit predefGoal bezierOf deriv fit P plen pend pat B quatOf junkT com start next w n). Qed.
Theorem C144_undefined com start next w : (forall n, ~ created moved3 start next n) -> Generate com start next w = Ub.
Proof. exact (generate_none ff pd0 junkV junkA predefInit predefGoal bezierOf deriv fit P plen pend pat B quatOf junkT com start next w). Qed.
(** with a constructor that takes the duration for the first time of the curve the call throws *)
Theorem C144_first_time com start next w : (forall pts T, bz_min (bezierOf pts T) = T) -> (exists n, created moved3 start next n) ->
  Generate com start next w = Throw.
Proof. exact (generate_ndcurves ff pd0 junkV junkA predefInit predefGoal bezierOf deriv fit P plen pend pat B quatOf junkT com start next w). Qed.

(** C145.  Nineteen candidates, in the order of the table [fits_tried]: the same take off and
    landing and the fit, or the whole body path when the fit fails; an exception when one of the
    two normals is not known. *)
Theorem C145_candidates f len whole start next n n0 n1 : Good -> free_flyer ff -> 7/10 < len -> moves_first start next n ->
  normals start !! n = Some n0 -> normals next !! n = Some n1 ->
  exists off a c data cands, height_is (3/100) (len - 1/10) off /\ FitBez f len whole start next = Ok cands /\ length cands = 19%nat /\
    forall i vars wt, fits_tried !! i = Some (vars, wt) ->
      match fit vars data (EndEff f whole vzero) (len - 7/10) wt with
      | None => cands !! i = Some [PWhole P whole]
      | Some z => exists b, cands !! i = Some [PBez P a; PBez P b; PBez P c] /\ bp_curve b = z /\
          swing ff deriv off (len - 7/10) n0 n1 (pos start f) (ori start f) (pos next f) (ori next f) a b c
      end.
Proof. exact (fit_ok ff pd0 junkV junkA predefInit predefGoal bezierOf deriv fit P plen pend pat B quatOf junkT f len whole start next n n0 n1). Qed.
Theorem C145_throws f len whole start next n : moves_first start next n -> normals start !! n = None \/ normals next !! n = None ->
  FitBez f len whole start next = Throw.
Proof. exact (fit_throw ff pd0 junkV junkA predefInit predefGoal bezierOf deriv fit P plen pend pat B quatOf junkT f len whole start next n). Qed.

(** elements of the planner's paths, current configuration, planner, optimizers; a path vector as
    a path, the path made of the planner's pieces, the path without its last coordinate, the
    known joints *)
Variable E : Type.
Variable cur : list R.
Variable solve : nat -> nat -> rrtProblem P -> solveResult E.
Variables randomShortcut partialShortcut : nat -> nat -> nat -> rrtProblem P -> list E -> outcome (list E).
Variable asPath : list (vpart P) -> P.
Variable wholeOf : list (piece E) -> P.
Variable reduce : P -> P.
Variable hasJoint : string -> bool.
Notation With := (effectorRRTWithPath ff pd0 junkV junkA predefInit predefGoal bezierOf deriv fit P plen pend pat B quatOf junkT E cur solve randomShortcut partialShortcut asPath wholeOf reduce hasJoint).
Notation From := (effectorRRTFromPath ff pd0 junkV junkA predefInit predefGoal bezierOf deriv fit P plen pend pat B quatOf junkT E cur solve randomShortcut partialShortcut asPath wholeOf reduce hasJoint).
Notation Eff := (effectorRRT ff pd0 junkV junkA predefInit predefGoal bezierOf deriv fit P plen pend pat B quatOf junkT E cur solve randomShortcut partialShortcut asPath wholeOf reduce hasJoint).
Notation Com := (comRRT P E B cur solve randomShortcut partialShortcut).
Notation Followed := (followed P E B junkT solve randomShortcut partialShortcut).

(** C146.  When a path is returned, it is the one the planner found along the first candidate
    (one variable, the planner's path not weighted): none of the others is ever used; the
    trajectory is kept under the number of the path that follows its own. *)
Theorem C146_followed com range extract whole start next keep full constrained locked fuel sched w p w' :
  Good -> free_flyer ff -> 7/10 < plen com ->
  S (length (configuration start)) = length cur -> S (length (configuration next)) = length cur -> fair 1 sched ->
  With com range extract whole start next keep full constrained locked fuel sched w = Some (FPath P p w') ->
  exists n en f n0 n1 off a b c l, moves_first start next n /\ effector_of B n en f /\ normals start !! n = Some n0 /\ normals next !! n = Some n1 /\
    height_is (3/100) (plen com - 1/10) off /\
    swing ff deriv off (plen com - 7/10) n0 n1 (pos start f) (ori start f) (pos next f) (ori next f) a b c /\
    (exists data, fit 1 data (EndEff f whole vzero) (plen com - 7/10) 0 = Some (bp_curve b)) /\
    Followed com (asPath [PBez P a; PBez P b; PBez P c]) (reduce whole) full f constrained start next keep l /\
    p = wholeOf l /\ paths P w' = paths P w ++ [[PBez P a; PBez P b; PBez P c]] /\
    kept_once (stored P w) (stored P w') (S (length (paths P w))) en [bp_curve a; bp_curve b; bp_curve c].
Proof. exact (with_path ff pd0 junkV junkA predefInit predefGoal bezierOf deriv fit P plen pend pat B quatOf junkT E cur solve randomShortcut partialShortcut asPath wholeOf reduce hasJoint com range extract whole start next keep full constrained locked fuel sched w p w'). Qed.
(** no path at all when this fit fails, even if others succeed *)
Theorem C146_no_fit com range extract whole start next keep full constrained locked fuel sched w p w' :
  Good -> free_flyer ff -> 7/10 < plen com ->
  S (length (configuration start)) = length cur -> S (length (configuration next)) = length cur -> fair 1 sched ->
  (forall d eff, fit 1 d eff (plen com - 7/10) 0 = None) ->
  With com range extract whole start next keep full constrained locked fuel sched w <> Some (FPath P p w').
Proof. exact (with_no_fit ff pd0 junkV junkA predefInit predefGoal bezierOf deriv fit P plen pend pat B quatOf junkT E cur solve randomShortcut partialShortcut asPath wholeOf reduce hasJoint com range extract whole start next keep full constrained locked fuel sched w p w'). Qed.
Theorem C146_runs com range extract whole start next keep full constrained locked fuel sched w n en f n0 n1 :
  Good -> free_flyer ff -> 7/10 < plen com -> moves_first start next n -> effector_of B n en f ->
  normals start !! n = Some n0 -> normals next !! n = Some n1 ->
  Forall (fun n => hasJoint n = true) constrained -> Forall (fun n => hasJoint n = true) locked ->
  (forall d, exists z, fit 1 d (EndEff f whole vzero) (plen com - 7/10) 0 = Some z) ->
  (forall v, exists l, interpolate P E B cur solve randomShortcut partialShortcut (EffectorShooter P (reduce whole))
     (setEffectorConstraints P B junkT com (asPath v) full f constrained) (1 / 1000) 500 1 snd (fromPath P extract) keep
     [(fst range, start); (snd range, next)] fuel sched = Some (IPath E l)) ->
  exists p w', With com range extract whole start next keep full constrained locked fuel sched w = Some (FPath P p w').
Proof. exact (with_runs ff pd0 junkV junkA predefInit predefGoal bezierOf deriv fit P plen pend pat B quatOf junkT E cur solve randomShortcut partialShortcut asPath wholeOf reduce hasJoint com range extract whole start next keep full constrained locked fuel sched w n en f n0 n1). Qed.
Theorem C146_throws com range extract whole start next keep full constrained locked fuel sched w :
  (exists n, moves_first start next n /\ ((forall en f, ~ effector_of B n en f) \/ normals start !! n = None \/ normals next !! n = None)) ->
  With com range extract whole start next keep full constrained locked fuel sched w = Some (FThrow P w).
Proof. exact (with_throw ff pd0 junkV junkA predefInit predefGoal bezierOf deriv fit P plen pend pat B quatOf junkT E cur solve randomShortcut partialShortcut asPath wholeOf reduce hasJoint com range extract whole start next keep full constrained locked fuel sched w). Qed.
(** the names of the locked joints are looked up and then ignored; no path with an unknown one *)
Theorem C146_locked com range extract whole start next keep full constrained locked locked' fuel sched w :
  Forall (fun n => hasJoint n = true) constrained -> Forall (fun n => hasJoint n = true) locked -> Forall (fun n => hasJoint n = true) locked' ->
  With com range extract whole start next keep full constrained locked fuel sched w =
  With com range extract whole start next keep full constrained locked' fuel sched w.
Proof. exact (locked_ignored ff pd0 junkV junkA predefInit predefGoal bezierOf deriv fit P plen pend pat B quatOf junkT E cur solve randomShortcut partialShortcut asPath wholeOf reduce hasJoint com range extract whole start next keep full constrained locked locked' fuel sched w). Qed.
Theorem C146_unknown_joint com range extract whole start next keep full constrained locked fuel sched w n :
  n ∈ constrained ++ locked -> hasJoint n = false ->
  forall p w', With com range extract whole start next keep full constrained locked fuel sched w <> Some (FPath P p w').
Proof. exact (unknown_joint ff pd0 junkV junkA predefInit predefGoal bezierOf deriv fit P plen pend pat B quatOf junkT E cur solve randomShortcut partialShortcut asPath wholeOf reduce hasJoint com range extract whole start next keep full constrained locked fuel sched w n). Qed.

(** C147.  effectorRRT: the path of comRRT is kept, and returned when no contact moves by 3 cm or
    more; else the whole body path along the trajectory of the effector, with this path as guide. *)
Theorem C147_from_path steer free com range extract start next numOpt keep full constrained locked fuel1 fuel2 fuel sched1 sched2 sched w l :
  Com steer free wholeOf range extract start next numOpt true fuel1 fuel2 sched1 sched2 = Some (IPath E l) ->
  (effectorDistance start next < 3/100 ->
   From steer free com range extract start next numOpt keep full constrained locked fuel1 fuel2 fuel sched1 sched2 sched w =
   Some (FPath P (wholeOf l) (SST P (paths P w ++ [[PWhole P (wholeOf l)]]) (stored P w)))) /\
  (3/100 <= effectorDistance start next ->
   From steer free com range extract start next numOpt keep full constrained locked fuel1 fuel2 fuel sched1 sched2 sched w =
   With com range extract (wholeOf l) start next keep full constrained locked fuel sched (SST P (paths P w ++ [[PWhole P (wholeOf l)]]) (stored P w))).
Proof. exact (from_path ff pd0 junkV junkA predefInit predefGoal bezierOf deriv fit P plen pend pat B quatOf junkT E cur solve randomShortcut partialShortcut asPath wholeOf reduce hasJoint steer free com range extract start next numOpt keep full constrained locked fuel1 fuel2 fuel sched1 sched2 sched w l). Qed.
(** without a reference path the constrained joints are ignored as well: in effectorRRT always *)
Theorem C147_ignored com range extract whole start next keep constrained constrained' locked locked' fuel sched w :
  Forall (fun n => hasJoint n = true) constrained -> Forall (fun n => hasJoint n = true) constrained' ->
  Forall (fun n => hasJoint n = true) locked -> Forall (fun n => hasJoint n = true) locked' ->
  With com range extract whole start next keep None constrained locked fuel sched w =
  With com range extract whole start next keep None constrained' locked' fuel sched w.
Proof. exact (constrained_ignored ff pd0 junkV junkA predefInit predefGoal bezierOf deriv fit P plen pend pat B quatOf junkT E cur solve randomShortcut partialShortcut asPath wholeOf reduce hasJoint com range extract whole start next keep constrained constrained' locked locked' fuel sched w). Qed.
Theorem C147_effectorRRT steer free com range extract start next numOpt keep constrained constrained' locked locked' fuel1 fuel2 fuel sched1 sched2 sched w :
  Forall (fun n => hasJoint n = true) constrained -> Forall (fun n => hasJoint n = true) constrained' ->
  Forall (fun n => hasJoint n = true) locked -> Forall (fun n => hasJoint n = true) locked' ->
  Eff steer free com range extract start next numOpt keep constrained locked fuel1 fuel2 fuel sched1 sched2 sched w =
  Eff steer free com range extract start next numOpt keep constrained' locked' fuel1 fuel2 fuel sched1 sched2 sched w.
Proof. exact (effector_ignored ff pd0 junkV junkA predefInit predefGoal bezierOf deriv fit P plen pend pat B quatOf junkT E cur solve randomShortcut partialShortcut asPath wholeOf reduce hasJoint steer free com range extract start next numOpt keep constrained constrained' locked locked' fuel1 fuel2 fuel sched1 sched2 sched w). Qed.
End P.
Print Assumptions C142_position.
Print Assumptions C142_unique.
Print Assumptions C144_generate.
Print Assumptions C144_unknown.
Print Assumptions C144_undefined.
Print Assumptions C144_first_time.
Print Assumptions C145_candidates.
Print Assumptions C145_throws.
Print Assumptions C146_followed.
Print Assumptions C146_no_fit.
Print Assumptions C146_runs.
Print Assumptions C146_throws.
Print Assumptions C146_locked.
Print Assumptions C146_unknown_joint.
Print Assumptions C147_from_path.
Print Assumptions C147_ignored.
Print Assumptions C147_effectorRRT.

(** a path of duration 2 along which the last coordinate goes from 0 to 1: half of it is
    reached at time 1 *)
Example C142_case : first_index (fun c => List.last (fpat tt c) 0) (fplen tt) (1/2 * List.last (fpend tt) 0) 1 /\ 0 < fplen tt.
Proof. split; [exact fhalf|unfold fplen; lra]. Qed.
(** curves of degree 7 with the derivatives of analysis *)
Example C144_case : good_curves epoints epoints ebezier ederiv efit /\ free_flyer fff /\ 7/10 < fplen tt /\
  moves_first estate ffar "arm" /\ effector_of ebody "arm" "hand" ehand /\ (forall d eff T, exists z, efit 1 d eff T 0 = Some z) /\
  good_curves epoints epoints ebezier ederiv nfit /\ (forall d eff T, nfit 1 d eff T 0 = None).
Proof.
  split; [exact ecurves_good|]. split; [exact fflyer|]. split; [unfold fplen; lra|]. split; [apply fmoves; lra|]. split; [exact feffector|].
  split; [exact efit_first|]. split; [exact nfit_good|reflexivity].
Qed.
Example C144_first_time_case : (forall pts T, bz_min (nbezier pts T) = T) /\ created moved3 estate ffar "arm".
Proof. split; [reflexivity|]. apply (fcreated (1/2)). lra. Qed.
Example C145_case : normals estate !! "arm"%string = Some (V3 0 0 1) /\ normals ffar !! "arm"%string = Some (V3 0 1 0) /\
  moves_first fleg ffar "arm" /\ normals fleg !! "arm"%string = None.
Proof. split; [reflexivity|]. split; [reflexivity|exact fleg_moves]. Qed.
(** a path is returned, with and without reference path *)
Example C146_case keep full : fair 1 ione /\ S (length (configuration estate)) = length icur /\ S (length (configuration ffar)) = length icur /\
  exists p w', fWith tt (0, 2) iextract tt estate ffar keep full ["hand"]%string ["hip"]%string 1 ione fstart = Some (FPath unit p w').
Proof. split; [exact ione_fair|]. split; [reflexivity|]. split; [reflexivity|exact (ex_with keep full)]. Qed.
Example C146_joints_case : Forall (fun n => fhas n = true) ["hand"; "hip"]%string /\ fhas "elbow" = false.
Proof. split; [repeat constructor|reflexivity]. Qed.
Example C147_case : effectorDistance estate fnear < 3/100 /\ 3/100 <= effectorDistance estate ffar /\
  (exists l, comRRT unit iE ebody icur fsolve ishort ishort isteer ifree (fun _ => tt) (0, 2) iextract estate fnear 1 true 1 1 ione ione = Some (IPath iE l)) /\
  (exists l, comRRT unit iE ebody icur fsolve ishort ishort isteer ifree (fun _ => tt) (0, 2) iextract estate ffar 1 true 1 1 ione ione = Some (IPath iE l)).
Proof.
  unfold fnear, ffar. rewrite !feffdist by lra. split; [lra|]. split; [lra|]. split; apply ex_com; lra.
Qed.
