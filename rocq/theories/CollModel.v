(** Model of the collision tests left for the interpolation between two contact states:
    DisableUnNecessaryCollisions and its call in TimeConstraintHelper::Run
    (include/hpp/rbprm/interpolation/time-constraint-helper.inl).  The pairs (joint, obstacle) tested are a
    set, as in ToolModel.v: the problem's path and configuration validations are not
    distinguished. *)
From Verif Require Import Vec StateModel StateReal.
From Verif Require Export Maps ToolModel.

(** what is read of a limb (rbprm-limb.hh:122-145): the name of its first joint, of its effector's
    frame, disableEndEffectorCollision_ *)
Record climb := CL { cl_joint : string; cl_eff : string; cl_disable : bool }.

(** Device::getJointByName, which throws ([None]) when there is none (called at
    time-constraint-helper.inl:113) *)
Fixpoint jointByName (n : string) (j : jnt) : option jnt :=
  match j with
  | Jnt m _ _ _ kids =>
    if bool_decide (m = n) then Some j
    else fold_right (fun k r => match jointByName n k with Some x => Some x | None => r end) None kids
  end.

(** time-constraint-helper.inl:106-118, the loop over the limbs that move: the names of their first joints
    and the pairs left *)
Fixpoint freeEffectorsOf (root : jnt) (os : list string) (limbs : gmap string climb) (variations : list string) (S : pairs)
  : outcome (list string * pairs) :=
  match variations with
  | [] => Ok ([], S)
  | v :: vs =>
    match limbs !! v with
    | None => Throw
    | Some l =>
      let step S' := match freeEffectorsOf root os limbs vs S' with
                     | Ok (ks, S'') => Ok (cl_joint l :: ks, S'')
                     | Throw => Throw
                     | Ub => Ub
                     end in
      if cl_disable l then
        match jointByName (cl_eff l) root with
        | Some e => step (RemoveEffectorCollision os e S)
        | None => Throw
        end
      else step S
    end
  end.
(** time-constraint-helper.inl:103-123 *)
Definition disableUnnecessary (root : jnt) (os : list string) (limbs : gmap string climb) (variations : list string) (S : pairs) : outcome pairs :=
  match freeEffectorsOf root os limbs variations S with
  | Ok (ks, S') => Ok (RemoveNonLimbCollisionRec ks os root S')
  | Throw => Throw
  | Ub => Ub
  end.
(** time-constraint-helper.inl:138-145: the pairs tested between [from] and [to] *)
Definition testedBetween {Cfg Rot Rob} (root : jnt) (os : list string) (limbs : gmap string climb)
  (from to : State Cfg vec3 Rot Rob) (S : pairs) : outcome pairs :=
  match allVariations moved3 to from (skeys limbs) with
  | [] => Ok S
  | vs => disableUnnecessary root os limbs vs S
  end.
