(** Model of the reference configuration of a full body and of what the limbs keep of it
    (src/rbprm-fullbody.cc:125-174, 310-342, src/rbprm-limb.cc:77-147): histories of creations of limbs
    and changes of the reference configuration.  Exact reals. *)
From Coq Require Import Reals ZArith.
From Verif Require Import ToolModel ProjModel.
From Verif Require Export Maps Vec LimbModel.
Local Open Scope R_scope.

(** what a limb keeps (rbprm-limb.hh:122-140): the placement of its effector at a configuration,
    offset_, normal_ and effectorReferencePosition_ *)
Record rlimb := mkRlimb { l_eff : list R -> se3; l_offset : vec3; l_normal : vec3; l_ref : vec3 }.
(** limbs_, nonContactingLimbs_, reference_ and the robot (rbprm-fullbody.hh:187-200) *)
Record rbody := mkRbody { r_limbs : gmap string rlimb; r_non : gmap string rlimb; r_reference : list R; r_dev : device }.

(** what a user does.  [fails]: Some d when the creation of the limb throws (heuristic, joint or
    effector not found, file not readable), the robot left as [d]; [RMove]: any other use of the
    robot (used at rbprm-fullbody.cc:142-174, 310) *)
Inductive rop :=
| RAdd (id : string) (eff : list R -> se3) (offset normal : vec3) (fails : option device)
| RAddNon (id : string) (eff : list R -> se3) (fails : option device)
| RRef (q : list R)
| RMove (d : device).

Section body.
(** device_->neutralConfiguration() *)
Variable neutral : list R.

(** RbPrmLimb::create (rbprm-limb.cc:108-147), the samples aside *)
Definition newLimb (eff : list R -> se3) (offset normal : vec3) (d : device) : outcome (rlimb * device) :=
  match createLimb eff neutral (fun _ => Ok []) offset normal d with
  | Ok (_, o, n, _, p, d') => Ok (mkRlimb eff o n p, d')
  | Throw => Throw
  | Ub => Ub
  end.

(** rbprm-fullbody.cc:313-320, 337-339: the root of [q] in the world, and a point seen from it.
    Less than 7 entries is an Eigen assertion *)
Definition fromRoot (q : list R) (x : vec3) : outcome vec3 :=
  match q with
  | px :: py :: pz :: x0 :: y0 :: z0 :: w0 :: _ =>
    Ok (mapp (mtr (toRotationMatrix (w0, V3 x0 y0 z0))) (vsub x (V3 px py pz)))
  | _ => Ub
  end.
(** rbprm-fullbody.cc:328-340: one limb *)
Definition refresh (q : list R) (l : rlimb) : outcome rlimb :=
  match fromRoot q (tra (l_eff l q)) with
  | Ok p => Ok (mkRlimb (l_eff l) (l_offset l) (l_normal l) p)
  | Throw => Throw
  | Ub => Ub
  end.
(** rbprm-fullbody.cc:310-342: the robot is left at [q]; the limbs without contact are not
    changed *)
Definition referenceConfig (q : list R) (b : rbody) : outcome rbody :=
  if (length q <? 7)%nat then Ub
  else Ok (mkRbody ((fun l => match refresh q l with Ok l' => l' | _ => l end) <$> r_limbs b) (r_non b) q (mkDevice q q)).

(** rbprm-fullbody.cc:142-174 with checkLimbData (125-140), and the above: whether it throws and
    the body afterwards *)
Definition step (o : rop) (b : rbody) : outcome (bool * rbody) :=
  match o with
  | RAdd id eff offset normal fails =>
    if has id (r_limbs b) then Ok (true, b)
    else match fails with
    | Some d => Ok (true, mkRbody (r_limbs b) (r_non b) (r_reference b) d)
    | None =>
      match newLimb eff offset normal (r_dev b) with
      | Ok (l, d) => Ok (false, mkRbody (<[id := l]> (r_limbs b)) (r_non b) (r_reference b) d)
      | Throw => Throw
      | Ub => Ub
      end
    end
  | RAddNon id eff fails =>
    if has id (r_non b) then Ok (true, b)
    else match fails with
    | Some d => Ok (true, mkRbody (r_limbs b) (r_non b) (r_reference b) d)
    | None =>
      match newLimb eff vzero (V3 0 0 1) (r_dev b) with
      | Ok (l, d) => Ok (false, mkRbody (r_limbs b) (<[id := l]> (r_non b)) (r_reference b) d)
      | Throw => Throw
      | Ub => Ub
      end
    end
  | RRef q => match referenceConfig q b with Ok b' => Ok (false, b') | Throw => Throw | Ub => Ub end
  | RMove d => Ok (false, mkRbody (r_limbs b) (r_non b) (r_reference b) d)
  end.
(** a history, after the construction of the body (rbprm-fullbody.cc:353-365) on a robot in
    state [d0] *)
Fixpoint run (h : list rop) (b : rbody) : outcome rbody :=
  match h with
  | [] => Ok b
  | o :: h' => match step o b with Ok (_, b') => run h' b' | Throw => Throw | Ub => Ub end
  end.
Definition history (d0 : device) (h : list rop) : outcome rbody := run h (mkRbody ∅ ∅ neutral d0).
End body.
