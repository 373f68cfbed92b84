(** C166: the reference configuration of a full body and what the limbs keep of it
    (rbprm-fullbody.cc:310-342, rbprm-limb.cc:77-147). *)
From Coq Require Import Reals Lra Lia.
From Verif Require Import Maps Vec VecProofs ProjModel ProjSpec LimbModel LimbSpec LimbExamples RefModel RefSpec RefProofs.
Local Open Scope R_scope.

(** C166.  After any history, the reference configuration is the last one given, the neutral one
    if none was.  A limb in contact keeps the position of its effector in the root's frame, at the
    last reference configuration given since the limb was created, the neutral one if none was:
    reference configurations given before do not count.  A limb without contact keeps the one at the
    neutral configuration, whatever is given.  Offset and normal are turned by the inverse of the
    rotation that the effector has when the limb is created, at the configuration the placements
    were last computed at. *)
Theorem C166_history neutral d0 h b : root_ok neutral -> refs_ok h -> history neutral d0 h = Ok b ->
  r_reference b = last_given neutral h /\
  (forall id, is_Some (r_limbs b !! id) <-> has_added id h) /\
  (forall id, is_Some (r_non b !! id) <-> has_added_non id h) /\
  (forall id l, r_limbs b !! id = Some l ->
     exists h1 eff off nor h2 b1, h = h1 ++ RAdd id eff off nor None :: h2 /\ ~ has_added id h1 /\ history neutral d0 h1 = Ok b1 /\
       l_eff l = eff /\ l_offset l = mapp (mtr (rot (eff (computed (r_dev b1))))) off /\ l_normal l = mapp (mtr (rot (eff (computed (r_dev b1))))) nor /\
       seen_from_root (last_given neutral h2) (l_ref l) (tra (eff (last_given neutral h2)))) /\
  (forall id l, r_non b !! id = Some l ->
     exists h1 eff h2 b1, h = h1 ++ RAddNon id eff None :: h2 /\ ~ has_added_non id h1 /\ history neutral d0 h1 = Ok b1 /\
       l_eff l = eff /\ l_normal l = mapp (mtr (rot (eff (computed (r_dev b1))))) (V3 0 0 1) /\
       seen_from_root neutral (l_ref l) (tra (eff neutral))).
Proof. exact (fun Hn Hq Hh => history_told neutral Hn d0 h b Hq Hh). Qed.
Theorem C166_defined neutral d0 h : root_ok neutral -> refs_ok h -> exists b, history neutral d0 h = Ok b.
Proof. exact (fun Hn Hq => history_defined neutral Hn d0 h Hq). Qed.
(** Giving a reference configuration leaves the robot there, creating a limb leaves it at the
    neutral configuration. *)
Theorem C166_robot neutral d0 h o b : root_ok neutral -> refs_ok (h ++ [o]) -> history neutral d0 (h ++ [o]) = Ok b ->
  match o with
  | RRef q => r_dev b = mkDevice q q
  | RAdd id _ _ _ None => ~ has_added id h -> r_dev b = mkDevice neutral neutral
  | RAddNon id _ None => ~ has_added_non id h -> r_dev b = mkDevice neutral neutral
  | RAdd id _ _ _ (Some d) => ~ has_added id h -> r_dev b = d
  | RAddNon id _ (Some d) => ~ has_added_non id h -> r_dev b = d
  | RMove d => r_dev b = d
  end.
Proof. exact (fun Hn Hq Hh => left_at neutral Hn d0 h o b Hq Hh). Qed.
(** A limb created after the reference configuration was given mixes both: its reference position
    is that of the neutral configuration, its offset and normal those of the reference one. *)
Theorem C166_late_limb neutral d0 h q id eff off nor b : root_ok neutral -> refs_ok (h ++ [RRef q]) -> ~ has_added id h ->
  history neutral d0 (h ++ [RRef q; RAdd id eff off nor None]) = Ok b ->
  r_reference b = q /\ exists l, r_limbs b !! id = Some l /\
    l_offset l = mapp (mtr (rot (eff q))) off /\ l_normal l = mapp (mtr (rot (eff q))) nor /\
    seen_from_root neutral (l_ref l) (tra (eff neutral)).
Proof. exact (fun Hn Hq Ha Hh => added_after neutral Hn d0 h q id eff off nor b Hq Ha Hh). Qed.
(** The calls that throw are the creations of a limb whose name is taken (by a limb of the same
    kind) and those that fail; limbs and reference configuration are then as before. *)
Theorem C166_refused neutral d0 h o b : root_ok neutral -> refs_ok h -> history neutral d0 h = Ok b -> (forall q, o = RRef q -> root_ok q) ->
  exists t b', step neutral o b = Ok (t, b') /\ history neutral d0 (h ++ [o]) = Ok b' /\ (t = true <-> throws_after h o) /\
    (t = true -> r_limbs b' = r_limbs b /\ r_non b' = r_non b /\ r_reference b' = r_reference b).
Proof. exact (fun Hn Hq Hh Ho => refused_calls neutral Hn d0 h o b Hq Hh Ho). Qed.
Print Assumptions C166_refused.
Print Assumptions C166_history.
Print Assumptions C166_defined.
Print Assumptions C166_robot.
Print Assumptions C166_late_limb.

(** a limb created before the reference configuration is given, one after: same effector, other
    positions and normals *)
Definition re_ref : list R := [5; 0; 0; 0; 0; 0; 1; -1].
Definition re_h : list rop :=
  [RAdd "early" le_eff vzero (V3 0 0 1) None; RRef re_ref; RAdd "late" le_eff vzero (V3 0 0 1) None].
Example C166_case d : root_ok le_neutral /\ refs_ok re_h /\ exists b l1 l2, history le_neutral (mkDevice d le_neutral) re_h = Ok b /\
  r_limbs b !! "early"%string = Some l1 /\ r_limbs b !! "late"%string = Some l2 /\
  l_ref l1 = V3 (-1) 0 0 /\ l_normal l1 = V3 0 0 1 /\ l_ref l2 = V3 2 0 0 /\ l_normal l2 = V3 0 0 (-1).
Proof.
  assert (HN : root_ok le_neutral). { do 8 eexists. split; [reflexivity|lra]. }
  assert (HR : root_ok re_ref). { do 8 eexists. split; [reflexivity|lra]. }
  assert (HQ : refs_ok re_h).
  { intros q H. unfold re_h in H. rewrite !elem_of_cons, elem_of_nil in H. destruct H as [[=]|[[= ->]|[[=]|[]]]]. exact HR. }
  split; [exact HN|]. split; [exact HQ|].
  assert (E1 : Rltb (nth 7 le_neutral 0) 0 = false) by (apply Rltb_false; cbn; lra).
  assert (E2 : Rltb (nth 7 re_ref 0) 0 = true) by (apply Rltb_true; cbn; lra).
  assert (N : forall d0, newLimb le_neutral le_eff vzero (V3 0 0 1) d0 =
     Ok (mkRlimb le_eff (mapp (mtr (rot (le_eff (computed d0)))) vzero) (mapp (mtr (rot (le_eff (computed d0)))) (V3 0 0 1))
           (inverseAct (SE3 (toRotationMatrix (1, V3 0 0 0)) (V3 0 0 0)) (tra (le_eff le_neutral))), mkDevice le_neutral le_neutral)) by reflexivity.
  unfold history, re_h. cbn [run step]. replace (has "early" (r_limbs _)) with false by reflexivity. rewrite N.
  cbn [run step referenceConfig re_ref length Nat.ltb Nat.leb]. cbn [r_limbs r_non r_dev computed].
  replace (has "late" _) with false by reflexivity. rewrite N. eexists _, _, _. split; [reflexivity|]. cbn [r_limbs].
  rewrite lookup_insert_ne by discriminate. rewrite lookup_fmap, lookup_insert. split; [reflexivity|]. rewrite lookup_insert. split; [reflexivity|].
  unfold refresh, fromRoot. cbn [l_eff l_ref l_normal re_ref computed]. unfold le_eff at 1 2 3 4. fold re_ref. rewrite E2, E1.
  repeat split; apply vec3_ext; unfold inverseAct; cbn; unfold vdot; cbn; lra.
Qed.
(** the same name again, with contact (throws) and without (does not) *)
Example C166_refused_case : throws_after re_h (RAdd "early" le_eff vzero vzero None) /\ ~ throws_after re_h (RAddNon "early" le_eff None).
Proof.
  split.
  - left. exists le_eff, vzero, (V3 0 0 1). left.
  - intros [(e & H)|[? [=]]]. unfold re_h in H. rewrite !elem_of_cons, elem_of_nil in H. destruct H as [[=]|[[=]|[[=]|[]]]].
Qed.
