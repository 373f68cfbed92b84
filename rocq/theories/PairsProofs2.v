(** Registered limbs and the validity of configurations: proofs. *)
From Coq Require Import Reals.
From Verif Require Import Maps MapsProofs Vec CombModel GenModel StateModel SampModel ToolModel ToolSpec ToolProofs2 ToolProofs3 ProjModel ProjSpec HoldRobot SafeSpec PairsSpec PairsProofs.
From Verif Require Import StateModel ToolSpec ProjModel.

Lemma registered_safe {Cand} (B : fullbody) (S : services (list R) vec3 mat3 Cand (sample R)) self apart rs :
  NoDup (names (tree (dev B))) -> obstacle_law (dev B) apart -> NoDup (map r_id rs) ->
  (forall r, r ∈ rs -> in_tree (tree (dev B)) (r_joint r)) ->
  (forall id l, limbsOf B !! id = Some l -> exists r, r ∈ rs /\ r_id r = id /\ jname (r_joint r) = limbJoint l) ->
  (forall r r', r ∈ rs -> first_of_kind rs r' -> tests_as_much r r') ->
  (forall q, wholeValid B q = true <-> tests self apart (c_body (addLimbs (tree (dev B)) rs)) q) ->
  (forall id P q, c_limb (addLimbs (tree (dev B)) rs) !! id = Some P -> (limbValid S id q = true <-> tests self apart P q)) ->
  forall id l q q', limbsOf B !! id = Some l -> elsewhere B l q q' ->
    wholeValid B q = true -> limbValid S id q' = true -> wholeValid B q' = true.
Proof.
  intros Hnd Hlaw Hids Htree Hlimbs Hmuch Hwhole Hlimb id l q q' Hl Hel Hv Hv'.
  destruct (Hlimbs id l Hl) as (r & Hr & <- & Hj).
  apply elem_of_list_split in Hr as Hr'. destruct Hr' as (l1 & l2 & Hrs).
  assert (Hl1 : forall r', r' ∈ l1 -> r_id r' <> r_id r).
  { intros r' Hr' E. subst rs. rewrite map_app in Hids. apply NoDup_app in Hids as (_ & Hd & _). apply (Hd (r_id r')).
    - by apply elem_of_list_fmap_1.
    - rewrite E. simpl. left. }
  destruct (proj2 (limb_obstacles (tree (dev B)) rs (r_id r)) r l1 l2 Hrs eq_refl Hl1) as (P & HP & _).
  apply Hwhole. eapply pairs_transfer; [exact Hnd|exact Hlaw|by apply Htree|exact Hj|exact Hrs|exact Hl1| |exact HP|exact Hel|by apply Hwhole|by apply (Hlimb _ _ _ HP)].
  intros r' Hf. by apply Hmuch.
Qed.
