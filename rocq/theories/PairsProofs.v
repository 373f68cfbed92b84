(** The pairs tested by the validations of a robot and of its limbs: proofs. *)
From Coq Require Import Reals.
From Verif Require Import Maps MapsProofs Vec StateModel SampModel ToolModel ToolSpec ToolProofs2 ToolProofs3 CollProofs ProjModel ProjSpec ProjProofs HoldRobot HoldProofs2 PairsSpec.
From Verif Require Import StateModel ToolSpec ProjModel.

Lemma reaches_end cut a b : reaches cut a b -> ~ cut b.
Proof. by induction 1. Qed.
Lemma reaches_between (cut : jnt -> Prop) a b : in_tree a b -> (forall i, in_tree a i -> in_tree i b -> ~ cut i) -> reaches cut a b.
Proof.
  induction 1 as [j|j k j' Hk Hj IH]; intros H.
  - apply reach_here. apply H; constructor.
  - apply reach_down with k; [|done|].
    + apply H; [constructor|]. by eapply in_down.
    + apply IH. intros i Hi. apply H. by eapply in_down.
Qed.
Lemma leaf_tree i j : jkids i = [] -> in_tree i j -> j = i.
Proof. intros Hk H. inversion H as [|? k ? Hin]; subst; [done|]. rewrite Hk in Hin. by apply elem_of_nil in Hin. Qed.
Lemma as_much_reaches r r' root j : tests_as_much r r' -> in_tree (r_joint r) j ->
  reaches (excluded (r_disable r') (r_eff r') (r_effJoint r')) root j ->
  reaches (excluded (r_disable r) (r_eff r) (r_effJoint r)) (r_joint r) j.
Proof.
  intros [_ Hd] Hj Hr. apply reaches_between; [done|]. intros i Hi Hij [Hdis He].
  destruct Hd as [Hd|[Hd Hleaf]]; [congruence|].
  assert (Hk : jkids i = []) by (destruct He as [He|[He|He]]; [apply Hleaf; auto..|done]).
  apply (leaf_tree i j Hk) in Hij as ->. apply reaches_end in Hr. apply Hr. split; [done|]. by do 2 right.
Qed.
Lemma covered root rs l1 r l2 P : NoDup (names root) -> in_tree root (r_joint r) ->
  rs = l1 ++ r :: l2 -> (forall r', r' ∈ l1 -> r_id r' <> r_id r) ->
  (forall r', first_of_kind rs r' -> tests_as_much r r') ->
  c_limb (addLimbs root rs) !! r_id r = Some P ->
  forall p, p ∈ c_body (addLimbs root rs) -> p.1 ∈ names (r_joint r) -> p ∈ P.
Proof.
  intros Hnd Hin Hrs Hl1 Hmuch HP p Hp Hn.
  destruct (proj2 (limb_obstacles root rs (r_id r)) r l1 l2 Hrs eq_refl Hl1) as (P' & HP' & Hiff).
  rewrite HP in HP'. injection HP' as <-. apply body_obstacles in Hp as (r' & Hf & Ho & j & Hj & Hname).
  pose proof (Hmuch r' Hf) as Hm. apply Hiff. split; [by apply Hm|]. exists j. split; [|done].
  apply names_in in Hn as (k & Hk & Hkn).
  assert (j = k) as ->. { eapply tree_unique; [exact Hnd|by eapply ProjProofs.reaches_in_tree|by eapply in_tree_trans|congruence]. }
  by eapply as_much_reaches.
Qed.
Lemma pairs_transfer B self apart rs l1 r l2 l P q q' :
  NoDup (names (tree (dev B))) -> obstacle_law (dev B) apart ->
  in_tree (tree (dev B)) (r_joint r) -> jname (r_joint r) = limbJoint l ->
  rs = l1 ++ r :: l2 -> (forall r', r' ∈ l1 -> r_id r' <> r_id r) ->
  (forall r', first_of_kind rs r' -> tests_as_much r r') ->
  c_limb (addLimbs (tree (dev B)) rs) !! r_id r = Some P ->
  elsewhere B l q q' ->
  tests self apart (c_body (addLimbs (tree (dev B)) rs)) q -> tests self apart P q' ->
  tests self apart (c_body (addLimbs (tree (dev B)) rs)) q'.
Proof.
  intros Hnd Hlaw Hin Hl Hrs Hl1 Hmuch HP Hel [Hs Hq] [Hs' Hq']. split; [done|]. intros p Hp.
  destruct (decide (p.1 ∈ names (r_joint r))) as [Hn|Hn]; [apply Hq'; by eapply covered|].
  rewrite <- (Hlaw p q q'); [by apply Hq|]. intros j Hj. symmetry. apply Hel. eapply above_reaches; [|exact Hj].
  intros i [Hi (k & Hk & Hkn)] E. apply Hn. apply names_in. exists k. split; [|done].
  assert (i = r_joint r) as <-; [|done]. eapply tree_unique; [exact Hnd|done|done|congruence].
Qed.
