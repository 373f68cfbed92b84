(** Proofs about the removal of obstacles with early exit, and the history of registrations. *)
From Verif Require Import Maps MapsProofs Vec ToolModel ToolSpec ToolProofs2.
From Coq Require Import Lia.
Local Open Scope nat_scope.

Definition agree_on (ns : list string) (S S' : pairs) : Prop := forall n o, n ∈ ns -> (n, o) ∈ S <-> (n, o) ∈ S'.
Lemma fold_local (f : jnt -> pairs -> pairs) (P : pairs -> jnt -> string * string -> Prop) kids :
  (forall k S p, k ∈ kids -> NoDup (names k) -> p ∈ f k S <-> p ∈ S /\ ~ P S k p) ->
  (forall k S p, k ∈ kids -> P S k p -> p.1 ∈ names k) ->
  (forall k S S' p, k ∈ kids -> agree_on (names k) S S' -> P S k p -> P S' k p) ->
  NoDup (concat (map names kids)) ->
  forall S p, p ∈ fold_left (fun S k => f k S) kids S <-> p ∈ S /\ ~ exists k, k ∈ kids /\ P S k p.
Proof.
  induction kids as [|k kids IH]; intros Hf Hn Hl Hnd S p; cbn [fold_left].
  - split; [intros H1; split; [done|]; intros (x & Hx & _); by apply elem_of_nil in Hx|by intros [H1 _]].
  - cbn [map concat] in Hnd. apply NoDup_app in Hnd as (Hnk & Hdis & Hnd).
    rewrite IH; [|intros; apply Hf; [by right|done]|intros ??? Hk; eapply Hn; by right|intros ???? Hk; eapply Hl; by right|done].
    rewrite Hf; [|left|done].
    assert (Hag : forall k', k' ∈ kids -> agree_on (names k') (f k S) S).
    { intros k' Hk' n o Hin. rewrite Hf; [|left|done]. split; [by intros [? _]|]. intros H. split; [done|].
      intros HP. apply Hn in HP; [|left]. simpl in HP. apply (Hdis n HP). apply elem_of_concat_map. eauto. }
    split.
    + intros [[H1 H2] H3]. split; [done|]. intros (y & [->|Hy]%elem_of_cons & H4); [done|]. apply H3. exists y. split; [done|].
      eapply Hl; [by right| |exact H4]. intros n o Hin. symmetry. by apply (Hag y).
    + intros [H1 H2]. split; [split; [done|]|].
      * intros H3. apply H2. exists k. split; [left|done].
      * intros (y & Hy & H3). apply H2. exists y. split; [by right|]. eapply Hl; [by right| |exact H3]. by apply (Hag y).
Qed.
Lemma in_tree_name j j' : in_tree j j' -> jname j' ∈ names j.
Proof. intros H. apply names_in. eauto. Qed.
Lemma kid_names m r s b kids k : k ∈ kids -> forall n, n ∈ names k -> n ∈ names (Jnt m r s b kids).
Proof. intros Hk n Hn. cbn [names]. right. apply elem_of_concat_map. eauto. Qed.
Lemma walks_cons cut stop j j' : walks cut stop j j' <->
  ~ cut j /\ (j' = j \/ (~ stop j /\ exists k, k ∈ jkids j /\ walks cut stop k j')).
Proof.
  split.
  - inversion 1; subst; split; [done|by left|done|right; eauto].
  - intros [Hc [->|(Hs & k & Hk & Hr)]]; [by apply walk_here|by eapply walk_down].
Qed.
Lemma walks_in_tree cut stop j j' : walks cut stop j j' -> in_tree j j'.
Proof. induction 1; [apply in_here|by eapply in_down]. Qed.
Lemma walks_ext cut cut' stop stop' j j' : (forall x, in_tree j x -> (cut x <-> cut' x) /\ (stop x <-> stop' x)) ->
  walks cut stop j j' -> walks cut' stop' j j'.
Proof.
  intros H Hw. induction Hw as [j Hc|j k j' Hc Hs Hk Hw IH].
  - apply walk_here. rewrite <- (proj1 (H j (in_here j))). done.
  - apply walk_down with k; [rewrite <- (proj1 (H j (in_here j))); done|rewrite <- (proj2 (H j (in_here j))); done|done|].
    apply IH. intros x Hx. apply H. by eapply in_down.
Qed.
Lemma reaches_ext cut cut' j j' : (forall x, in_tree j x -> (cut x <-> cut' x)) -> reaches cut j j' -> reaches cut' j j'.
Proof.
  intros H Hw. induction Hw as [j Hc|j k j' Hc Hk Hw IH].
  - apply reach_here. rewrite <- (H j (in_here j)). done.
  - apply reach_down with k; [rewrite <- (H j (in_here j)); done|done|].
    apply IH. intros x Hx. apply H. by eapply in_down.
Qed.

(** * The effector's obstacles *)
Definition effRemoved (o : string) (S : pairs) (j : jnt) (p : string * string) : Prop :=
  p.2 = o /\ exists j', reaches (fun j => (jname j, o) ∉ S) j j' /\ jname j' = p.1.
Lemma effRemoved_name o j S p : effRemoved o S j p -> p.1 ∈ names j.
Proof. intros [_ (j' & Hr & <-)]. apply in_tree_name. by eapply reaches_in_tree. Qed.
Lemma effRemoved_local o j S S' p : agree_on (names j) S S' -> effRemoved o S j p -> effRemoved o S' j p.
Proof.
  intros Hag [H (j' & Hr & Hn)]. split; [done|]. exists j'. split; [|done]. eapply reaches_ext; [|exact Hr].
  intros x Hx. simpl. by rewrite (Hag (jname x) o (in_tree_name _ _ Hx)).
Qed.
Lemma eff_unfold o m r s b kids S p :
  NoDup (names (Jnt m r s b kids)) ->
  (forall k S p, k ∈ kids -> NoDup (names k) -> p ∈ RemoveEffectorCollisionRec o k S <-> p ∈ S /\ ~ effRemoved o S k p) ->
  p ∈ (match removeObstacleFromJoint m o S with
       | None => S
       | Some S' => fold_left (fun S k => RemoveEffectorCollisionRec o k S) kids S' end) <->
  p ∈ S /\ ~ effRemoved o S (Jnt m r s b kids) p.
Proof.
  intros Hnd IH. set (j := Jnt m r s b kids). cbn [names] in Hnd. apply NoDup_cons in Hnd as [Hm Hnd].
  destruct (removeObstacleFromJoint m o S) as [S'|] eqn:E.
  - apply remove_elem in E as [Hin E].
    rewrite (fold_local (fun k S => RemoveEffectorCollisionRec o k S) (effRemoved o) kids IH); [|intros; by eapply effRemoved_name|intros; by eapply effRemoved_local|done].
    rewrite E.
    assert (Hag : forall k, k ∈ kids -> agree_on (names k) S' S).
    { intros k Hk n x Hn. rewrite E. split; [by intros [? _]|]. intros H. split; [done|]. intros Heq. injection Heq as -> ->.
      apply Hm. apply elem_of_concat_map. eauto. }
    split.
    + intros [[H1 H2] H3]. split; [done|]. intros [Ho (j' & Hr & Hnm)]. apply reaches_cons in Hr as [Hc [->|(k & Hk & Hr)]].
      * apply H2. destruct p as [a b']. simpl in *. by subst.
      * apply H3. exists k. split; [done|]. eapply effRemoved_local; [|split; [done|eauto]].
        intros n x Hn. symmetry. by apply (Hag k).
    + intros [H1 H2]. split; [split; [done|]|].
      * intros ->. apply H2. split; [done|]. exists j. split; [|done]. apply reach_here. simpl. naive_solver.
      * intros (k & Hk & H3). apply H2. apply (effRemoved_local o k S' S) in H3; [|by apply Hag].
        destruct H3 as [Ho (j' & Hr & Hnm)]. split; [done|]. exists j'. split; [|done]. apply reach_down with k; [simpl; naive_solver|done|done].
  - apply remove_none in E. split; [|by intros [? _]]. intros H. split; [done|]. intros [_ (j' & Hr & _)].
    apply reaches_cons in Hr as [Hc _]. apply Hc. done.
Qed.
Lemma eff_rec o j S p : NoDup (names j) -> p ∈ RemoveEffectorCollisionRec o j S <-> p ∈ S /\ ~ effRemoved o S j p.
Proof.
  revert S p. induction j as [m r s b kids IH] using jnt_ind'. intros S p Hnd. cbn [RemoveEffectorCollisionRec].
  apply eff_unfold; [done|]. intros k S' p' Hk Hn. by apply IH.
Qed.
Theorem remove_effector1 o j S p : NoDup (names j) ->
  p ∈ RemoveEffectorCollision1 o j S <->
  p ∈ S /\ ~ (p.2 = o /\ exists j', reaches (fun j => (jname j, o) ∉ S) j j' /\ jname j' = p.1).
Proof.
  intros Hnd. destruct j as [m r s b kids]. unfold RemoveEffectorCollision1. cbn [jname jkids].
  apply eff_unfold; [done|]. intros. by apply eff_rec.
Qed.
Theorem remove_effector os j S p : NoDup (names j) ->
  p ∈ RemoveEffectorCollision os j S <->
  p ∈ S /\ ~ (p.2 ∈ os /\ exists j', reaches (fun j => (jname j, p.2) ∉ S) j j' /\ jname j' = p.1).
Proof.
  intros Hnd. unfold RemoveEffectorCollision. revert S p. induction os as [|o os IH]; intros S p; cbn [fold_left].
  - split; [|by intros [? _]]. intros H. split; [done|]. intros [H1 _]. by apply elem_of_nil in H1.
  - rewrite IH. destruct p as [a x]. cbn [fst snd]. rewrite remove_effector1 by done. cbn [fst snd].
    destruct (decide (x = o)) as [->|Hx].
    + split.
      * intros [[H1 H2] H3]. split; [done|]. intros [_ H4]. apply H2. split; [done|]. exact H4.
      * intros [H1 H2]. split; [split; [done|]|].
        -- intros [_ H3]. apply H2. split; [left|exact H3].
        -- intros [H3 (j' & Hr & Hn)]. apply reaches_cons in Hr as [Hc _]. apply Hc. intros Hin. apply remove_effector1 in Hin as [H4 H5]; [|done].
           apply H5. split; [done|]. exists j. split; [|done]. apply reach_here. naive_solver.
    + assert (Hag : forall y, (jname y, x) ∈ RemoveEffectorCollision1 o j S <-> (jname y, x) ∈ S).
      { intros y. rewrite remove_effector1 by done. cbn [snd]. naive_solver. }
      split.
      * intros [[H1 H2] H3]. split; [done|]. intros [[->|Hos]%elem_of_cons (j' & Hr & Hn)]; [done|]. apply H3. split; [done|].
        exists j'. split; [|done]. eapply reaches_ext; [|exact Hr]. intros y _. cbn. by rewrite Hag.
      * intros [H1 H2]. split; [split; [done|]; by intros [? _]|]. intros [Hos (j' & Hr & Hn)]. apply H2. split; [by right|].
        exists j'. split; [|done]. eapply reaches_ext; [|exact Hr]. intros y _. cbn. by rewrite Hag.
Qed.

(** * The obstacles of the rest of the body, several limbs kept *)
Lemma dropUntil_spec n os : NoDup os -> forall S S' b, dropUntil n os S = (S', b) ->
  (b = true <-> forall o, o ∈ os -> (n, o) ∈ S) /\
  (forall p, p ∈ S' <-> p ∈ S /\ ~ (p.1 = n /\ present_up_to S n os p.2)).
Proof.
  induction os as [|o os IH]; intros Hnd S S' b; cbn [dropUntil].
  - intros Heq. injection Heq as <- <-. split; [split; [intros _ o Ho; by apply elem_of_nil in Ho|done]|].
    intros p. split; [|by intros [? _]]. intros H. split; [done|]. intros [_ (l1 & l2 & Heq & _)]. by destruct l1.
  - apply NoDup_cons in Hnd as [Ho Hnd]. destruct (removeObstacleFromJoint n o S) as [S1|] eqn:E.
    + intros Hd. apply remove_elem in E as [Hin E]. destruct (IH Hnd S1 S' b Hd) as [IH1 IH2].
      assert (Hag : forall x, x ∈ os -> (n, x) ∈ S1 <-> (n, x) ∈ S).
      { intros x Hx. rewrite E. split; [by intros [? _]|]. intros H. split; [done|]. intros Heq. injection Heq as ->. done. }
      split.
      * rewrite IH1. split.
        -- intros H x [->|Hx]%elem_of_cons; [done|]. apply Hag; [done|auto].
        -- intros H x Hx. apply Hag; [done|]. apply H. by right.
      * intros p. rewrite IH2, E. destruct p as [a x]. cbn [fst snd]. split.
        -- intros [[H1 H2] H3]. split; [done|]. intros [-> (l1 & l2 & Heq & Hall)]. destruct l1 as [|y l1].
           ++ simpl in Heq. injection Heq as -> _. done.
           ++ simpl in Heq. injection Heq as <- ->. apply H3. split; [done|]. exists l1, l2. split; [done|].
              intros y Hy. apply Hag; [|apply Hall; by right]. rewrite elem_of_app in *. destruct Hy as [Hy|Hy]; [by left|right].
              apply elem_of_list_singleton in Hy as ->. left.
        -- intros [H1 H2]. split; [split; [done|]|].
           ++ intros Heq. injection Heq as -> ->. apply H2. split; [done|]. exists [], os. split; [done|].
              intros y Hy. apply elem_of_list_singleton in Hy as ->. done.
           ++ intros [-> (l1 & l2 & -> & Hall)]. apply H2. split; [done|]. exists (o :: l1), l2. split; [done|].
              intros y [->|Hy]%elem_of_cons; [done|]. specialize (Hall y Hy). by apply E in Hall as [? _].
    + intros Heq. injection Heq as <- <-. apply remove_none in E. split; [split; [done|]|].
      * intros H. exfalso. apply E. apply H. left.
      * intros p. split; [|by intros [? _]]. intros H. split; [done|]. intros [_ (l1 & l2 & Heq & Hall)].
        apply E. apply Hall. destruct l1 as [|y l1]; simpl in Heq; injection Heq as <- ->; left.
Qed.
Definition nonRemoved (keepers os : list string) (S : pairs) (j : jnt) (p : string * string) : Prop :=
  exists j', walks (fun j => jname j ∈ keepers) (lacks os S) j j' /\ jname j' = p.1 /\ present_up_to S (jname j') os p.2.
Lemma nonRemoved_name keepers os j S p : nonRemoved keepers os S j p -> p.1 ∈ names j.
Proof. intros (j' & Hw & <- & _). apply in_tree_name. by eapply walks_in_tree. Qed.
Lemma nonRemoved_local keepers os j S S' p : agree_on (names j) S S' -> nonRemoved keepers os S j p -> nonRemoved keepers os S' j p.
Proof.
  intros Hag (j' & Hw & Hn & l1 & l2 & Heq & Hall). exists j'. split_and!; [|done|].
  - eapply walks_ext; [|exact Hw]. intros x Hx. split; [done|]. unfold lacks.
    assert (Hxx : forall o, (jname x, o) ∈ S <-> (jname x, o) ∈ S') by (intros o; apply Hag; by apply in_tree_name).
    split; intros H1 H2; apply H1; intros o Ho; apply Hxx; auto.
  - exists l1, l2. split; [done|]. intros x Hx. apply (Hag (jname j') x); [apply in_tree_name; by eapply walks_in_tree|auto].
Qed.
Theorem remove_non_limb keepers os j S p : NoDup (names j) -> NoDup os ->
  p ∈ RemoveNonLimbCollisionRec keepers os j S <-> p ∈ S /\ ~ nonRemoved keepers os S j p.
Proof.
  intros Hnd Hos. revert S p Hnd. induction j as [m r s b kids IH] using jnt_ind'. intros S p Hnd. cbn [RemoveNonLimbCollisionRec].
  set (j := Jnt m r s b kids). cbn [names] in Hnd. apply NoDup_cons in Hnd as [Hm Hnd]. unfold inb. case_bool_decide as Hk.
  - split; [|by intros [? _]]. intros H. split; [done|]. intros (j' & Hw & _). apply walks_cons in Hw as [Hc _]. by apply Hc.
  - destruct (dropUntil m os S) as [S1 ok] eqn:Hd. destruct (dropUntil_spec m os Hos S S1 ok Hd) as [Hok HS1].
    destruct ok.
    + rewrite (fold_local (fun k S => RemoveNonLimbCollisionRec keepers os k S) (nonRemoved keepers os) kids);
        [|intros k S' p' Hk' Hn; by apply IH|intros; by eapply nonRemoved_name|intros; by eapply nonRemoved_local|done].
      rewrite HS1.
      assert (Hag : forall k, k ∈ kids -> agree_on (names k) S1 S).
      { intros k Hk' n x Hn. rewrite HS1. split; [by intros [? _]|]. intros H. split; [done|]. cbn [fst]. intros [-> _].
        apply Hm. apply elem_of_concat_map. eauto. }
      assert (Hcomp : forall o, o ∈ os -> (m, o) ∈ S) by (by apply Hok).
      split.
      * intros [[H1 H2] H3]. split; [done|]. intros (j' & Hw & Hnm & Hp). apply walks_cons in Hw as [_ [->|(Hs & k & Hk' & Hw)]].
        -- apply H2. split; [by rewrite <- Hnm|exact Hp].
        -- apply H3. exists k. split; [done|]. eapply nonRemoved_local; [|exists j'; done].
           intros n x Hn. symmetry. by apply (Hag k).
      * intros [H1 H2]. split; [split; [done|]|].
        -- intros [Hn Hp]. apply H2. exists j. split_and!; [by apply walk_here|by rewrite Hn|exact Hp].
        -- intros (k & Hk' & H3). apply H2. apply (nonRemoved_local keepers os k S1 S) in H3; [|by apply Hag].
           destruct H3 as (j' & Hw & Hn & Hp). exists j'. split_and!; [|done|done].
           apply walk_down with k; [done| |done|done]. unfold lacks. intros H4. apply H4. exact Hcomp.
    + rewrite HS1. split.
      * intros [H1 H2]. split; [done|]. intros (j' & Hw & Hnm & Hp). apply walks_cons in Hw as [_ [->|(Hs & _)]].
        -- apply H2. split; [by rewrite <- Hnm|exact Hp].
        -- apply Hs. unfold lacks. intros H3. assert (false = true) by (apply Hok; exact H3). done.
      * intros [H1 H2]. split; [done|]. intros [Hn Hp]. apply H2. exists j. split_and!; [by apply walk_here|by rewrite Hn|exact Hp].
Qed.
(** when no pair is missing, both overloads remove the same: everything outside of the kept limbs *)
Theorem remove_non_limb_complete keepers os j S p : NoDup (names j) -> NoDup os ->
  (forall j' o, in_tree j j' -> o ∈ os -> (jname j', o) ∈ S) ->
  p ∈ RemoveNonLimbCollisionRec keepers os j S <->
  p ∈ S /\ ~ (p.2 ∈ os /\ exists j', reaches (fun j => jname j ∈ keepers) j j' /\ jname j' = p.1).
Proof.
  intros Hnd Hos Hall. rewrite remove_non_limb by done.
  assert (Hiff : nonRemoved keepers os S j p <-> p.2 ∈ os /\ exists j', reaches (fun j => jname j ∈ keepers) j j' /\ jname j' = p.1); [|tauto].
  split.
  - intros (j' & Hw & Hn & l1 & l2 & Heq & _). split; [rewrite Heq; set_solver|]. exists j'. split; [|done].
    clear -Hw. induction Hw; [by apply reach_here|by eapply reach_down].
  - intros [Ho (j' & Hr & Hn)]. exists j'. split_and!; [|done|].
    + clear -Hr Hall. induction Hr as [y Hc|y k y' Hc Hk Hr IH]; [by apply walk_here|].
      apply walk_down with k; [done| |done|].
      * unfold lacks. intros H. apply H. intros o Ho. apply Hall; [apply in_here|done].
      * apply IH. intros j'' o Hj. apply Hall. by eapply in_down.
    + apply elem_of_list_split in Ho as (l1 & l2 & Heq). exists l1, l2. split; [done|]. intros x Hx. apply Hall; [by eapply reaches_in_tree|].
      rewrite Heq. set_solver.
Qed.
(** a pair missing at the root: nothing below is removed *)
Theorem remove_non_limb_stuck keepers os j S o : NoDup (names j) -> NoDup os -> o ∈ os -> (jname j, o) ∉ S ->
  forall p, p ∈ S -> p.1 <> jname j -> p ∈ RemoveNonLimbCollisionRec keepers os j S.
Proof.
  intros Hnd Hos Ho Hmiss p Hp Hn. apply remove_non_limb; [done..|]. split; [done|].
  intros (j' & Hw & Hnm & _). apply walks_cons in Hw as [_ [->|(Hs & _)]]; [congruence|].
  apply Hs. intros H. apply Hmiss. by apply H.
Qed.

(** * Registrations *)
Lemma list_eq_dec_nil {A} (l : list A) : l = [] \/ exists l' x, l = l' ++ [x].
Proof. destruct l as [|x l] using rev_ind; [by left|right; eauto]. Qed.
Definition accepted (rs : list registration) : Prop :=
  NoDup (map (fun r => (r_non r, r_id r)) rs).
Lemma addLimbs_app root rs r : addLimbs root (rs ++ [r]) = addLimbCollisions root (addLimbs root rs) r.
Proof. unfold addLimbs. by rewrite fold_left_app. Qed.
Lemma addLimbs_known root rs : forall n,
  (n ∈ c_limbs (addLimbs root rs) <-> exists r, r ∈ rs /\ r_non r = false /\ r_id r = n) /\
  (n ∈ c_non (addLimbs root rs) <-> exists r, r ∈ rs /\ r_non r = true /\ r_id r = n).
Proof.
  induction rs as [|r rs IH] using rev_ind; intros n.
  - split; (split; [unfold addLimbs; simpl; set_solver|]); intros (r & Hr & _); by apply elem_of_nil in Hr.
  - rewrite addLimbs_app. unfold addLimbCollisions. cbn [c_limbs c_non]. destruct (IH n) as [IH1 IH2]. destruct (r_non r) eqn:Hn.
    + rewrite elem_of_union, elem_of_singleton, IH1, IH2. split; (split; [|]).
      * intros (r' & Hr & H1 & H2). exists r'. set_solver.
      * intros (r' & [Hr|Hr%elem_of_list_singleton]%elem_of_app & H1 & H2); [eauto|subst r'; congruence].
      * intros [->|(r' & Hr & H1 & H2)]; [exists r; set_solver|exists r'; set_solver].
      * intros (r' & [Hr|Hr%elem_of_list_singleton]%elem_of_app & H1 & H2); [right; eauto|subst r'; by left].
    + rewrite elem_of_union, elem_of_singleton, IH1, IH2. split; (split; [|]).
      * intros [->|(r' & Hr & H1 & H2)]; [exists r; set_solver|exists r'; set_solver].
      * intros (r' & [Hr|Hr%elem_of_list_singleton]%elem_of_app & H1 & H2); [right; eauto|subst r'; by left].
      * intros (r' & Hr & H1 & H2). exists r'. set_solver.
      * intros (r' & [Hr|Hr%elem_of_list_singleton]%elem_of_app & H1 & H2); [eauto|subst r'; congruence].
Qed.
Theorem body_obstacles root rs p : p ∈ c_body (addLimbs root rs) <->
  exists r, first_of_kind rs r /\ p.2 ∈ r_obs r /\
    exists j, reaches (excluded (r_disable r) (r_eff r) (r_effJoint r)) root j /\ jname j = p.1.
Proof.
  induction rs as [|r rs IH] using rev_ind.
  - split; [unfold addLimbs; simpl; set_solver|]. intros (r & (l1 & l2 & Heq & _) & _). by destruct l1.
  - rewrite addLimbs_app. unfold addLimbCollisions. cbn [c_body].
    assert (Hknown : (if r_non r then c_non (addLimbs root rs) else c_limbs (addLimbs root rs)) = ∅ <-> forall r', r' ∈ rs -> r_non r' <> r_non r).
    { split.
      - intros He r' Hr' Heq. assert (Hin : r_id r' ∈ (∅ : gset string)); [|set_solver]. rewrite <- He.
        destruct (addLimbs_known root rs (r_id r')) as [H1 H2]. destruct (r_non r); [apply H2|apply H1]; eauto.
      - intros H. apply set_eq. intros n. split; [|set_solver]. intros Hin. exfalso.
        destruct (addLimbs_known root rs n) as [H1 H2].
        destruct (r_non r) eqn:Hn; [apply H2 in Hin as (r' & Hr & Hx & _)|apply H1 in Hin as (r' & Hr & Hx & _)]; by apply (H r' Hr). }
    assert (Hfirst : forall x, first_of_kind (rs ++ [r]) x <-> first_of_kind rs x \/ (x = r /\ forall r', r' ∈ rs -> r_non r' <> r_non r)).
    { intros x. split.
      - intros (l1 & l2 & Heq & H). destruct (list_eq_dec_nil l2) as [->|(l2' & y & ->)].
        + apply app_inj_tail in Heq as [-> ->]. right. split; [done|exact H].
        + left. exists l1, l2'. split; [|done]. rewrite (app_assoc l1 (x :: l2') [y]) in Heq || idtac.
          replace (l1 ++ x :: l2' ++ [y]) with ((l1 ++ x :: l2') ++ [y]) in Heq by (by rewrite <- app_assoc).
          by apply app_inj_tail in Heq as [-> _].
      - intros [(l1 & l2 & -> & H)|[-> H]]; [exists l1, (l2 ++ [r]); by rewrite <- app_assoc|exists rs, []; done]. }
    setoid_rewrite Hfirst. case_bool_decide as Hk.
    + rewrite add_collisions, IH. split.
      * intros [(x & Hx & Hp)|[Ho Hj]]; [exists x; split; [by left|done]|].
        exists r. split; [right; split; [done|by apply Hknown]|done].
      * intros (x & [Hx|[-> Hx]] & Ho & Hj); [left; eauto|by right].
    + rewrite IH. split.
      * intros (x & Hx & Hp). exists x. split; [by left|done].
      * intros (x & [Hx|[-> Hx]] & Hp); [eauto|]. exfalso. apply Hk. by apply Hknown.
Qed.
Theorem limb_obstacles root rs id : 
  (c_limb (addLimbs root rs) !! id = None <-> forall r, r ∈ rs -> r_id r <> id) /\
  (forall r l1 l2, rs = l1 ++ r :: l2 -> r_id r = id -> (forall r', r' ∈ l1 -> r_id r' <> id) ->
     exists P, c_limb (addLimbs root rs) !! id = Some P /\
       forall p, p ∈ P <-> p.2 ∈ r_obs r /\
         exists j, reaches (excluded (r_disable r) (r_eff r) (r_effJoint r)) (r_joint r) j /\ jname j = p.1).
Proof.
  induction rs as [|r rs IH] using rev_ind.
  - split; [split; [intros _ r Hr; by apply elem_of_nil in Hr|done]|]. intros r l1 l2 Heq. by destruct l1.
  - destruct IH as [IH1 IH2]. rewrite addLimbs_app. unfold addLimbCollisions. cbn [c_limb].
    set (c := addLimbs root rs) in *. set (P0 := addLimbCollisionRec _ _ _ _ _ ∅).
    assert (HP0 : forall p, p ∈ P0 <-> p.2 ∈ r_obs r /\ exists j, reaches (excluded (r_disable r) (r_eff r) (r_effJoint r)) (r_joint r) j /\ jname j = p.1).
    { intros p. unfold P0. rewrite add_collisions. set_solver. }
    destruct (decide (r_id r = id)) as [Hid|Hid].
    + rewrite Hid. destruct (c_limb c !! id) as [P|] eqn:Hc.
      * rewrite Hc. split; [split; [done|intros H; exfalso; apply (H r); [set_solver|done]]|].
        intros x l1 l2 Heq Hx Hl. apply (IH2 x l1 (take (length l2 - 1) l2)); [|done|done].
        destruct (list_eq_dec_nil l2) as [->|(l2' & y & ->)].
        -- apply app_inj_tail in Heq as [<- _]. exfalso. assert (Some P = None); [|done]. apply IH1. exact Hl.
        -- rewrite app_length. simpl. replace (length l2' + 1 - 1) with (length l2') by lia. rewrite take_app.
           replace (l1 ++ x :: l2' ++ [y]) with ((l1 ++ x :: l2') ++ [y]) in Heq by (by rewrite <- app_assoc).
           by apply app_inj_tail in Heq as [-> _].
      * rewrite lookup_insert. split; [split; [done|intros H; exfalso; apply (H r); [set_solver|done]]|].
        intros x l1 l2 Heq Hx Hl. exists P0. split; [done|].
        assert (x = r) as ->; [|exact HP0].
        destruct (list_eq_dec_nil l2) as [->|(l2' & y & ->)]; [by apply app_inj_tail in Heq as [_ <-]|]. exfalso.
        replace (l1 ++ x :: l2' ++ [y]) with ((l1 ++ x :: l2') ++ [y]) in Heq by (by rewrite <- app_assoc).
        apply app_inj_tail in Heq as [-> _]. apply (proj1 IH1 eq_refl x); [set_solver|done].
    + assert (Hsame : (match c_limb c !! r_id r with Some _ => c_limb c | None => <[ r_id r := P0 ]> (c_limb c) end) !! id = c_limb c !! id).
      { destruct (c_limb c !! r_id r); [done|]. by rewrite lookup_insert_ne. }
      rewrite Hsame. split.
      * rewrite IH1. split; [|set_solver]. intros H x [Hx|Hx%elem_of_list_singleton]%elem_of_app; [auto|by subst].
      * intros x l1 l2 Heq Hx Hl. destruct (list_eq_dec_nil l2) as [->|(l2' & y & ->)].
        -- apply app_inj_tail in Heq as [_ <-]. done.
        -- apply (IH2 x l1 l2'); [|done|done].
           replace (l1 ++ x :: l2' ++ [y]) with ((l1 ++ x :: l2') ++ [y]) in Heq by (by rewrite <- app_assoc).
           by apply app_inj_tail in Heq as [-> _].
Qed.
