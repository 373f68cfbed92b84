(** Proofs about the trees of joints. *)
From Verif Require Import Maps MapsProofs Vec ToolModel ToolSpec.
From Coq Require Import Lia.
Local Open Scope nat_scope.

Lemma jnt_ind' (P : jnt -> Prop) : (forall n r s b kids, (forall k, k ∈ kids -> P k) -> P (Jnt n r s b kids)) -> forall j, P j.
Proof.
  intros H. fix IH 1. intros [n r s b kids]. apply H. apply Forall_forall.
  induction kids as [|k kids IHk]; constructor; [apply IH|exact IHk].
Qed.
Lemma elem_of_concat_map {A B} (f : A -> list B) l y : y ∈ concat (map f l) <-> exists x, x ∈ l /\ y ∈ f x.
Proof.
  induction l as [|x l IH]; simpl.
  - split; [intros H; by apply elem_of_nil in H|]. intros (x & Hx & _). by apply elem_of_nil in Hx.
  - rewrite elem_of_app, IH. split.
    + intros [H|(x' & H1 & H2)]; [exists x; split; [left|done]|exists x'; split; [by right|done]].
    + intros (x' & [->|H1]%elem_of_cons & H2); [by left|right; eauto].
Qed.
Lemma reaches_cons cut j j' : reaches cut j j' <-> ~ cut j /\ (j' = j \/ exists k, k ∈ jkids j /\ reaches cut k j').
Proof.
  split.
  - inversion 1; subst; split; [done|by left|done|right; eauto].
  - intros [Hc [->|(k & Hk & Hr)]]; [by apply reach_here|by eapply reach_down].
Qed.
Lemma reaches_in_tree cut j j' : reaches cut j j' -> in_tree j j'.
Proof. induction 1; [apply in_here|by eapply in_down]. Qed.
Lemma names_in j n : n ∈ names j <-> exists j', in_tree j j' /\ jname j' = n.
Proof.
  induction j as [m r s b kids IH] using jnt_ind'. simpl. rewrite elem_of_cons, elem_of_concat_map. split.
  - intros [->|(k & Hk & Hn)]; [eexists; split; [apply in_here|done]|].
    apply IH in Hn as (j' & Hj & Hn); [|done]. exists j'. split; [by eapply in_down|done].
  - intros (j' & Hj & Hn). inversion Hj; subst; [by left|]. right. exists k. split; [done|]. apply IH; [done|]. eauto.
Qed.

(** * Locks *)
Lemma lock_singleton {T} (c : list T) n j : LockJointRec1 c n j = LockJointRec c [n] j.
Proof.
  induction j as [m r s b kids IH] using jnt_ind'. cbn [LockJointRec1 LockJointRec].
  unfold inb. case_bool_decide as H1; case_bool_decide as H2; [done| | |].
  - exfalso. apply H2. subst. left.
  - apply elem_of_list_singleton in H2. done.
  - f_equal. f_equal. apply map_ext_in. intros k Hk. apply IH. by apply elem_of_list_In.
Qed.
Lemma lock_elem {T} (c : list T) spared j x :
  x ∈ LockJointRec c spared j <-> exists j', reaches (fun j => jname j ∈ spared) j j' /\ x = lockOf c j'.
Proof.
  induction j as [m r s b kids IH] using jnt_ind'. cbn [LockJointRec].
  unfold inb. case_bool_decide as Hm.
  - split; [intros H; by apply elem_of_nil in H|]. intros (j' & Hr & _). apply reaches_cons in Hr as [Hc _]. by destruct Hc.
  - rewrite elem_of_cons, elem_of_concat_map. split.
    + intros [->|(k & Hk & Hx)]; [eexists; split; [by apply reach_here|done]|].
      apply IH in Hx as (j' & Hr & ->); [|done]. exists j'. split; [by eapply reach_down|done].
    + intros (j' & Hr & ->). apply reaches_cons in Hr as [_ [->|(k & Hk & Hr)]]; [by left|].
      right. exists k. split; [done|]. apply IH; [done|]. eauto.
Qed.
Lemma lock_fst {T} (c : list T) j : (lockOf c j).1 = jname j.
Proof. by destruct j. Qed.
Lemma lock_sublist {T} (c : list T) spared j : (LockJointRec c spared j).*1 `sublist_of` names j.
Proof.
  induction j as [m r s b kids IH] using jnt_ind'. cbn [LockJointRec names].
  unfold inb. case_bool_decide; [apply sublist_nil_l|]. rewrite fmap_cons. simpl. apply sublist_skip.
  clear -IH. induction kids as [|k kids IHk]; [done|]. simpl. rewrite fmap_app. apply sublist_app.
  - apply IH. left.
  - apply IHk. intros k' Hk. apply IH. by right.
Qed.
Lemma sublist_NoDup' {A} (l k : list A) : sublist l k -> NoDup k -> NoDup l.
Proof.
  induction 1 as [|x l k Hs IH|x l k Hs IH]; intros Hk; [done| |apply IH; by apply NoDup_cons in Hk as [_ ?]].
  apply NoDup_cons in Hk as [Hx Hk]. apply NoDup_cons. split; [|by apply IH]. intros Hin. apply Hx.
  eapply elem_of_submseteq; [exact Hin|by apply sublist_submseteq].
Qed.
Theorem locks_once {T} (c : list T) spared j : NoDup (names j) -> NoDup (LockJointRec c spared j).*1.
Proof. intros H. eapply sublist_NoDup'; [apply lock_sublist|done]. Qed.
Theorem locks_not_spared {T} (c : list T) spared j n v : (n, v) ∈ LockJointRec c spared j -> n ∉ spared.
Proof.
  intros H. apply lock_elem in H as (j' & Hr & Heq). assert (En : n = jname j') by (rewrite <- (lock_fst c), <- Heq; done).
  subst n. clear Heq. induction Hr; done.
Qed.
(** a parent is locked before its children *)
Theorem locks_top_down {T} (c : list T) spared j l1 x l2 : LockJointRec c spared j = l1 ++ x :: l2 ->
  forall j', reaches (fun j => jname j ∈ spared) j j' -> x = lockOf c j' -> NoDup (names j) ->
  j' = j \/ exists p, reaches (fun j => jname j ∈ spared) j p /\ j' ∈ jkids p /\ lockOf c p ∈ l1.
Proof.
  revert l1 x l2. induction j as [m r s b kids IH] using jnt_ind'. intros l1 x l2 Heq j' Hr Hx Hnd.
  apply reaches_cons in Hr as [Hc [->|(k & Hk & Hr)]]; [by left|right]. simpl in Hk, Hc.
  cbn [LockJointRec] in Heq. unfold inb in Heq. case_bool_decide; [done|].
  assert (Hnd' : NoDup (concat (map names kids))) by (cbn [names] in Hnd; by apply NoDup_cons in Hnd as [_ ?]).
  assert (Hm : m ∉ concat (map names kids)) by (cbn [names] in Hnd; by apply NoDup_cons in Hnd as [? _]).
  assert (Hj'n : jname j' ∈ names k) by (apply names_in; exists j'; split; [by eapply reaches_in_tree|done]).
  destruct l1 as [|y l1].
  { exfalso. simpl in Heq. injection Heq as Hx' _. assert (jname j' = m).
    { rewrite <- (lock_fst c j'), <- Hx, <- Hx'. done. }
    apply Hm. apply elem_of_concat_map. exists k. split; [done|]. by rewrite <- H0. }
  simpl in Heq. injection Heq as <- Heq.
  apply elem_of_list_split in Hk as (ka & kb & ->).
  rewrite map_app, concat_app in Heq. cbn [map concat] in Heq.
  rewrite map_app, concat_app in Hnd'. cbn [map concat] in Hnd'.
  apply NoDup_app in Hnd' as (Hna & Hab & Hnkb). apply NoDup_app in Hnkb as (Hnk & Hkb & Hnb).
  (* x is in the part of k *)
  assert (Hxk : exists l1' l2', LockJointRec c spared k = l1' ++ x :: l2' /\ l1 = concat (map (LockJointRec c spared) ka) ++ l1').
  { assert (Hsub : forall ks n v, (n, v) ∈ concat (map (LockJointRec c spared) ks) -> n ∈ concat (map names ks)).
    { intros ks n v H1. apply elem_of_concat_map in H1 as (k1 & Hk1 & H1). apply elem_of_concat_map. exists k1. split; [done|].
      apply (elem_of_list_fmap_1 fst) in H1. simpl in H1.
      eapply elem_of_submseteq; [exact H1|]. apply sublist_submseteq, lock_sublist. }
    destruct x as [xn xv]. assert (Exn : xn = jname j') by (rewrite <- (lock_fst c j'), <- Hx; done). subst xn.
    apply app_eq_inv in Heq. destruct Heq as [(m1 & E1 & E2)|(m1 & E1 & E2)].
    - destruct m1 as [|z m1].
      + rewrite app_nil_r in E1. simpl in E2. exists [].
        assert (Hne : LockJointRec c spared k <> []).
        { intros Hn. assert (Hin : lockOf c j' ∈ LockJointRec c spared k) by (apply lock_elem; eauto). rewrite Hn in Hin. by apply elem_of_nil in Hin. }
        destruct (LockJointRec c spared k) as [|z l2'] eqn:E; [done|]. simpl in E2. injection E2 as Hz E2. exists l2'. split; [by rewrite Hz|].
        by rewrite app_nil_r.
      + exfalso. simpl in E2. injection E2 as <- E2.
        apply (Hab (jname j')); [|apply elem_of_app; by left]. apply (Hsub ka _ xv). rewrite E1. apply elem_of_app. right. left.
    - apply app_eq_inv in E2. destruct E2 as [(m2 & E3 & E4)|(m2 & E3 & E4)].
      + destruct m2 as [|z m2].
        * exfalso. simpl in E4. apply (Hkb (jname j')); [done|]. apply (Hsub kb _ xv). rewrite <- E4. left.
        * simpl in E4. injection E4 as <- E4. exists m1, m2. done.
      + exfalso. apply (Hkb (jname j')); [done|]. apply (Hsub kb _ xv). rewrite E4. apply elem_of_app. right. left. }
  destruct Hxk as (l1' & l2' & Hk' & ->).
  destruct (IH k ltac:(set_solver) l1' x l2' Hk' j' Hr Hx Hnk) as [->|(p & Hp & Hpk & Hl)].
  - exists (Jnt m r s b (ka ++ k :: kb)). split; [by apply reach_here|]. split; [simpl; set_solver|]. left.
  - exists p. split; [eapply reach_down; [done| |exact Hp]; simpl; set_solver|]. split; [done|]. right. apply elem_of_app. by right.
Qed.

(** * Adding obstacles *)
Lemma elem_fold_add (n : string) (os : list string) (S : pairs) p : p ∈ fold_left (fun (S : pairs) o => {[ (n, o) ]} ∪ S) os S <-> p ∈ S \/ (p.1 = n /\ p.2 ∈ os).
Proof.
  revert S. induction os as [|o os IH]; intros S; cbn [fold_left].
  - split; [by left|]. intros [|[_ H]]; [done|]. by apply elem_of_nil in H.
  - rewrite IH. destruct p as [a b]. rewrite elem_of_union, elem_of_singleton, elem_of_cons. simpl. split.
    + intros [[Heq|H]|[H1 H2]]; [injection Heq as -> ->; right; split; [done|by left]|by left|right; split; [done|by right]].
    + intros [H|[-> [->|H]]]; [left; by right|left; by left|by right].
Qed.
Lemma fold_mono {A} (f : A -> pairs -> pairs) (P : A -> string * string -> Prop) l :
  (forall x S p, x ∈ l -> p ∈ f x S <-> p ∈ S \/ P x p) ->
  forall S p, p ∈ fold_left (fun S x => f x S) l S <-> p ∈ S \/ exists x, x ∈ l /\ P x p.
Proof.
  induction l as [|x l IH]; intros H S p; cbn [fold_left].
  - split; [by left|]. intros [|(x & Hx & _)]; [done|]. by apply elem_of_nil in Hx.
  - rewrite IH by (intros; apply H; by right). rewrite H by left. split.
    + intros [[H1|H1]|(y & Hy & H1)]; [by left|right; exists x; split; [left|done]|right; exists y; split; [by right|done]].
    + intros [H1|(y & [->|Hy]%elem_of_cons & H1)]; [left; by left|left; by right|right; eauto].
Qed.
Theorem add_collisions eff effJoint os disable j S p :
  p ∈ addLimbCollisionRec eff effJoint os disable j S <->
  p ∈ S \/ (p.2 ∈ os /\ exists j', reaches (excluded disable eff effJoint) j j' /\ jname j' = p.1).
Proof.
  revert S p. induction j as [m r s b kids IH] using jnt_ind'. intros S p. cbn [addLimbCollisionRec].
  set (j := Jnt m r s b kids).
  assert (Hcut : disable && (bool_decide (m = eff) || bool_decide (m = effJoint) || (length kids =? 0)) = true <-> excluded disable eff effJoint j).
  { unfold excluded. simpl. rewrite andb_true_iff, !orb_true_iff, !bool_decide_eq_true, Nat.eqb_eq.
    split; [intros [H [[H1|H1]|H1]]|intros [H [H1|[H1|H1]]]]; (split; [done|]); auto.
    - right; right. by apply nil_length_inv.
    - right. by rewrite H1. }
  destruct (disable && _) eqn:Hd.
  - split; [by left|]. intros [|[_ (j' & Hr & _)]]; [done|]. apply reaches_cons in Hr as [Hn _]. exfalso. apply Hn. by apply Hcut.
  - assert (Hn : ~ excluded disable eff effJoint j) by (rewrite <- Hcut; done).
    rewrite (fold_mono (fun k S => addLimbCollisionRec eff effJoint os disable k S)
       (fun k p => p.2 ∈ os /\ exists j', reaches (excluded disable eff effJoint) k j' /\ jname j' = p.1) kids)
      by (intros; by apply IH).
    rewrite elem_fold_add. split.
    + intros [[H|[H1 H2]]|(k & Hk & H1 & j' & Hr & Hnm)]; [by left| |].
      * right. split; [done|]. exists j. split; [by apply reach_here|]. by rewrite H1.
      * right. split; [done|]. exists j'. split; [by eapply reach_down|done].
    + intros [H|[H1 (j' & Hr & Hnm)]]; [left; by left|]. apply reaches_cons in Hr as [_ [->|(k & Hk & Hr)]].
      * left. right. done.
      * right. exists k. split; [done|]. split; [done|]. eauto.
Qed.

(** * Removing obstacles *)
Lemma remove_elem j o S S' : removeObstacleFromJoint j o S = Some S' -> (j, o) ∈ S /\ forall p, p ∈ S' <-> p ∈ S /\ p <> (j, o).
Proof.
  unfold removeObstacleFromJoint. case_bool_decide; [|done]. intros Heq. injection Heq as <-. split; [done|].
  intros p. rewrite elem_of_difference, elem_of_singleton. done.
Qed.
Lemma remove_none j o S : removeObstacleFromJoint j o S = None <-> (j, o) ∉ S.
Proof. unfold removeObstacleFromJoint. by case_bool_decide. Qed.
Lemma dropAll_elem n os S p : p ∈ dropAll n os S <-> p ∈ S /\ ~ (p.1 = n /\ p.2 ∈ os).
Proof.
  unfold dropAll. revert S. induction os as [|o os IH]; intros S; cbn [fold_left].
  - split; [intros H; split; [done|]; intros [_ H']; by apply elem_of_nil in H'|by intros [H _]].
  - rewrite IH. destruct p as [a b]. simpl. destruct (removeObstacleFromJoint n o S) as [S'|] eqn:E.
    + apply remove_elem in E as [Hin E]. rewrite E. rewrite elem_of_cons. split.
      * intros [[H1 H2] H3]. split; [done|]. intros [-> [->|H4]]; [done|]. apply H3. done.
      * intros [H1 H2]. split; [split; [done|]|].
        -- intros Heq. injection Heq as -> ->. apply H2. split; [done|by left].
        -- intros [-> H3]. apply H2. split; [done|by right].
    + apply remove_none in E. rewrite elem_of_cons. split.
      * intros [H1 H2]. split; [done|]. intros [-> [->|H4]]; [done|]. by apply H2.
      * intros [H1 H2]. split; [done|]. intros [-> H3]. apply H2. split; [done|by right].
Qed.
Lemma fold_anti {A} (f : A -> pairs -> pairs) (P : A -> string * string -> Prop) l :
  (forall x S p, x ∈ l -> p ∈ f x S <-> p ∈ S /\ ~ P x p) ->
  forall S p, p ∈ fold_left (fun S x => f x S) l S <-> p ∈ S /\ ~ exists x, x ∈ l /\ P x p.
Proof.
  induction l as [|x l IH]; intros H S p; cbn [fold_left].
  - split; [intros H1; split; [done|]; intros (x & Hx & _); by apply elem_of_nil in Hx|by intros [H1 _]].
  - rewrite IH by (intros; apply H; by right). rewrite H by left. split.
    + intros [[H1 H2] H3]. split; [done|]. intros (y & [->|Hy]%elem_of_cons & H4); [done|]. apply H3. eauto.
    + intros [H1 H2]. split; [split; [done|]|].
      * intros H3. apply H2. exists x. split; [left|done].
      * intros (y & Hy & H3). apply H2. exists y. split; [by right|done].
Qed.
Theorem remove_non_limb1 limb os j S p :
  p ∈ RemoveNonLimbCollisionRec1 limb os j S <->
  p ∈ S /\ ~ (p.2 ∈ os /\ exists j', reaches (fun j => jname j = limb) j j' /\ jbody j' = true /\ jname j' = p.1).
Proof.
  revert S p. induction j as [m r s b kids IH] using jnt_ind'. intros S p. cbn [RemoveNonLimbCollisionRec1].
  set (j := Jnt m r s b kids). case_bool_decide as Hm.
  - split; [|by intros [H _]]. intros H. split; [done|]. intros [_ (j' & Hr & _)]. apply reaches_cons in Hr as [Hn _]. by apply Hn.
  - rewrite (fold_anti (fun k S => RemoveNonLimbCollisionRec1 limb os k S)
       (fun k p => p.2 ∈ os /\ exists j', reaches (fun j => jname j = limb) k j' /\ jbody j' = true /\ jname j' = p.1) kids)
      by (intros; by apply IH).
    assert (Hb : p ∈ (if b then dropAll m os S else S) <-> p ∈ S /\ ~ (p.2 ∈ os /\ b = true /\ m = p.1)).
    { destruct b; [rewrite dropAll_elem; naive_solver|naive_solver]. }
    rewrite Hb. split.
    + intros [[H1 H2] H3]. split; [done|]. intros [H4 (j' & Hr & Hbd & Hnm)].
      apply reaches_cons in Hr as [_ [->|(k & Hk & Hr)]]; [by apply H2|]. apply H3. exists k. split; [done|]. split; [done|]. eauto.
    + intros [H1 H2]. split; [split; [done|]|].
      * intros (H3 & H4 & H5). apply H2. split; [done|]. exists j. split; [by apply reach_here|]. done.
      * intros (k & Hk & H3 & j' & Hr & Hbd & Hnm). apply H2. split; [done|]. exists j'. split; [by eapply reach_down|done].
Qed.
