From Coq Require Import Reals Lra Lia Psatz Nsatz.
From Verif Require Import SampModel.
From Verif Require Import ReachSpec MapsProofs VecProofs ProjProofs ProjProofs2 StateSpec StateProofs StateRealProofs StabProofs StabProofs2 ReachProofs.
From Verif Require Import StateModel.
Local Open Scope R_scope.

(** ** which limbs vary *)
Lemma list_one {A} (l : list A) x : NoDup l -> (forall y, y ∈ l <-> y = x) -> l = [x].
Proof.
  intros Hn H. destruct l as [|a l].
  - exfalso. assert (Hx : x ∈ []) by (by apply H). inversion Hx.
  - assert (a = x) by (apply H; apply elem_of_cons; by left). subst a.
    destruct l as [|b l]; [done|]. exfalso. assert (b = x) by (apply H; apply elem_of_cons; right; apply elem_of_cons; by left).
    subst b. apply NoDup_cons in Hn as [Hn _]. apply Hn. apply elem_of_cons. by left.
Qed.
Lemma list_none {A} (l : list A) : (forall y, ~ y ∈ l) -> l = [].
Proof. destruct l as [|a l]; [done|]. intros H. exfalso. apply (H a). apply elem_of_cons. by left. Qed.

Section V.
Context (prev next : PSt).

Lemma breaks_elem e : e ∈ contactBreaks moved3 next prev <-> lost prev next e.
Proof. rewrite (proj1 (variations_real prev next)). apply creations_real. Qed.
Lemma creations_elem e : e ∈ contactCreations moved3 next prev <-> made prev next e.
Proof. apply creations_real. Qed.
Lemma variations_elem e : e ∈ contactVariations moved3 next prev <-> varies prev next e.
Proof. apply variations_real. Qed.
Lemma breaks_nodup : NoDup (contactBreaks moved3 next prev).
Proof. rewrite (proj1 (variations_real prev next)). apply creations_real. Qed.
Lemma creations_nodup : NoDup (contactCreations moved3 next prev).
Proof. apply creations_real. Qed.
Lemma variations_nodup : NoDup (contactVariations moved3 next prev).
Proof. apply (variations_real prev next). Qed.

Lemma moved_both e : is_Some (positions prev !! e) -> is_Some (positions next !! e) -> varies prev next e ->
  made prev next e /\ lost prev next e.
Proof.
  intros [p Ep] [q Eq]. unfold varies, made, lost, new_or_moved.
  assert (Hsym : forall d, displacement prev next e d <-> displacement next prev e d).
  { intros d. unfold displacement. split; intros (a & b & H1 & H2 & ->); exists b, a; split_and!; try done; apply dist3_sym. }
  assert (HA : (exists p, positions next !! e = Some p) /\ (positions prev !! e = None \/ (exists d, displacement prev next e d /\ d > 1 / 100)) <->
               (exists d, displacement prev next e d /\ d > 1 / 100)).
  { split; [intros [_ [H|H]]; [congruence|done]|intros H; split; eauto]. }
  assert (HC : (exists p, positions prev !! e = Some p) /\ (positions next !! e = None \/ (exists d, displacement next prev e d /\ d > 1 / 100)) <->
               (exists d, displacement prev next e d /\ d > 1 / 100)).
  { split; [intros [_ [H|(d & H & Hd)]]; [congruence|exists d; split; [by apply Hsym|done]]|intros (d & H & Hd); split; [eauto|right; exists d; split; [by apply Hsym|done]]]. }
  rewrite HA, HC. tauto.
Qed.
Lemma made_some e : made prev next e -> is_Some (positions next !! e).
Proof. intros [[p H] _]. eauto. Qed.
Lemma lost_some e : lost prev next e -> is_Some (positions prev !! e).
Proof. intros [[p H] _]. eauto. Qed.

Lemma none_lists : none_varies prev next -> contactBreaks moved3 next prev = [] /\ contactCreations moved3 next prev = [].
Proof.
  intros H. split; apply list_none; intros e He.
  - apply breaks_elem in He. apply (H e). by right.
  - apply creations_elem in He. apply (H e). by left.
Qed.
Lemma broken_lists e : only_broken prev next e -> contactBreaks moved3 next prev = [e] /\ contactCreations moved3 next prev = [].
Proof.
  intros (Ho & Hp & Hn). split.
  - apply list_one; [apply breaks_nodup|]. intros y. rewrite breaks_elem. split.
    + intros H. apply Ho. by right.
    + intros ->. assert (Hv : varies prev next e) by (by apply Ho). destruct Hv as [Hv|]; [|done].
      apply made_some in Hv as [? ?]. congruence.
  - apply list_none. intros y Hy. apply creations_elem in Hy. assert (y = e) by (apply Ho; by left). subst y.
    apply made_some in Hy as [? ?]. congruence.
Qed.
Lemma created_lists e : only_created prev next e -> contactBreaks moved3 next prev = [] /\ contactCreations moved3 next prev = [e].
Proof.
  intros (Ho & Hp & Hn). split.
  - apply list_none. intros y Hy. apply breaks_elem in Hy. assert (y = e) by (apply Ho; by right). subst y.
    apply lost_some in Hy as [? ?]. congruence.
  - apply list_one; [apply creations_nodup|]. intros y. rewrite creations_elem. split.
    + intros H. apply Ho. by left.
    + intros ->. assert (Hv : varies prev next e) by (by apply Ho). destruct Hv as [|Hv]; [done|].
      apply lost_some in Hv as [? ?]. congruence.
Qed.
Lemma moved_lists e : only_moved prev next e -> contactBreaks moved3 next prev = [e] /\ contactCreations moved3 next prev = [e] /\
  contactVariations moved3 next prev = [e].
Proof.
  intros (Ho & Hp & Hn).
  assert (Hb : made prev next e /\ lost prev next e) by (apply moved_both; try done; by apply Ho).
  split_and!; apply list_one; try apply breaks_nodup; try apply creations_nodup; try apply variations_nodup; intros y.
  - rewrite breaks_elem. split; [intros H; apply Ho; by right|intros ->; tauto].
  - rewrite creations_elem. split; [intros H; apply Ho; by left|intros ->; tauto].
  - rewrite variations_elem. apply Ho.
Qed.

Lemma vary_cases : none_varies prev next \/ several_vary prev next \/
  exists e, only_broken prev next e \/ only_created prev next e \/ only_moved prev next e.
Proof.
  destruct (contactVariations moved3 next prev) as [|e [|e' l]] eqn:E.
  - left. intros e He. apply variations_elem in He. rewrite E in He. inversion He.
  - right. right. exists e.
    assert (Ho : only prev next e). { intros y. rewrite <- variations_elem, E. apply elem_of_list_singleton. }
    assert (Hv : varies prev next e) by (by apply Ho).
    unfold only_broken, only_created, only_moved.
    destruct (positions prev !! e) eqn:E1, (positions next !! e) eqn:E2.
    + right; right. split_and!; eauto.
    + left. split_and!; eauto.
    + right; left. split_and!; eauto.
    + exfalso. destruct Hv as [Hv|Hv]; [apply made_some in Hv|apply lost_some in Hv]; destruct Hv; congruence.
  - right. left. exists e, e'. pose proof variations_nodup as Hn. rewrite E in Hn. apply NoDup_cons in Hn as [Hn _].
    split_and!.
    + intros ->. apply Hn. apply elem_of_cons. by left.
    + apply variations_elem. rewrite E. apply elem_of_cons. by left.
    + apply variations_elem. rewrite E. apply elem_of_cons. right. apply elem_of_cons. by left.
Qed.

Lemma none_not_several : none_varies prev next -> several_vary prev next -> False.
Proof. intros H (e & e' & _ & He & _). apply (H e He). Qed.
Lemma only_not_several e : only prev next e -> several_vary prev next -> False.
Proof. intros Ho (a & b & Hab & Ha & Hb). apply Ho in Ha, Hb. congruence. Qed.
Lemma only_not_none e : only prev next e -> none_varies prev next -> False.
Proof. intros Ho Hn. apply (Hn e). by apply Ho. Qed.
End V.

Section R.
Context (axis : vec3 -> vec3 -> vec3) (lib : eqlib) (B : rbody)
  (qp : list (vec3 * R) -> mat3 * vec3 -> vec3 -> bool * vec3).
Notation reachW := (isReachableWith axis lib B qp).
Notation reach := (isReachable axis lib B qp).

Lemma reachW_none inter prev next acc ui : none_varies prev next ->
  reachW inter prev next acc ui = Ok (resultOf NO_CONTACT_VARIATION).
Proof. intros H. destruct (none_lists _ _ H) as [E1 E2]. unfold isReachableWith. rewrite E1, E2. done. Qed.
Lemma reachW_broken inter prev next acc ui e : only_broken prev next e ->
  reachW inter prev next acc ui = reachBreak axis lib B qp prev next acc.
Proof. intros H. destruct (broken_lists _ _ _ H) as [E1 E2]. unfold isReachableWith. rewrite E1, E2. done. Qed.
Lemma reachW_created inter prev next acc ui e : only_created prev next e ->
  reachW inter prev next acc ui = reachCreate axis lib B qp prev next acc.
Proof. intros H. destruct (created_lists _ _ _ H) as [E1 E2]. unfold isReachableWith. rewrite E1, E2. done. Qed.
Lemma reachW_moved inter prev next acc ui e : only_moved prev next e ->
  reachW inter prev next acc ui =
    let mid := snd (RemoveContact e (freshState B (state_copy prev))) in
    if ui then inter prev mid next else reachReposition axis lib B qp prev next mid acc.
Proof. intros H. destruct (moved_lists _ _ _ H) as (E1 & E2 & E3). unfold isReachableWith. rewrite E1, E2, E3. done. Qed.
Lemma reachW_several inter prev next acc ui : several_vary prev next ->
  reachW inter prev next acc ui = Ok (resultOf TOO_MANY_CONTACTS_VARIATION).
Proof.
  intros Hs. pose proof Hs as (a & b & Hab & Ha & Hb). unfold isReachableWith.
  destruct (contactBreaks moved3 next prev) as [|e [|e' l]] eqn:Eb.
  - destruct (contactCreations moved3 next prev) as [|c [|c' l']] eqn:Ec; [| |done].
    + exfalso. destruct Ha as [H|H]; [apply creations_elem in H; rewrite Ec in H|apply breaks_elem in H; rewrite Eb in H]; inversion H.
    + exfalso. assert (forall x, varies prev next x -> x = c).
      { intros x [H|H]; [apply creations_elem in H; rewrite Ec in H; by apply elem_of_list_singleton in H|apply breaks_elem in H; rewrite Eb in H; inversion H]. }
      apply Hab. rewrite (H a Ha), (H b Hb). done.
  - destruct (contactCreations moved3 next prev) as [|c [|c' l']] eqn:Ec; [| |done].
    + exfalso. assert (forall x, varies prev next x -> x = e).
      { intros x [H|H]; [apply creations_elem in H; rewrite Ec in H; inversion H|apply breaks_elem in H; rewrite Eb in H; by apply elem_of_list_singleton in H]. }
      apply Hab. rewrite (H a Ha), (H b Hb). done.
    + destruct (length (contactVariations moved3 next prev) =? 1)%nat eqn:El; [|done].
      exfalso. apply Nat.eqb_eq in El. apply variations_elem in Ha, Hb.
      destruct (contactVariations moved3 next prev) as [|x [|? ?]]; try done.
      apply elem_of_list_singleton in Ha, Hb. congruence.
  - done.
Qed.

(** statuses of the three computations *)
Lemma decide_status prev next small Ab r : decideReach B qp prev next small Ab = Ok r ->
  (rstatus r = REACHABLE \/ rstatus r = UNREACHABLE).
Proof. intros H. unfold decideReach in H. inv_bind H. destruct (intersectionExist qp Ab a) as [[] x]; injection H as <-; auto. Qed.
Definition plain_status (s : status) : Prop := s = REACHABLE \/ s = UNREACHABLE \/ s = UNABLE_TO_COMPUTE.
Lemma break_status prev next acc r : reachBreak axis lib B qp prev next acc = Ok r -> plain_status (rstatus r).
Proof.
  intros H. unfold reachBreak in H. inv_bind H. unfold plain_status. destruct a; [|injection H as <-; auto].
  inv_bind H. apply decide_status in H. tauto.
Qed.
Lemma create_status prev next acc r : reachCreate axis lib B qp prev next acc = Ok r -> plain_status (rstatus r).
Proof.
  intros H. unfold reachCreate in H. inv_bind H. unfold plain_status. destruct a; [|injection H as <-; auto].
  inv_bind H. apply decide_status in H. tauto.
Qed.
Lemma reposition_status prev next mid acc r : reachReposition axis lib B qp prev next mid acc = Ok r -> plain_status (rstatus r).
Proof.
  intros H. unfold reachReposition in H. inv_bind H. unfold plain_status. destruct a; [|injection H as <-; auto].
  inv_bind H. destruct a; [|injection H as <-; auto]. apply decide_status in H. tauto.
Qed.
Lemma intermediate_status prev mid next r : isReachableIntermediate axis lib B qp prev mid next = Ok r ->
  rstatus r = REACHABLE \/ rstatus r = UNREACHABLE \/ rstatus r = CONTACT_BREAK_FAILED \/ rstatus r = CONTACT_CREATION_FAILED.
Proof.
  intros H. unfold isReachableIntermediate in H. inv_bind H. inv_bind H. injection H as <-.
  destruct (success a && success a0); [simpl; auto|].
  destruct (rstatus a), (rstatus a0), (negb (success a)); simpl; auto.
Qed.

Lemma reach_statuses prev next acc ui r : reach prev next acc ui = Ok r ->
  (rstatus r = NO_CONTACT_VARIATION <-> none_varies prev next) /\
  (rstatus r = TOO_MANY_CONTACTS_VARIATION <-> several_vary prev next) /\
  rstatus r <> SAME_ROOT_POSITION /\ rstatus r <> QUASI_STATIC /\
  (rstatus r = CONTACT_BREAK_FAILED \/ rstatus r = CONTACT_CREATION_FAILED -> ui = true /\ exists e, only_moved prev next e).
Proof.
  intros H. unfold isReachable in H.
  destruct (vary_cases prev next) as [Hc|[Hc|(e & [Hc|[Hc|Hc]])]].
  - rewrite reachW_none in H by done. injection H as <-. simpl. split_and!; try done.
    + split; [done|]. intros Hs. by destruct (none_not_several _ _ Hc Hs).
    + intros [?|?]; done.
  - rewrite reachW_several in H by done. injection H as <-. simpl. split_and!; try done.
    + split; [done|]. intros Hs. by destruct (none_not_several _ _ Hs Hc).
    + intros [?|?]; done.
  - rewrite (reachW_broken _ _ _ _ _ e) in H by done. apply break_status in H. destruct Hc as (Ho & _).
    pose proof (only_not_several _ _ _ Ho) as H1. pose proof (only_not_none _ _ _ Ho) as H2.
    destruct H as [->|[->| ->]]; split_and!; try done; try (split; [done|tauto]); intros [?|?]; done.
  - rewrite (reachW_created _ _ _ _ _ e) in H by done. apply create_status in H. destruct Hc as (Ho & _).
    pose proof (only_not_several _ _ _ Ho) as H1. pose proof (only_not_none _ _ _ Ho) as H2.
    destruct H as [->|[->| ->]]; split_and!; try done; try (split; [done|tauto]); intros [?|?]; done.
  - rewrite (reachW_moved _ _ _ _ _ e) in H by done. cbn zeta in H. pose proof Hc as (Ho & _).
    pose proof (only_not_several _ _ _ Ho) as H1. pose proof (only_not_none _ _ _ Ho) as H2.
    destruct ui.
    + apply intermediate_status in H. destruct H as [->|[->|[->| ->]]]; split_and!; try done; try (split; [done|tauto]); eauto.
    + apply reposition_status in H. destruct H as [->|[->| ->]]; split_and!; try done; try (split; [done|tauto]); intros [?|?]; done.
Qed.
End R.
