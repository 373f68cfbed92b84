From Coq Require Import Reals Lra Lia Psatz Nsatz.
From Verif Require Import SampModel.
From Verif Require Import ReachSpec MapsProofs VecProofs ProjProofs ProjProofs2 StateSpec StateProofs StateRealProofs
  StabProofs StabProofs2 ReachProofs ReachProofs2.
From Verif Require Import StateModel.
Local Open Scope R_scope.

(** ** the cost is the distance *)
Lemma cost_distance c x y : cost (computeDistanceCost c) x <= cost (computeDistanceCost c) y <-> dist3 x c <= dist3 y c.
Proof.
  unfold cost, computeDistanceCost. cbn [fst snd]. rewrite !mapp_id.
  assert (E : forall z, / 2 * vdot z z + vdot (vopp c) z = / 2 * vnorm2 (vsub z c) - / 2 * vnorm2 c).
  { intros z. unfold vnorm2, vdot, vsub, vopp; cbn [vx vy vz]. field. }
  rewrite !E. unfold dist3, vnorm. split; intros H.
  - apply sqrt_le_1; try apply vnorm2_nonneg. lra.
  - apply sqrt_le_0 in H; try apply vnorm2_nonneg. lra.
Qed.

Section P.
Context (axis : vec3 -> vec3 -> vec3) (lib : eqlib) (B : rbody)
  (qp : list (vec3 * R) -> mat3 * vec3 -> vec3 -> bool * vec3).
Notation reach := (isReachable axis lib B qp).

Lemma sum_contacts s items c : sumContacts B s items = Ok c -> (forall e p, (e, p) ∈ items -> positions s !! e = Some p) ->
  exists ps, Forall2 (placed_contact B s) (items.*1) ps /\ vx c = fold_right Rplus 0 (map vx ps) /\
    vy c = fold_right Rplus 0 (map vy ps) /\ vz c = fold_right Rplus 0 (map vz ps).
Proof.
  revert c. induction items as [|[n p] it IH]; intros c H Hp; simpl in H.
  - injection H as <-. exists []. simpl. split_and!; [constructor|done..].
  - inv_bind H. inv_bind H. inv_bind H. injection H as <-. apply at_ok in E, E0.
    destruct (IH _ E1) as (ps & Hf & Hx & Hy & Hz). { intros e q Hin. apply Hp, elem_of_cons. by right. }
    exists (se3act (SE3 a p) (roffset a0) :: ps). simpl. rewrite <- Hx, <- Hy, <- Hz. split_and!; try done.
    constructor; [|done]. exists a0, a, p. split_and!; try done. apply Hp, elem_of_cons. by left.
Qed.
Lemma robust_aim prev next s c : robustPoint B prev next s = Ok c -> aim B prev next s c.
Proof.
  intros H. unfold robustPoint in H. inv_bind H. injection H as <-.
  destruct (sum_contacts _ _ _ E) as (ps & Hf & Hx & Hy & _). { intros e p. apply elem_of_sitems. }
  rewrite sitems_keys in Hf. exists ps. split; [done|]. cbn [vx vy vz vscale]. 
  assert (El : length (sitems (positions s)) = length ps).
  { rewrite <- (Forall2_length _ _ _ Hf), <- sitems_keys, fmap_length. done. }
  rewrite El, Hx, Hy. unfold Rdiv. split_and!; try done; ring.
Qed.
Lemma aim_fresh prev next s c : aim B prev next (freshState B s) c <-> aim B prev next s c.
Proof. done. Qed.

Lemma stab_state s acc Ab : computeStabilityConstraintsForState axis lib B s acc = Ok (Some Ab) -> good_polytopes lib ->
  forall x, feasible Ab x <-> state_balanced axis lib B s acc x.
Proof.
  intros H Hg x. unfold computeStabilityConstraintsForState in H. destruct (order s) as [|f o]; [done|].
  inv_bind H. destruct a as [k|]; [|done]. inv_bind H. clear a E0.
  destruct (computeStabilityConstraints lib B k acc) as [[|r Ab']|] eqn:Es; [done| |done].
  injection H as <-. rewrite (balance_rows _ _ _ _ _ Es (Hg k)).
  assert (Ho : fst (polytope lib k) = LP_OPTIMAL).
  { unfold computeStabilityConstraints in Es. destruct (polytope lib k) as [st [? ?]]. cbn [fst].
    destruct st; simpl in Es; done. }
  unfold state_balanced. split; [eauto|]. intros (k' & Ek & _ & Hb). rewrite E in Ek. injection Ek as <-. done.
Qed.
Lemma full_state s acc Ab : lawful_body B -> computeConstraintsForState axis lib B s acc = Ok (Some Ab) -> good_polytopes lib ->
  forall x, feasible Ab x <-> within_reach B s x /\ state_balanced axis lib B s acc x.
Proof.
  intros HB H Hg x. unfold computeConstraintsForState in H. inv_bind H. destruct a as [A|]; [|done].
  inv_bind H. injection H as <-. unfold stackConstraints. rewrite feasible_app.
  rewrite (state_kinematics B HB _ _ E0), (stab_state _ _ _ E Hg). done.
Qed.

Lemma decided prev next s Ab r : sound_qp qp -> complete_qp qp -> decideReach B qp prev next s Ab = Ok r ->
  (rstatus r = REACHABLE \/ rstatus r = UNREACHABLE) /\
  (rstatus r = REACHABLE <-> exists y, feasible Ab y) /\
  (rstatus r = REACHABLE -> feasible Ab (resx r) /\
     exists c, aim B prev next s c /\ forall y, feasible Ab y -> dist3 (resx r) c <= dist3 y c).
Proof.
  intros Hs Hc H. split; [by eapply decide_status|]. unfold decideReach in H. inv_bind H. unfold intersectionExist in H.
  apply robust_aim in E. destruct (qp Ab _ a) as [ok x] eqn:Eq. injection H as <-. cbn [rstatus resx].
  destruct ok.
  - destruct (Hs _ _ _ Eq) as [Hf Hm]. split.
    + split; [eauto|done].
    + intros _. split; [done|]. exists a. split; [done|]. intros y Hy. apply cost_distance. by apply Hm.
  - split; [|done]. split; [done|]. intros He. specialize (Hc Ab a He). unfold computeDistanceCost in Eq. rewrite Eq in Hc. done.
Qed.

Lemma only_kept prev next e e' : only prev next e -> e' <> e -> is_Some (positions next !! e') -> is_Some (positions prev !! e').
Proof.
  intros Ho Hne [p Hp]. destruct (positions prev !! e') eqn:E; [eauto|]. exfalso. apply Hne. apply Ho. left.
  split; [eauto|by left].
Qed.
Lemma only_kept' prev next e e' : only prev next e -> e' <> e -> is_Some (positions prev !! e') -> is_Some (positions next !! e').
Proof.
  intros Ho Hne [p Hp]. destruct (positions next !! e') eqn:E; [eauto|]. exfalso. apply Hne. apply Ho. right.
  split; [eauto|by left].
Qed.

Lemma reach_broken_next prev next e x : only_broken prev next e -> flags_ok prev -> flags_ok next -> same_placement B prev next ->
  within_reach B prev x -> within_reach B next x.
Proof.
  intros (Ho & Hp & Hn) F1 F2 Hs Hr e' l He Hl.
  assert (Hne : e' <> e). { intros ->. apply F2 in He as [? ?]. congruence. }
  assert (Hpv : contacts prev !! e' = Some true). { apply F1. eapply only_kept; [done|done|]. by apply F2. }
  rewrite <- (Hs e' l Hpv He Hl). apply (Hr e' l Hpv Hl).
Qed.
Lemma reach_created_prev prev next e x : only_created prev next e -> flags_ok prev -> flags_ok next -> same_placement B prev next ->
  within_reach B next x -> within_reach B prev x.
Proof.
  intros (Ho & Hp & Hn) F1 F2 Hs Hr e' l He Hl.
  assert (Hne : e' <> e). { intros ->. apply F1 in He as [? ?]. congruence. }
  assert (Hnv : contacts next !! e' = Some true). { apply F2. eapply only_kept'; [done|done|]. by apply F1. }
  rewrite (Hs e' l He Hnv Hl). apply (Hr e' l Hnv Hl).
Qed.

Context (HB : lawful_body B) (Hg : good_polytopes lib) (Hs : sound_qp qp) (Hc : complete_qp qp).

Lemma reach_broken prev next acc ui r e : reach prev next acc ui = Ok r -> only_broken prev next e ->
  rstatus r <> UNABLE_TO_COMPUTE ->
  let ok y := state_balanced axis lib B next acc y /\ within_reach B prev y in
  (rstatus r = REACHABLE <-> exists y, ok y) /\
  (rstatus r = REACHABLE \/ rstatus r = UNREACHABLE) /\
  (rstatus r = REACHABLE -> ok (resx r) /\
    (flags_ok prev -> flags_ok next -> same_placement B prev next -> within_reach B next (resx r)) /\
    exists c, aim B prev next next c /\ forall y, ok y -> dist3 (resx r) c <= dist3 y c).
Proof.
  intros H Ho Hu. unfold isReachable in H. rewrite (reachW_broken _ _ _ _ _ _ _ _ _ e) in H by done.
  unfold reachBreak in H. inv_bind H. destruct a as [An|]; [|injection H as <-; done].
  inv_bind H. cbn zeta.
  assert (Hf : forall y, feasible (stackConstraints An a) y <-> state_balanced axis lib B next acc y /\ within_reach B prev y).
  { intros y. unfold stackConstraints. rewrite feasible_app, (stab_state _ _ _ E Hg), (state_kinematics B HB _ _ E0). done. }
  destruct (decided _ _ _ _ _ Hs Hc H) as (D1 & D2 & D3). split_and!.
  - rewrite D2. split; intros [y Hy]; exists y; by apply Hf.
  - done.
  - intros Hr. destruct (D3 Hr) as (F & c & Ha & Hm). apply Hf in F. split_and!; try apply F.
    + intros F1 F2 Hpl. eapply reach_broken_next; try done. apply F.
    + exists c. split; [done|]. intros y Hy. apply Hm. by apply Hf.
Qed.

Lemma reach_created prev next acc ui r e : reach prev next acc ui = Ok r -> only_created prev next e ->
  rstatus r <> UNABLE_TO_COMPUTE ->
  let ok y := state_balanced axis lib B prev acc y /\ within_reach B next y in
  (rstatus r = REACHABLE <-> exists y, ok y) /\
  (rstatus r = REACHABLE \/ rstatus r = UNREACHABLE) /\
  (rstatus r = REACHABLE -> ok (resx r) /\
    (flags_ok prev -> flags_ok next -> same_placement B prev next -> within_reach B prev (resx r)) /\
    exists c, aim B prev next prev c /\ forall y, ok y -> dist3 (resx r) c <= dist3 y c).
Proof.
  intros H Ho Hu. unfold isReachable in H. rewrite (reachW_created _ _ _ _ _ _ _ _ _ e) in H by done.
  unfold reachCreate in H. inv_bind H. destruct a as [An|]; [|injection H as <-; done].
  inv_bind H. cbn zeta.
  assert (Hf : forall y, feasible (stackConstraints An a) y <-> state_balanced axis lib B prev acc y /\ within_reach B next y).
  { intros y. unfold stackConstraints. rewrite feasible_app, (stab_state _ _ _ E Hg), (state_kinematics B HB _ _ E0). done. }
  destruct (decided _ _ _ _ _ Hs Hc H) as (D1 & D2 & D3). split_and!.
  - rewrite D2. split; intros [y Hy]; exists y; by apply Hf.
  - done.
  - intros Hr. destruct (D3 Hr) as (F & c & Ha & Hm). apply Hf in F. split_and!; try apply F.
    + intros F1 F2 Hpl. eapply reach_created_prev; try done. apply F.
    + exists c. split; [done|]. intros y Hy. apply Hm. by apply Hf.
Qed.

Lemma reach_moved prev next acc r e : reach prev next acc false = Ok r -> only_moved prev next e ->
  rstatus r <> UNABLE_TO_COMPUTE ->
  let ok y := state_balanced axis lib B prev acc y /\ within_reach B prev y /\
              state_balanced axis lib B next acc y /\ within_reach B next y in
  (rstatus r = REACHABLE <-> exists y, ok y) /\
  (rstatus r = REACHABLE \/ rstatus r = UNREACHABLE) /\
  (rstatus r = REACHABLE -> ok (resx r) /\
    exists c, aim B prev next (snd (RemoveContact e prev)) c /\ forall y, ok y -> dist3 (resx r) c <= dist3 y c).
Proof.
  intros H Ho Hu. unfold isReachable in H. rewrite (reachW_moved _ _ _ _ _ _ _ _ _ e) in H by done.
  cbn zeta iota in H. unfold reachReposition in H. inv_bind H. destruct a as [Ap|]; [|injection H as <-; done].
  inv_bind H. destruct a as [An|]; [|injection H as <-; done]. cbn zeta.
  assert (Hf : forall y, feasible (stackConstraints Ap An) y <-> state_balanced axis lib B prev acc y /\ within_reach B prev y /\
              state_balanced axis lib B next acc y /\ within_reach B next y).
  { intros y. unfold stackConstraints. rewrite feasible_app, (full_state _ _ _ HB E Hg), (full_state _ _ _ HB E0 Hg). tauto. }
  destruct (decided _ _ _ _ _ Hs Hc H) as (D1 & D2 & D3). split_and!.
  - rewrite D2. split; intros [y Hy]; exists y; by apply Hf.
  - done.
  - intros Hr. destruct (D3 Hr) as (F & c & Ha & Hm). apply Hf in F. split; [done|].
    exists c. split; [|intros y Hy; apply Hm; by apply Hf].
    rewrite aim_fresh in Ha. unfold RemoveContact, freshState, state_assign, state_copy in *. cbn [contacts] in *.
    destruct (has e (contacts prev)); exact Ha.
Qed.
End P.

(** ** repositioning in two steps *)
Section I.
Context (axis : vec3 -> vec3 -> vec3) (lib : eqlib) (B : rbody)
  (qp : list (vec3 * R) -> mat3 * vec3 -> vec3 -> bool * vec3).
Notation reach := (isReachable axis lib B qp).

Lemma reachW_inter i1 i2 prev next acc : isReachableWith axis lib B qp i1 prev next acc false = isReachableWith axis lib B qp i2 prev next acc false.
Proof.
  unfold isReachableWith. destruct (contactBreaks moved3 next prev) as [|? [|? ?]], (contactCreations moved3 next prev) as [|? [|? ?]]; done.
Qed.
Lemma intermediate_eq prev mid next : isReachableIntermediate axis lib B qp prev mid next =
  obind (reach prev mid vzero false) (fun rb => obind (reach mid next vzero false) (fun rc =>
  Ok (if success rb && success rc then
        mkRes REACHABLE (vscale (/ 2) (vadd (resx rb) (resx rc))) (resx rb) (resx rc) [] None [] []
      else match rstatus rb, rstatus rc with
           | UNREACHABLE, UNREACHABLE => resultOf UNREACHABLE
           | _, _ => if negb (success rb) then resultOf CONTACT_BREAK_FAILED
                     else resultOf CONTACT_CREATION_FAILED
           end))).
Proof.
  unfold isReachableIntermediate, isReachable.
  rewrite (reachW_inter _ (isReachableIntermediate axis lib B qp) prev mid).
  rewrite (reachW_inter _ (isReachableIntermediate axis lib B qp) mid next). done.
Qed.

Definition reached (r : result) : Prop := rstatus r = REACHABLE \/ rstatus r = NO_CONTACT_VARIATION.
Lemma intermediate_cases prev mid next r : isReachableIntermediate axis lib B qp prev mid next = Ok r ->
  exists rb rc, reach prev mid vzero false = Ok rb /\ reach mid next vzero false = Ok rc /\
  (rstatus r = REACHABLE <-> reached rb /\ reached rc) /\
  (rstatus r = UNREACHABLE <-> rstatus rb = UNREACHABLE /\ rstatus rc = UNREACHABLE) /\
  (rstatus r = CONTACT_BREAK_FAILED <-> ~ reached rb /\ ~ (rstatus rb = UNREACHABLE /\ rstatus rc = UNREACHABLE)) /\
  (rstatus r = CONTACT_CREATION_FAILED <-> reached rb /\ ~ reached rc) /\
  (rstatus r = REACHABLE -> resx r = vscale (/ 2) (vadd (resx rb) (resx rc)) /\ xBreak r = resx rb /\ xCreate r = resx rc).
Proof.
  intros H. rewrite intermediate_eq in H. inv_bind H. inv_bind H. exists a, a0. split; [done|]. split; [done|].
  destruct (reach_statuses _ _ _ _ _ _ _ _ _ E) as (_ & _ & S1 & Q1 & _).
  destruct (reach_statuses _ _ _ _ _ _ _ _ _ E0) as (_ & _ & S2 & Q2 & _).
  assert (R : forall x, rstatus x <> SAME_ROOT_POSITION -> rstatus x <> QUASI_STATIC -> (success x = true <-> reached x)).
  { intros x X1 X2. unfold success, reached. destruct (rstatus x); try done; split; intros HH; auto; try done; destruct HH; done. }
  pose proof (R a S1 Q1) as Ra. pose proof (R a0 S2 Q2) as Ra0. injection H as <-.
  destruct (success a) eqn:Sa, (success a0) eqn:Sa0; cbn [andb negb].
  - assert (A1 : reached a) by (by apply Ra). assert (A2 : reached a0) by (by apply Ra0). cbn [rstatus resx xBreak xCreate].
    split_and!; try done; split; try done; try tauto.
    intros [H1 _]. destruct A1; congruence.
  - assert (A1 : reached a) by (by apply Ra). assert (A2 : ~ reached a0) by (intros X; apply Ra0 in X; done).
    assert (Hn : rstatus a <> UNREACHABLE) by (destruct A1; congruence).
    destruct (rstatus a), (rstatus a0); cbn [rstatus resultOf]; (split_and!; try done; split; try done; try tauto); try (intros [? ?]; done); try (intros [? HH]; exfalso; apply HH; done); try (intros _; split; [done|intros [? ?]; done]).
  - assert (A1 : ~ reached a) by (intros X; apply Ra in X; done). assert (A2 : reached a0) by (by apply Ra0).
    assert (Hn : rstatus a0 <> UNREACHABLE) by (destruct A2; congruence).
    destruct (rstatus a), (rstatus a0); cbn [rstatus resultOf]; (split_and!; try done; split; try done; try tauto); try (intros [? ?]; done); try (intros [? HH]; exfalso; apply HH; done); try (intros _; split; [done|intros [? ?]; done]).
  - assert (A1 : ~ reached a) by (intros X; apply Ra in X; done). assert (A2 : ~ reached a0) by (intros X; apply Ra0 in X; done).
    destruct (rstatus a) eqn:E1, (rstatus a0) eqn:E2; cbn [rstatus resultOf]; (split_and!; try done; split; try done; try tauto); try (intros [? ?]; done); try (intros [? HH]; exfalso; apply HH; done); try (intros _; split; [done|intros [? ?]; done]).
Qed.

(** with an intermediate state equal to the previous one there is nothing to break: the
    point reported is half-way between the origin and the point found *)
Lemma intermediate_no_break prev next r : isReachableIntermediate axis lib B qp prev prev next = Ok r ->
  rstatus r = REACHABLE -> xBreak r = vzero /\ resx r = vscale (/ 2) (xCreate r).
Proof.
  intros H Hr. destruct (intermediate_cases _ _ _ _ H) as (rb & rc & E1 & E2 & _ & _ & _ & _ & Hx).
  destruct (Hx Hr) as (Hx1 & Hx2 & Hx3).
  assert (Hn : none_varies prev prev).
  { intros e He. apply variations_elem in He. destruct (variations_real prev prev) as (_ & _ & _ & _ & _ & Hv). rewrite Hv in He. inversion He. }
  unfold isReachable in E1. rewrite reachW_none in E1 by done. injection E1 as <-. cbn [resx resultOf] in *.
  rewrite Hx1, Hx2, Hx3. split; [done|]. destruct (resx rc) as [x y z]. unfold vscale, vadd, vzero; cbn [vx vy vz]. f_equal; ring.
Qed.

(** the acceleration is forgotten when the intermediate state is used *)
Lemma reposition_ignores_acc prev next acc acc' e : only_moved prev next e -> reach prev next acc true = reach prev next acc' true.
Proof. intros H. unfold isReachable. rewrite !(reachW_moved _ _ _ _ _ _ _ _ _ e) by done. done. Qed.
End I.
