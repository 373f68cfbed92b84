From Coq Require Import Reals Lra Lia Psatz Classical_Prop.
From Verif Require Import SampModel.
From Verif Require Import ReachSpec MapsProofs VecProofs ProjProofs ProjProofs2 StateSpec StateProofs StateRealProofs
  StabProofs StabProofs2 ReachProofs ReachProofs2 ReachProofs3.
From Verif Require Import StateModel.
Local Open Scope R_scope.

Section C.
Context (axis : vec3 -> vec3 -> vec3) (Hax : good_axis axis) (lib : eqlib) (B : rbody).
Lemma cone_eq s : computeContactConeForState axis lib B s =
  match setupLibrary axis (mkEqlib (fun _ => true) (checkEq lib) (robEq lib) (polytope lib) (gravity lib)) B s ALG_PP (5/100) (5/100) with
  | Ok (k, _) => Ok (if setNew lib k then Some k else None) | Throw => Throw | Ub => Ub end.
Proof.
  unfold computeContactConeForState, setupLibrary. destruct (splitGrasps B _) as [[cs gs]| |]; [|done|done]. cbn [obind].
  destruct (contactRows _ _ _ _ _ _ cs); [|done|done]. cbn [obind]. destruct (contactRows _ _ _ _ _ _ gs); [|done|done]. cbn [obind setNew].
  destruct (negb _); done.
Qed.
Lemma cone_set s k : computeContactConeForState axis lib B s = Ok (Some k) ->
  describes B s (5 / 100) (5 / 100) k /\ calg k = ALG_PP /\ setNew lib k = true.
Proof.
  rewrite cone_eq. destruct (setupLibrary _ _ _ _ _ _ _) as [[k' c]| |] eqn:E; [|done|done].
  destruct (contact_set axis B Hax _ _ _ _ _ _ _ E) as (Hd & Hg & Hn & _).
  destruct (setNew lib k') eqn:Es; [|done]. intros H. injection H as <-. split; [done|]. split; [|done].
  destruct (Classical_Prop.classic (has_grasp B s)) as [X|X]; auto.
Qed.
End C.

Section D.
Context (axis : vec3 -> vec3 -> vec3) (lib : eqlib) (B : rbody)
  (qp : list (vec3 * R) -> mat3 * vec3 -> vec3 -> bool * vec3).
Notation reach := (isReachable axis lib B qp).

Lemma cone_defined s : (forall e, is_Some (positions s !! e) -> is_Some (rlimbs B !! e) /\ is_Some (normals s !! e) /\ is_Some (rotations s !! e)) ->
  exists o, computeContactConeForState axis lib B s = Ok o.
Proof.
  intros H. rewrite cone_eq.
  edestruct (setup_defined axis B (mkEqlib (fun _ => true) (checkEq lib) (robEq lib) (polytope lib) (gravity lib)) s ALG_PP (5/100) (5/100)) as [[k c] Hk]; [|done|].
  - intros e He. destruct (H e He) as ([l Hl] & Hn & Hr). exists l. done.
  - rewrite Hk. eauto.
Qed.
Lemma stab_defined s acc : complete_state B s -> exists o, computeStabilityConstraintsForState axis lib B s acc = Ok o /\
  (working_lib lib -> exists Ab, o = Some Ab).
Proof.
  intros ((f & rest & Ho & p & Hp) & Hc & Hk). unfold computeStabilityConstraintsForState. rewrite Ho.
  destruct (cone_defined s Hc) as [o Eo]. rewrite Eo. cbn [obind].
  destruct o as [k|].
  - unfold at_. rewrite Hp. cbn [obind].
    destruct (computeStabilityConstraints lib B k acc) as [[|r rs]|] eqn:E.
    + eexists. split; [done|]. intros W. exfalso. destruct (W k) as (_ & Hopt & Hne & Hlen).
      unfold computeStabilityConstraints in E. destruct (polytope lib k) as [st [Hr h]]. cbn in *. subst st. cbn in E.
      destruct Hr; [done|]. destruct h; [done|]. done.
    + eauto.
    + eexists. split; [done|]. intros W. exfalso. destruct (W k) as (_ & Hopt & _).
      unfold computeStabilityConstraints in E. destruct (polytope lib k) as [st [Hr h]]. cbn in *. subst st. done.
  - eexists. split; [done|]. intros W. exfalso. rewrite cone_eq in Eo. destruct (setupLibrary _ _ _ _ _ _ _) as [[k c]| |]; [|done|done].
    rewrite (proj1 (W k)) in Eo. done.
Qed.
Lemma robust_defined prev next s : (forall e, is_Some (positions s !! e) -> is_Some (rlimbs B !! e) /\ is_Some (normals s !! e) /\ is_Some (rotations s !! e)) ->
  exists c, robustPoint B prev next s = Ok c.
Proof.
  intros H. unfold robustPoint.
  assert (G : forall items, (forall e p, (e, p) ∈ items -> is_Some (positions s !! e)) -> exists c, sumContacts B s items = Ok c).
  { induction items as [|[n p] it IH]; intros Hi; cbn [sumContacts]; [eauto|].
    destruct (H n) as ([l Hl] & _ & [r Hr]); [apply (Hi n p); by left|]. unfold at_. rewrite Hr, Hl. cbn [obind].
    destruct IH as [c Ec]; [intros e p' He; apply (Hi e p'); by right|]. rewrite Ec. cbn. eauto. }
  destruct (G (sitems (positions s))) as [c Ec]; [intros e p He; apply elem_of_sitems in He; eauto|]. rewrite Ec. cbn. eauto.
Qed.
Lemma decide_defined prev next s Ab : (forall e, is_Some (positions s !! e) -> is_Some (rlimbs B !! e) /\ is_Some (normals s !! e) /\ is_Some (rotations s !! e)) ->
  exists r, decideReach B qp prev next s Ab = Ok r /\ rstatus r <> UNABLE_TO_COMPUTE.
Proof.
  intros H. destruct (robust_defined prev next s H) as [c Ec]. unfold decideReach. rewrite Ec. cbn [obind].
  destruct (intersectionExist qp Ab c) as [ok x]. eexists. split; [done|]. cbn. by destruct ok.
Qed.
Lemma full_defined s acc : complete_state B s -> exists o, computeConstraintsForState axis lib B s acc = Ok o /\
  (working_lib lib -> exists Ab, o = Some Ab).
Proof.
  intros H. destruct (stab_defined s acc H) as (o & Eo & W). unfold computeConstraintsForState. rewrite Eo. cbn [obind].
  destruct o as [Ab|].
  - destruct (kinematics_defined B s) as [K EK]; [apply H|]. rewrite EK. cbn. eauto.
  - eexists. split; [done|]. intros X. apply W in X as [? ?]. done.
Qed.

Lemma removed_complete prev e : complete_state B prev ->
  forall e', is_Some (positions (snd (RemoveContact e (freshState B (state_copy prev)))) !! e') ->
    is_Some (rlimbs B !! e') /\ is_Some (normals (snd (RemoveContact e (freshState B (state_copy prev)))) !! e') /\ 
    is_Some (rotations (snd (RemoveContact e (freshState B (state_copy prev)))) !! e').
Proof.
  intros (_ & H & _) e'. unfold RemoveContact. destruct (has e _) eqn:Eh; cbn [snd].
  - cbn [positions normals rotations]. destruct (String.eqb_spec e' e) as [->|Hne]; [rewrite lookup_delete; intros [? ?]; done|].
    rewrite !lookup_delete_ne by done. destruct prev. apply H.
  - destruct prev. apply H.
Qed.

(** with complete states the call returns, and says UNABLE_TO_COMPUTE only when the library
    refuses the contacts or computes no polytope *)
Lemma plain_defined inter prev next acc ui : complete_state B prev -> complete_state B next ->
  (ui = false \/ forall e, ~ only_moved prev next e) ->
  exists r, isReachableWith axis lib B qp inter prev next acc ui = Ok r /\ (working_lib lib -> rstatus r <> UNABLE_TO_COMPUTE).
Proof.
  intros Hp Hn Hu. destruct (vary_cases prev next) as [H|[H|(e & [H|[H|H]])]].
  - rewrite reachW_none by done. eexists. split; [done|]. done.
  - rewrite reachW_several by done. eexists. split; [done|]. done.
  - rewrite (reachW_broken axis lib B qp inter prev next acc ui e H). unfold reachBreak.
    destruct (stab_defined next acc Hn) as (o & Eo & W). rewrite Eo. cbn [obind]. destruct o as [Ab|].
    + destruct (kinematics_defined B prev) as [K EK]; [apply Hp|]. rewrite EK. cbn [obind].
      destruct (decide_defined prev next (freshState B next) (stackConstraints Ab K)) as (r & Er & Hr).
      * destruct next. apply Hn.
      * eauto.
    + eexists. split; [done|]. intros X. apply W in X as [? ?]. done.
  - rewrite (reachW_created axis lib B qp inter prev next acc ui e H). unfold reachCreate.
    destruct (stab_defined prev acc Hp) as (o & Eo & W). rewrite Eo. cbn [obind]. destruct o as [Ab|].
    + destruct (kinematics_defined B next) as [K EK]; [apply Hn|]. rewrite EK. cbn [obind].
      destruct (decide_defined prev next (freshState B prev) (stackConstraints Ab K)) as (r & Er & Hr).
      * destruct prev. apply Hp.
      * eauto.
    + eexists. split; [done|]. intros X. apply W in X as [? ?]. done.
  - rewrite (reachW_moved axis lib B qp inter prev next acc ui e H). cbn zeta.
    destruct Hu as [-> | Hu]; [|destruct (Hu e H)]. unfold reachReposition.
    destruct (full_defined prev acc Hp) as (o & Eo & W). rewrite Eo. cbn [obind]. destruct o as [Ab|].
    2:{ eexists. split; [done|]. intros X. apply W in X as [? ?]. done. }
    destruct (full_defined next acc Hn) as (o & Eo' & W'). rewrite Eo'. cbn [obind]. destruct o as [An|].
    2:{ eexists. split; [done|]. intros X. apply W' in X as [? ?]. done. }
    edestruct (decide_defined prev next (freshState B (snd (RemoveContact e (freshState B (state_copy prev))))) (stackConstraints Ab An)) as (r & Er & Hr).
    + intros e' He'. pose proof (removed_complete prev e Hp e') as X.
      destruct (snd (RemoveContact e (freshState B (state_copy prev)))). apply X. exact He'.
    + eauto.
Qed.
Lemma reach_defined prev next acc : complete_state B prev -> complete_state B next ->
  exists r, reach prev next acc false = Ok r /\ (working_lib lib -> rstatus r <> UNABLE_TO_COMPUTE).
Proof. intros. apply plain_defined; auto. Qed.
(** an empty queue of contacts: its front is read *)
Lemma reach_empty_queue_broken prev next acc ui e : only_broken prev next e -> order next = [] -> reach prev next acc ui = Ub.
Proof.
  intros H Ho. unfold isReachable. rewrite (reachW_broken axis lib B qp _ prev next acc ui e H). unfold reachBreak, computeStabilityConstraintsForState.
  rewrite Ho. done.
Qed.
Lemma reach_empty_queue_created prev next acc ui e : only_created prev next e -> order prev = [] -> reach prev next acc ui = Ub.
Proof.
  intros H Ho. unfold isReachable. rewrite (reachW_created axis lib B qp _ prev next acc ui e H). unfold reachCreate, computeStabilityConstraintsForState.
  rewrite Ho. done.
Qed.
End D.
