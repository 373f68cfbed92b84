From Coq Require Import ZArith Lia.
From Verif Require Import Maps MapsProofs StateModel StateSpec StateProofs CombModel CombProofs GenModel GenSpec
  GenProofs GenProofs4 GenProofs6.

Section proofs.
Context {Cfg Pos Rot Cand Smp : Type}.
Notation St := (State Cfg Pos Rot Z).
Notation Rep := (report Cfg Pos Rot).
Notation Hlp := (helper Cfg Pos Rot).
Variable S : services Cfg Pos Rot Cand Smp.

Lemma same_assign (s t u : St) : same_but_robustness s t -> same_but_robustness s (state_assign u t).
Proof. by intros []. Qed.

Lemma stability_rec_spec target len rob (cur : Rep) q ok rep q' :
  maintain_stability_rec S target len rob cur q = (ok, rep, q') ->
  if (ok : bool) then exists s0, (rob < isStable S s0)%Z /\ same_but_robustness (with_stable true s0) (result rep) /\
     ((s0 = result cur /\ success rep = success cur /\ q' = q) \/
      ((isStable S (result cur) <= rob)%Z /\ exists a c b ok' c', q = a ++ c :: b /\ q' = b /\
        Forall (fun x => len <= length (order x)) (a ++ [c]) /\
        projRoot S target c = (ok', c') /\ success rep = ok' /\ moved_to c' c s0))
  else (isStable S (result cur) <= rob)%Z /\ success rep = success cur /\
       same_but_robustness (with_stable false (result cur)) (result rep).
Proof.
  revert cur ok rep q'. induction q as [|c q IH]; intros cur ok rep q'; simpl.
  - destruct (Z.ltb_spec rob (isStable S (result cur))); intros [= <- <- <-]; simpl.
    + exists (result cur). split_and!; [done|by split|by left].
    + split_and!; [done|done|by split].
  - destruct (Z.ltb_spec rob (isStable S (result cur))).
    { intros [= <- <- <-]. simpl. exists (result cur). split_and!; [done|by split|by left]. }
    destruct (Nat.ltb_spec (length (order c)) len) as [|Hlen].
    { intros [= <- <- <-]. simpl. split_and!; [done|done|by split]. }
    destruct (maintain_stability_rec S target len rob (projectToRootConfiguration S target c) q)
      as [[ok1 rep1] qc] eqn:E.
    apply IH in E. destruct ok1; intros [= <- <- <-]; simpl; [|split_and!; [done|done|by split]].
    destruct E as (s0 & Hs0 & Hsame & Hor). exists s0. split_and!; [done|by apply same_assign|]. right. split; [done|].
    destruct Hor as [(-> & Hsu & ->)|(_ & a & c1 & b & ok' & c' & -> & -> & Hall & Hpr & Hsu & Hmt)].
    + unfold projectToRootConfiguration in *. destruct (projRoot S target c) as [ok' c'] eqn:Ep. simpl in *.
      exists [], c, q, ok', c'. split_and!; [done|done| |done|done|by split]. by repeat constructor.
    + exists (c :: a), c1, b, ok', c'. split_and!; [done|done| |done|done|done].
      simpl. by constructor.
Qed.

Lemma C15_stability_lemma h q rep h' :
  checkMaintain h = true -> maintain_queue h q -> maintain_contacts S h = (rep, h') ->
  (exists l1 c l2 s, q = l1 ++ c :: l2 /\ (forall x, x ∈ l1 -> forall t, ~ admissible S h x t) /\
     admissible S h c s /\
     ((success rep = true /\ (isStable S s <= thr h)%Z /\ same_but_robustness (with_stable false s) (result rep)) \/
      (success rep = true /\ (thr h < isStable S s)%Z /\ same_but_robustness (with_stable true s) (result rep) /\
         cands h' = l2) \/
      ((isStable S s <= thr h)%Z /\ exists a d b s', l2 = a ++ d :: b /\ cands h' = b /\
         length (order c) <= length (order d) /\
         projRoot S (configuration (working h)) d = (success rep, configuration s') /\
         moved_to (configuration s') d s' /\ (thr h < isStable S s')%Z /\
         same_but_robustness (with_stable true s') (result rep)))) \/
  (success rep = false /\ cands h' = [] /\ forall x, x ∈ q -> forall s, ~ admissible S h x s).
Proof.
  intros Hc Hq. apply maintain_queue_iff in Hq as ->. rewrite maintain_contacts_eq.
  pose proof (maintain_loop_spec S h (fresh_report S) (queue_of h) eq_refl eq_refl) as H.
  destruct (maintain_loop S h (fresh_report S) (queue_of h)) as [r q']. rewrite Hc, andb_true_r.
  destruct H as [(Hs & l1 & c & l2 & -> & -> & Hn & Ha & _)|(Hs & -> & Hn)]; rewrite Hs.
  2: { intros [= <- <-]. right. done. }
  unfold maintain_contacts_stability. simpl.
  destruct (maintain_stability_rec S (configuration (working h)) (length (order (result r))) (thr h) r l2)
    as [[ok rep1] q1] eqn:E.
  intros [= <- <-]. left. exists l1, c, l2, (result r). split_and!; [done..|]. simpl.
  assert (Ho : order (result r) = order c) by (by destruct Ha as (? & ? & _ & _ & _ & [] & _)).
  apply stability_rec_spec in E. rewrite Ho in E. destruct ok.
  - right. destruct E as (s0 & Hr & Hsame & [(-> & Hsu & ->)|(Hle & a & d & b & ok' & c' & -> & -> & Hall & Hpr & Hsu & Hmt)]).
    + left. by rewrite Hsu, Hs.
    + right. split; [done|]. exists a, d, b, s0. rewrite Hsu. rewrite Forall_app, Forall_singleton in Hall. destruct Hall as [_ Hall].
      destruct (Hmt) as [<- _ _ _ _ _ _ _]. by split_and!.
  - left. destruct E as (? & ? & ?). rewrite Hs in *. done.
Qed.

(** C18: the count is not updated *)
Lemma C18_count_lemma h limb ps rep post :
  generate_contact S h limb ps = (rep, post) -> success rep = true ->
  (postural h = false \/ rstatus rep = REACHABLE_CONTACT) ->
  contacts (working h) !! limb = None ->
  nbContacts (result rep) = nbContacts (working h) /\
  size (contacts (result rep)) = Datatypes.S (size (contacts (working h))).
Proof.
  intros Hg Hs Hp Hnone.
  destruct (C19_lemma S h limb ps rep post Hg) as (_ & _ & _ & Hno).
  assert (Hst : rstatus rep <> NO_CONTACT) by (intros E; destruct (Hno E); congruence).
  destruct (C18_lemma S h limb ps rep post Hg Hst Hp) as (Hc & _ & _ & _ & _ & _ & Hnb).
  split; [done|]. rewrite Hc. by apply map_size_insert_None.
Qed.

(** C22: oneStep terminates *)
Lemma C22_terminates (moved : Pos -> Pos -> bool) h q :
  NoDup (limbNames S) -> maintain_queue h q ->
  exists r, forall fuel, length q < fuel -> oneStep S moved fuel h = Some r.
Proof.
  intros Hnd Hq. destruct (step_loop_terminates S q h (fresh_report S) Hnd Hq) as [[rep h'] Hr].
  eexists. intros fuel Hf. unfold oneStep. rewrite (Hr fuel Hf). reflexivity.
Qed.
End proofs.
