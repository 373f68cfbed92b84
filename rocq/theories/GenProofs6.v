From Coq Require Import ZArith.
From Verif Require Import Maps MapsProofs StateModel StateSpec StateProofs CombModel CombSpec CombProofs CombProofs2
  GenModel GenSpec GenProofs GenProofs2 GenProofs3 GenProofs4 GenProofs5.

Section proofs.
Context {Cfg Pos Rot Cand Smp : Type}.
Notation St := (State Cfg Pos Rot Z).
Notation Rep := (report Cfg Pos Rot).
Notation Hlp := (helper Cfg Pos Rot).
Variable S : services Cfg Pos Rot Cand Smp.

Lemma gen_contacts_spec h rep h' :
  NoDup (limbNames S) -> gen_contacts S h = (rep, h') ->
  (exists w, h' = set_working w h /\ grown (free_limb S (working h)) (working h) w) /\
  (success rep = true -> grown (free_limb S (working h)) (working h) (result rep)).
Proof.
  intros Hnd Hg. unfold gen_contacts in Hg.
  destruct (gen_queue_props S (working h) (maxCreations h) (maximise h) Hnd) as (He & Hq & Hfree).
  eapply (gen_loop_spec S _ _ _ _ _ _ (free_limb S (working h)) (working h)) in Hg as ((w & b & ->) & Hck & Hw & Hr).
  - split; [|done]. exists w. split; [|done]. simpl in Hck. subst b. by destruct h.
  - by left.
  - intros c limbs Hin x Hx. apply Hfree. apply Hq in Hin as (_ & Hs & _). by apply Hs.
  - apply grown_refl.
  - done.
Qed.

Notation same := (grown (fun _ => False)).
Lemma same_order (s t : St) : same s t -> order t = order s.
Proof. intros [_ (e & -> & He) _]. destruct e; [by rewrite app_nil_r|]. by inversion He. Qed.
Lemma grown_same_l A (s t u : St) : same s t -> grown A t u -> grown A s u.
Proof. intros H1 H2. eapply grown_trans; [|exact H2]. eapply grown_mono; [|exact H1]. done. Qed.

Lemma gen_loop_single chk q h rep rep' h' (A : string -> Prop) (w0 : St) m :
  gen_loop S chk q h rep = (rep', h') -> m <= 1 ->
  (forall c limbs, (c, limbs) ∈ q -> length limbs <= m /\ forall x, x ∈ limbs -> A x) ->
  same w0 (working h) -> success rep = false -> success rep' = true ->
  exists e, length e <= m /\ Forall A e /\ order (result rep') = order w0 ++ e /\
    grown (fun x => x ∈ e) w0 (result rep').
Proof.
  intros Hg Hm. revert h rep Hg. induction q as [|[first limbs] q IH]; intros h rep; simpl; intros Hg HA Hw Hs Hs'.
  { injection Hg as <- <-. congruence. }
  rewrite Hs in Hg.
  set (b0 := (bool_decide (limbs = []) && chk && ((2 <=? nbContacts (working h))%Z || stableForOne h) && (thr h <=? isStable S (working h))%Z)) in Hg.
  set (h1 := if b0 then set_working (with_stable true (working h)) h else h) in Hg.
  assert (Hw1 : same w0 (working h1)).
  { subst h1. destruct b0; [|done]. simpl. by apply grown_stable_r. }
  clearbody h1. clear b0.
  destruct (bool_decide (limbs = []) && _ && _) eqn:Ee.
  { injection Hg as <- <-. exists []. rewrite app_nil_r. simpl. split_and!; [lia|constructor|by apply same_order|].
    eapply grown_mono; [|by apply grown_assign]. done. }
  destruct (HA first limbs ltac:(left)) as [Hlen HlA].
  assert (HA' : forall c limbs, (c, limbs) ∈ q -> length limbs <= m /\ forall x, x ∈ limbs -> A x).
  { intros c ls Hc. apply (HA c). by right. }
  destruct limbs as [|l limbs]; simpl in Hg.
  { eapply IH; [exact Hg|done|exact Hw1|done|done]. }
  destruct limbs as [|l2 limbs]; [|simpl in Hlen; lia]. simpl in Hg.
  destruct (generate_contact S (set_checkGen chk (set_checkGen false h1)) l first) as [r post] eqn:Eg.
  apply generate_contact_grown in Eg as (-> & Hgr & Hord). simpl in *.
  destruct (success r) eqn:Er.
  - assert (rep' = assign_report rep r) as ->.
    { destruct q; simpl in Hg; [by injection Hg as <- _|]. destruct p. rewrite Er in Hg. by injection Hg as <- _. }
    exists [l]. split_and!.
    + simpl. lia.
    + constructor; [|constructor]. apply HlA. left.
    + simpl. rewrite Hord by done. by rewrite (same_order _ _ Hw1).
    + apply grown_assign. eapply grown_same_l; [exact Hw1|]. eapply grown_mono; [|exact Hgr].
      intros x <-. left.
  - eapply IH; [exact Hg|done|exact Hw1|done|done].
Qed.

(** C20 *)
Lemma C20_lemma h rep h' :
  NoDup (limbNames S) -> maxCreations h <= 1 -> gen_contacts S h = (rep, h') -> success rep = true ->
  exists e, length e <= maxCreations h /\ Forall (free_limb S (working h)) e /\
    order (result rep) = order (working h) ++ e /\
    (consistent (working h) -> NoDup (order (result rep))).
Proof.
  intros Hnd Hm Hg Hs. unfold gen_contacts in Hg.
  destruct (gen_queue_props S (working h) (maxCreations h) (maximise h) Hnd) as (He & Hq & Hfree).
  eapply (gen_loop_single _ _ _ _ _ _ (free_limb S (working h)) (working h) (maxCreations h))
    in Hg as (e & H1 & H2 & H3 & H4); try done.
  - exists e. split_and!; [done..|]. intros Hc. rewrite H3.
    assert (Hne : forall x, x ∈ e -> x ∉ order (working h)).
    { intros x Hx Ho. rewrite Forall_forall in H2. destruct (H2 x Hx) as [_ Hnc]. by apply Hnc, co_active. }
    apply NoDup_app. split_and!; [by apply co_order| |].
    + intros x Ho Hx. by apply (Hne x).
    + destruct e as [|x [|y e]]; [constructor|apply NoDup_singleton|simpl in H1; lia].
  - intros c limbs Hin. apply Hq in Hin as (_ & Hsub & _ & Hlen). split; [done|].
    intros x Hx. apply Hfree. by apply Hsub.
  - apply grown_refl.
Qed.

(** ** oneStep *)
Lemma maintain_stability_suffix target len rob cur q ok rep q' :
  maintain_stability_rec S target len rob cur q = (ok, rep, q') -> exists used, q = used ++ q'.
Proof.
  revert cur ok rep q'. induction q as [|c q IH]; intros cur ok rep q'; simpl.
  - destruct (Z.ltb _ _); intros [= <- <- <-]; by exists [].
  - destruct (Z.ltb _ _); [intros [= <- <- <-]; by exists []|].
    destruct (_ <? _); [intros [= <- <- <-]; by exists [c]|].
    destruct (maintain_stability_rec S target len rob (projectToRootConfiguration S target c) q) as [[ok1 rep1] qc] eqn:E.
    apply IH in E as (used & ->). destruct ok1; intros [= <- <- <-]; [by exists (c :: used)|by exists [c]].
Qed.

Lemma maintain_contacts_queue h q rep h' :
  maintain_queue h q -> maintain_contacts S h = (rep, h') ->
  exists used, q = used ++ cands h' /\ (q <> [] -> used <> []) /\ h' = set_cands (cands h') h.
Proof.
  intros Hq. apply maintain_queue_iff in Hq as ->. rewrite maintain_contacts_eq.
  pose proof (maintain_loop_spec S h (fresh_report S) (queue_of h) eq_refl eq_refl) as H.
  destruct (maintain_loop S h (fresh_report S) (queue_of h)) as [r q'].
  assert (Hq : exists used, queue_of h = used ++ q' /\ (queue_of h <> [] -> used <> [])).
  { destruct H as [(_ & l1 & c & l2 & -> & -> & _)|(_ & -> & _)].
    - exists (l1 ++ [c]). rewrite <- app_assoc. split; [done|]. intros _ E. by destruct l1.
    - exists (queue_of h). by rewrite app_nil_r. }
  destruct Hq as (used & Hq & Hne). destruct (success r && checkMaintain h).
  - unfold maintain_contacts_stability. simpl.
    destruct (maintain_stability_rec S _ _ _ r q') as [[ok rep1] q1] eqn:E.
    apply maintain_stability_suffix in E as (used2 & ->). intros [= <- <-]. simpl.
    exists (used ++ used2). rewrite <- app_assoc. split_and!; [done| |done].
    intros Hn E2. apply app_nil in E2 as [E2 _]. by apply Hne.
  - intros [= <- <-]. simpl. by exists used.
Qed.

Lemma maintain_queue_cons (h : Hlp) c q : cands h = c :: q -> maintain_queue h (cands h).
Proof. intros E. left. rewrite E. done. Qed.

Lemma one_maintain_queue h q rep h' :
  NoDup (limbNames S) ->
  maintain_queue h q -> genContactFromOneMaintainCombinatorial S h = (rep, h') ->
  exists used, q = used ++ cands h' /\ (q <> [] -> used <> []) /\
    (exists w, h' = set_working w (set_cands (cands h') h)).
Proof.
  intros Hnd Hq. unfold genContactFromOneMaintainCombinatorial.
  destruct (maintain_contacts S h) as [r h1] eqn:E. eapply maintain_contacts_queue in E as (used & Hu & Hne & Hh1); [|done].
  destruct (success r).
  - intros Hg. apply gen_contacts_spec in Hg as [(w & -> & _) _]; [|done]. simpl.
    exists used. split_and!; [done..|]. exists w. rewrite Hh1. done.
  - intros [= <- <-]. exists used. split_and!; [done..|]. exists (working h). rewrite Hh1 at 1. by destruct h.
Qed.

Lemma step_loop_terminates q h rep :
  NoDup (limbNames S) -> maintain_queue h q ->
  exists r, forall fuel, length q < fuel -> step_loop S fuel rep h = Some r.
Proof.
  intros Hnd. remember (length q) as n eqn:Hn. revert q Hn h rep.
  induction n as [n IH] using lt_wf_ind. intros q Hn h rep Hq.
  destruct (genContactFromOneMaintainCombinatorial S h) as [r h1] eqn:E.
  destruct (one_maintain_queue h q r h1 Hnd Hq E) as (used & Hu & Hne & _).
  destruct (negb (success r) && negb (bool_decide (cands h1 = []))) eqn:Eb.
  - assert (Hlt : length (cands h1) < n).
    { rewrite Hn, Hu, app_length. destruct used; [|simpl; lia]. simpl in *. subst q.
      destruct (cands h1) eqn:Ec; [|by destruct Hne].
      rewrite andb_true_iff, !negb_true_iff in Eb. destruct Eb as [_ Eb]. by apply bool_decide_eq_false in Eb. }
    destruct (IH _ Hlt (cands h1) eq_refl h1 (assign_report rep r)) as (out & Hout).
    { destruct (cands h1) as [|c q1] eqn:Ec.
      - rewrite andb_true_iff, !negb_true_iff in Eb. destruct Eb as [_ Eb]. by apply bool_decide_eq_false in Eb.
      - rewrite <- Ec. by eapply maintain_queue_cons. }
    exists out. intros [|fuel] Hf; [lia|]. simpl. rewrite E. rewrite Eb. apply Hout. lia.
  - exists (assign_report rep r, h1). intros [|fuel] Hf; [lia|]. simpl. rewrite E. by rewrite Eb.
Qed.
End proofs.
