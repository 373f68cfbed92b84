(** Failing repositioning; the stability flag of initial states. *)
From Coq Require Import ZArith.
From Verif Require Import Maps MapsProofs StateModel StateSpec StateProofs CombModel CombProofs GenModel GenSpec
  GenProofs GenProofs2 GenProofs3 GenProofs4 GenProofs5 GenProofs6 GenProofs7.

Section proofs.
Context {Cfg Pos Rot Cand Smp : Type}.
Notation St := (State Cfg Pos Rot Z).
Notation Rep := (report Cfg Pos Rot).
Notation Hlp := (helper Cfg Pos Rot).
Variable S : services Cfg Pos Rot Cand Smp.

Lemma unstable_flag_ifFails h post limb ps f1 f2 f3 g1 g2 g3 out :
  candidate_pass S h post limb ps (f1, f2, f3) = (g1, g2, g3, out) -> g3 = true -> f3 = false ->
  contactIfFails h = true.
Proof.
  unfold candidate_pass. fold (start_of h). set (s0 := mkSearch f1 f2 f3 _ _ _ _ _).
  assert (Hg : forall l, unstableContact (fold_left (try_candidate S h post limb (start_of h)) l s0) = true ->
    f3 = false -> contactIfFails h = true).
  { intros l. induction l as [|y l IH] using rev_ind; simpl; [congruence|].
    rewrite fold_left_app. simpl. rewrite try_candidate_eq. destruct (found_sample _); [done|].
    destruct (projf _ _ _ _ _ _) as [p|]; simpl; [|done].
    destruct (nocheck h (start_of h)) eqn:En; simpl; [done|].
    destruct (Z.leb _ _); [destruct (reachable _ _ _ _); [done|destruct (found_stable _); done]|].
    destruct (contactIfFails h); [done|]. by rewrite andb_false_r. }
  set (s := fold_left _ _ _). intros [= <- <- <- <-]. apply Hg.
Qed.

Lemma unstable_asked h limb ps rep post :
  generate_contact S h limb ps = (rep, post) -> rstatus rep = UNSTABLE_CONTACT -> contactIfFails h = true.
Proof.
  intros Hg. unfold generate_contact in Hg.
  destruct (findValidCandidate S h limb ps) as [[[[g1 g2] g3] st] post'] eqn:Ef.
  destruct g1; [by injection Hg as <- <-|]. destruct g2; [by injection Hg as <- <-|].
  destruct g3; [|by injection Hg as <- <-]. injection Hg as <- <-. intros _. simpl.
  apply findValidCandidate_cases in Ef as (-> & [[f1 f2] f3] & out1 & E1 & Hc).
  destruct Hc as [([= <- <- <-] & -> & _)|(_ & _ & out2 & E2 & ->)].
  - eapply unstable_flag_ifFails; eauto.
  - destruct f3; [eapply unstable_flag_ifFails; [exact E1|done|done]|eapply unstable_flag_ifFails; eauto].
Qed.

Lemma RemoveContact_contacts id (s : St) k :
  contacts (snd (RemoveContact id s)) !! k = if decide (k = id) then None else contacts s !! k.
Proof.
  unfold RemoveContact. destruct (has id (contacts s)) eqn:Hh; simpl.
  - destruct (decide (k = id)) as [->|Hn]; [by rewrite lookup_delete|by rewrite lookup_delete_ne].
  - destruct (decide (k = id)) as [->|Hn]; [|done]. by apply has_false.
Qed.
Lemma RemoveContact_others id (s : St) k : k <> id ->
  normals (snd (RemoveContact id s)) !! k = normals s !! k /\
  positions (snd (RemoveContact id s)) !! k = positions s !! k /\
  rotations (snd (RemoveContact id s)) !! k = rotations s !! k.
Proof.
  intros Hn. unfold RemoveContact. destruct (has id (contacts s)); simpl; [|done].
  by rewrite !lookup_delete_ne by done.
Qed.

Lemma reposition_loop_fail old res popped name h res' popped' name' rest h' :
  reposition_loop S old res popped name h = (res', popped', name', rest, h') ->
  contactIfFails h = false -> stable res' = false ->
  rest = [] /\ popped' = reverse (filter (fun x => groupOf S x = []) old) ++ popped /\
  (forall k, (exists x, x ∈ old /\ head (groupOf S x) = Some k) -> contacts res' !! k = None) /\
  (forall k, (forall x, x ∈ old -> head (groupOf S x) <> Some k) ->
     contacts res' !! k = contacts res !! k /\ normals res' !! k = normals res !! k /\
     positions res' !! k = positions res !! k /\ rotations res' !! k = rotations res !! k) /\
  (forall k, contacts res !! k = None -> contacts res' !! k = None).
Proof.
  revert res popped name h. induction old as [|x old IH]; intros res popped name h; simpl.
  { intros [= <- <- <- <- <-] _ _. split_and!; try done. intros k (x & Hx & _). by apply elem_of_nil in Hx. }
  destruct (stable res) eqn:Es.
  { intros [= <- <- <- <- <-]. congruence. }
  intros Hr Hi Hs. rewrite filter_cons. destruct (groupOf S x) as [|c g] eqn:Eg0.
  { apply IH in Hr as (-> & -> & Hk1 & Hk2 & Hk3); [|done|done]. destruct (decide _); [|done].
    split_and!; [done| | | |].
    - by rewrite reverse_cons, <- app_assoc.
    - intros k (y & [->|Hy]%elem_of_cons & Hh); [by rewrite Eg0 in Hh|]. apply Hk1. eauto.
    - intros k Hk. apply Hk2. intros y Hy. apply Hk. by right.
    - done. }
  destruct (decide _); [done|].
  set (res1 := snd (RemoveContact c res)) in *. set (h1 := set_working (state_assign (working h) res1) h) in *.
  destruct (generate_contact S h1 c (state_assign (working h) res1)) as [r post] eqn:Eg.
  pose proof Eg as Eg'. apply generate_contact_grown in Eg' as (-> & _ & _).
  change (reposition_loop S old (state_assign res1 (result r)) popped c h1 = (res', popped', name', rest, h')) in Hr.
  destruct (stable (result r)) eqn:Esr.
  { assert (Hend : (res', popped', name', rest, h') = (state_assign res1 (result r), popped, c, old, h1)).
    { rewrite <- Hr. destruct old; simpl; [done|]. by rewrite Esr. }
    injection Hend as -> -> -> -> ->. simpl in Hs. congruence. }
  assert (Hno : rstatus r = NO_CONTACT).
  { pose proof (generate_contact_stable S _ _ _ _ _ Eg) as Hst. rewrite Esr in Hst.
    destruct (rstatus r) eqn:Er; [done| |exfalso; by destruct Hst as [_ Hst]; specialize (Hst (or_intror eq_refl))|
      exfalso; by destruct Hst as [_ Hst]; specialize (Hst (or_introl eq_refl))].
    pose proof (unstable_asked _ _ _ _ _ Eg Er) as Hu. change (contactIfFails h1) with (contactIfFails h) in Hu. congruence. }
  destruct (C19_lemma S _ _ _ _ _ Eg) as (_ & _ & _ & H19). destruct (H19 Hno) as (_ & cc & [] & _).
  simpl in mt_contacts, mt_normals, mt_positions, mt_rotations.
  apply IH in Hr as (-> & -> & Hk1 & Hk2 & Hk3); [|done|done]. simpl in Hk2, Hk3.
  rewrite mt_contacts, mt_normals, mt_positions, mt_rotations in Hk2. rewrite mt_contacts in Hk3.
  split_and!; [done..| | |].
  - intros k (y & [->|Hy]%elem_of_cons & Hh).
    + rewrite Eg0 in Hh. injection Hh as ->. apply Hk3. subst res1. rewrite RemoveContact_contacts.
      by destruct (decide _).
    + apply Hk1. eauto.
  - intros k Hk. assert (Hkc : k <> c).
    { intros ->. apply (Hk x); [left|]. by rewrite Eg0. }
    destruct (Hk2 k) as (-> & -> & -> & ->). { intros y Hy. apply Hk. by right. }
    subst res1. rewrite RemoveContact_contacts. destruct (decide _); [done|].
    split; [done|]. by apply RemoveContact_others.
  - intros k Hk. apply Hk3. subst res1. rewrite RemoveContact_contacts. by destruct (decide _).
Qed.

(** C23: what a failing repositioning does *)
Lemma C23_failure_lemma h rep h' :
  repositionContacts S h = (rep, h') -> contactIfFails h = false -> success rep = false ->
  rstatus rep = NO_CONTACT /\ stable (result rep) = false /\
  order (result rep) = reverse (filter (fun x => groupOf S x = []) (order (working h))) /\
  (forall k, (exists x, x ∈ order (working h) /\ head (groupOf S x) = Some k) ->
     contacts (result rep) !! k = None) /\
  (forall k, (forall x, x ∈ order (working h) -> head (groupOf S x) <> Some k) ->
     contacts (result rep) !! k = contacts (working h) !! k /\
     normals (result rep) !! k = normals (working h) !! k /\
     positions (result rep) !! k = positions (working h) !! k /\
     rotations (result rep) !! k = rotations (working h) !! k).
Proof.
  unfold repositionContacts. intros Hr Hi Hs.
  destruct (reposition_loop S _ _ _ _ h) as [[[[res popped] name] rest] h1] eqn:E.
  destruct (stable res) eqn:Es; injection Hr as <- <-; [done|]. simpl.
  apply reposition_loop_fail in E as (-> & -> & Hk1 & Hk2 & _); [|done|done].
  simpl in Hk1, Hk2. rewrite !app_nil_r. split_and!; done.
Qed.

(** C24: the flag *)
Lemma compute_limbs_stable t limbs cur post r post' :
  compute_limbs S t limbs cur post = (r, post') -> stable cur = true -> stable r = true.
Proof.
  revert cur post. induction limbs as [|l limbs IH]; intros cur post; simpl; [by intros [= <- <-]|].
  destruct (ContactExistsWithinGroup S l cur).
  - intros Hc Hs. eapply IH; [exact Hc|done].
  - unfold ComputeStableContact. destruct (generate_contact _ _ _ _) as [rep po].
    intros Hc Hs. eapply IH; [exact Hc|done].
Qed.
Lemma C24_stable_lemma cfg t post r post' :
  ComputeContacts_initial S cfg t post = (r, post') -> (stable r = true <-> limbNames S <> []).
Proof.
  unfold ComputeContacts_initial. destruct (limbNames S) as [|l limbs]; simpl.
  { intros [= <- <-]. done. }
  intros Hc. split; [done|]. intros _.
  assert (He : ContactExistsWithinGroup S l (with_configuration cfg (fresh_state S)) = false).
  { unfold ContactExistsWithinGroup. apply not_true_is_false. intros H. apply existsb_exists in H as (x & _ & Hx).
    simpl in Hx. apply has_true in Hx. rewrite lookup_empty in Hx. by destruct Hx. }
  rewrite He in Hc. unfold ComputeStableContact in Hc. destruct (generate_contact _ _ _ _) as [rep po].
  eapply compute_limbs_stable; [exact Hc|done].
Qed.
End proofs.
