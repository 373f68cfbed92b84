From Coq Require Import ZArith.
From Verif Require Import Maps MapsProofs StateModel StateSpec StateProofs CombModel CombProofs GenModel GenSpec GenProofs GenProofs2 GenProofs3.

Section proofs.
Context {Cfg Pos Rot Cand Smp : Type}.
Notation St := (State Cfg Pos Rot Z).
Notation Rep := (report Cfg Pos Rot).
Notation Hlp := (helper Cfg Pos Rot).
Variable S : services Cfg Pos Rot Cand Smp.

Lemma pass_noflag h post limb ps f out :
  candidate_pass S h post limb ps f = (false, false, false, out) -> out = start_of h.
Proof.
  unfold candidate_pass. destruct f as [[? ?] ?]. fold (start_of h).
  set (s := fold_left _ _ _). intros [= -> -> -> <-]. done.
Qed.

Local Opaque candidate_pass.
(** the three ways findValidCandidate ends *)
Lemma findValidCandidate_cases h limb ps fl st post :
  findValidCandidate S h limb ps = (fl, st, post) ->
  post = postural h /\
  exists fl1 out1, candidate_pass S h (postural h) limb ps (false, false, false) = (fl1, out1) /\
  ((fl = fl1 /\ st = out1 /\ (postural h = false \/ fst (fst fl1) = true)) \/
   (postural h = true /\ fst (fst fl1) = false /\ exists out2,
      candidate_pass S h false limb ps fl1 = (fl, out2) /\ st = state_assign out1 out2)).
Proof.
  unfold findValidCandidate.
  destruct (candidate_pass S h (postural h) limb ps (false, false, false)) as [[[f1 f2] f3] out1] eqn:E1.
  destruct (postural h) eqn:Ep; simpl.
  - destruct f1; simpl.
    + intros [= <- <- <-]. split; [done|]. exists (true, f2, f3), out1. split; [done|]. left. split_and!; [done..|by right].
    + destruct (candidate_pass S h false limb ps (false, f2, f3)) as [fl' out2] eqn:E2.
      intros [= <- <- <-]. split; [done|]. exists (false, f2, f3), out1. split; [done|]. right.
      split_and!; [done..|]. exists out2. split; [exact E2|]. reflexivity.
  - intros [= <- <- <-]. split; [done|]. exists (f1, f2, f3), out1. split; [done|]. left. split_and!; [done..|by left].
Qed.

Lemma generate_contact_reachable h limb ps rep post :
  generate_contact S h limb ps = (rep, post) ->
  let cur := start_of h in let l := octree S limb ps (working h) in
  (rstatus rep = REACHABLE_CONTACT /\ success rep = true /\
     exists mode p, deciding_mode S h limb cur (acceptable S h cur) l mode /\
       first_projection_with S mode limb cur (acceptable S h cur) l p /\
       contact_added S (nbContacts (working h)) true p (result rep)) \/
  (rstatus rep <> REACHABLE_CONTACT /\
     no_projection_with S (postural h) limb cur (acceptable S h cur) l /\
     no_projection_with S false limb cur (acceptable S h cur) l).
Proof.
  intros Hg cur l. unfold generate_contact in Hg.
  destruct (findValidCandidate S h limb ps) as [[[[g1 g2] g3] st] post'] eqn:Ef.
  apply findValidCandidate_cases in Ef as (-> & [[f1 f2] f3] & out1 & E1 & Hc).
  pose proof (candidate_pass_found S h (postural h) limb ps false false _ _ E1) as H1. simpl in H1.
  destruct Hc as [([= <- <- <-] & -> & Hp)|(Hp & Hf1 & out2 & E2 & ->)].
  - simpl in Hp. destruct H1 as [(-> & p & Hfp & Hca)|(-> & Hno & _)].
    + injection Hg as <- <-. left. split_and!; [done..|]. exists (postural h), p. split_and!; [by left|done|done].
    + right. destruct Hp as [Hp|?]; [|done]. rewrite Hp in *.
      destruct g2; [injection Hg as <- <-; done|]. destruct g3; injection Hg as <- <-; done.
  - simpl in Hf1. subst f1. destruct H1 as [(? & _)|(_ & Hno & _)]; [done|].
    pose proof (candidate_pass_found S h false limb ps f2 f3 _ _ E2) as H2. simpl in H2.
    destruct H2 as [(-> & p & Hfp & Hca)|(-> & Hno2 & _)].
    + injection Hg as <- <-. left. split_and!; [done..|]. exists false, p. split_and!; [|done|done].
      right. rewrite Hp in Hno. done.
    + right. destruct g2; [injection Hg as <- <-; done|]. destruct g3; injection Hg as <- <-; done.
Qed.

Lemma no_projection_weaken post limb cur (Q Q' : St -> Prop) l :
  (forall p, Q' p -> Q p) -> no_projection_with S post limb cur Q l -> no_projection_with S post limb cur Q' l.
Proof. intros HQ Hn a x b p E Hp HQp. apply (Hn a x b p E Hp). by apply HQ. Qed.

Lemma deciding_weaken h limb cur (Q Q' : St -> Prop) l post :
  (forall p, Q' p -> Q p) -> deciding_mode S h limb cur Q l post -> deciding_mode S h limb cur Q' l post.
Proof. intros HQ [?|(?&?&?)]; [by left|right]. split_and!; [done..|]. by eapply no_projection_weaken. Qed.

(** C16 *)
Lemma C16_lemma h limb ps rep post cur :
  start h cur -> ~ stability_requested h -> generate_contact S h limb ps = (rep, post) ->
  let l := octree S limb ps (working h) in let any := fun _ : St => True in
  (rstatus rep = REACHABLE_CONTACT /\ success rep = true /\
     exists mode p, deciding_mode S h limb cur any l mode /\ first_projection_with S mode limb cur any l p /\
       contact_added S (nbContacts (working h)) true p (result rep)) \/
  (rstatus rep = NO_CONTACT /\ success rep = false /\
     no_projection_with S (postural h) limb cur any l /\ no_projection_with S false limb cur any l).
Proof.
  intros -> Hreq Hg l any. fold (start_of h).
  assert (Hacc : forall p, any p <-> acceptable S h (start_of h) p) by (unfold acceptable; naive_solver).
  pose proof (generate_contact_reachable h limb ps rep post Hg) as H. simpl in H.
  destruct H as [(H1 & H2 & mode & p & Hd & (a & x & b & El & Hp & _ & Hno) & Hca)|(Hst & Hn1 & Hn2)].
  - left. split_and!; [done..|]. exists mode, p. split_and!; [|exists a, x, b; split_and!|]; try done.
    + eapply deciding_weaken; [apply Hacc|done].
    + eapply no_projection_weaken; [apply Hacc|done].
  - right. assert (Hs : rstatus rep = NO_CONTACT /\ success rep = false).
    { unfold generate_contact in Hg.
      destruct (findValidCandidate S h limb ps) as [[[[g1 g2] g3] st] post'] eqn:Ef.
      apply findValidCandidate_cases in Ef as (-> & [[f1 f2] f3] & out1 & E1 & Hc).
      pose proof (candidate_pass_nocheck S h _ limb ps _ _ E1 Hreq) as (-> & -> & _).
      assert (g2 = false /\ g3 = false) as [-> ->].
      { destruct Hc as [([= -> -> ->] & -> & Hp)|(Hp & Hf1 & out2 & E2 & ->)]; [done|].
        simpl in Hf1. subst f1. destruct (candidate_pass_nocheck S h _ limb ps _ _ E2 Hreq) as (-> & -> & _). done. }
      destruct g1; injection Hg as <- <-; done. }
    split_and!; [apply Hs|apply Hs| |]; (eapply no_projection_weaken; [apply Hacc|done]).
Qed.

(** C17 *)
Lemma C17_lemma h limb ps rep post cur :
  start h cur -> stability_requested h -> postural h = false ->
  generate_contact S h limb ps = (rep, post) ->
  let l := octree S limb ps (working h) in let nb := nbContacts (working h) in
  let robust := fun p => (thr h <= isStable S p)%Z in
  let good := fun p => (thr h <= isStable S p)%Z /\ reaches S h cur p in
  match rstatus rep with
  | REACHABLE_CONTACT => exists p, first_projection_with S false limb cur good l p /\
      contact_added S nb true p (result rep)
  | STABLE_CONTACT => no_projection_with S false limb cur good l /\
      exists p, first_projection_with S false limb cur robust l p /\ contact_added S nb true p (result rep)
  | UNSTABLE_CONTACT => contactIfFails h = true /\ no_projection_with S false limb cur robust l /\
      exists p, most_robust_projection S false limb cur l p /\ (minRob S < isStable S p)%Z /\
        contact_added S nb false p (result rep)
  | NO_CONTACT => no_projection_with S false limb cur robust l /\
      (contactIfFails h = true -> no_projection_with S false limb cur (fun p => minRob S < isStable S p)%Z l)
  end.
Proof.
  intros -> Hreq Hp Hg l nb robust good. fold (start_of h) in *.
  assert (Hacc : forall p, good p <-> acceptable S h (start_of h) p) by (unfold acceptable; naive_solver).
  pose proof (generate_contact_reachable h limb ps rep post Hg) as H. simpl in H.
  destruct H as [(H1 & H2 & mode & p & Hd & (a & x & b & El & Hpr & Hpp & Hno) & Hca)|(Hst & Hn1 & Hn2)].
  { rewrite H1. assert (mode = false) as -> by (destruct Hd as [->|(?&->&?)]; congruence).
    exists p. split; [|done]. exists a, x, b. split_and!; [done|done|by apply Hacc|].
    eapply no_projection_weaken; [apply Hacc|done]. }
  assert (Hng : no_projection_with S false limb (start_of h) good l).
  { eapply no_projection_weaken; [apply Hacc|done]. }
  unfold generate_contact in Hg.
  destruct (findValidCandidate S h limb ps) as [[[[g1 g2] g3] st] post'] eqn:Ef.
  apply findValidCandidate_cases in Ef as (-> & [[f1 f2] f3] & out1 & E1 & Hc).
  destruct Hc as [([= -> -> ->] & -> & _)|(? & _)]; [|congruence].
  pose proof (candidate_pass_rest S h _ limb ps _ _ E1 Hreq) as Hr. simpl in Hr. rewrite Hp in Hr.
  destruct f1; [injection Hg as <- <-; done|]. destruct (Hr eq_refl) as [(-> & p & Hf & Hca)|(-> & Hns & Hr')].
  { injection Hg as <- <-. simpl. split; [done|]. by exists p. }
  destruct Hr' as [(-> & Hi & p & Hm & Hmin & Hca)|(-> & -> & Hmin)]; injection Hg as <- <-; simpl.
  - split_and!; [done..|]. by exists p.
  - done.
Qed.

(** C19 *)
Lemma C19_lemma h limb ps rep post :
  generate_contact S h limb ps = (rep, post) ->
  (rstatus rep = REACHABLE_CONTACT -> success rep = true) /\
  (rstatus rep = STABLE_CONTACT -> success rep = acceptUnreach h) /\
  (rstatus rep = UNSTABLE_CONTACT -> success rep = negb (checkGen h)) /\
  (rstatus rep = NO_CONTACT -> success rep = false /\
     exists c, moved_to c (start_of h) (result rep) /\
       (freed S limb (configuration (working h)) c \/
        (stuck S limb (configuration (working h)) /\ c = configuration (working h)))).
Proof.
  intros Hg. unfold generate_contact in Hg.
  destruct (findValidCandidate S h limb ps) as [[[[g1 g2] g3] st] post'] eqn:Ef.
  destruct g1; [by injection Hg as <- <-|]. destruct g2; [by injection Hg as <- <-|].
  destruct g3; [by injection Hg as <- <-|].
  assert (Hst : state_assign (fresh_state S) st = state_assign (fresh_state S) (start_of h)).
  { apply findValidCandidate_cases in Ef as (-> & fl1 & out1 & E1 & Hc).
    destruct Hc as [(<- & -> & _)|(_ & _ & out2 & E2 & ->)].
    - apply pass_noflag in E1 as ->. done.
    - apply pass_noflag in E2 as ->. done. }
  rewrite Hst in Hg. injection Hg as <- <-. simpl. split_and!; [done..|]. intros _. split; [done|].
  rewrite setCollisionFree_eq. simpl.
  destruct (free_fn S limb (configuration (working h))) as [c|] eqn:Efn.
  - exists c. split; [done|]. left. by apply freed_iff.
  - exists (configuration (working h)). split; [done|]. right. split; [|done]. by apply stuck_iff.
Qed.

Local Transparent candidate_pass.
(** UNSTABLE never comes with success *)
Lemma unstable_flag_checked h post limb ps f1 f2 f3 g1 g2 g3 out :
  candidate_pass S h post limb ps (f1, f2, f3) = (g1, g2, g3, out) -> g3 = true -> f3 = false ->
  checkGen h = true.
Proof.
  unfold candidate_pass. fold (start_of h). set (s0 := mkSearch f1 f2 f3 _ _ _ _ _).
  assert (Hg : forall l, unstableContact (fold_left (try_candidate S h post limb (start_of h)) l s0) = true ->
    f3 = false -> checkGen h = true).
  { intros l. induction l as [|y l IH] using rev_ind; simpl; [congruence|].
    rewrite fold_left_app. simpl. rewrite try_candidate_eq. destruct (found_sample _); [done|].
    destruct (projf _ _ _ _ _ _) as [p|]; simpl; [|done].
    destruct (nocheck h (start_of h)) eqn:En; simpl; [done|].
    destruct (Z.leb _ _); [destruct (reachable _ _ _ _); [done|destruct (found_stable _); done]|].
    destruct (_ && _); [|done]. intros _ _. unfold nocheck in En. apply orb_false_iff in En as [En _].
    by apply negb_false_iff in En. }
  set (s := fold_left _ _ _). intros [= <- <- <- <-]. apply Hg.
Qed.

Lemma unstable_fails h limb ps rep post :
  generate_contact S h limb ps = (rep, post) -> rstatus rep = UNSTABLE_CONTACT -> success rep = false.
Proof.
  intros Hg. unfold generate_contact in Hg.
  destruct (findValidCandidate S h limb ps) as [[[[g1 g2] g3] st] post'] eqn:Ef.
  destruct g1; [by injection Hg as <- <-|]. destruct g2; [by injection Hg as <- <-|].
  destruct g3; [|by injection Hg as <- <-]. injection Hg as <- <-. intros _. simpl.
  apply findValidCandidate_cases in Ef as (-> & [[f1 f2] f3] & out1 & E1 & Hc).
  enough (checkGen h = true) as -> by done.
  destruct Hc as [([= <- <- <-] & -> & _)|(_ & _ & out2 & E2 & ->)].
  - eapply unstable_flag_checked; eauto.
  - destruct f3; [eapply unstable_flag_checked; [exact E1|done|done]|eapply unstable_flag_checked; eauto].
Qed.

(** C18: any contact reported, plain mode (or REACHABLE in any mode) *)
Lemma C18_lemma h limb ps rep post :
  generate_contact S h limb ps = (rep, post) -> rstatus rep <> NO_CONTACT ->
  (postural h = false \/ rstatus rep = REACHABLE_CONTACT) ->
  let r := result rep in let w := working h in
  contacts r = <[limb := true]> (contacts w) /\
  positions r = <[limb := fkPos S limb (configuration r)]> (positions w) /\
  rotations r = <[limb := fkRot S limb (configuration r)]> (rotations w) /\
  (exists n, normals r = <[limb := n]> (normals w)) /\
  order r = order w ++ [limb] /\ limbValid S limb (configuration r) = true /\
  nbContacts r = nbContacts w.
Proof.
  intros Hg Hno Hmode r w.
  assert (Hex : exists mode a x p b, projects S mode limb (start_of h) a x p /\
     contact_added S (nbContacts (working h)) b p (result rep)).
  { destruct (decide (stability_requested h)) as [Hreq|Hreq].
    - destruct Hmode as [Hp|Hs].
      + pose proof (C17_lemma h limb ps rep post (start_of h) eq_refl Hreq Hp Hg) as H. simpl in H.
        destruct (rstatus rep); [done| | |].
        * destruct H as (_ & _ & p & (a & x & b & _ & Hpr & _) & _ & Hca). by eauto 10.
        * destruct H as (_ & p & (a & x & b & _ & Hpr & _) & Hca). by eauto 10.
        * destruct H as (p & (a & x & b & _ & Hpr & _) & Hca). by eauto 10.
      + destruct (generate_contact_reachable h limb ps rep post Hg) as [H|H]; [|naive_solver].
        destruct H as (_ & _ & mode & p & _ & (a & x & b & _ & Hpr & _) & Hca). by eauto 10.
    - destruct (C16_lemma h limb ps rep post (start_of h) eq_refl Hreq Hg) as [H|H]; [|naive_solver].
      destruct H as (_ & _ & mode & p & _ & (a & x & b & _ & Hpr & _) & Hca). by eauto 10. }
  destruct Hex as (mode & a & x & p & b & (cfg & Hik & Hv & ->) & Hca).
  unfold contact_added in Hca. simpl in Hca.
  destruct Hca as (Hc1 & Hc2 & Hc3 & Hc4 & Hc5 & Hc6 & Hc7 & Hc8 & Hc9).
  subst r w. rewrite Hc1, Hc2, Hc3, Hc4, Hc5, Hc6, Hc7. split_and!; try done. by eexists.
Qed.
End proofs.
