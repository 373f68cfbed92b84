From Coq Require Import ZArith.
From Verif Require Import Maps MapsProofs StateModel StateSpec StateProofs CombModel CombSpec CombProofs CombProofs2
  GenModel GenSpec GenProofs GenProofs2 GenProofs3 GenProofs4 GenProofs5 GenProofs6.

Section proofs.
Context {Cfg Pos Rot Cand Smp : Type}.
Notation St := (State Cfg Pos Rot Z).
Notation Rep := (report Cfg Pos Rot).
Notation Hlp := (helper Cfg Pos Rot).
Variable S : services Cfg Pos Rot Cand Smp.
Variable moved : Pos -> Pos -> bool.

(** stability flag and status agree, whatever the modes *)
Lemma pass_stable h post limb ps fl g1 g2 g3 out :
  candidate_pass S h post limb ps fl = (g1, g2, g3, out) -> stable out = (g1 || g2).
Proof.
  unfold candidate_pass. destruct fl as [[? ?] ?]. set (s := fold_left _ _ _). intros [= <- <- <- <-].
  destruct (place s) as [[p n] r].
  by destruct (found_sample s), (found_stable s), (unstableContact s).
Qed.
Lemma generate_contact_stable h limb ps rep post :
  generate_contact S h limb ps = (rep, post) ->
  stable (result rep) = true <-> (rstatus rep = REACHABLE_CONTACT \/ rstatus rep = STABLE_CONTACT).
Proof.
  intros Hg. pose proof (C19_lemma S h limb ps rep post Hg) as (_ & _ & _ & Hno).
  unfold generate_contact in Hg.
  destruct (findValidCandidate S h limb ps) as [[[[g1 g2] g3] st] post'] eqn:Ef.
  assert (Hst : stable st = (g1 || g2)).
  { apply findValidCandidate_cases in Ef as (-> & fl1 & out1 & E1 & Hc).
    destruct Hc as [(<- & -> & _)|(_ & _ & out2 & E2 & ->)].
    - by eapply pass_stable.
    - simpl. by eapply pass_stable. }
  destruct g1; [injection Hg as <- <-; simpl; rewrite Hst; naive_solver|].
  destruct g2; [injection Hg as <- <-; simpl; rewrite Hst; naive_solver|].
  destruct g3; [injection Hg as <- <-; simpl; rewrite Hst; naive_solver|].
  injection Hg as <- <-. destruct (Hno eq_refl) as (_ & c & [] & _). simpl in *. rewrite mt_stable. naive_solver.
Qed.

(** ** repositionContacts *)
Lemma reposition_loop_spec old res popped name h res' popped' name' rest h' :
  reposition_loop S old res popped name h = (res', popped', name', rest, h') ->
  (exists w, h' = set_working w h) /\
  (stable res = false -> stable res' = true ->
     exists w ps r post, generate_contact S (set_working w h) name' ps = (r, post) /\
       (rstatus r = REACHABLE_CONTACT \/ rstatus r = STABLE_CONTACT) /\ same_but_robustness (result r) res').
Proof.
  revert res popped name h. induction old as [|x old IH]; intros res popped name h; simpl.
  { intros [= <- <- <- <- <-]. split; [|congruence]. exists (working h). by destruct h. }
  destruct (stable res) eqn:Es.
  { intros [= <- <- <- <- <-]. split; [|done]. exists (working h). by destruct h. }
  destruct (groupOf S x) as [|c g].
  { intros Hr. apply IH in Hr as [H1 H2]. split; [done|]. intros _. apply H2. done. }
  set (res1 := snd (RemoveContact c res)). set (h1 := set_working (state_assign (working h) res1) h).
  change (working (set_working (state_assign (working h) res1) h)) with (state_assign (working h) res1).
  destruct (generate_contact S h1 c (state_assign (working h) res1)) as [r post] eqn:Eg. intros Hr.
  pose proof Eg as Eg'. apply generate_contact_grown in Eg' as (-> & _ & _).
  change (reposition_loop S old (state_assign res1 (result r)) popped c h1 = (res', popped', name', rest, h')) in Hr.
  destruct (stable (result r)) eqn:Esr.
  - assert (Hend : (res', popped', name', rest, h') = (state_assign res1 (result r), popped, c, old, h1)).
    { rewrite <- Hr. destruct old; simpl; [done|]. by rewrite Esr. }
    injection Hend as -> -> -> -> ->. split; [by eexists|]. intros _ _.
    exists (state_assign (working h) res1), (working h1), r, (postural h1). split; [done|].
    split; [|done]. by apply (generate_contact_stable _ _ _ _ _ Eg).
  - apply IH in Hr as [(w & ->) H2]. split; [by exists w|]. intros _ Hs. apply H2; done.
Qed.

Lemma reposition_spec h rep h' :
  repositionContacts S h = (rep, h') ->
  (exists w, h' = set_working w h) /\
  (success rep = true <-> stable (result rep) = true) /\
  (success rep = true -> rstatus rep = STABLE_CONTACT /\
     exists limb w ps r post q, generate_contact S (set_working w h) limb ps = (r, post) /\
       (rstatus r = REACHABLE_CONTACT \/ rstatus r = STABLE_CONTACT) /\
       same_but_robustness (with_order (q ++ [limb]) (result r)) (result rep)).
Proof.
  unfold repositionContacts.
  destruct (reposition_loop S _ _ _ _ h) as [[[[res popped] name] rest] h1] eqn:E.
  apply reposition_loop_spec in E as [(w & ->) H2].
  destruct (stable res) eqn:Es; intros [= <- <-]; simpl; rewrite Es.
  - split_and!; [by exists w|done|]. intros _. split; [done|].
    destruct H2 as (w' & ps & r & post & Hg & Hst & []); [done..|].
    exists name, w', ps, r, post, (popped ++ rest). split_and!; [done..|].
    split; simpl; congruence.
  - split_and!; [by exists w|done|done].
Qed.

(** ** oneStep: flags *)
Lemma step_loop_params fuel rep h out h' :
  NoDup (limbNames S) -> step_loop S fuel rep h = Some (out, h') ->
  exists w q, h' = set_working w (set_cands q h).
Proof.
  intros Hnd. revert rep h. induction fuel as [|fuel IH]; intros rep h; simpl; [done|].
  destruct (genContactFromOneMaintainCombinatorial S h) as [r h1] eqn:E.
  eapply one_maintain_queue in E as (used & _ & _ & (w & Hw)); [|done|by apply maintain_queue_iff].
  destruct (_ && _).
  - intros Hs. apply IH in Hs as (w' & q' & ->). rewrite Hw. by exists w', q'.
  - intros [= <- <-]. rewrite Hw. by exists w, (cands h1).
Qed.

Lemma report_flags (parent : Rep) (h : Hlp) b :
  let cr := generateContactReport moved parent h b in
  (contactCreated cr = true <-> exists k, created moved (previous h) (result parent) k) /\
  (multipleBreaks cr = true <-> exists ks, NoDup ks /\ maxBreaks h < length ks /\
      forall k, k ∈ ks <-> created moved (result parent) (previous h) k) /\
  (contactMaintained cr = true <-> b = false /\ forall k, ~ created moved (result parent) (previous h) k).
Proof.
  simpl. destruct (contactCreations_correct moved (result parent) (previous h)) as (Hc & _).
  destruct (contactCreations_correct moved (previous h) (result parent)) as (Hb & Hbn & _).
  rewrite <- contactBreaks_eq in Hb, Hbn. set (br := contactBreaks moved (result parent) (previous h)) in *.
  set (crs := contactCreations moved (result parent) (previous h)) in *. split_and!.
  - rewrite Nat.ltb_lt. split.
    + intros Hl. destruct crs as [|k l]; [simpl in Hl; lia|]. exists k. apply Hc. left.
    + intros (k & Hk). apply Hc in Hk. destruct crs; [by apply elem_of_nil in Hk|]. simpl. lia.
  - rewrite Nat.ltb_lt. split.
    + intros Hl. by exists br.
    + intros (ks & Hn & Hl & Hk). enough (length ks <= length br) by lia.
      apply submseteq_length, NoDup_submseteq; [done|]. intros x Hx. by apply Hb, Hk.
  - rewrite andb_true_iff, negb_true_iff, Nat.eqb_eq. split; intros [-> Hx]; (split; [done|]).
    + intros k Hk. apply Hb in Hk. destruct br; [by apply elem_of_nil in Hk|done].
    + destruct br as [|k l]; [done|]. destruct (Hx k). apply Hb. left.
Qed.

Lemma oneStep_flags fuel h cr h' :
  NoDup (limbNames S) -> oneStep S moved fuel h = Some (cr, h') ->
  previous h' = previous h /\
  (contactCreated cr = true <-> exists k, created moved (previous h) (result (cr_rep cr)) k) /\
  (multipleBreaks cr = true <-> exists ks, NoDup ks /\ maxBreaks h < length ks /\
      forall k, k ∈ ks <-> created moved (result (cr_rep cr)) (previous h) k) /\
  (contactMaintained cr = true <-> repositionedInPlace cr = false /\
      forall k, ~ created moved (result (cr_rep cr)) (previous h) k).
Proof.
  intros Hnd. unfold oneStep. destruct (step_loop S fuel (fresh_report S) h) as [[rep h1]|] eqn:E; [|done].
  apply step_loop_params in E as (w & q & ->); [|done]. destruct (success rep).
  - intros [= <- <-]. split; [done|]. apply (report_flags rep h false).
  - unfold handleFailure.
    destruct (repositionContacts S _) as [rep1 h1] eqn:Er.
    apply reposition_spec in Er as [(w' & ->) _]. intros [= <- <-]. split; [done|].
    apply (report_flags rep1 h true).
Qed.

(** a successful step that did not reposition comes from one maintain candidate *)
Lemma C20_grown h rep h' :
  NoDup (limbNames S) -> maxCreations h <= 1 -> gen_contacts S h = (rep, h') -> success rep = true ->
  exists e, length e <= maxCreations h /\ Forall (free_limb S (working h)) e /\
    order (result rep) = order (working h) ++ e /\ grown (fun x => x ∈ e) (working h) (result rep).
Proof.
  intros Hnd Hm Hg Hs. unfold gen_contacts in Hg.
  destruct (gen_queue_props S (working h) (maxCreations h) (maximise h) Hnd) as (He & Hq & Hfree).
  eapply (gen_loop_single S _ _ _ _ _ _ (free_limb S (working h)) (working h) (maxCreations h)) in Hg; try done.
  - intros c limbs Hin. apply Hq in Hin as (_ & Hsub & _ & Hlen). split; [done|].
    intros x Hx. apply Hfree. by apply Hsub.
  - apply grown_refl.
Qed.

Lemma step_loop_origin fuel rep h out h' q0 :
  NoDup (limbNames S) -> checkMaintain h = false -> maxCreations h <= 1 ->
  (forall q, maintain_queue h q -> q ⊆ q0) ->
  step_loop S fuel rep h = Some (out, h') -> success out = true ->
  exists c e, c ∈ q0 /\ length e <= maxCreations h /\ Forall (free_limb S c) e /\
    order (result out) = order c ++ e /\ grown (fun x => x ∈ e) c (result out).
Proof.
  intros Hnd. revert rep h. induction fuel as [|fuel IH]; intros rep h Hck Hm Hq0; simpl; [done|].
  destruct (genContactFromOneMaintainCombinatorial S h) as [r h1] eqn:E.
  pose proof E as E'. eapply one_maintain_queue in E' as (used & Hu & _ & (w & Hw));
    [|done|by apply maintain_queue_iff].
  destruct (negb _ && _) eqn:Eb.
  - intros Hs Hso. rewrite andb_true_iff, !negb_true_iff in Eb. destruct Eb as [_ Eb].
    apply bool_decide_eq_false in Eb.
    assert (Hmx : maxCreations h = maxCreations h1) by (by rewrite Hw). rewrite Hmx in *.
    eapply IH; [| | |exact Hs|done].
    + by rewrite Hw.
    + done.
    + intros q Hq. assert (q = cands h1) as ->.
      { destruct Hq as [(_ & ->)|[(? & _)|(? & _)]]; done. }
      pose proof (Hq0 _ (proj2 (maintain_queue_iff h _) eq_refl)) as Hsub. rewrite Hu in Hsub. set_solver.
  - intros [= <- <-]. simpl. intros Hs. unfold genContactFromOneMaintainCombinatorial in E.
    destruct (maintain_contacts S h) as [r1 h2] eqn:Em.
    pose proof (maintain_queue_iff h (queue_of h)) as Hqq.
    destruct (C15_lemma S h (queue_of h) r1 h2 Hck (proj2 Hqq eq_refl) Em)
      as [(Hs1 & l1 & c & l2 & Hq & -> & _ & Had & _)|(Hs1 & _)].
    2:{ rewrite Hs1 in E. injection E as -> ->. congruence. }
    rewrite Hs1 in E. apply C20_grown in E as (e & He1 & He2 & He3 & He4); [|done..].
    destruct Had as (c1 & c2 & _ & _ & _ & [] & _).
    exists c, e. simpl in *. split_and!.
    + apply (Hq0 (queue_of h)); [by apply Hqq|]. rewrite Hq. set_solver.
    + done.
    + eapply Forall_impl; [exact He2|]. intros x [Hx1 Hx2]. split; [done|]. simpl in Hx2. by rewrite mt_contacts in Hx2.
    + by rewrite He3, mt_order.
    + destruct He4 as [m4 _ n4]. split; simpl in *.
      * intros k Hk. destruct (m4 k Hk) as (->&->&->&->). by rewrite mt_contacts, mt_normals, mt_positions, mt_rotations.
      * exists e. rewrite He3, mt_order. split; [done|]. by apply Forall_forall.
      * by rewrite n4.
Qed.

Lemma oneStep_origin fuel h cr h' q0 :
  NoDup (limbNames S) -> checkMaintain h = false -> maxCreations h <= 1 -> maintain_queue h q0 ->
  oneStep S moved fuel h = Some (cr, h') -> repositionedInPlace cr = false ->
  success (cr_rep cr) = true /\
  exists c e, c ∈ q0 /\ length e <= maxCreations h /\ Forall (free_limb S c) e /\
    order (result (cr_rep cr)) = order c ++ e /\ grown (fun x => x ∈ e) c (result (cr_rep cr)).
Proof.
  intros Hnd Hck Hm Hq. unfold oneStep.
  destruct (step_loop S fuel (fresh_report S) h) as [[rep h1]|] eqn:E; [|done].
  destruct (success rep) eqn:Es.
  - intros [= <- <-] _. split; [done|]. simpl. eapply step_loop_origin; [done|done|done| |exact E|done].
    intros q Hq'. apply maintain_queue_iff in Hq as ->. apply maintain_queue_iff in Hq' as ->. done.
  - unfold handleFailure. destruct (repositionContacts S _) as [rep1 h2]. by intros [= <- <-].
Qed.

(** no contact in the previous state: the step always fails *)
Lemma oneStep_no_contact fuel h cr h' :
  NoDup (limbNames S) -> maintain_queue h [] -> order (previous h) = [] ->
  oneStep S moved fuel h = Some (cr, h') ->
  success (cr_rep cr) = false /\ repositionedInPlace cr = true /\
  order (result (cr_rep cr)) = [] /\ contacts (result (cr_rep cr)) = contacts (previous h).
Proof.
  intros Hnd Hq Ho. unfold oneStep. destruct fuel as [|fuel]; simpl; [done|].
  unfold genContactFromOneMaintainCombinatorial.
  destruct (maintain_contacts S h) as [r h1] eqn:Em.
  assert (Hs : success r = false /\ h1 = set_cands [] h).
  { rewrite maintain_contacts_eq in Em. apply maintain_queue_iff in Hq. rewrite <- Hq in Em.
    simpl in Em. by injection Em as <- <-. }
  destruct Hs as [Hs ->]. rewrite Hs. simpl. rewrite ?Hs. simpl. rewrite ?Hs.
  unfold handleFailure, repositionContacts. simpl. rewrite Ho. simpl. intros [= <- <-]. done.
Qed.
End proofs.
