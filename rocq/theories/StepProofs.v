(** One step of the generator: proofs. *)
From Coq Require Import ZArith Lia.
From Verif Require Import Maps MapsProofs StateModel StateSpec StateProofs CombModel CombSpec CombProofs CombProofs2
  GenModel GenSpec GenProofs GenProofs2 GenProofs3 GenProofs4 GenProofs5 GenProofs6 GenProofs7 GenProofs8 GenProofs10
  GenProofs12 GenProofs13 HoldProofs StepSpec.

Section proofs.
Context {Cfg Pos Rot Cand Smp : Type}.
Notation St := (State Cfg Pos Rot Z).
Notation Rep := (report Cfg Pos Rot).
Notation Hlp := (helper Cfg Pos Rot).
Variable S : services Cfg Pos Rot Cand Smp.
Variable moved : Pos -> Pos -> bool.

(** combinations of one limb at most, the longest first *)
Lemma extend_empty (l : list string) : extend_all [[]] l = map (fun x => [x]) l.
Proof.
  unfold extend_all. cbn [map concat]. rewrite app_nil_r. induction l as [|x l IH]; [done|]. cbn [omap list_omap map]. simpl. by f_equal.
Qed.
Lemma one_by_one (l : list string) : stringCombinatorial l 1 true = map (fun x => [x]) l ++ [[]].
Proof. unfold stringCombinatorial. cbn [stringCombinatorialRec]. rewrite extend_empty. done. Qed.

Section request.
Variable prev : St.
Variable t : Z.
Variable test qs post : bool.

(** the parameters of the helper of a step *)
Definition asked (h : Hlp) : Prop :=
  previous h = prev /\ thr h = t /\ testReach h = test /\ quasi h = qs /\ postural h = post /\
  checkMaintain h = false /\ checkGen h = true /\ contactIfFails h = false /\ stableForOne h = false /\
  maxBreaks h = 1 /\ maxCreations h = 1 /\ maximise h = true /\ acceptUnreach h = false.

Lemma acceptable_passes (h : Hlp) (s p : St) : asked h -> working h = s ->
  (acceptable S h s p <-> passes S prev t test qs s p).
Proof.
  intros (E1 & E2 & E3 & E4 & E5 & E6 & E7 & E8 & E9 & _) <-.
  unfold acceptable, passes, stability_requested, GenSpec.reaches. rewrite E1, E2, E3, E4, E7, E9. split.
  - intros H Hn. apply H. split; [done|]. by right.
  - intros H [_ [?|Hn]]; [done|]. by apply H.
Qed.
Lemma no_projection_iff mode limb (s : St) Q Q' l : (forall p, Q p <-> Q' p) ->
  no_projection_with S mode limb s Q l -> no_projection_with S mode limb s Q' l.
Proof. intros HQ. apply no_projection_weaken. intros p. apply HQ. Qed.

Lemma start_eta (h : Hlp) : stable (working h) = false -> start_of h = working h.
Proof. intros Hs. unfold start_of. destruct (working h); simpl in *. subst. done. Qed.

(** trying one limb *)
Lemma try_one (h : Hlp) limb rep post' : asked h -> stable (working h) = false ->
  generate_contact S h limb (working h) = (rep, post') ->
  post' = postural h /\
  ((success rep = true /\ rstatus rep = REACHABLE_CONTACT /\
      exists p, first_contact S prev t test qs post (working h) limb p /\
        contact_added S (nbContacts (working h)) true p (result rep)) \/
   (success rep = false /\ no_contact S prev t test qs post (working h) limb)).
Proof.
  intros Ha Hs Hg. pose proof (acceptable_passes h (working h)) as Hap.
  pose proof (C19_lemma S h limb _ rep post' Hg) as (_ & H2 & _ & H4).
  pose proof (unstable_fails S h limb _ rep post' Hg) as H3.
  pose proof Hg as Hg'. apply generate_contact_grown in Hg' as (-> & _ & _). split; [done|].
  pose proof (generate_contact_reachable S h limb _ rep _ Hg) as H. simpl in H. rewrite (start_eta h Hs) in H.
  pose proof Ha as (E1 & E2 & E3 & E4 & E5 & E6 & E7 & E8 & E9 & E10 & E11 & E12 & E13).
  destruct H as [(Hr & Hok & mode & p & Hd & Hf & Hca)|(Hr & Hn1 & Hn2)].
  - left. split; [done|]. split; [done|]. exists p. split; [|done]. exists mode. split.
    + destruct Hd as [->|(_ & -> & Hd)]; [by left|right]. split; [done|].
      eapply no_projection_iff; [|exact Hd]. intros q. by apply Hap.
    + destruct Hf as (a & x & b & El & Hp & Hq & Hno). exists a, x, b. split; [done|]. split; [done|].
      split; [by apply (Hap p)|]. eapply no_projection_iff; [|exact Hno]. intros q. by apply Hap.
  - right. split.
    + destruct (rstatus rep) eqn:Er; try done.
      * by apply H4.
      * by apply H3.
      * rewrite (H2 eq_refl). done.
    + rewrite E5 in Hn1. split; (eapply no_projection_iff; [|done]); intros q; by apply Hap.
Qed.

Lemma asked_checkGen (h : Hlp) b b' : asked h -> asked (set_checkGen b (set_checkGen true (set_checkGen b' h))) <-> b = true.
Proof. unfold asked. simpl. intros (E1 & E2 & E3 & E4 & E5 & E6 & E7 & E8 & E9 & E10 & E11 & E12 & E13). split; [tauto|]. intros ->. tauto. Qed.


Lemma same_but_refl (s : St) : same_but_robustness s s.
Proof. by split. Qed.

(** trying the limbs one after the other, then none *)
Lemma gen_exact (l : list string) (h : Hlp) rep rep' h' : asked h -> stable (working h) = false ->
  success rep = false -> robustness (result rep) = junkRob S ->
  gen_loop S true (map (fun seq => (working h, seq)) (map (fun x => [x]) l ++ [[]])) h rep = (rep', h') ->
  asked h' /\ cands h' = cands h /\ robustness (result rep') = junkRob S /\
  ((success rep' = true /\ exists l1 limb l2 p, l = l1 ++ limb :: l2 /\
      (forall x, x ∈ l1 -> no_contact S prev t test qs post (working h) x) /\
      first_contact S prev t test qs post (working h) limb p /\ rstatus rep' = REACHABLE_CONTACT /\
      contact_added S (nbContacts (working h)) true p (result rep')) \/
   ((forall x, x ∈ l -> no_contact S prev t test qs post (working h) x) /\
    ((success rep' = true /\ (2 <= nbContacts (working h))%Z /\ (t <= isStable S (working h))%Z /\
        rstatus rep' = STABLE_CONTACT /\ same_but_robustness (with_stable true (working h)) (result rep')) \/
     (success rep' = false /\ ~ ((2 <= nbContacts (working h))%Z /\ (t <= isStable S (working h))%Z) /\
        h' = h)))).
Proof.
  revert rep. induction l as [|x l IH]; intros rep Ha Hs Hok Hrob.
  - pose proof Ha as (E1 & E2 & E3 & E4 & E5 & E6 & E7 & E8 & E9 & E10 & E11 & E12 & E13).
    cbn [map app gen_loop]. rewrite Hok. rewrite bool_decide_eq_true_2 by done. rewrite E9, E2, orb_false_r.
    destruct (2 <=? nbContacts (working h))%Z eqn:Enb; [destruct (t <=? isStable S (working h))%Z eqn:Est|];
      cbn [andb orb negb stable with_stable working set_working]; rewrite ?Hs, ?andb_false_r; cbn [andb orb negb nbContacts with_stable]; rewrite ?Enb; cbn [andb].
    + intros [= <- <-]. split; [by repeat (split; [done|])|]. split; [done|]. split; [done|]. right. split; [by intros y ?%elem_of_nil|].
      left. split; [done|]. split; [by apply Z.leb_le|]. split; [by apply Z.leb_le|]. split; [done|]. by split.
    + cbn [try_limbs]. intros [= <- <-]. split; [by repeat (split; [done|])|]. split; [done|]. split; [done|]. right. split; [by intros y ?%elem_of_nil|].
      right. split; [done|]. split; [intros [_ H]; apply Z.leb_gt in Est; lia|]. destruct h; simpl in *; by subst.
    + cbn [try_limbs]. intros [= <- <-]. split; [by repeat (split; [done|])|]. split; [done|]. split; [done|]. right. split; [by intros y ?%elem_of_nil|].
      right. split; [done|]. split; [intros [H _]; apply Z.leb_gt in Enb; lia|]. destruct h; simpl in *; by subst.
  - pose proof Ha as (E1 & E2 & E3 & E4 & E5 & E6 & E7 & E8 & E9 & E10 & E11 & E12 & E13).
    cbn [map app gen_loop]. rewrite Hok. rewrite bool_decide_eq_false_2 by done. cbn [andb try_limbs].
    assert (Eh : set_checkGen true (set_checkGen false h) = h) by (destruct h; simpl in *; by subst).
    rewrite Eh. destruct (generate_contact S h x (working h)) as [r post'] eqn:Eg.
    apply try_one in Eg as (-> & Hg); [|done|done]. rewrite set_postural_same. cbn [success assign_report].
    destruct Hg as [(Hr & Est & p & Hf & Hca)|(Hr & Hno)]; rewrite Hr.
    + intros Hl. assert (Hend : (rep', h') = (assign_report rep r, set_checkGen true (set_working (state_assign (working h) (result (assign_report rep r))) h))).
      { rewrite <- Hl. destruct l; simpl; by rewrite Hr. }
      injection Hend as -> ->. split; [by repeat (split; [done|])|]. split; [done|]. split; [done|]. left. split; [done|].
      exists [], x, l, p. split; [done|]. split; [by intros y ?%elem_of_nil|]. split; [done|]. split; [done|].
      unfold contact_added in *. simpl. naive_solver.
    + intros Hl. apply IH in Hl; [|done|done|done|done].
      destruct Hl as (H1 & H2 & H3 & [(H4 & l1 & limb & l2 & p & -> & H5 & H6)|(H4 & H5)]).
      * split; [done|]. split; [done|]. split; [done|]. left. split; [done|]. exists (x :: l1), limb, l2, p. split; [done|]. split; [|done].
        intros y [->|Hy]%elem_of_cons; [done|by apply H5].
      * split; [done|]. split; [done|]. split; [done|]. right. split; [|done]. intros y [->|Hy]%elem_of_cons; [done|by apply H4].
Qed.

Lemma gen_contacts_exact h rep h' : asked h -> stable (working h) = false -> gen_contacts S h = (rep, h') ->
  asked h' /\ cands h' = cands h /\ robustness (result rep) = junkRob S /\
  ((success rep = true /\ completed S prev t test qs post (working h) (rstatus rep) (result rep)) \/
   (success rep = false /\ not_completed S prev t test qs post (working h) /\
      h' = h)).
Proof.
  intros Ha Hs. unfold gen_contacts. pose proof Ha as (_ & _ & _ & _ & _ & _ & E7 & _ & _ & _ & E11 & E12 & _). rewrite E7, E11, E12.
  unfold gen_contacts_combinatorial. rewrite one_by_one. intros Hg. apply gen_exact in Hg; [|done|done|done|done].
  destruct Hg as (H1 & H2 & H3 & H4). split; [done|]. split; [done|]. split; [done|].
  destruct H4 as [(H4 & l1 & limb & l2 & p & El & H5 & H6 & H7 & H8)|(H4 & [(H5 & H6 & H7 & H8 & H9)|(H5 & H6 & H7)])].
  - left. split; [done|]. rewrite H7. by econstructor.
  - left. split; [done|]. rewrite H8. by constructor.
  - right. split; [done|]. split; [by split|]. done.
Qed.

Lemma admissible_maintained (h : Hlp) (c s0 : St) : asked h -> admissible S h c s0 ->
  maintained S test qs (working h) c (state_assign (working h) s0).
Proof.
  intros (E1 & E2 & E3 & E4 & _) (c1 & c2 & H1 & H2 & H3 & H4 & H5 & H6). exists c1, c2, s0.
  rewrite E3, E4 in H6. split_and!; try done.
Qed.
Lemma maintained_admissible (h : Hlp) (c s : St) : asked h -> maintained S test qs (working h) c s -> exists s0, admissible S h c s0.
Proof.
  intros (E1 & E2 & E3 & E4 & _) (c1 & c2 & s0 & H1 & H2 & H3 & H4 & H5 & H6 & _). exists s0, c1, c2.
  rewrite E3, E4. split_and!; try done.
Qed.
Lemma maintained_stable (w c s : St) : maintained S test qs w c s -> stable s = stable c.
Proof. intros (c1 & c2 & s0 & _ & _ & _ & [] & _ & _ & [] & _). congruence. Qed.

Lemma step_exact w0 q0 fuel rep h out h' : asked h -> success rep = false -> robustness (result rep) = junkRob S ->
  (forall x, x ∈ queue_of h -> stable x = false) ->
  attempts S prev t test qs post w0 q0 (working h) (queue_of h) ->
  step_loop S fuel rep h = Some (out, h') ->
  asked h' /\
  ((success out = true /\ succeeds S prev t test qs post w0 q0 (rstatus out) (result out)) \/
   (success out = false /\ fails S prev t test qs post w0 q0)).
Proof.
  revert rep h. induction fuel as [|fuel IH]; intros rep h Ha Hok Hrob Hst Hat; cbn [step_loop]; [done|].
  unfold genContactFromOneMaintainCombinatorial.
  destruct (maintain_contacts S h) as [r1 h2] eqn:Em.
  pose proof Ha as (E1 & E2 & E3 & E4 & E5 & E6 & E7 & E8 & E9 & E10 & E11 & E12 & E13).
  destruct (C15_lemma S h (queue_of h) r1 h2 E6 (proj2 (maintain_queue_iff h _) eq_refl) Em)
    as [(Hs1 & l1 & c & l2 & Hq & -> & Hno & Had & _)|(Hs1 & -> & Hno)].
  - rewrite Hs1. cbn [working set_cands].
    set (s := state_assign (working h) (result r1)). set (hc := set_cands l2 h).
    pose proof (admissible_maintained h c _ Ha Had) as Hm. fold s in Hm.
    assert (Hsc : stable c = false) by (apply Hst; rewrite Hq; set_solver).
    assert (Hss : stable s = false) by (rewrite (maintained_stable _ _ _ Hm); done).
    assert (Hnm : forall x y, x ∈ l1 -> ~ maintained S test qs (working h) x y).
    { intros x y Hx Hxy. apply maintained_admissible in Hxy as [s0 Hxy]; [|done]. by apply (Hno x Hx s0). }
    destruct (gen_contacts S (set_working s hc)) as [r h3] eqn:Eg.
    apply gen_contacts_exact in Eg as (Ha3 & Hc3 & Hr3 & Hg); [|by repeat (split; [done|])|done].
    cbn [working set_working cands set_cands hc] in Hc3, Hg. rewrite Hq in Hat.
    destruct Hg as [(Hs & Hcom)|(Hs & Hcom & ->)].
    + cbn [success assign_report]. rewrite Hs. cbn [negb andb]. intros [= <- <-]. split; [done|]. left. split; [done|].
      exists (working h), l1, c, l2, s. split; [done|]. split; [done|]. split; [done|].
      assert (Er : result (assign_report rep r) = result r).
      { destruct rep, r. simpl in *. rewrite state_assign_eq, Hrob, <- Hr3. by destruct result0. }
      rewrite Er. exact Hcom.
    + cbn [success assign_report]. rewrite Hs. cbn [negb andb]. rewrite Hc3.
      destruct (decide (l2 = [])) as [->|Hl2].
      * rewrite bool_decide_eq_true_2 by done. cbn [negb]. intros [= <- <-]. split; [done|]. right. split; [done|].
        exists (working h), (l1 ++ [c]). split; [done|]. right. by exists l1, c, s.
      * rewrite bool_decide_eq_false_2 by done. cbn [negb]. apply IH.
        -- done.
        -- done.
        -- destruct rep. exact Hrob.
        -- intros x. unfold queue_of. rewrite Hc3. destruct l2; [done|]. intros Hx. apply Hst. rewrite Hq. set_solver.
        -- unfold queue_of. rewrite Hc3. destruct l2 as [|c2 l2]; [done|].
           eapply at_next; [exact Hat|exact Hnm|exact Hm|exact Hcom|done].
  - rewrite Hs1. cbn [success assign_report]. rewrite Hs1. cbn [negb andb cands set_cands]. rewrite bool_decide_eq_true_2 by done. cbn [negb].
    intros [= <- <-]. split; [by repeat (split; [done|])|]. right. split; [done|]. exists (working h), (queue_of h). split; [done|]. left.
    intros x y Hx Hxy. apply maintained_admissible in Hxy as [s0 Hxy]; [|done]. by apply (Hno x Hx s0).
Qed.
End request.

Lemma to_keep_queue (prev : St) cfg (h : Hlp) : consistent prev -> working h = request prev cfg -> cands h = [] -> maxBreaks h = 1 ->
  queue_of h = to_keep (request prev cfg) /\ (forall x, x ∈ queue_of h -> stable x = false).
Proof.
  intros Hc Hw Hca Hm. unfold queue_of, to_keep. rewrite Hca, Hw, Hm.
  assert (Hwc : consistent (request prev cfg)) by (destruct Hc; by split).
  destruct (decide (order prev = [])) as [Ho|Ho].
  - assert (contacts prev = ∅) as Hem.
    { apply map_empty. intros k. apply eq_None_not_Some. rewrite (proj1 (co_keys _ Hc k)), Ho. apply not_elem_of_nil. }
    rewrite bool_decide_eq_true_2 by done. rewrite bool_decide_eq_true_2 by done. split; [done|]. by intros x ?%elem_of_nil.
  - rewrite (bool_decide_eq_false_2 (order _ = [])) by done.
    rewrite bool_decide_eq_false_2.
    2:{ intros Hemp. destruct (order prev) as [|k q] eqn:Eo; [done|].
        assert (contacts prev !! k = Some true) as Hk by (apply co_active; [done|]; rewrite Eo; left).
        simpl in Hemp. rewrite Hemp in Hk. by rewrite lookup_empty in Hk. }
    destruct (decide (nbContacts prev = 1%Z)) as [Hn|Hn].
    + rewrite bool_decide_eq_true_2 by done. rewrite maintain_single by done. split; [done|]. intros x Hx. apply elem_of_list_singleton in Hx as ->. done.
    + rewrite bool_decide_eq_false_2 by done. rewrite maintain_combinatorial_one by done. split; [done|].
      intros x [->|Hx]%elem_of_cons; [done|]. apply elem_of_list_fmap in Hx as (id & -> & _).
      unfold without. simpl. unfold RemoveContact. by destruct (has id (contacts (request prev cfg))).
Qed.

Lemma next_step_exact fuel prev cfg t test qs post cr h' : consistent prev ->
  ComputeContacts_next S moved fuel prev cfg t test qs post = Some (cr, h') ->
  let w := request prev cfg in
  (repositionedInPlace cr = false /\ success (cr_rep cr) = true /\
     exists r, succeeds S prev t test qs post w (to_keep w) (rstatus (cr_rep cr)) r /\
       moved_to (copyExtra S (configuration r) cfg) r (result (cr_rep cr))) \/
  (repositionedInPlace cr = true /\ fails S prev t test qs post w (to_keep w)).
Proof.
  intros Hc. unfold ComputeContacts_next. set (h := with_reach test qs _).
  destruct (oneStep S moved fuel h) as [[cr0 h0]|] eqn:E; [|done]. intros [= <- <-]. cbn [repositionedInPlace cr_rep].
  unfold oneStep in E. destruct (step_loop S fuel (fresh_report S) h) as [[rep h1]|] eqn:Es; [|done].
  destruct (to_keep_queue prev cfg h Hc eq_refl eq_refl eq_refl) as [Hq Hst].
  apply (step_exact prev t test qs post (request prev cfg) (to_keep (request prev cfg))) in Es as [_ Hs]; [| |done|done|done|].
  - destruct Hs as [(Hs & Hr)|(Hs & Hr)]; rewrite Hs in E.
    + injection E as <- <-. left. cbn [repositionedInPlace generateContactReport cr_rep]. rewrite Hs. cbn. split; [done|]. split; [done|].
      exists (result rep). split; [done|]. by split.
    + right. unfold handleFailure in E. destruct (repositionContacts S _) as [rep1 h2]. by injection E as <- <-.
  - by repeat (split; [done|]).
  - rewrite Hq. constructor.
Qed.

(** ** The root *)
Section root.
Variable same_root : Cfg -> Cfg -> Prop.
Variable only : string -> Cfg -> Cfg -> Prop.
Hypothesis K : root_services S same_root only.

Lemma load_all_root limb l c : limb ∈ limbNames S \/ limb ∈ nonContacting S -> l ⊆ samples S limb -> same_root c (load_all S l c).
Proof.
  intros Hlimb. revert c. induction l as [|x l IH]; intros c Hl; [apply (ro_refl _ _ _ K)|].
  eapply (ro_trans _ _ _ K); [apply (ro_sample _ _ _ K limb); [exact Hlimb|apply Hl; left]|]. apply IH. set_solver.
Qed.
Lemma freed_root limb c c' : limb ∈ limbNames S \/ limb ∈ nonContacting S -> freed S limb c c' -> same_root c c'.
Proof.
  intros Hlimb [[_ ->]|(_ & l1 & s & l2 & E & -> & _)]; [apply (ro_refl _ _ _ K)|]. apply (load_all_root limb); [done|]. rewrite E. set_solver.
Qed.
Lemma all_freed_root limbs c c' : all_freed S limbs c c' -> (forall x, x ∈ limbs -> x ∈ limbNames S \/ x ∈ nonContacting S) -> same_root c c'.
Proof.
  induction 1 as [c|l ls c c1 c2 Hf _ IH]; intros Hls; [apply (ro_refl _ _ _ K)|].
  eapply (ro_trans _ _ _ K); [eapply freed_root; [apply Hls; left|exact Hf]|]. apply IH. set_solver.
Qed.
Lemma free_known (c : St) ord x : x ∈ sortLimbs ord (freeEffectors c (limbNames S)) -> x ∈ limbNames S.
Proof.
  intros Hx. unfold sortLimbs in Hx. apply elem_of_app in Hx as [Hx|Hx].
  - apply elem_of_list_filter in Hx as [_ Hx]. rewrite freeEffectors_eq in Hx. by apply elem_of_list_filter in Hx as [_ Hx].
  - assert (Hgen : forall l r, x ∈ fold_left (fun r l => if inb l (freeEffectors c (limbNames S)) then snd (insertIfNew r l) else r) l r ->
      x ∈ r \/ x ∈ freeEffectors c (limbNames S)).
    { induction l as [|y l IH]; intros r Hr; [by left|]. simpl in Hr. apply IH in Hr as [Hr|Hr]; [|by right].
      destruct (inb y (freeEffectors c (limbNames S))) eqn:Ey; [|by left].
      unfold insertIfNew in Hr. destruct (inb y r); simpl in Hr; [by left|].
      apply elem_of_app in Hr as [Hr|Hr]; [by left|]. apply elem_of_list_singleton in Hr as ->. right.
      unfold inb in Ey. by apply bool_decide_eq_true in Ey. }
    apply Hgen in Hx as [Hx|Hx]; [by apply elem_of_nil in Hx|]. rewrite freeEffectors_eq in Hx. by apply elem_of_list_filter in Hx as [_ Hx].
Qed.
Lemma maintained_root test qs (w c s : St) : maintained S test qs w c s -> same_root (configuration w) (configuration s).
Proof.
  intros (c1 & c2 & s0 & H1 & H2 & _ & H4 & _ & _ & H5 & _). rewrite (sb_configuration _ _ H5), (mt_configuration _ _ _ H4).
  eapply (ro_trans _ _ _ K); [by eapply (ro_root _ _ _ K)|]. eapply all_freed_root; [exact H2|].
  intros x [Hx|Hx]%elem_of_app; [left; by eapply free_known|by right].
Qed.
Lemma attempts_root prev t test qs post (w w' : St) q q' : attempts S prev t test qs post w q w' q' -> same_root (configuration w) (configuration w').
Proof.
  induction 1 as [|w1 l1 c l2 s _ IH _ Hm _ _]; [apply (ro_refl _ _ _ K)|].
  eapply (ro_trans _ _ _ K); [exact IH|]. by eapply maintained_root.
Qed.
Lemma projects_root limb cur a x p : limb ∈ limbNames S -> projects S false limb cur a x p -> same_root (configuration cur) (configuration p).
Proof.
  intros Hlimb (cfg & E & _ & ->). simpl. apply (ro_only _ _ _ K limb); [done|].
  assert (Ha : only limb (configuration cur) (cfg_after S false limb cur a (configuration cur))).
  { clear E. induction a as [|y l IH] using rev_ind; [apply (ro_only_refl _ _ _ K)|]. unfold cfg_after in *. rewrite fold_left_app. simpl.
    by apply (ro_create _ _ _ K). }
  pose proof (ro_create _ _ _ K limb x _ cur Hlimb Ha) as H. by rewrite E in H.
Qed.
Lemma completed_root prev t test qs (s : St) st r : completed S prev t test qs false s st r -> same_root (configuration s) (configuration r).
Proof.
  intros [l1 limb l2 p r' Hl _ (mode & Hm & a & x & b & _ & Hp & _) Hca|r' _ _ _ Hr].
  - assert (mode = false) as -> by (destruct Hm as [->|[-> _]]; done).
    apply projects_root in Hp; [|apply (free_known s (order s)); unfold to_try in Hl; rewrite Hl; set_solver].
    destruct Hca as (-> & _). exact Hp.
  - rewrite (sb_configuration _ _ Hr). apply (ro_refl _ _ _ K).
Qed.
Lemma generate_root h limb ps rep post' :
  generate_contact S h limb ps = (rep, post') -> limb ∈ limbNames S -> postural h = false -> same_root (configuration (working h)) (configuration (result rep)).
Proof.
  intros Hg Hlimb Hp.
  assert (Hd : rstatus rep = NO_CONTACT \/ rstatus rep <> NO_CONTACT) by (destruct (rstatus rep); by (left + right)).
  destruct Hd as [Hno|Hno].
  - destruct (C19_lemma S _ _ _ _ _ Hg) as (_ & _ & _ & H19). destruct (H19 Hno) as (_ & c & [] & Hc). simpl in *. rewrite mt_configuration.
    destruct Hc as [Hc|[_ ->]]; [by eapply freed_root; [left|]|apply (ro_refl _ _ _ K)].
  - destruct (HoldProofs.created_projection S _ _ _ _ _ Hg Hp Hno) as (a & x & p & b & Hpr & Hca).
    apply projects_root in Hpr; [|done]. destruct Hca as (-> & _). exact Hpr.
Qed.
Lemma reposition_loop_root old res popped name h res' popped' name' rest h' :
  reposition_loop S old res popped name h = (res', popped', name', rest, h') -> postural h = false ->
  (forall x, x ∈ old -> x ∈ limbNames S) ->
  same_root (configuration (previous h)) (configuration res) -> same_root (configuration (previous h)) (configuration res').
Proof.
  revert res popped name h. induction old as [|x old IH]; intros res popped name h; simpl.
  { by intros [= <- <- <- <- <-]. }
  destruct (stable res). { by intros [= <- <- <- <- <-]. }
  intros Hr Hp Hold Hh. assert (Hold' : forall y, y ∈ old -> y ∈ limbNames S) by (intros y Hy; apply Hold; by right).
  destruct (groupOf S x) as [|l ls] eqn:Eg.
  - eapply IH; [exact Hr|done|done|]. simpl. apply (ro_refl _ _ _ K).
  - set (res1 := snd (RemoveContact l res)) in *. set (h1 := set_working (state_assign (working h) res1) h) in *.
    destruct (generate_contact S h1 l _) as [r post1] eqn:Egc.
    pose proof Egc as Egc'. apply generate_contact_grown in Egc' as (-> & _). change (postural h1) with (postural h) in *. rewrite Hp in *.
    apply generate_root in Egc; [|eapply (ro_groups _ _ _ K); [apply Hold; left|exact Eg]|done].
    eapply IH in Hr; [exact Hr|done|done|]. simpl. eapply (ro_trans _ _ _ K); [|exact Egc]. simpl.
    assert (Ec : configuration res1 = configuration res) by (unfold res1, RemoveContact; by destruct (has l (contacts res))).
    by rewrite Ec.
Qed.
Lemma next_step_root fuel prev cfg t test qs cr h' : consistent prev -> (forall x, x ∈ order prev -> x ∈ limbNames S) ->
  ComputeContacts_next S moved fuel prev cfg t test qs false = Some (cr, h') ->
  same_root (if repositionedInPlace cr then configuration prev else cfg) (configuration (result (cr_rep cr))).
Proof.
  intros Hc Hlimbs Hcc. pose proof (next_step_exact fuel prev cfg t test qs false cr h' Hc Hcc) as [(Hr & _ & r & Hs & Hm)|[Hr _]]; rewrite Hr.
  - destruct Hs as (w1 & l1 & c & l2 & s & Ha & _ & Hma & Hco).
    apply attempts_root in Ha. apply maintained_root in Hma. apply completed_root in Hco. rewrite (mt_configuration _ _ _ Hm).
    eapply (ro_trans _ _ _ K); [exact Ha|]. eapply (ro_trans _ _ _ K); [exact Hma|]. eapply (ro_trans _ _ _ K); [exact Hco|]. apply (ro_extra _ _ _ K).
  - unfold ComputeContacts_next in Hcc. set (h := with_reach test qs _) in Hcc.
    destruct (oneStep S moved fuel h) as [[cr0 h0]|] eqn:E; [|done]. injection Hcc as <- <-. cbn [repositionedInPlace cr_rep] in *.
    unfold oneStep in E. destruct (step_loop S fuel (fresh_report S) h) as [[rep h1]|] eqn:Es; [|done].
    destruct (to_keep_queue prev cfg h Hc eq_refl eq_refl eq_refl) as [Hq Hst].
    apply (step_exact prev t test qs false (request prev cfg) (to_keep (request prev cfg))) in Es as [Ha _]; [| |done|done|done|].
    2:{ by repeat (split; [done|]). } 2:{ rewrite Hq. constructor. }
    destruct (success rep); [by injection E as <- <-|]. destruct Ha as (E1 & _ & _ & _ & E5 & _).
    unfold handleFailure in E. destruct (repositionContacts S _) as [rep1 h2] eqn:Erp. injection E as <- <-. cbn [generateContactReport cr_rep].
    assert (Hb : same_root (configuration prev) (configuration (result rep1))).
    { unfold repositionContacts in Erp. destruct (reposition_loop S _ _ _ _ _) as [[[[res popped] name] rest] h3] eqn:El.
      apply reposition_loop_root in El; [|exact E5|simpl; rewrite E1; exact Hlimbs|simpl; apply (ro_refl _ _ _ K)]. simpl in El. rewrite E1 in El.
      destruct (stable res); injection Erp as <- <-; exact El. }
    destruct (success rep1); [|exact Hb]. cbn [result configuration with_configuration].
    eapply (ro_trans _ _ _ K); [exact Hb|]. apply (ro_extra _ _ _ K).
Qed.
End root.
End proofs.
