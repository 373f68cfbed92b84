(** Contacts that hold: proofs. *)
From Coq Require Import ZArith Lia.
From Verif Require Import Maps MapsProofs StateModel StateSpec StateProofs CombModel CombSpec CombProofs CombProofs2
  GenModel GenSpec GenProofs GenProofs2 GenProofs3 GenProofs4 GenProofs5 GenProofs6 GenProofs7 GenProofs8 GenProofs10
  GenProofs12 GenProofs13 HoldSpec.

Section proofs.
Context {Cfg Pos Rot Cand Smp : Type}.
Notation St := (State Cfg Pos Rot Z).
Notation Rep := (report Cfg Pos Rot).
Notation Hlp := (helper Cfg Pos Rot).
Variable S : services Cfg Pos Rot Cand Smp.
Variable moved : Pos -> Pos -> bool.
Variable near : string -> Pos -> Rot -> Pos -> Rot -> Prop.
Variable only : string -> Cfg -> Cfg -> Prop.
Hypothesis K : kinematics S near only.
Hypothesis L : separate_limbs S.
Notation held := (held S near).
Notation there := (effector_there S near).
Notation same_others := (same_others S).
Notation tables s := (consistent (recounted s)).

Lemma same_others_refl limb c : same_others limb c c.
Proof. by intros e _ _. Qed.
Lemma same_others_trans limb a b c : same_others limb a b -> same_others limb b c -> same_others limb a c.
Proof. intros H1 H2 e Hl He. destruct (H1 e Hl He), (H2 e Hl He). split; congruence. Qed.
Lemma there_same s s' c c' e : positions s' = positions s -> rotations s' = rotations s ->
  fkPos S e c = fkPos S e c' -> fkRot S e c = fkRot S e c' -> there s c e -> there s' c' e.
Proof. intros E1 E2 E3 E4 H p r. rewrite E1, E2, <- E3, <- E4. apply H. Qed.
Lemma held_same s s' : positions s' = positions s -> rotations s' = rotations s -> configuration s' = configuration s -> held s -> held s'.
Proof. intros E1 E2 E3 H e He. rewrite E3. by eapply there_same; [..|apply (H e He)]. Qed.

(** ** Samples *)
Lemma load_all_others limb l c : limb ∈ limbNames S \/ limb ∈ nonContacting S -> l ⊆ samples S limb -> same_others limb c (load_all S l c).
Proof.
  intros Hlimb. revert c. induction l as [|x l IH]; intros c Hl; [apply same_others_refl|].
  eapply same_others_trans; [eapply ki_sample; [exact K|exact Hlimb|]; apply Hl; left|]. apply IH. set_solver.
Qed.
Lemma freed_others limb c c' : limb ∈ limbNames S \/ limb ∈ nonContacting S -> freed S limb c c' -> same_others limb c c'.
Proof.
  intros Hlimb [[_ ->]|(_ & l1 & s & l2 & E & -> & _)]; [apply same_others_refl|]. apply load_all_others; [done|]. rewrite E. set_solver.
Qed.
Lemma all_freed_there s limbs c c' e : all_freed S limbs c c' -> (forall x, x ∈ limbs -> x ∈ limbNames S \/ x ∈ nonContacting S) -> e ∈ limbNames S -> e ∉ limbs -> there s c e -> there s c' e.
Proof.
  induction 1 as [c|l ls c c1 c2 Hf _ IH]; intros Hls Hel He Ht; [done|]. apply not_elem_of_cons in He as [He1 He2].
  apply IH; [set_solver|done|done|]. destruct (freed_others _ _ _ (Hls l ltac:(left)) Hf e Hel He1). by eapply there_same; [..|exact Ht].
Qed.

(** ** Creating one contact *)
Lemma cfg_after_others limb cur l : limb ∈ limbNames S -> only limb (configuration cur) (cfg_after S false limb cur l (configuration cur)).
Proof.
  intros Hlimb. induction l as [|x l IH] using rev_ind; [apply (ki_refl _ _ _ K)|]. unfold cfg_after in *. rewrite fold_left_app. simpl.
  by apply (ki_create _ _ _ K).
Qed.
Lemma projects_others limb cur a x p : limb ∈ limbNames S -> projects S false limb cur a x p -> same_others limb (configuration cur) (configuration p).
Proof.
  intros Hlimb (cfg & E & _ & ->). simpl. apply (ki_only _ _ _ K limb _ _ Hlimb). pose proof (ki_create _ _ _ K limb x _ cur Hlimb (cfg_after_others limb cur a Hlimb)) as H. by rewrite E in H.
Qed.
(** the contact created is that of a projection *)
Lemma created_projection h limb ps rep post :
  generate_contact S h limb ps = (rep, post) -> postural h = false -> rstatus rep <> NO_CONTACT ->
  exists a x p b, projects S false limb (start_of h) a x p /\ contact_added S (nbContacts (working h)) b p (result rep).
Proof.
  intros Hg Hp Hno. destruct (decide (stability_requested h)) as [Hreq|Hreq].
  - pose proof (C17_lemma S h limb ps rep post (start_of h) eq_refl Hreq Hp Hg) as H. simpl in H.
    destruct (rstatus rep); [done| | |].
    + destruct H as (_ & _ & p & (a & x & b & _ & Hpr & _) & _ & Hca). by eauto 10.
    + destruct H as (_ & p & (a & x & b & _ & Hpr & _) & Hca). by eauto 10.
    + destruct H as (p & (a & x & b & _ & Hpr & _) & Hca). by eauto 10.
  - destruct (C16_lemma S h limb ps rep post (start_of h) eq_refl Hreq Hg) as [H|H]; [|naive_solver].
    destruct H as (_ & _ & mode & p & Hd & (a & x & b & _ & Hpr & _) & Hca).
    assert (mode = false) as -> by (destruct Hd as [->|(? & -> & _)]; [done|congruence]). by eauto 10.
Qed.
Lemma held_generate h limb ps rep post :
  generate_contact S h limb ps = (rep, post) -> limb ∈ limbNames S -> postural h = false -> tables (working h) -> limb ∉ order (working h) ->
  held (working h) -> held (result rep).
Proof.
  intros Hg Hlimb Hp Ht Hn Hw.
  assert (Hd : rstatus rep = NO_CONTACT \/ rstatus rep <> NO_CONTACT) by (destruct (rstatus rep); by (left + right)).
  assert (Hpn : forall e, is_Some (positions (working h) !! e) -> e <> limb).
  { intros e He ->. apply Hn. pose proof (co_keys _ Ht limb) as (_ & _ & Hk & _). simpl in Hk. by apply Hk. }
  destruct Hd as [Hno|Hno].
  - destruct (C19_lemma S _ _ _ _ _ Hg) as (_ & _ & _ & H19). destruct (H19 Hno) as (_ & c & [] & Hc). simpl in *.
    intros e Hel p r. rewrite mt_configuration, mt_positions, mt_rotations. intros Hep Her.
    assert (He : e <> limb) by (apply Hpn; by exists p).
    assert (Ho : same_others limb (configuration (working h)) c).
    { destruct Hc as [Hc|[_ ->]]; [by apply freed_others; [left|]|apply same_others_refl]. }
    destruct (Ho e Hel He) as [<- <-]. by apply (Hw e).
  - destruct (created_projection _ _ _ _ _ Hg Hp Hno) as (a & x & p & b & Hpr & Hca).
    pose proof (projects_others _ _ _ _ _ Hlimb Hpr) as Ho. simpl in Ho.
    destruct Hpr as (cfg & _ & _ & ->). unfold contact_added in Hca. simpl in *.
    destruct Hca as (E1 & _ & _ & E4 & E5 & _).
    intros e Hel p r. rewrite E1, E4, E5. destruct (decide (e = limb)) as [->|He].
    + rewrite !lookup_insert. intros [= <-] [= <-]. apply (ki_near _ _ _ K).
    + rewrite !lookup_insert_ne by done. intros Hep Her. destruct (Ho e Hel He) as [<- <-]. by apply (Hw e).
Qed.

(** ** Maintaining *)
Lemma held_admissible h c s : consistent c -> admissible S h c s -> held s.
Proof.
  intros Hc (c1 & c2 & Hpr & Hf & _ & [] & _). intros e Hel. rewrite mt_configuration.
  apply (there_same c s c2 c2 e mt_positions mt_rotations eq_refl eq_refl).
  destruct (positions c !! e) as [p|] eqn:Ep; [|intros p r Hx; by rewrite Ep in Hx].
  assert (Hec : e ∈ order c) by (destruct (co_keys _ Hc e) as (_ & _ & Hk & _); apply Hk; by eexists).
  assert (Hnd : NoDup (freeEffectors c (limbNames S))) by (apply NoDup_filter; apply L).
  destruct (sortLimbs_correct (order (working h)) _ Hnd) as [Hperm _].
  apply (all_freed_there _ _ _ _ _ Hf); [|done| |by eapply ki_root; [exact K|exact Hpr|]].
  - intros x [H|H]%elem_of_app; [|by right]. rewrite Hperm, freeEffectors_eq in H. apply elem_of_list_filter in H as [_ H]. by left.
  - intros [H|H]%elem_of_app; [|by apply (sl_contact _ L e Hel)]. rewrite Hperm, freeEffectors_eq in H.
    apply elem_of_list_filter in H as [H _]. apply H. by apply (co_active _ Hc).
Qed.

(** ** Creating *)
Lemma gen_loop_held chk q h rep rep' h' m (w0 : St) :
  gen_loop S chk q h rep = (rep', h') -> m <= 1 -> postural h = false ->
  (forall c limbs, (c, limbs) ∈ q -> length limbs <= m /\ forall x, x ∈ limbs -> x ∉ order w0 /\ x ∈ limbNames S) ->
  order (working h) = order w0 -> tables (working h) -> held (working h) -> success rep = false -> success rep' = true ->
  held (result rep').
Proof.
  intros Hg Hm. revert h rep Hg. induction q as [|[first limbs] q IH]; intros h rep; simpl; intros Hg Hp HA Ho Ht Hh Hs Hs'.
  { injection Hg as <- <-. congruence. }
  rewrite Hs in Hg.
  set (b0 := (bool_decide (limbs = []) && chk && ((2 <=? nbContacts (working h))%Z || stableForOne h) && (thr h <=? isStable S (working h))%Z)) in Hg.
  set (h1 := if b0 then set_working (with_stable true (working h)) h else h) in Hg.
  assert (Hw1 : order (working h1) = order w0 /\ tables (working h1) /\ held (working h1) /\ postural h1 = false).
  { subst h1. destruct b0; [|done]. simpl. split; [done|]. split; [by eapply tables_same; [..|exact Ht]|].
    split; [by eapply held_same; [..|exact Hh]|done]. }
  clearbody h1. clear b0. destruct Hw1 as (Ho1 & Ht1 & Hh1 & Hp1).
  destruct (bool_decide (limbs = []) && _ && _) eqn:Ee.
  { injection Hg as <- <-. simpl. by eapply held_same; [..|exact Hh1]. }
  destruct (HA first limbs ltac:(left)) as [Hlen HlA].
  assert (HA' : forall c limbs, (c, limbs) ∈ q -> length limbs <= m /\ forall x, x ∈ limbs -> x ∉ order w0 /\ x ∈ limbNames S).
  { intros c ls Hc. apply (HA c). by right. }
  destruct limbs as [|l limbs]; simpl in Hg.
  { eapply IH; [exact Hg|done|done|exact Ho1|done|done|done|done]. }
  destruct limbs as [|l2 limbs]; [|simpl in Hlen; lia]. simpl in Hg.
  destruct (generate_contact S (set_checkGen chk (set_checkGen false h1)) l first) as [r post] eqn:Eg.
  pose proof (held_generate _ _ _ _ _ Eg) as Htg. simpl in Htg. rewrite Ho1 in Htg.
  apply generate_contact_grown in Eg as (-> & Hgr & Hord). simpl in *.
  destruct (success r) eqn:Er.
  - assert (rep' = assign_report rep r) as ->.
    { destruct q; simpl in Hg; [by injection Hg as <- _|]. destruct p. rewrite Er in Hg. by injection Hg as <- _. }
    simpl. eapply held_same; [..|apply Htg]; try done; apply HlA; left.
  - eapply IH; [exact Hg|done|done|exact Ho1|done|done|done|done].
Qed.
Lemma gen_contacts_held h rep h' :
  maxCreations h <= 1 -> postural h = false -> gen_contacts S h = (rep, h') -> success rep = true ->
  tables (working h) -> held (working h) -> held (result rep).
Proof.
  intros Hm Hp Hg Hs Ht Hh. unfold gen_contacts in Hg.
  destruct (gen_queue_props S (working h) (maxCreations h) (maximise h) (sl_nodup _ L)) as (He & Hq & Hfree).
  eapply (gen_loop_held _ _ _ _ _ _ (maxCreations h) (working h)) in Hg; try done.
  intros c limbs Hin. apply Hq in Hin as (_ & Hsub & _ & Hlen). split; [done|].
  intros x Hx. destruct (proj1 (Hfree x) (Hsub x Hx)) as [Hxl Hnc]. split; [|done]. intros Ho. apply Hnc. by apply (co_active _ Ht).
Qed.
Lemma step_loop_held fuel rep h out h' q0 :
  checkMaintain h = false -> maxCreations h <= 1 -> postural h = false ->
  (forall q, maintain_queue h q -> q ⊆ q0) -> (forall c, c ∈ q0 -> consistent c) ->
  step_loop S fuel rep h = Some (out, h') -> success out = true -> held (result out).
Proof.
  revert rep h. induction fuel as [|fuel IH]; intros rep h Hck Hm Hp Hq0 Htq; simpl; [done|].
  destruct (genContactFromOneMaintainCombinatorial S h) as [r h1] eqn:E.
  pose proof E as E'. eapply one_maintain_queue in E' as (used & Hu & _ & (w & Hw));
    [|apply (sl_nodup _ L)|by apply maintain_queue_iff].
  destruct (negb _ && _) eqn:Eb.
  - intros Hs Hso. rewrite andb_true_iff, !negb_true_iff in Eb. destruct Eb as [_ Eb].
    apply bool_decide_eq_false in Eb.
    eapply IH; [| | | |exact Htq|exact Hs|done].
    + by rewrite Hw.
    + by rewrite Hw.
    + by rewrite Hw.
    + intros q Hq. assert (q = cands h1) as ->.
      { destruct Hq as [(_ & ->)|[(? & _)|(? & _)]]; done. }
      pose proof (Hq0 _ (proj2 (maintain_queue_iff h _) eq_refl)) as Hsub. rewrite Hu in Hsub. set_solver.
  - intros [= <- <-]. simpl. intros Hs. unfold genContactFromOneMaintainCombinatorial in E.
    destruct (maintain_contacts S h) as [r1 h2] eqn:Em.
    pose proof (maintain_queue_iff h (queue_of h)) as Hqq.
    destruct (C15_lemma S h (queue_of h) r1 h2 Hck (proj2 Hqq eq_refl) Em)
      as [(Hs1 & l1 & c & l2 & Hq & -> & _ & Had & _)|(Hs1 & _)].
    2:{ rewrite Hs1 in E. injection E as -> ->. congruence. }
    rewrite Hs1 in E. assert (Hcc : consistent c).
    { apply Htq, (Hq0 (queue_of h)); [by apply Hqq|]. rewrite Hq. set_solver. }
    pose proof (held_admissible _ _ _ Hcc Had) as Hh.
    apply gen_contacts_held in E; [|done|done|done| |].
    { by eapply held_same; [..|exact E]. }
    + destruct Had as (c1 & c2 & _ & _ & _ & [] & _). simpl. eapply tables_same; [..|apply consistent_tables, Hcc]; done.
    + simpl. by eapply held_same; [..|exact Hh].
Qed.

(** ** Repositioning *)
Lemma held_remove id (s : St) : tables s -> held s -> held (snd (RemoveContact id s)).
Proof.
  intros Ht Hh e Hel p r Hp Hr. destruct (decide (e = id)) as [->|He].
  - exfalso. destruct (tables_remove id s Ht) as [Ht' Ho]. pose proof (co_keys _ Ht' id) as (_ & _ & Hk & _). simpl in Hk.
    assert (Hi : id ∈ order (snd (RemoveContact id s))) by (apply Hk; by exists p).
    rewrite Ho in Hi. apply elem_of_list_filter in Hi as [Hi _]. done.
  - destruct (RemoveContact_others id s e He) as (_ & E1 & E2). rewrite E1 in Hp. rewrite E2 in Hr.
    assert (Ec : configuration (snd (RemoveContact id s)) = configuration s).
    { unfold RemoveContact. by destruct (has id (contacts s)). }
    rewrite Ec. by apply (Hh e).
Qed.
Lemma reposition_loop_held old res name h res' popped' name' rest h' :
  reposition_loop S old res [] name h = (res', popped', name', rest, h') ->
  contactIfFails h = false -> postural h = false -> stable res = false ->
  (forall x, x ∈ old -> x ∈ limbNames S) -> tables res -> order res = old -> held res -> held res'.
Proof.
  revert res name h. induction old as [|x old IH]; intros res name h; simpl.
  { by intros [= <- <- <- <- <-] _ Es _ Ht Ho. }
  intros Hr Hi Hp Es Hgr Ht Ho Hh. rewrite Es, (sl_groups _ L x) in Hr by (apply Hgr; left).
  set (res1 := snd (RemoveContact x res)) in *. set (h1 := set_working (state_assign (working h) res1) h) in *.
  destruct (tables_remove x res Ht) as [Ht1 Ho1]. pose proof (held_remove x res Ht Hh) as Hh1. fold res1 in Ht1, Ho1, Hh1.
  assert (Hnd : NoDup (x :: old)) by (rewrite <- Ho; by apply (co_order _ Ht)).
  apply NoDup_cons in Hnd as [Hxo Hnd].
  assert (Ho1' : order res1 = old).
  { rewrite Ho1, Ho, filter_cons_False by (intros Hx; by apply Hx). clear -Hxo. induction old as [|y l IHl]; [done|].
    apply not_elem_of_cons in Hxo as [Hy Hl]. rewrite filter_cons_True by congruence. by rewrite IHl. }
  destruct (generate_contact S h1 x (state_assign (working h) res1)) as [r post] eqn:Eg.
  assert (Htw : tables (working h1)) by (simpl; by eapply tables_same; [..|exact Ht1]).
  assert (Hxw : x ∉ order (working h1)) by (simpl; by rewrite Ho1').
  pose proof (tables_generate S _ _ _ _ _ Eg Htw Hxw) as Htr.
  assert (Hhr : held (result r)).
  { eapply held_generate; [exact Eg|apply Hgr; left|done|done|done|]. simpl. by eapply held_same; [..|exact Hh1]. }
  pose proof Eg as Eg'. apply generate_contact_grown in Eg' as (-> & _ & _).
  change (reposition_loop S old (state_assign res1 (result r)) [] x h1 = (res', popped', name', rest, h')) in Hr.
  destruct (stable (result r)) eqn:Esr.
  { assert (Hend : (res', popped', name', rest, h') = (state_assign res1 (result r), [], x, old, h1)).
    { rewrite <- Hr. destruct old; simpl; [done|]. by rewrite Esr. }
    injection Hend as -> -> -> -> ->. by eapply held_same; [..|exact Hhr]. }
  assert (Hno : rstatus r = NO_CONTACT).
  { pose proof (generate_contact_stable S _ _ _ _ _ Eg) as Hst. rewrite Esr in Hst.
    destruct (rstatus r) eqn:Er; [done| |exfalso; by destruct Hst as [_ Hst]; specialize (Hst (or_intror eq_refl))|
      exfalso; by destruct Hst as [_ Hst]; specialize (Hst (or_introl eq_refl))].
    pose proof (unstable_asked _ _ _ _ _ _ Eg Er) as Hu. change (contactIfFails h1) with (contactIfFails h) in Hu. congruence. }
  destruct (C19_lemma S _ _ _ _ _ Eg) as (_ & _ & _ & H19). destruct (H19 Hno) as (_ & cc & [] & _). simpl in *.
  eapply IH; [exact Hr|done|done|done| | | |].
  - intros y Hy. apply Hgr. by right.
  - by eapply tables_same; [..|exact Htr].
  - simpl. by rewrite mt_order, Ho1'.
  - by eapply held_same; [..|exact Hhr].
Qed.
Lemma reposition_held h rep h' :
  repositionContacts S h = (rep, h') -> contactIfFails h = false -> postural h = false ->
  (forall x, x ∈ order (working h) -> x ∈ limbNames S) -> tables (working h) -> held (working h) -> held (result rep).
Proof.
  unfold repositionContacts. intros Hr Hi Hp Hgr Ht Hh.
  destruct (reposition_loop S _ _ _ _ h) as [[[[res popped] name] rest] h1] eqn:E.
  apply reposition_loop_held in E; [|done|done|done|done|by eapply tables_same; [..|exact Ht]|done|by eapply held_same; [..|exact Hh]].
  destruct (stable res) eqn:Es; injection Hr as <- <-; simpl; by eapply held_same; [..|exact E].
Qed.

(** ** A whole step *)
Lemma next_step_held fuel prev cfg t test qs cr h' :
  consistent prev -> (forall x, x ∈ order prev -> x ∈ limbNames S) -> held prev ->
  ComputeContacts_next S moved fuel prev cfg t test qs false = Some (cr, h') -> held (result (cr_rep cr)).
Proof.
  intros Hc Hl Hh. unfold ComputeContacts_next. set (h := with_reach test qs _).
  destruct (oneStep S moved fuel h) as [[cr0 h0]|] eqn:E; [|done]. intros [= <- <-]. simpl.
  enough (held (result (cr_rep cr0))) as H0.
  { destruct (success (cr_rep cr0)); [|done]. simpl. intros e Hel p r Hep Her. simpl.
    destruct (ki_extra _ _ _ K (configuration (result (cr_rep cr0))) cfg e Hel) as [-> ->]. by apply (H0 e). }
  unfold oneStep in E. destruct (step_loop S fuel (fresh_report S) h) as [[rep h1]|] eqn:Es; [|done].
  set (w := with_stable false (with_configuration cfg (state_copy prev))).
  assert (Hwc : consistent w) by (destruct Hc; by split).
  destruct (success rep) eqn:Ess.
  - injection E as <- <-. simpl. eapply (step_loop_held fuel (fresh_report S) h rep h1 (queue_of h)); [reflexivity|apply le_n|reflexivity| | |exact Es|exact Ess].
    + intros q ->%maintain_queue_iff. done.
    + intros c. unfold queue_of. simpl. destruct (bool_decide _); simpl; [by intros ?%elem_of_nil|]. intros Hq.
      destruct (decide (nbContacts w = 1%Z)) as [Hnb|Hnb].
      * change (c ∈ maintain_contacts_combinatorial w 1) in Hq. rewrite maintain_single in Hq by done. by apply elem_of_list_singleton in Hq as ->.
      * destruct (maintain_combinatorial_correct w 1 Hwc Hnb) as (_ & Hch & _).
        change (c ∈ maintain_contacts_combinatorial w 1) in Hq. apply Hch in Hq as (ids & _ & ->). by apply without_consistent.
  - injection E as E. unfold handleFailure in E. apply step_loop_params in Es as (w' & q & ->); [|apply (sl_nodup _ L)].
    destruct (repositionContacts S _) as [rep1 h2] eqn:Er. injection E as <- <-. simpl.
    apply reposition_held in Er; [exact Er|done|done| | |].
    + simpl. done.
    + simpl. by eapply tables_same; [..|apply consistent_tables, Hc].
    + simpl. by eapply held_same; [..|exact Hh].
Qed.

(** ** The first state *)
Lemma compute_limbs_held t limbs don cur r post' :
  NoDup (don ++ limbs) -> limbs ⊆ limbNames S -> tables cur -> order cur ⊆ don -> held cur -> compute_limbs S t limbs cur false = (r, post') -> held r.
Proof.
  revert don cur. induction limbs as [|l limbs IH]; intros don cur Hnd Hlim Ht Ho Hh Hc; cbn [compute_limbs] in Hc.
  { by injection Hc as <- <-. }
  assert (Hln : l ∉ order cur).
  { intros Hl. apply Ho in Hl. apply NoDup_app in Hnd as (_ & Hnd & _). apply (Hnd l Hl). left. }
  assert (Hone : forall chk, exists cur1, (if ContactExistsWithinGroup S l cur then (cur, false) else
      let '(_, cur1, post) := ComputeStableContact S cur l t false false chk false in (cur1, post)) = (cur1, false) /\
      held cur1 /\ tables cur1 /\ order cur1 ⊆ don ++ [l]).
  { intros chk. destruct (ContactExistsWithinGroup S l cur) eqn:Eg.
    { exists cur. split; [done|]. split; [done|]. split; [done|]. set_solver. }
    destruct (ComputeStableContact S cur l t false false chk false) as [[st out] post1] eqn:Ec.
    pose proof Ec as Ec'. apply ComputeStableContact_cases in Ec' as (-> & _). exists out. split; [done|].
    unfold ComputeStableContact in Ec.
    destruct (generate_contact S _ l cur) as [rep p1] eqn:Egc. injection Ec as <- <- _.
    pose proof Egc as (_ & [_ (extra & Hex & Hfx) _] & _)%generate_contact_grown. simpl in Hex.
    pose proof Egc as Egc'.
    apply held_generate in Egc; [|apply Hlim; left|done|simpl; eapply tables_same; [..|exact Ht]; done|done|simpl; by eapply held_same; [..|exact Hh]].
    apply tables_generate in Egc'; [|simpl; eapply tables_same; [..|exact Ht]; done|done].
    split; [by eapply held_same; [..|exact Egc]|]. split; [by eapply tables_same; [..|exact Egc']|].
    simpl. rewrite Hex. rewrite Forall_forall in Hfx. intros x [Hx|Hx]%elem_of_app; [set_solver|]. rewrite <- (Hfx x Hx). set_solver. }
  match type of Hc with context [ComputeStableContact S cur l t false false ?chk false] => specialize (Hone chk) end.
  destruct Hone as (cur1 & E1 & Hh1 & Ht1 & Ho1). rewrite E1 in Hc.
  eapply (IH (don ++ [l])); [by rewrite <- app_assoc| | | | |exact Hc].
  - intros x Hx. apply Hlim. by right.
  - by eapply tables_same; [..|exact Ht1].
  - done.
  - by eapply held_same; [..|exact Hh1].
Qed.
Lemma initial_held cfg t r post' : ComputeContacts_initial S cfg t false = (r, post') -> held r.
Proof.
  unfold ComputeContacts_initial. apply (compute_limbs_held t (limbNames S) []).
  - apply (sl_nodup _ L).
  - done.
  - apply tables_intro; simpl; [|by intros k ?%elem_of_nil|constructor].
    intros k. rewrite !lookup_empty. split_and!; split; (by intros []) || (by intros ?%elem_of_nil).
  - done.
  - intros e _ p r0 H. done.
Qed.
End proofs.
