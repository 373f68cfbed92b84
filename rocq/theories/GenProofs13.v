(** The reports of the generator, as the loop over a path relies on them: a failure or several
    breaks only after a repositioning, and results with coherent tables. *)
From Coq Require Import ZArith Lia.
From Verif Require Import Maps MapsProofs StateModel StateSpec StateProofs CombModel CombSpec CombProofs CombProofs2
  GenModel GenSpec GenProofs GenProofs2 GenProofs3 GenProofs4 GenProofs5 GenProofs6 GenProofs7 GenProofs8 GenProofs10
  GenProofs12.

Section proofs.
Context {Cfg Pos Rot Cand Smp : Type}.
Notation St := (State Cfg Pos Rot Z).
Notation Rep := (report Cfg Pos Rot).
Notation Hlp := (helper Cfg Pos Rot).
Variable S : services Cfg Pos Rot Cand Smp.
Variable moved : Pos -> Pos -> bool.

(** [s] with the count of its contacts recomputed from the normals *)
Definition recounted (s : St) : St := with_nb (Z.of_nat (size (normals s)) mod 2 ^ 64)%Z s.
Notation tables s := (consistent (recounted s)).

Lemma sizes_eq (q : list string) (s : St) : NoDup q ->
  (forall k, is_Some (contacts s !! k) <-> k ∈ q) -> (forall k, is_Some (normals s !! k) <-> k ∈ q) ->
  size (normals s) = size (contacts s).
Proof. intros Hn H1 H2. by rewrite (size_length _ q), (size_length _ q). Qed.
Lemma tables_intro (s : St) :
  (forall k, (is_Some (contacts s !! k) <-> k ∈ order s) /\ (is_Some (normals s !! k) <-> k ∈ order s) /\
    (is_Some (positions s !! k) <-> k ∈ order s) /\ (is_Some (rotations s !! k) <-> k ∈ order s)) ->
  (forall k, k ∈ order s -> contacts s !! k = Some true) -> NoDup (order s) -> tables s.
Proof.
  intros H1 H2 H3. split; simpl; try done. do 2 f_equal. apply (sizes_eq (order s)); [done|..]; intros k; apply H1.
Qed.
Lemma consistent_tables (s : St) : consistent s -> tables s.
Proof. intros [H1 H2 H3 _]. by apply tables_intro. Qed.
Lemma tables_same (s t : St) : contacts t = contacts s -> normals t = normals s -> positions t = positions s ->
  rotations t = rotations s -> order t = order s -> tables s -> tables t.
Proof. intros E1 E2 E3 E4 E5 [H1 H2 H3 H4]. simpl in *. apply tables_intro; rewrite ?E1, ?E2, ?E3, ?E4, ?E5; done. Qed.

Lemma tables_placed (w s : St) limb c b pl :
  tables w -> limb ∉ order w -> placed_contact w limb c b pl s -> tables s.
Proof.
  intros [H1 H2 H3 _] Hn []. simpl in *. apply tables_intro; rewrite ?pc_contacts, ?pc_positions, ?pc_normals, ?pc_rotations, pc_order.
  - intros k. destruct (H1 k) as (A & B & C & D). split_and!; by apply insert_keys.
  - intros k [Hk| ->%elem_of_list_singleton]%elem_of_app; [|by rewrite lookup_insert].
    destruct (decide (limb = k)) as [->|Hne]; [by rewrite lookup_insert|]. rewrite lookup_insert_ne by done. by apply H2.
  - apply NoDup_app. split_and!; [done| |apply NoDup_singleton]. intros x Hx ->%elem_of_list_singleton. done.
Qed.
Lemma tables_generate h limb ps rep post :
  generate_contact S h limb ps = (rep, post) -> tables (working h) -> limb ∉ order (working h) -> tables (result rep).
Proof.
  intros Hg Ht Hn. assert (Hd : rstatus rep = NO_CONTACT \/ rstatus rep <> NO_CONTACT) by (destruct (rstatus rep); by (left + right)).
  destruct Hd as [Hno|Hno].
  - destruct (C19_lemma S _ _ _ _ _ Hg) as (_ & _ & _ & H19). destruct (H19 Hno) as (_ & cc & [] & _).
    simpl in *. by eapply tables_same; [..|exact Ht].
  - destruct (C18_tables S _ _ _ _ _ Hg Hno) as (pl & Hpl). by eapply tables_placed.
Qed.

(** ** Maintaining and creating *)
Lemma gen_loop_tables chk q h rep rep' h' m (w0 : St) :
  gen_loop S chk q h rep = (rep', h') -> m <= 1 ->
  (forall c limbs, (c, limbs) ∈ q -> length limbs <= m /\ forall x, x ∈ limbs -> x ∉ order w0) ->
  order (working h) = order w0 -> tables (working h) -> success rep = false -> success rep' = true -> tables (result rep').
Proof.
  intros Hg Hm. revert h rep Hg. induction q as [|[first limbs] q IH]; intros h rep; simpl; intros Hg HA Ho Ht Hs Hs'.
  { injection Hg as <- <-. congruence. }
  rewrite Hs in Hg.
  set (b0 := (bool_decide (limbs = []) && chk && ((2 <=? nbContacts (working h))%Z || stableForOne h) && (thr h <=? isStable S (working h))%Z)) in Hg.
  set (h1 := if b0 then set_working (with_stable true (working h)) h else h) in Hg.
  assert (Hw1 : order (working h1) = order w0 /\ tables (working h1)).
  { subst h1. destruct b0; [|done]. simpl. split; [done|]. by eapply tables_same; [..|exact Ht]. }
  clearbody h1. clear b0. destruct Hw1 as [Ho1 Ht1].
  destruct (bool_decide (limbs = []) && _ && _) eqn:Ee.
  { injection Hg as <- <-. simpl. by eapply tables_same; [..|exact Ht1]. }
  destruct (HA first limbs ltac:(left)) as [Hlen HlA].
  assert (HA' : forall c limbs, (c, limbs) ∈ q -> length limbs <= m /\ forall x, x ∈ limbs -> x ∉ order w0).
  { intros c ls Hc. apply (HA c). by right. }
  destruct limbs as [|l limbs]; simpl in Hg.
  { eapply IH; [exact Hg|done|exact Ho1|done|done|done]. }
  destruct limbs as [|l2 limbs]; [|simpl in Hlen; lia]. simpl in Hg.
  destruct (generate_contact S (set_checkGen chk (set_checkGen false h1)) l first) as [r post] eqn:Eg.
  pose proof (tables_generate _ _ _ _ _ Eg) as Htg. simpl in Htg. rewrite Ho1 in Htg.
  apply generate_contact_grown in Eg as (-> & Hgr & Hord). simpl in *.
  destruct (success r) eqn:Er.
  - assert (rep' = assign_report rep r) as ->.
    { destruct q; simpl in Hg; [by injection Hg as <- _|]. destruct p. rewrite Er in Hg. by injection Hg as <- _. }
    simpl. eapply tables_same; [..|apply Htg]; try done. apply HlA. left.
  - eapply IH; [exact Hg|done|exact Ho1|done|done|done].
Qed.
Lemma gen_contacts_tables h rep h' :
  NoDup (limbNames S) -> maxCreations h <= 1 -> gen_contacts S h = (rep, h') -> success rep = true ->
  tables (working h) -> tables (result rep).
Proof.
  intros Hnd Hm Hg Hs Ht. unfold gen_contacts in Hg.
  destruct (gen_queue_props S (working h) (maxCreations h) (maximise h) Hnd) as (He & Hq & Hfree).
  eapply (gen_loop_tables _ _ _ _ _ _ (maxCreations h) (working h)) in Hg; try done.
  intros c limbs Hin. apply Hq in Hin as (_ & Hsub & _ & Hlen). split; [done|].
  intros x Hx Ho. destruct (proj1 (Hfree x) (Hsub x Hx)) as [_ Hnc]. apply Hnc. by apply (co_active _ Ht).
Qed.
Lemma step_loop_tables fuel rep h out h' q0 :
  NoDup (limbNames S) -> checkMaintain h = false -> maxCreations h <= 1 ->
  (forall q, maintain_queue h q -> q ⊆ q0) -> (forall c, c ∈ q0 -> tables c) ->
  step_loop S fuel rep h = Some (out, h') -> success out = true -> tables (result out).
Proof.
  intros Hnd. revert rep h. induction fuel as [|fuel IH]; intros rep h Hck Hm Hq0 Htq; simpl; [done|].
  destruct (genContactFromOneMaintainCombinatorial S h) as [r h1] eqn:E.
  pose proof E as E'. eapply one_maintain_queue in E' as (used & Hu & _ & (w & Hw));
    [|done|by apply maintain_queue_iff].
  destruct (negb _ && _) eqn:Eb.
  - intros Hs Hso. rewrite andb_true_iff, !negb_true_iff in Eb. destruct Eb as [_ Eb].
    apply bool_decide_eq_false in Eb.
    eapply IH; [| | |exact Htq|exact Hs|done].
    + by rewrite Hw.
    + by rewrite Hw.
    + intros q Hq. assert (q = cands h1) as ->.
      { destruct Hq as [(_ & ->)|[(? & _)|(? & _)]]; done. }
      pose proof (Hq0 _ (proj2 (maintain_queue_iff h _) eq_refl)) as Hsub. rewrite Hu in Hsub. set_solver.
  - intros [= <- <-]. simpl. intros Hs. unfold genContactFromOneMaintainCombinatorial in E.
    destruct (maintain_contacts S h) as [r1 h2] eqn:Em.
    pose proof (maintain_queue_iff h (queue_of h)) as Hqq.
    destruct (C15_lemma S h (queue_of h) r1 h2 Hck (proj2 Hqq eq_refl) Em)
      as [(Hs1 & l1 & c & l2 & Hq & -> & _ & Had & _)|(Hs1 & _)].
    2:{ rewrite Hs1 in E. injection E as -> ->. congruence. }
    rewrite Hs1 in E. apply gen_contacts_tables in E; [|done..|].
    { by eapply tables_same; [..|exact E]. }
    destruct Had as (c1 & c2 & _ & _ & _ & [] & _). simpl.
    eapply tables_same; [..|apply (Htq c)]; try done. apply (Hq0 (queue_of h)); [by apply Hqq|]. rewrite Hq. set_solver.
Qed.

(** ** Repositioning *)
Lemma tables_remove id (s : St) : tables s ->
  tables (snd (RemoveContact id s)) /\ order (snd (RemoveContact id s)) = filter (fun x => x <> id) (order s).
Proof.
  intros Ht. pose proof (consistent_RemoveContact id _ Ht) as Hc. pose proof (order_RemoveContact id _ Ht) as Ho.
  unfold RemoveContact in *. simpl in *. destruct (has id (contacts s)); simpl in *; split; try done.
  destruct Hc as [H1 H2 H3 _]. simpl in *. by apply tables_intro.
Qed.
Lemma reposition_loop_tables old res name h res' popped' name' rest h' :
  reposition_loop S old res [] name h = (res', popped', name', rest, h') ->
  contactIfFails h = false -> stable res = false ->
  (forall x, x ∈ old -> groupOf S x = [x]) -> tables res -> order res = old ->
  tables res' /\ popped' = [] /\ order res' = (if stable res' then rest ++ [name'] else []) /\ (stable res' = false -> rest = []) /\
  order res' ⊆ old.
Proof.
  revert res name h. induction old as [|x old IH]; intros res name h; simpl.
  { intros [= <- <- <- <- <-] _ Es _ Ht Ho. rewrite Es, Ho. by split_and!. }
  intros Hr Hi Es Hgr Ht Ho. rewrite Es, (Hgr x) in Hr by left.
  set (res1 := snd (RemoveContact x res)) in *. set (h1 := set_working (state_assign (working h) res1) h) in *.
  destruct (tables_remove x res Ht) as [Ht1 Ho1]. fold res1 in Ht1, Ho1.
  assert (Hnd : NoDup (x :: old)) by (rewrite <- Ho; by apply (co_order _ Ht)).
  apply NoDup_cons in Hnd as [Hxo Hnd].
  assert (Ho1' : order res1 = old).
  { rewrite Ho1, Ho, filter_cons_False by (intros Hx; by apply Hx). clear -Hxo. induction old as [|y l IHl]; [done|].
    apply not_elem_of_cons in Hxo as [Hy Hl]. rewrite filter_cons_True by congruence. by rewrite IHl. }
  destruct (generate_contact S h1 x (state_assign (working h) res1)) as [r post] eqn:Eg.
  assert (Htr : tables (result r)).
  { eapply tables_generate; [exact Eg| |].
    - simpl. by eapply tables_same; [..|exact Ht1].
    - simpl. by rewrite Ho1'. }
  pose proof Eg as Eg'. apply generate_contact_grown in Eg' as (-> & _ & _).
  change (reposition_loop S old (state_assign res1 (result r)) [] x h1 = (res', popped', name', rest, h')) in Hr.
  destruct (stable (result r)) eqn:Esr.
  { assert (Hend : (res', popped', name', rest, h') = (state_assign res1 (result r), [], x, old, h1)).
    { rewrite <- Hr. destruct old; simpl; [done|]. by rewrite Esr. }
    injection Hend as -> -> -> -> ->. simpl. rewrite Esr.
    assert (Hoo : order (result r) = old ++ [x]); [|split; [|split; [done|split; [done|split; [done|rewrite Hoo; set_solver]]]]].
    - assert (Hst : rstatus r <> NO_CONTACT).
      { intros Hno. pose proof (generate_contact_stable S _ _ _ _ _ Eg) as [Hst _]. specialize (Hst Esr).
        rewrite Hno in Hst. by destruct Hst. }
      destruct (C18_tables S _ _ _ _ _ Eg Hst) as (pl & []). simpl in pc_order. by rewrite pc_order, Ho1'.
    - by eapply tables_same; [..|exact Htr]. }
  assert (Hno : rstatus r = NO_CONTACT).
  { pose proof (generate_contact_stable S _ _ _ _ _ Eg) as Hst. rewrite Esr in Hst.
    destruct (rstatus r) eqn:Er; [done| |exfalso; by destruct Hst as [_ Hst]; specialize (Hst (or_intror eq_refl))|
      exfalso; by destruct Hst as [_ Hst]; specialize (Hst (or_introl eq_refl))].
    pose proof (unstable_asked _ _ _ _ _ _ Eg Er) as Hu. change (contactIfFails h1) with (contactIfFails h) in Hu. congruence. }
  destruct (C19_lemma S _ _ _ _ _ Eg) as (_ & _ & _ & H19). destruct (H19 Hno) as (_ & cc & [] & _). simpl in *.
  apply IH in Hr; [|done|done| | |].
  - destruct Hr as (R1 & R2 & R3 & R4 & R5). split; [done|]. split; [done|]. split; [done|]. split; [done|]. set_solver.
  - intros y Hy. apply Hgr. by right.
  - by eapply tables_same; [..|exact Htr].
  - simpl. by rewrite mt_order, Ho1'.
Qed.
Lemma reposition_tables h rep h' :
  repositionContacts S h = (rep, h') -> contactIfFails h = false ->
  (forall x, x ∈ order (working h) -> groupOf S x = [x]) -> tables (working h) ->
  tables (result rep) /\ order (result rep) ⊆ order (working h).
Proof.
  unfold repositionContacts. intros Hr Hi Hgr Ht.
  destruct (reposition_loop S _ _ _ _ h) as [[[[res popped] name] rest] h1] eqn:E.
  apply reposition_loop_tables in E as (H1 & -> & H3 & H4 & H5); [|done|done|done|by eapply tables_same; [..|exact Ht]|done].
  destruct (stable res) eqn:Es; injection Hr as <- <-; simpl.
  - split; [eapply tables_same; [..|exact H1]; try done|]. by rewrite <- H3.
  - rewrite (H4 eq_refl). split; [eapply tables_same; [..|exact H1]; try done|]. simpl. apply list_subseteq_nil.
Qed.

(** ** A whole step *)
Lemma next_step_tables fuel prev cfg t test qs post cr h' :
  NoDup (limbNames S) -> consistent prev -> (forall x, x ∈ order prev -> groupOf S x = [x]) ->
  ComputeContacts_next S moved fuel prev cfg t test qs post = Some (cr, h') ->
  tables (result (cr_rep cr)).
Proof.
  intros Hnd Hc Hgr. unfold ComputeContacts_next. set (h := with_reach test qs _).
  destruct (oneStep S moved fuel h) as [[cr0 h0]|] eqn:E; [|done]. intros [= <- <-]. simpl.
  enough (tables (result (cr_rep cr0))) as H0.
  { destruct (success (cr_rep cr0)); [|done]. simpl. by eapply tables_same; [..|exact H0]. }
  unfold oneStep in E. destruct (step_loop S fuel (fresh_report S) h) as [[rep h1]|] eqn:Es; [|done].
  set (w := with_stable false (with_configuration cfg (state_copy prev))).
  assert (Hwc : consistent w) by (destruct Hc; by split).
  destruct (success rep) eqn:Ess.
  - injection E as <- <-. simpl. eapply (step_loop_tables fuel (fresh_report S) h rep h1 (queue_of h)); [exact Hnd|reflexivity|apply le_n| | |exact Es|exact Ess].
    + intros q ->%maintain_queue_iff. done.
    + intros c. unfold queue_of. simpl. destruct (bool_decide _); simpl; [by intros ?%elem_of_nil|]. intros Hq. apply consistent_tables.
      destruct (decide (nbContacts w = 1%Z)) as [Hnb|Hnb].
      * change (c ∈ maintain_contacts_combinatorial w 1) in Hq. rewrite maintain_single in Hq by done. by apply elem_of_list_singleton in Hq as ->.
      * destruct (maintain_combinatorial_correct w 1 Hwc Hnb) as (_ & Hch & _).
        change (c ∈ maintain_contacts_combinatorial w 1) in Hq. apply Hch in Hq as (ids & _ & ->). by apply without_consistent.
  - injection E as E. unfold handleFailure in E. apply step_loop_params in Es as (w' & q & ->); [|done].
    destruct (repositionContacts S _) as [rep1 h2] eqn:Er. injection E as <- <-. simpl.
    apply reposition_tables in Er; [by apply Er|done|..].
    + simpl. done.
    + simpl. by eapply tables_same; [..|apply consistent_tables, Hc].
Qed.

Lemma next_step_order fuel prev cfg t test qs post cr h' :
  NoDup (limbNames S) -> consistent prev -> (forall x, x ∈ order prev -> groupOf S x = [x]) ->
  ComputeContacts_next S moved fuel prev cfg t test qs post = Some (cr, h') ->
  forall x, x ∈ order (result (cr_rep cr)) -> x ∈ order prev \/ x ∈ limbNames S.
Proof.
  intros Hnd Hc Hgr Hcc x Hx. pose proof Hcc as Hcc'. unfold ComputeContacts_next in Hcc. set (h := with_reach test qs _) in Hcc.
  destruct (oneStep S moved fuel h) as [[cr0 h0]|] eqn:E; [|done]. injection Hcc as <- <-. simpl in Hx.
  assert (Hx' : x ∈ order (result (cr_rep cr0))) by (by destruct (success (cr_rep cr0))). clear Hx.
  unfold oneStep in E. destruct (step_loop S fuel (fresh_report S) h) as [[rep h1]|] eqn:Es; [|done].
  destruct (success rep) eqn:Ess.
  - injection E as <- <-. simpl in Hx', Hcc'. rewrite Ess in Hcc'.
    destruct (decide (order prev = [])) as [Ho|Ho].
    + exfalso. unfold ComputeContacts_next in Hcc'. fold h in Hcc'.
      destruct (oneStep S moved fuel h) as [[cr0 h0]|] eqn:E2; [|done]. injection Hcc' as Hc1 _ _ _ Hrp _.
      apply (oneStep_no_contact S moved fuel h) in E2 as (_ & E2 & _); [congruence|done| |done].
      right. right. split_and!; [done| |done]. apply map_empty. intros k. apply eq_None_not_Some. simpl.
      rewrite (proj1 (co_keys _ Hc k)), Ho. apply not_elem_of_nil.
    + apply (C51_lemma S moved fuel prev cfg t test qs post _ _ Hnd Hc Ho) in Hcc'; [|done].
      destruct Hcc' as (_ & br & crd & _ & _ & _ & Hcr & Hor & _). simpl in Hor. rewrite Hor in Hx'.
      apply elem_of_app in Hx' as [[_ Hx]%elem_of_list_filter|Hx]; [by left|]. rewrite Forall_forall in Hcr.
      right. by apply Hcr.
  - injection E as E. unfold handleFailure in E. apply step_loop_params in Es as (w' & q & ->); [|done].
    destruct (repositionContacts S _) as [rep1 h2] eqn:Er. injection E as <- <-. simpl in Hx'.
    apply reposition_tables in Er as [_ Er]; [|done|done|]; simpl in *.
    + left. by apply Er.
    + by eapply tables_same; [..|apply consistent_tables, Hc].
Qed.

(** a failure, or several breaks, only after a repositioning *)
Lemma next_step_reposition fuel prev cfg t test qs post cr h' :
  NoDup (limbNames S) -> consistent prev -> (forall p, moved p p = false) ->
  ComputeContacts_next S moved fuel prev cfg t test qs post = Some (cr, h') ->
  success (cr_rep cr) = false \/ multipleBreaks cr = true -> repositionedInPlace cr = true.
Proof.
  intros Hnd Hc Hmv Hcc. destruct (repositionedInPlace cr) eqn:Er; [done|]. intros Hor. exfalso.
  assert (Hm : multipleBreaks cr = true <-> exists ks, NoDup ks /\ 1 < length ks /\
      forall k, k ∈ ks <-> created moved (result (cr_rep cr)) prev k).
  { unfold ComputeContacts_next in Hcc. set (h := with_reach test qs _) in Hcc.
    destruct (oneStep S moved fuel h) as [[cr0 h0]|] eqn:E; [|done]. injection Hcc as <- <-.
    apply oneStep_flags in E as (_ & _ & Hf & _); [|done]. simpl in *. rewrite Hf. destruct (success (cr_rep cr0)); reflexivity. }
  destruct (decide (order prev = [])) as [Ho|Ho].
  - assert (Hemp : contacts prev = ∅).
    { apply map_empty. intros k. apply eq_None_not_Some. rewrite (proj1 (co_keys _ Hc k)), Ho. apply not_elem_of_nil. }
    unfold ComputeContacts_next in Hcc. set (h := with_reach test qs _) in Hcc.
    destruct (oneStep S moved fuel h) as [[cr0 h0]|] eqn:E; [|done]. injection Hcc as <- <-. simpl in *.
    apply (oneStep_no_contact S moved fuel h) in E as (_ & E & _); [congruence|done| |done].
    right. right. split_and!; [done|exact Hemp|done].
  - destruct (C51_lemma S moved fuel prev cfg t test qs post cr h' Hnd Hc Ho Hcc Er)
      as (Hs & br & crd & Hb & Hbs & _ & Hcr & _ & Htab & _).
    destruct Hor as [Hf|Hmu]; [congruence|]. apply Hm in Hmu as (ks & Hk1 & Hk2 & Hk3).
    assert (ks ⊆ br).
    { intros k Hk. apply Hk3 in Hk as (p & Hp & Hmo). destruct (decide (k ∈ br)) as [|Hnb]; [done|].
      assert (Hko : k ∈ order prev) by (destruct (co_keys _ Hc k) as (_ & _ & Hkk & _); apply Hkk; by exists p).
      assert (Hkc : k ∉ crd).
      { intros Hk'. rewrite Forall_forall in Hcr. destruct (Hcr k Hk') as (_ & [?|?]); done. }
      destruct (Htab k Hnb Hkc) as (_ & _ & Hpe & _). rewrite Hp in Hpe.
      destruct Hmo as [Hno|(q & Hq & Hmq)]; [congruence|]. rewrite Hpe in Hq. injection Hq as <-.
      rewrite Hmv in Hmq. done. }
    assert (length ks <= length br) by (by apply submseteq_length, NoDup_submseteq). lia.
Qed.
End proofs.
