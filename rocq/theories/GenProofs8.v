From Coq Require Import ZArith Lia.
From Verif Require Import Maps MapsProofs StateModel StateSpec StateProofs CombModel CombSpec CombProofs CombProofs2
  GenModel GenSpec GenProofs GenProofs2 GenProofs3 GenProofs4 GenProofs5 GenProofs6 GenProofs7.

Section proofs.
Context {Cfg Pos Rot Cand Smp : Type}.
Notation St := (State Cfg Pos Rot Z).
Notation Rep := (report Cfg Pos Rot).
Notation Hlp := (helper Cfg Pos Rot).
Variable S : services Cfg Pos Rot Cand Smp.
Variable moved : Pos -> Pos -> bool.

Lemma pass_flags_clear h post limb ps g1 g2 g3 out :
  testReach h = false -> contactIfFails h = false ->
  candidate_pass S h post limb ps (false, false, false) = (g1, g2, g3, out) -> g2 = false /\ g3 = false.
Proof.
  intros Ht Hi. unfold candidate_pass. fold (start_of h).
  change (mkSearch false false false (configuration (start_of h)) (emptyCfg S) (emptyCfg S) (minRob S)
           (junkPos S, junkPos S, junkRot S)) with (s_init S (start_of h) false false).
  assert (Hpres : forall l0, let s := fold_left (try_candidate S h post limb (start_of h)) l0
                      (s_init S (start_of h) false false) in found_stable s = false /\ unstableContact s = false).
  { intros l0. induction l0 as [|y l0 IH] using rev_ind; [done|]. rewrite fold_left_app. simpl.
    rewrite try_candidate_eq. simpl in IH. destruct (found_sample _); [done|].
    destruct (projf _ _ _ _ _ _); simpl; [|done]. destruct (nocheck h (start_of h)); [done|].
    unfold reachable. rewrite Ht, Hi, andb_false_r. destruct (Z.leb _ _); done. }
  specialize (Hpres (octree S limb ps (working h))). simpl in Hpres. set (s := fold_left _ _ _) in *.
  intros [= <- <- <- <-]. done.
Qed.

Lemma generate_simple h limb ps rep post :
  testReach h = false -> contactIfFails h = false ->
  generate_contact S h limb ps = (rep, post) ->
  rstatus rep = REACHABLE_CONTACT \/ rstatus rep = NO_CONTACT.
Proof.
  intros Ht Hi Hg. unfold generate_contact in Hg.
  destruct (findValidCandidate S h limb ps) as [[[[g1 g2] g3] st] post'] eqn:Ef.
  apply findValidCandidate_cases in Ef as (-> & [[f1 f2] f3] & out1 & E1 & Hc).
  destruct (pass_flags_clear _ _ _ _ _ _ _ _ Ht Hi E1) as [-> ->].
  assert (g2 = false /\ g3 = false) as [-> ->].
  { destruct Hc as [([= -> -> ->] & -> & Hp)|(Hp & Hf1 & out2 & E2 & ->)]; [done|].
    simpl in Hf1. subst f1. by destruct (pass_flags_clear _ _ _ _ _ _ _ _ Ht Hi E2) as [-> ->]. }
  destruct g1; injection Hg as <- <-; [by left|by right].
Qed.

Lemma ComputeStableContact_cases cur limb t chk post st out post' :
  ComputeStableContact S cur limb t false false chk post = (st, out, post') ->
  post' = post /\ stable out = true /\ nbContacts out = nbContacts cur /\
  ((st = REACHABLE_CONTACT /\ order out = order cur ++ [limb] /\
    (exists c p n r, configuration out = c /\ limbValid S limb c = true /\
      contacts out = <[limb := true]> (contacts cur) /\ positions out = <[limb := p]> (positions cur) /\
      normals out = <[limb := n]> (normals cur) /\ rotations out = <[limb := r]> (rotations cur) /\
      p = fkPos S limb c /\ r = fkRot S limb c)) \/
   (st = NO_CONTACT /\ order out = order cur /\ contacts out = contacts cur /\ positions out = positions cur /\
    normals out = normals cur /\ rotations out = rotations cur)).
Proof.
  unfold ComputeStableContact. set (h := with_reach _ _ _).
  destruct (generate_contact S h limb cur) as [rep post1] eqn:Eg. intros [= <- <- <-].
  destruct (generate_contact_grown _ _ _ _ _ _ Eg) as (Hp & [_ _ Hnb] & _). split; [done|]. split; [done|].
  split; [done|].
  destruct (generate_simple h limb cur rep post1 eq_refl eq_refl Eg) as [Hr|Hr]; rewrite Hr.
  - left. split; [done|].
    destruct (C18_lemma S h limb cur rep post1 Eg) as (H1 & H2 & H3 & (n & H4) & H5 & H6 & _);
      [by rewrite Hr|by right|]. simpl in *. split; [done|]. eexists _, _, n, _. done.
  - right. split; [done|]. destruct (C19_lemma S h limb cur rep post1 Eg) as (_ & _ & _ & Hn).
    destruct (Hn Hr) as (_ & c & [] & _). simpl in *. done.
Qed.

Lemma size_length {V} (m : gmap string V) (q : list string) :
  NoDup q -> (forall k, is_Some (m !! k) <-> k ∈ q) -> size m = length q.
Proof.
  intros Hnd Hk. rewrite <- size_dom.
  assert (dom m = list_to_set q) as ->.
  { apply set_eq. intros x. rewrite elem_of_dom, Hk, elem_of_list_to_set. done. }
  by rewrite size_list_to_set.
Qed.

Lemma insert_keys {V} (m : gmap string V) l v (q : list string) k :
  (is_Some (m !! k) <-> k ∈ q) -> (is_Some (<[l := v]> m !! k) <-> k ∈ q ++ [l]).
Proof.
  intros Hk. rewrite lookup_insert_is_Some', elem_of_app, elem_of_list_singleton, Hk. naive_solver.
Qed.

Record init_inv (t : Z) (don : list string) (cur : St) : Prop := {
  ii_tables : tables_match cur;
  ii_sub : order cur ⊆ don;
  ii_group : forall a x b, order cur = a ++ x :: b -> forall y, y ∈ a -> y ∉ groupOf S x;
  ii_tried : forall l, l ∈ don ->
    (exists k, k ∈ order cur /\ (k = l \/ k ∈ groupOf S l)) \/
    (exists c0 chk p st, order c0 `prefix_of` order cur /\
       ComputeStableContact S c0 l t false false chk p = (NO_CONTACT, st, p))
}.

Lemma compute_limbs_inv t limbs don cur post r post' :
  NoDup (don ++ limbs) -> init_inv t don cur -> compute_limbs S t limbs cur post = (r, post') ->
  post' = post /\ init_inv t (don ++ limbs) r.
Proof.
  revert don cur. induction limbs as [|l limbs IH]; intros don cur Hnd Hi; simpl.
  { intros [= <- <-]. by rewrite app_nil_r. }
  rewrite (app_assoc don [l] limbs : don ++ l :: limbs = (don ++ [l]) ++ limbs).
  assert (Hln : l ∉ order cur).
  { intros Hl. apply (ii_sub _ _ _ Hi) in Hl. apply NoDup_app in Hnd as (_ & Hnd & _). apply (Hnd l Hl). left. }
  destruct (ContactExistsWithinGroup S l cur) eqn:Eg.
  - intros Hc. apply (IH (don ++ [l])) in Hc as [-> Hc]; [by split|by rewrite <- app_assoc|].
    destruct Hi as [[H1 H2 H3 H4] H5 H6 H7]. split; simpl.
    + split; simpl; try done. f_equal. apply size_length; [done|]. intros k. apply H1.
    + set_solver.
    + done.
    + intros l' [Hl'| ->%elem_of_list_singleton]%elem_of_app; [by apply H7|].
      left. unfold ContactExistsWithinGroup in Eg. apply existsb_exists in Eg as (k & Hk & Hh).
      apply elem_of_list_In in Hk. apply has_true in Hh. exists k. split; [destruct (H1 k) as (?&?&?&?); tauto|by right].
  - destruct (ComputeStableContact S cur l t false false (bool_decide (limbs = [])) post) as [[st out] post1] eqn:Ec.
    pose proof Ec as Ec'. apply ComputeStableContact_cases in Ec' as (-> & _ & _ & Hcases).
    assert (Hng : forall y, y ∈ order cur -> y ∉ groupOf S l).
    { intros y Hy Hg. unfold ContactExistsWithinGroup in Eg.
      assert (Hex : existsb (fun l0 => has l0 (positions cur)) (groupOf S l) = true); [|congruence].
      apply existsb_exists. exists y. split; [by apply elem_of_list_In|]. apply has_true.
      by apply (tm_keys _ (ii_tables _ _ _ Hi)). }
    intros Hc. apply (IH (don ++ [l])) in Hc as [-> Hc]; [by split|by rewrite <- app_assoc|]. clear Hc IH.
    destruct Hi as [[H1 H2 H3 H4] H5 H6 H7].
    destruct Hcases as [(-> & Ho & c & p & n & r0 & _ & _ & E1 & E2 & E3 & E4 & _)|(-> & Ho & E1 & E2 & E3 & E4)].
    + assert (Hnd' : NoDup (order cur ++ [l])).
      { apply NoDup_app. split_and!; [done| |apply NoDup_singleton]. intros x Hx ->%elem_of_list_singleton. done. }
      split; simpl.
      * split; simpl; rewrite ?E1, ?E2, ?E3, ?E4, ?Ho.
        -- intros k. destruct (H1 k) as (?&?&?&?). split_and!; by apply insert_keys.
        -- intros k [Hk| ->%elem_of_list_singleton]%elem_of_app; [|by rewrite lookup_insert].
           rewrite lookup_insert_ne; [by apply H2|]. intros ->. done.
        -- done.
        -- f_equal. apply size_length; [done|]. intros k. apply insert_keys, H1.
      * rewrite Ho. set_solver.
      * rewrite Ho. intros a x b E y Hy. destruct b as [|z b _] using rev_ind.
        -- apply app_inj_tail in E as [<- <-]. by apply Hng.
        -- rewrite app_comm_cons, app_assoc in E. apply app_inj_tail in E as [E _]. eapply H6; eauto.
      * rewrite Ho. intros l' [Hl'| ->%elem_of_list_singleton]%elem_of_app.
        -- destruct (H7 l' Hl') as [(k & Hk & Hkl)|(c0 & chk & p0 & st & Hpre & Hcs)].
           ++ left. exists k. split; [set_solver|done].
           ++ right. exists c0, chk, p0, st. split; [|done]. by apply prefix_app_r.
        -- left. exists l. split; [set_solver|by left].
    + split; simpl; rewrite ?Ho.
      * split; simpl; rewrite ?E1, ?E2, ?E3, ?E4, ?Ho; try done.
        f_equal. apply size_length; [done|]. intros k. apply H1.
      * set_solver.
      * done.
      * intros l' [Hl'| ->%elem_of_list_singleton]%elem_of_app; [by apply H7|].
        right. exists cur, (bool_decide (limbs = [])), post, out. split; [done|]. exact Ec.
Qed.

Lemma C24_lemma cfg t post r post' :
  NoDup (limbNames S) -> ComputeContacts_initial S cfg t post = (r, post') ->
  post' = post /\ tables_match r /\ order r ⊆ limbNames S /\
  (forall a x b, order r = a ++ x :: b -> forall y, y ∈ a -> y ∉ groupOf S x) /\
  (forall l, l ∈ limbNames S ->
    (exists k, k ∈ order r /\ (k = l \/ k ∈ groupOf S l)) \/
    (exists c0 chk p st, order c0 `prefix_of` order r /\
       ComputeStableContact S c0 l t false false chk p = (NO_CONTACT, st, p))).
Proof.
  intros Hnd Hc. unfold ComputeContacts_initial in Hc.
  apply (compute_limbs_inv t (limbNames S) []) in Hc as [-> []]; [done|done|].
  split; simpl; [|done| |by intros l ?%elem_of_nil].
  - split; simpl; try done; [|by intros k ?%elem_of_nil|constructor].
    intros k. rewrite !lookup_empty. split_and!; split; (by intros []) || (by intros ?%elem_of_nil).
  - intros a x b E. by destruct a.
Qed.

Lemma C24_exclusive cfg t post r post' :
  NoDup (limbNames S) -> (forall a b, a ∈ groupOf S b <-> b ∈ groupOf S a) ->
  ComputeContacts_initial S cfg t post = (r, post') ->
  forall k1 k2, is_Some (positions r !! k1) -> is_Some (positions r !! k2) -> k1 ∈ groupOf S k2 -> k1 = k2.
Proof.
  intros Hnd Hsym Hc k1 k2 H1 H2 Hg. destruct (C24_lemma _ _ _ _ _ Hnd Hc) as (_ & [Hk _ Ho _] & _ & Hex & _).
  apply Hk in H1, H2. destruct (decide (k1 = k2)) as [|Hne]; [done|]. exfalso.
  apply elem_of_list_split in H2 as (a & b & E). rewrite E in H1.
  apply elem_of_app in H1 as [H1|[H1|H1]%elem_of_cons]; [|done|].
  - by apply (Hex a k2 b E k1 H1).
  - apply elem_of_list_split in H1 as (b1 & b2 & ->).
    eapply (Hex (a ++ k2 :: b1) k1 b2 ltac:(by rewrite E, <- app_assoc) k2 ltac:(set_solver)). by apply Hsym.
Qed.

(** ** ComputeContacts with a previous state: at most one break and one creation *)
Lemma C51_lemma fuel prev cfg t test qs post cr h' :
  NoDup (limbNames S) -> consistent prev -> order prev <> [] ->
  ComputeContacts_next S moved fuel prev cfg t test qs post = Some (cr, h') ->
  repositionedInPlace cr = false ->
  success (cr_rep cr) = true /\
  exists broken created, length broken <= 1 /\ broken ⊆ order prev /\
    length created <= 1 /\ Forall (fun l => l ∈ limbNames S /\ (l ∈ broken \/ l ∉ order prev)) created /\
    let r := result (cr_rep cr) in
    order r = filter (fun x => x ∉ broken) (order prev) ++ created /\
    (forall k, k ∉ broken -> k ∉ created ->
      contacts r !! k = contacts prev !! k /\ normals r !! k = normals prev !! k /\
      positions r !! k = positions prev !! k /\ rotations r !! k = rotations prev !! k) /\
    (forall k, k ∈ broken -> k ∉ created -> contacts r !! k = None).
Proof.
  intros Hnd Hcons Ho. unfold ComputeContacts_next.
  set (h := with_reach test qs _).
  destruct (oneStep S moved fuel h) as [[cr0 h0]|] eqn:E; [|done]. intros [= <- <-]. simpl. intros Hrep.
  set (w := with_stable false (with_configuration cfg (state_copy prev))).
  assert (Hwc : consistent w) by (destruct Hcons; by split).
  assert (Hq : maintain_queue h (maintain_contacts_combinatorial w 1)).
  { right. left. split_and!; [done| |done]. simpl. intros Hemp. destruct (order prev) as [|k q] eqn:Eo; [done|].
    assert (contacts prev !! k = Some true) as Hk by (apply co_active; [done|]; rewrite Eo; left).
    rewrite Hemp in Hk. by rewrite lookup_empty in Hk. }
  destruct (oneStep_origin S moved fuel h cr0 h0 _ Hnd eq_refl (le_n 1) Hq E Hrep)
    as (Hs & c & e & Hc & He1 & He2 & He3 & He4).
  simpl in *. rewrite Hs. split; [done|]. simpl.
  assert (Hch : exists ids, breakable w 1 ids /\ c = without ids w).
  { destruct (decide (nbContacts w = 1%Z)) as [Hnb|Hnb].
    - rewrite maintain_single in Hc by done. apply elem_of_list_singleton in Hc as ->. exists []. split; [|done].
      split_and!; [apply NoDup_nil_2|apply list_subseteq_nil|simpl; lia].
    - destruct (maintain_combinatorial_correct w 1 Hwc Hnb) as (_ & Hch & _). by apply Hch. }
  clear Hc. destruct Hch as (ids & (Hn1 & Hn2 & Hn3) & ->).
  assert (Hwo : forall k, contacts (without ids w) !! k = (if decide (k ∈ ids) then None else contacts prev !! k) /\
     normals (without ids w) !! k = (if decide (k ∈ ids) then None else normals prev !! k) /\
     positions (without ids w) !! k = (if decide (k ∈ ids) then None else positions prev !! k) /\
     rotations (without ids w) !! k = (if decide (k ∈ ids) then None else rotations prev !! k)).
  { intros k. destruct ids as [|x [|y ids]]; [done| |simpl in Hn3; lia]. unfold without. simpl.
    assert (Hx : x ∈ order prev) by (apply Hn2; left).
    pose proof (co_active _ Hcons x Hx) as Hact. unfold RemoveContact, has. simpl. rewrite Hact. simpl.
    destruct (decide (k ∈ [x])) as [->%elem_of_list_singleton|Hk].
    - by rewrite !lookup_delete.
    - rewrite !lookup_delete_ne; [done|set_solver..]. }
  exists ids, e. split_and!; [done|done|done| | | |].
  - rewrite Forall_forall in He2 |- *. intros l Hl. destruct (He2 l Hl) as [H1 H2]. split; [done|].
    destruct (decide (l ∈ ids)) as [|Hni]; [by left|right]. intros Hlo.
    destruct (Hwo l) as [E1 _]. rewrite decide_False in E1 by done. rewrite E1 in H2. by apply H2, co_active.
  - rewrite He3. f_equal. pose proof (without_order ids w Hwc) as Hor. simpl in Hor. rewrite Hor. apply filter_ext_on. intros; reflexivity.
  - intros k Hk1 Hk2. destruct (gr_maps _ _ _ He4 k Hk2) as (->&->&->&->).
    destruct (Hwo k) as (->&->&->&->). by rewrite !decide_False by done.
  - intros k Hk1 Hk2. destruct (gr_maps _ _ _ He4 k Hk2) as (->&_).
    destruct (Hwo k) as (->&_). by rewrite decide_True.
Qed.
End proofs.
