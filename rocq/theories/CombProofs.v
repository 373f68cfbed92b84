From Coq Require Import ZArith Lia.
From Verif Require Import Maps MapsProofs StateModel StateSpec StateProofs CombModel CombSpec.

(** * maintain_contacts_combinatorial *)
Section maintain.
Context {Cfg Pos Rot Rob : Type}.
Notation St := (State Cfg Pos Rot Rob).
Implicit Types s c : St.

Lemma RemoveContact_some id s : is_Some (contacts s !! id) ->
  snd (RemoveContact id s) =
   mkState (configuration s) (delete id (contacts s)) (delete id (normals s))
       (delete id (positions s)) (delete id (rotations s)) (filter (fun x => x <> id) (order s))
       (wdec (nbContacts s)) false (robustness s).
Proof.
  intros Hs. unfold RemoveContact. apply has_true in Hs as ->. simpl. by rewrite queue_without_filter.
Qed.
Lemma RemoveContact_none id s : contacts s !! id = None -> snd (RemoveContact id s) = s.
Proof. intros Hs. unfold RemoveContact. by apply has_false in Hs as ->. Qed.

Lemma without_app ids ids' s : without (ids ++ ids') s = without ids' (without ids s).
Proof. unfold without. by rewrite fold_left_app. Qed.

Lemma filter_comm {A} (P Q : A -> Prop) `{!forall x, Decision (P x), !forall x, Decision (Q x)} (l : list A) :
  filter P (filter Q l) = filter Q (filter P l).
Proof. rewrite !list_filter_filter. apply filter_ext_on. naive_solver. Qed.

Lemma RemoveContact_comm a b s :
  snd (RemoveContact a (snd (RemoveContact b s))) = snd (RemoveContact b (snd (RemoveContact a s))).
Proof.
  destruct (decide (a = b)) as [->|Hne]; [done|].
  destruct (contacts s !! a) eqn:Ha, (contacts s !! b) eqn:Hb.
  - rewrite (RemoveContact_some b s), (RemoveContact_some a s) by eauto.
    rewrite !RemoveContact_some by (simpl; rewrite lookup_delete_ne by done; eauto). simpl.
    f_equal; try apply delete_commute. apply filter_comm.
  - rewrite (RemoveContact_none b s), (RemoveContact_some a s) by eauto.
    rewrite RemoveContact_none; [done|]. simpl. by rewrite lookup_delete_ne.
  - rewrite (RemoveContact_some b s), (RemoveContact_none a s) by eauto.
    rewrite RemoveContact_none; [by rewrite RemoveContact_some by eauto|]. simpl. by rewrite lookup_delete_ne.
  - rewrite (RemoveContact_none b s), (RemoveContact_none a s) by eauto.
    by rewrite RemoveContact_none.
Qed.

Lemma without_perm ids ids' s : ids ≡ₚ ids' -> without ids s = without ids' s.
Proof.
  intros Hp. revert s. induction Hp as [|x l l' Hp IH|x y l|l1 l2 l3 _ IH1 _ IH2]; intros s.
  - done.
  - simpl. apply IH.
  - simpl. by rewrite RemoveContact_comm.
  - by rewrite IH1, IH2.
Qed.

Lemma without_consistent ids s : consistent s -> consistent (without ids s).
Proof.
  revert s. induction ids as [|x ids IH]; intros s Hs; simpl; [done|].
  apply IH. by apply consistent_RemoveContact.
Qed.

Lemma RemoveContact_order id s : consistent s ->
  order (snd (RemoveContact id s)) = filter (fun x => x <> id) (order s).
Proof.
  intros Hc. destruct (contacts s !! id) eqn:Hi.
  - by rewrite RemoveContact_some by eauto.
  - rewrite RemoveContact_none by done. symmetry. apply filter_not_in.
    destruct Hc as [Hk _ _ _]. destruct (Hk id) as (Hk1 & _). rewrite <- Hk1, Hi. by intros [? ?].
Qed.

Lemma without_order ids s : consistent s ->
  order (without ids s) = filter (fun x => x ∉ ids) (order s).
Proof.
  revert s. induction ids as [|id ids IH]; intros s Hc; simpl.
  - symmetry. apply filter_all. intros x _. apply not_elem_of_nil.
  - rewrite IH by (by apply consistent_RemoveContact). rewrite RemoveContact_order by done.
    rewrite list_filter_filter. apply filter_ext_on. intros x _. rewrite elem_of_cons. naive_solver.
Qed.

Lemma without_inj ids ids' s : consistent s -> NoDup ids -> NoDup ids' -> ids ⊆ order s -> ids' ⊆ order s ->
  order (without ids s) = order (without ids' s) -> ids ≡ₚ ids'.
Proof.
  intros Hc Hn Hn' Hs Hs' Ho. rewrite !without_order in Ho by done.
  apply NoDup_Permutation; [done..|]. intros x. split; intros Hx.
  - destruct (decide (x ∈ ids')) as [|Hx']; [done|]. exfalso.
    assert (Hin : x ∈ filter (fun x => x ∉ ids') (order s)).
    { apply elem_of_list_filter. eauto. }
    rewrite <- Ho in Hin. apply elem_of_list_filter in Hin. naive_solver.
  - destruct (decide (x ∈ ids)) as [|Hx']; [done|]. exfalso.
    assert (Hin : x ∈ filter (fun x => x ∉ ids) (order s)).
    { apply elem_of_list_filter. eauto. }
    rewrite Ho in Hin. apply elem_of_list_filter in Hin. naive_solver.
Qed.

Lemma without_length ids s : consistent s -> NoDup ids -> ids ⊆ order s ->
  length (order (without ids s)) + length ids = length (order s).
Proof.
  intros Hc Hn Hsub. rewrite without_order by done.
  assert (Hp : order s ≡ₚ ids ++ filter (fun x => x ∉ ids) (order s)).
  { apply NoDup_Permutation.
    - by destruct Hc.
    - apply NoDup_app. split_and!; [done| |apply NoDup_filter; by destruct Hc].
      intros x Hx Hx'. apply elem_of_list_filter in Hx'. naive_solver.
    - intros x. rewrite elem_of_app, elem_of_list_filter.
      destruct (decide (x ∈ ids)); naive_solver. }
  apply Permutation_length in Hp. rewrite app_length in Hp. lia.
Qed.

Lemma push_if_new_cases (lvl : list St) c :
  (exists c', c' ∈ lvl /\ order c = order c' /\ push_if_new lvl c = (false, lvl)) \/
  ((forall c', c' ∈ lvl -> order c <> order c') /\ push_if_new lvl c = (true, lvl ++ [c])).
Proof.
  unfold push_if_new. destruct (existsb _ lvl) eqn:He.
  - left. apply existsb_exists in He as (c' & Hin & Heq). apply bool_decide_eq_true in Heq.
    exists c'. split_and!; try done. by apply elem_of_list_In.
  - right. split; [|done]. intros c' Hin Heq.
    assert (existsb (fun c0 => bool_decide (order c = order c0)) lvl = true); [|congruence].
    apply existsb_exists. exists c'. split; [by apply elem_of_list_In|]. by apply bool_decide_eq_true.
Qed.

Notation lev res d := (default [] (res !! d)).

Section fixed.
Variable (s0 : St) (m : nat).
Hypothesis Hc0 : consistent s0.

(** a state of level [d] *)
Definition at_level (d : nat) c : Prop :=
  exists ids, NoDup ids /\ ids ⊆ order s0 /\ length ids = d /\ c = without ids s0.

Lemma at_level_consistent d c : at_level d c -> consistent c.
Proof. intros (ids & _ & _ & _ & ->). by apply without_consistent. Qed.

Lemma at_level_unique d c c' : at_level d c -> at_level d c' -> order c = order c' -> c = c'.
Proof.
  intros (ids & Hn & Hs & _ & ->) (ids' & Hn' & Hs' & _ & ->) Ho.
  apply without_perm. by eapply without_inj.
Qed.

Lemma at_level_child d c id : at_level d c -> id ∈ order c -> at_level (S d) (snd (RemoveContact id c)).
Proof.
  intros (ids & Hn & Hs & Hl & ->) Hid.
  rewrite without_order in Hid by done. apply elem_of_list_filter in Hid as [Hni Hid].
  exists (ids ++ [id]). split_and!.
  - apply NoDup_app. split_and!; [done| |apply NoDup_singleton].
    intros x Hx Hx'. apply elem_of_list_singleton in Hx'. naive_solver.
  - intros x Hx. apply elem_of_app in Hx as [Hx|Hx]; [auto|]. apply elem_of_list_singleton in Hx. by subst.
  - rewrite app_length. simpl. lia.
  - by rewrite without_app.
Qed.

(** well-formedness of the table of levels *)
Record WF (res : list (list St)) : Prop := {
  wf_len : length res = S m;
  wf_sound : forall d c, c ∈ lev res d -> at_level d c;
  wf_nodup : forall d, NoDup (map order (lev res d))
}.

(** children of the states in levels >= depth are present *)
Definition closed_from (depth : nat) (res : list (list St)) : Prop :=
  forall d c id, depth <= d -> d < m -> c ∈ lev res d -> id ∈ order c ->
    snd (RemoveContact id c) ∈ lev res (S d).

Lemma lev_insert_eq (res : list (list St)) d l : d < length res -> lev (<[d := l]> res) d = l.
Proof. intros Hd. by rewrite list_lookup_insert by done. Qed.
Lemma lev_insert_ne (res : list (list St)) d d' l : d <> d' -> lev (<[d := l]> res) d' = lev res d'.
Proof. intros Hd. by rewrite list_lookup_insert_ne by done. Qed.

Lemma maintain_rec_correct fuel depth cur res :
  depth + fuel = m -> WF res -> closed_from depth res -> at_level depth cur ->
  let res' := maintain_rec fuel depth cur res in
  WF res' /\ closed_from depth res' /\ cur ∈ lev res' depth /\
  (forall d c, c ∈ lev res d -> c ∈ lev res' d) /\
  (forall d, d < depth -> lev res' d = lev res d) /\
  (exists l, lev res' depth = lev res depth ++ l /\ (l = [] \/ l = [cur])).
Proof.
  revert depth cur res. induction fuel as [|fuel IH]; intros depth cur res Hm Hwf Hcl Hcur; simpl.
  - assert (Hd : depth < length res) by (rewrite (wf_len _ Hwf); lia).
    destruct (push_if_new_cases (lev res depth) cur) as [(c' & Hin & Ho & Hpush)|[Hnew Hpush]]; rewrite Hpush.
    + simpl. assert (Hid : <[depth:=lev res depth]> res = res).
      { apply list_insert_id. destruct (res !! depth) eqn:E; [done|]. apply lookup_ge_None in E. lia. }
      rewrite Hid. split_and!; try done.
      * assert (cur = c') as ->; [|done]. eapply at_level_unique; eauto. by eapply wf_sound.
      * exists []. rewrite app_nil_r. auto.
    + simpl. set (res' := <[depth:=lev res depth ++ [cur]]> res).
      assert (Heq : lev res' depth = lev res depth ++ [cur]) by (by apply lev_insert_eq).
      assert (Hne : forall d, d <> depth -> lev res' d = lev res d).
      { intros d Hne. by apply lev_insert_ne. }
      split_and!.
      * split.
        -- unfold res'. rewrite insert_length. by destruct Hwf.
        -- intros d c. destruct (decide (d = depth)) as [->|Hnd].
           ++ rewrite Heq, elem_of_app, elem_of_list_singleton. intros [Hi| ->]; [by eapply wf_sound|done].
           ++ rewrite Hne by done. by apply wf_sound.
        -- intros d. destruct (decide (d = depth)) as [->|Hnd].
           ++ rewrite Heq, map_app. apply NoDup_app. split_and!.
              ** by destruct Hwf.
              ** intros o Hx Hx'. apply elem_of_list_singleton in Hx'. subst o.
                 apply elem_of_list_fmap in Hx as (c' & Ho & Hin). by eapply Hnew.
              ** apply NoDup_singleton.
           ++ rewrite Hne by done. by destruct Hwf.
      * intros d c id Hge Hlt. lia.
      * rewrite Heq. apply elem_of_app. right. apply elem_of_list_singleton. done.
      * intros d c Hin. destruct (decide (d = depth)) as [->|Hnd].
        -- rewrite Heq. apply elem_of_app. by left.
        -- by rewrite Hne.
      * intros d Hlt. apply Hne. lia.
      * exists [cur]. auto.
  - assert (Hd : depth < length res) by (rewrite (wf_len _ Hwf); lia).
    destruct (push_if_new_cases (lev res depth) cur) as [(c' & Hin & Ho & Hpush)|[Hnew Hpush]]; rewrite Hpush.
    + simpl. assert (Hid : <[depth:=lev res depth]> res = res).
      { apply list_insert_id. destruct (res !! depth) eqn:E; [done|]. apply lookup_ge_None in E. lia. }
      rewrite Hid. split_and!; try done.
      * assert (cur = c') as ->; [|done]. eapply at_level_unique; eauto. by eapply wf_sound.
      * exists []. rewrite app_nil_r. auto.
    + simpl. set (res' := <[depth:=lev res depth ++ [cur]]> res).
      assert (Heq : lev res' depth = lev res depth ++ [cur]) by (by apply lev_insert_eq).
      assert (Hne : forall d, d <> depth -> lev res' d = lev res d).
      { intros d Hne. by apply lev_insert_ne. }
      assert (Hwf' : WF res').
      { split.
        -- unfold res'. rewrite insert_length. by destruct Hwf.
        -- intros d c. destruct (decide (d = depth)) as [->|Hnd].
           ++ rewrite Heq, elem_of_app, elem_of_list_singleton. intros [Hi| ->]; [by eapply wf_sound|done].
           ++ rewrite Hne by done. by apply wf_sound.
        -- intros d. destruct (decide (d = depth)) as [->|Hnd].
           ++ rewrite Heq, map_app. apply NoDup_app. split_and!.
              ** by destruct Hwf.
              ** intros o Hx Hx'. apply elem_of_list_singleton in Hx'. subst o.
                 apply elem_of_list_fmap in Hx as (c' & Ho & Hin). by eapply Hnew.
              ** apply NoDup_singleton.
           ++ rewrite Hne by done. by destruct Hwf. }
      assert (Hcl' : closed_from (S depth) res').
      { intros d c id Hge Hlt. rewrite !Hne by lia. apply Hcl; lia. }
      (* the loop over the contacts of [cur] *)
      assert (Hloop : forall ids r, (forall x, x ∈ ids -> x ∈ order cur) ->
        WF r -> closed_from (S depth) r ->
        let r' := fold_left (fun res id => maintain_rec fuel (S depth) (snd (RemoveContact id cur)) res) ids r in
        WF r' /\ closed_from (S depth) r' /\
        (forall x, x ∈ ids -> snd (RemoveContact x cur) ∈ lev r' (S depth)) /\
        (forall d c, c ∈ lev r d -> c ∈ lev r' d) /\
        (forall d, d <= depth -> lev r' d = lev r d)).
      { clear Hwf' Hcl' Heq Hne. intros ids. induction ids as [|x ids IHids]; intros r Hsub Hr Hrc; simpl.
        - split_and!; try done. intros x Hx. by apply elem_of_nil in Hx.
        - destruct (IH (S depth) (snd (RemoveContact x cur)) r) as (H1 & H2 & H3 & H4 & H5 & _).
          + lia.
          + done.
          + done.
          + apply at_level_child; [done|]. apply Hsub. left.
          + destruct (IHids _ (fun y Hy => Hsub y (elem_of_list_further _ _ _ Hy)) H1 H2)
              as (G1 & G2 & G3 & G4 & G5).
            split_and!; auto.
            * intros y Hy. apply elem_of_cons in Hy as [->|Hy]; auto.
            * intros d Hle. rewrite G5 by lia. apply H5. lia. }
      destruct (Hloop (order cur) res' (fun x Hx => Hx) Hwf' Hcl') as (L1 & L2 & L3 & L4 & L5).
      set (res'' := fold_left _ (order cur) res') in *.
      split_and!; auto.
      * intros d c id Hge Hlt. destruct (decide (d = depth)) as [->|Hnd]; [|apply L2; lia].
        rewrite L5 by lia. rewrite Heq, elem_of_app, elem_of_list_singleton.
        intros [Hi| ->] Hido; [|by apply L3].
        apply L4. rewrite Hne by lia. by apply Hcl.
      * rewrite L5 by lia. rewrite Heq. apply elem_of_app. right. apply elem_of_list_singleton. done.
      * intros d c Hi. apply L4. destruct (decide (d = depth)) as [->|Hnd]; [|by rewrite Hne].
        rewrite Heq. apply elem_of_app. by left.
      * intros d Hlt. rewrite L5 by lia. apply Hne. lia.
      * exists [cur]. rewrite L5 by lia. auto.
Qed.

Lemma lev_replicate d : lev (replicate (S m) ([] : list St)) d = [].
Proof.
  destruct (replicate (S m) [] !! d) eqn:E; [|done]. simpl.
  apply lookup_replicate in E. naive_solver.
Qed.

Lemma at_level_0 : at_level 0 s0.
Proof. exists []. split_and!; [constructor|set_solver|done|done]. Qed.

Lemma maintain_levels :
  let res := maintain_rec m 0 s0 (replicate (S m) []) in
  length res = S m /\ lev res 0 = [s0] /\
  (forall d c, c ∈ lev res d -> at_level d c) /\
  (forall d, NoDup (map order (lev res d))) /\
  (forall ids, NoDup ids -> ids ⊆ order s0 -> length ids <= m -> without ids s0 ∈ lev res (length ids)).
Proof.
  destruct (maintain_rec_correct m 0 s0 (replicate (S m) [])) as (H1 & H2 & H3 & H4 & H5 & H6).
  - lia.
  - split.
    + apply replicate_length.
    + intros d c. rewrite lev_replicate. intros Hx. by apply elem_of_nil in Hx.
    + intros d. rewrite lev_replicate. constructor.
  - intros d c id _ _. rewrite lev_replicate. intros Hx. by apply elem_of_nil in Hx.
  - apply at_level_0.
  - set (res := maintain_rec m 0 s0 (replicate (S m) [])) in *.
    destruct H1 as [L S N]. split_and!; try done.
    + destruct H6 as (l & Hl & [->| ->]); rewrite lev_replicate in Hl.
      * rewrite Hl in H3. by apply elem_of_nil in H3.
      * done.
    + intros ids. induction ids as [|x ids IH] using rev_ind; intros Hn Hs Hle.
      * done.
      * apply NoDup_app in Hn as (Hn & Hnx & _). rewrite app_length in Hle |- *. simpl in *.
        rewrite Nat.add_comm. simpl. rewrite without_app. simpl.
        apply H2; [lia|lia| |].
        -- apply IH; [done| |lia]. intros y Hy. apply Hs. apply elem_of_app. by left.
        -- rewrite without_order by done. apply elem_of_list_filter. split.
           ++ intros Hx. apply (Hnx x Hx). apply elem_of_list_singleton. done.
           ++ apply Hs. apply elem_of_app. right. apply elem_of_list_singleton. done.
Qed.
End fixed.

Lemma elem_of_concat_lev (res : list (list St)) c : c ∈ concat res <-> exists d, c ∈ lev res d.
Proof.
  rewrite elem_of_list_In, in_concat. split.
  - intros (l & Hl & Hc). apply elem_of_list_In in Hl. apply elem_of_list_In in Hc.
    apply elem_of_list_lookup in Hl as (d & Hd). exists d. by rewrite Hd.
  - intros (d & Hc). destruct (res !! d) as [l|] eqn:E; simpl in Hc; [|by apply elem_of_nil in Hc].
    exists l. split; apply elem_of_list_In; [|done]. by eapply elem_of_list_lookup_2.
Qed.

Lemma StronglySorted_app_2 {A} (R : relation A) (l1 l2 : list A) :
  StronglySorted R l1 -> StronglySorted R l2 -> (forall x y, x ∈ l1 -> y ∈ l2 -> R x y) ->
  StronglySorted R (l1 ++ l2).
Proof.
  intros H1 H2 H12. induction H1 as [|x l Hs IH Hf]; [done|]. simpl. constructor.
  - apply IH. intros y z Hy. apply H12. by right.
  - apply Forall_app. split; [done|]. apply Forall_forall. intros y Hy. apply H12; [left|done].
Qed.

Lemma concat_sorted {A} (R : relation A) (res : list (list A)) :
  (forall d l, res !! d = Some l -> StronglySorted R l) ->
  (forall d d' l l' x y, d < d' -> res !! d = Some l -> res !! d' = Some l' -> x ∈ l -> y ∈ l' -> R x y) ->
  StronglySorted R (concat res).
Proof.
  induction res as [|l res IH]; intros Hs Hlt; simpl; [constructor|].
  apply StronglySorted_app_2.
  - apply (Hs 0). done.
  - apply IH.
    + intros d l' Hl'. apply (Hs (S d)). done.
    + intros d d' l1 l2 x y Hd H1 H2. apply (Hlt (S d) (S d') l1 l2); [lia|done|done].
  - intros x y Hx Hy. apply elem_of_list_In, in_concat in Hy as (l' & Hl' & Hy).
    apply elem_of_list_In in Hl', Hy. apply elem_of_list_lookup in Hl' as (d & Hd).
    apply (Hlt 0 (S d) l l' x y); [lia|done..].
Qed.

Lemma concat_NoDup_map {A B} (f : A -> B) (res : list (list A)) :
  (forall d l, res !! d = Some l -> NoDup (map f l)) ->
  (forall d d' l l' x y, d < d' -> res !! d = Some l -> res !! d' = Some l' -> x ∈ l -> y ∈ l' -> f x <> f y) ->
  NoDup (map f (concat res)).
Proof.
  induction res as [|l res IH]; intros Hs Hlt; simpl; [constructor|].
  rewrite map_app. apply NoDup_app. split_and!.
  - apply (Hs 0). done.
  - intros b Hb Hb'. apply elem_of_list_fmap in Hb as (x & -> & Hx).
    apply elem_of_list_fmap in Hb' as (y & Hf & Hy).
    apply elem_of_list_In, in_concat in Hy as (l' & Hl' & Hy).
    apply elem_of_list_In in Hl', Hy. apply elem_of_list_lookup in Hl' as (d & Hd).
    by apply (Hlt 0 (S d) l l' x y); [lia|..].
  - apply IH.
    + intros d l' Hl'. apply (Hs (S d)). done.
    + intros d d' l1 l2 x y Hd H1 H2. apply (Hlt (S d) (S d') l1 l2); [lia|done|done].
Qed.

Lemma maintain_combinatorial_correct s m :
  consistent s -> nbContacts s <> 1%Z ->
  let Q := maintain_contacts_combinatorial s m in
  (exists Q', Q = s :: Q') /\
  (forall c, c ∈ Q <-> exists ids, breakable s m ids /\ c = without ids s) /\
  NoDup (map order Q) /\
  StronglySorted (fun c c' => length (order c') <= length (order c)) Q.
Proof.
  intros Hc Hnb. unfold maintain_contacts_combinatorial.
  destruct (Z.eqb_spec (nbContacts s) 1) as [?|_]; [done|].
  destruct (maintain_levels s m Hc) as (Hlen & H0 & Hsound & Hnd & Hcomp).
  set (res := maintain_rec m 0 s (replicate (S m) [])) in *. set (Q := concat res).
  assert (Hll : forall d l, res !! d = Some l -> lev res d = l) by (intros d l ->; done).
  assert (Hlevlen : forall d c, c ∈ lev res d -> length (order c) + d = length (order s)).
  { intros d c Hin. apply Hsound in Hin as (ids & Hn & Hs & <- & ->). by apply without_length. }
  split_and!.
  - destruct res as [|l0 rest] eqn:E; [simpl in Hlen; lia|]. simpl in H0. subst l0. simpl in Q. by eexists.
  - intros c. unfold Q. rewrite elem_of_concat_lev. split.
    + intros (d & Hin). pose proof Hin as Hin'. apply Hsound in Hin as (ids & Hn & Hs & Hl & ->).
      exists ids. split; [|done]. split_and!; try done.
      destruct (res !! d) as [l|] eqn:E; [|simpl in Hin'; by apply elem_of_nil in Hin'].
      apply lookup_lt_Some in E. lia.
    + intros (ids & (Hn & Hs & Hl) & ->). eauto.
  - apply concat_NoDup_map.
    + intros d l Hl. rewrite <- (Hll _ _ Hl). apply Hnd.
    + intros d d' l l' x y Hd Hl Hl' Hx Hy Ho.
      rewrite <- (Hll _ _ Hl) in Hx. rewrite <- (Hll _ _ Hl') in Hy.
      apply Hlevlen in Hx, Hy. rewrite Ho in Hx. lia.
  - apply concat_sorted.
    + intros d l Hl.
      assert (Hall : forall x y, x ∈ l -> y ∈ l -> length (order y) <= length (order x)).
      { intros x y Hx Hy. rewrite <- (Hll _ _ Hl) in Hx, Hy. apply Hlevlen in Hx, Hy. lia. }
      clear Hl. induction l as [|x l IH]; [constructor|]. constructor.
      * apply IH. intros y z Hy Hz. apply Hall; by right.
      * apply Forall_forall. intros y Hy. apply Hall; [left|by right].
    + intros d d' l l' x y Hd Hl Hl' Hx Hy.
      rewrite <- (Hll _ _ Hl) in Hx. rewrite <- (Hll _ _ Hl') in Hy.
      apply Hlevlen in Hx, Hy. lia.
Qed.

(** exact list for one allowed break *)
Lemma maintain_combinatorial_one s :
  consistent s -> nbContacts s <> 1%Z ->
  maintain_contacts_combinatorial s 1 = s :: map (fun id => without [id] s) (order s).
Proof.
  intros Hc Hnb. unfold maintain_contacts_combinatorial.
  destruct (Z.eqb_spec (nbContacts s) 1) as [?|_]; [done|]. simpl.
  assert (Hg : forall ids l, NoDup ids -> ids ⊆ order s ->
    (forall x, x ∈ ids -> forall c, c ∈ l -> order (snd (RemoveContact x s)) <> order c) ->
    fold_left (fun res id =>
       let '(isnew, lvl) := push_if_new (lev res 1) (snd (RemoveContact id s)) in
       if isnew then <[1:=lvl]> res else <[1:=lvl]> res) ids [[s]; l]
    = [[s]; l ++ map (fun id => snd (RemoveContact id s)) ids]).
  { intros ids. induction ids as [|x ids IH]; intros l Hn Hsub Hdiff; simpl.
    - by rewrite app_nil_r.
    - apply NoDup_cons in Hn as [Hx Hn].
      destruct (push_if_new_cases l (snd (RemoveContact x s))) as [(c' & Hin & Ho & _)|[_ Hpush]]; [|rewrite Hpush].
      { exfalso. eapply Hdiff; eauto. left. }
      simpl. rewrite IH.
      + by rewrite <- app_assoc.
      + done.
      + set_solver.
      + intros y Hy c Hin. apply elem_of_app in Hin as [Hin|Hin].
        * apply Hdiff; [by right|done].
        * apply elem_of_list_singleton in Hin. subst c. intros Ho.
          assert (Hp : [y] ≡ₚ [x]).
          { apply (without_inj [y] [x] s); try done; try apply NoDup_singleton.
            - intros z Hz. apply elem_of_list_singleton in Hz. subst. apply Hsub. by right.
            - intros z Hz. apply elem_of_list_singleton in Hz. subst. apply Hsub. by left. }
          assert (x ∈ [y]) as Hxy by (rewrite Hp; left). apply elem_of_list_singleton in Hxy. naive_solver. }
  rewrite (Hg (order s) []).
  - simpl. by rewrite app_nil_r.
  - by destruct Hc.
  - done.
  - intros x _ c Hin. by apply elem_of_nil in Hin.
Qed.

Lemma maintain_single s m : nbContacts s = 1%Z -> maintain_contacts_combinatorial s m = [s].
Proof.
  intros Hn. unfold maintain_contacts_combinatorial. rewrite Hn. simpl. f_equal.
  induction m as [|m IH]; done.
Qed.

Lemma maintain_keeps_one s m :
  consistent s -> nbContacts s <> 1%Z -> m < length (order s) ->
  forall c, c ∈ maintain_contacts_combinatorial s m -> order c <> [].
Proof.
  intros Hc Hnb Hm c Hin. destruct (maintain_combinatorial_correct s m Hc Hnb) as (_ & Hch & _).
  apply Hch in Hin as (ids & (Hn & Hs & Hl) & ->).
  pose proof (without_length ids s Hc Hn Hs) as Hlen. intros He. rewrite He in Hlen. simpl in Hlen. lia.
Qed.
End maintain.
