From Coq Require Import ZArith Lia.
From Verif Require Import Maps MapsProofs StateModel StateSpec.

Lemma filter_ext_on {A} (P Q : A -> Prop) `{!forall x, Decision (P x), !forall x, Decision (Q x)} (l : list A) :
  (forall x, x ∈ l -> P x <-> Q x) -> filter P l = filter Q l.
Proof.
  induction l as [|x l IH]; intros HPQ; [done|]. rewrite !filter_cons.
  rewrite IH by (intros y Hy; apply HPQ; by right).
  assert (Hx : P x <-> Q x) by (apply HPQ; left).
  destruct (decide (P x)), (decide (Q x)); naive_solver.
Qed.

Lemma filter_all {A} (P : A -> Prop) `{!forall x, Decision (P x)} (l : list A) :
  (forall x, x ∈ l -> P x) -> filter P l = l.
Proof.
  induction l as [|x l IH]; intros HPQ; [done|]. rewrite filter_cons.
  rewrite IH by (intros y Hy; apply HPQ; by right).
  destruct (decide (P x)) as [|Hn]; [done|]. destruct Hn. apply HPQ. left.
Qed.

Section proofs.
Context {Cfg Pos Rot Rob : Type}.
Notation St := (State Cfg Pos Rot Rob).
Implicit Types s prev this : St.

(** * RemoveContact *)
Lemma queue_without_filter id q : queue_without id q = filter (fun x => x <> id) q.
Proof.
  induction q as [|x q IH]; simpl; [done|]. rewrite filter_cons.
  case_bool_decide as Hx; destruct (decide (x <> id)); subst; try done; try congruence.
Qed.

Lemma RemoveContact_correct id s b s' :
  RemoveContact id s = (b, s') ->
  (b = true <-> is_Some (contacts s !! id)) /\
  (b = false -> s' = s) /\
  (b = true -> removed_exactly id s s').
Proof.
  unfold RemoveContact. destruct (has id (contacts s)) eqn:Hh; intros [= <- <-].
  - apply has_true in Hh. split; [done|]. split; [done|]. intros _.
    split; simpl; try done.
    + by rewrite lookup_delete.
    + by rewrite lookup_delete.
    + by rewrite lookup_delete.
    + by rewrite lookup_delete.
    + intros k Hk. by rewrite !lookup_delete_ne.
    + apply queue_without_filter.
  - apply has_false in Hh. split.
    + split; [done|]. rewrite Hh. by intros [? ?].
    + done.
Qed.

(** * RemoveFirstContact *)
Lemma RemoveFirstContact_empty s : order s = [] -> RemoveFirstContact s = (""%string, s).
Proof. unfold RemoveFirstContact. by intros ->. Qed.

Lemma RemoveFirstContact_cons s id q :
  order s = id :: q ->
  exists s', RemoveFirstContact s = (id, s') /\
    order s' = q /\
    contacts s' !! id = None /\ normals s' !! id = None /\
    positions s' !! id = None /\ rotations s' !! id = None /\
    same_elsewhere (fun k => k = id) s s' /\
    nbContacts s' = wdec (nbContacts s) /\ stable s' = false.
Proof.
  intros Ho. unfold RemoveFirstContact. rewrite Ho. eexists. split; [done|]. simpl.
  rewrite !lookup_delete. split_and!; try done.
  split; simpl; try done. intros k Hk. by rewrite !lookup_delete_ne.
Qed.

Lemma drain_correct n s :
  n <= length (order s) ->
  fst (drain n s) = take n (order s) /\
  order (snd (drain n s)) = drop n (order s) /\
  same_elsewhere (fun k => k ∈ take n (order s)) s (snd (drain n s)) /\
  (forall k, k ∈ take n (order s) ->
     contacts (snd (drain n s)) !! k = None /\ normals (snd (drain n s)) !! k = None /\
     positions (snd (drain n s)) !! k = None /\ rotations (snd (drain n s)) !! k = None).
Proof.
  revert s. induction n as [|n IH]; intros s Hn.
  - simpl. split_and!; try done.
    + intros k Hk. by apply elem_of_nil in Hk.
  - destruct (order s) as [|id q] eqn:Ho; simpl in Hn; [lia|].
    destruct (RemoveFirstContact_cons s id q Ho)
      as (s' & Hr & Hq & Hc & Hno & Hp & Hro & Hsame & _ & _).
    simpl. rewrite Hr. destruct (drain n s') as [ids s''] eqn:Hd. simpl.
    specialize (IH s'). rewrite Hd, Hq in IH. simpl in IH.
    destruct IH as (Hids & Hord & Hsame' & Hgone); [lia|].
    split_and!.
    + by rewrite Hids.
    + done.
    + destruct Hsame as [Hs1 Hcf Hrb]. destruct Hsame' as [Hs1' Hcf' Hrb'].
      split; [|congruence..].
      intros k Hk. rewrite elem_of_cons in Hk.
      destruct (Hs1 k) as (?&?&?&?); [naive_solver|].
      destruct (Hs1' k) as (?&?&?&?); [naive_solver|].
      split_and!; congruence.
    + intros k. rewrite elem_of_cons. intros [->|Hk]; [|by apply Hgone].
      destruct (decide (id ∈ take n q)) as [Hin|Hni]; [by apply Hgone|].
      destruct Hsame' as [Hs1' _ _]. destruct (Hs1' id Hni) as (?&?&?&?).
      split_and!; congruence.
Qed.

(** * Consistency over histories *)
Lemma consistent_default c0 r0 : consistent (state_default c0 r0 : St).
Proof.
  split; simpl.
  - intros k. rewrite !lookup_empty. rewrite elem_of_nil. split_and!; split; try done; by intros [? ?].
  - intros k. rewrite elem_of_nil. done.
  - constructor.
  - done.
Qed.

Lemma mod_sub_1 a : (((a mod 2 ^ 64) - 1) mod 2 ^ 64 = (a - 1) mod 2 ^ 64)%Z.
Proof. rewrite Zminus_mod_idemp_l. done. Qed.
Lemma mod_add_1 a : (((a mod 2 ^ 64) + 1) mod 2 ^ 64 = (a + 1) mod 2 ^ 64)%Z.
Proof. rewrite Zplus_mod_idemp_l. done. Qed.

Lemma size_delete_some {V} (m : gmap string V) k v :
  m !! k = Some v -> size m = S (size (delete k m)).
Proof.
  intros Hm. rewrite <- (insert_delete m k v Hm) at 1.
  rewrite map_size_insert_None by apply lookup_delete. done.
Qed.

Lemma delete_lookup_iff {V} (m : gmap string V) id k (q : list string) (Hk : is_Some (m !! k) <-> k ∈ q) :
  is_Some (delete id m !! k) <-> k ∈ filter (fun x => x <> id) q.
Proof.
  rewrite elem_of_list_filter. rewrite <- Hk.
  destruct (decide (k = id)) as [->|Hne].
  - rewrite lookup_delete. split; [by intros [? ?]|naive_solver].
  - rewrite lookup_delete_ne by done. naive_solver.
Qed.

Lemma consistent_delete id s st :
  consistent s -> is_Some (contacts s !! id) ->
  consistent (mkState (configuration s) (delete id (contacts s)) (delete id (normals s))
       (delete id (positions s)) (delete id (rotations s)) (filter (fun x => x <> id) (order s))
       (wdec (nbContacts s)) st (robustness s)).
Proof.
  intros [Hk Hact Hnd Hnb] [v Hv]. split; simpl.
  - intros k. destruct (Hk k) as (H1&H2&H3&H4).
    split_and!; by apply delete_lookup_iff.
  - intros k. rewrite elem_of_list_filter. intros [Hne Hin]. rewrite lookup_delete_ne by done. auto.
  - by apply NoDup_filter.
  - rewrite Hnb. unfold wdec. rewrite mod_sub_1. f_equal.
    rewrite (size_delete_some (contacts s) id v Hv). lia.
Qed.

Lemma consistent_RemoveContact id s : consistent s -> consistent (snd (RemoveContact id s)).
Proof.
  intros Hc. unfold RemoveContact. destruct (has id (contacts s)) eqn:Hh; [|done].
  apply has_true in Hh. simpl. rewrite queue_without_filter. by apply consistent_delete.
Qed.

Lemma filter_not_in (id : string) (q : list string) : id ∉ q -> filter (fun x => x <> id) q = q.
Proof.
  induction q as [|x q IH]; [done|]. rewrite elem_of_cons. intros Hni.
  rewrite filter_cons. destruct (decide (x <> id)); [|naive_solver]. f_equal. naive_solver.
Qed.

Lemma consistent_RemoveFirstContact s : consistent s -> consistent (snd (RemoveFirstContact s)).
Proof.
  intros Hc. unfold RemoveFirstContact. destruct (order s) as [|id q] eqn:Ho; [done|]. simpl.
  pose proof Hc as [Hk Hact Hnd Hnb].
  assert (Hid : is_Some (contacts s !! id)).
  { destruct (Hk id) as (H1&_). apply H1. rewrite Ho. left. }
  pose proof (consistent_delete id s false Hc Hid) as Hcd. rewrite Ho in Hcd, Hnd.
  rewrite filter_cons in Hcd. destruct (decide (id <> id)); [done|].
  apply NoDup_cons in Hnd as [Hni Hnd]. by rewrite filter_not_in in Hcd.
Qed.

Lemma insert_lookup_iff {V} (m : gmap string V) id v k (q : list string) (Hk : is_Some (m !! k) <-> k ∈ q) :
  is_Some (<[id:=v]> m !! k) <-> k ∈ q ++ [id].
Proof.
  rewrite elem_of_app, elem_of_list_singleton. destruct (decide (k = id)) as [->|Hne].
  - rewrite lookup_insert. naive_solver.
  - rewrite lookup_insert_ne by done. naive_solver.
Qed.

Lemma consistent_add id cfg p n r s :
  consistent s -> contacts s !! id = None -> consistent (addContact id cfg p n r s).
Proof.
  intros [Hk Hact Hnd Hnb] Hid. split; simpl.
  - intros k. destruct (Hk k) as (H1&H2&H3&H4). split_and!; by apply insert_lookup_iff.
  - intros k. rewrite elem_of_app, elem_of_list_singleton.
    destruct (decide (k = id)) as [->|Hne]; [by rewrite lookup_insert|].
    rewrite lookup_insert_ne by done. naive_solver.
  - apply NoDup_app. split_and!; [done| |by apply NoDup_singleton].
    intros x Hx. rewrite elem_of_list_singleton. intros ->.
    destruct (Hk id) as (H1&_). apply H1 in Hx as [? Hx]. congruence.
  - rewrite Hnb. unfold winc. rewrite mod_add_1. f_equal.
    rewrite map_size_insert_None by done. lia.
Qed.

Lemma RemoveContact_gone id s : contacts (snd (RemoveContact id s)) !! id = None.
Proof.
  unfold RemoveContact. destruct (has id (contacts s)) eqn:Hh; simpl.
  - apply lookup_delete.
  - by apply has_false.
Qed.

Lemma consistent_step s o : consistent s -> consistent (state_step s o).
Proof.
  intros Hc. destruct o; simpl.
  - apply consistent_add; [by apply consistent_RemoveContact|]. apply RemoveContact_gone.
  - by apply consistent_RemoveContact.
  - by apply consistent_RemoveFirstContact.
Qed.

Lemma consistent_history c0 r0 ops :
  consistent (fold_left state_step ops (state_default c0 r0 : St)).
Proof.
  generalize (consistent_default c0 r0). generalize (state_default c0 r0 : St).
  induction ops as [|o ops IH]; intros s Hs; simpl; [done|].
  apply IH. by apply consistent_step.
Qed.

Definition older (ops : list (state_op Cfg Pos Rot)) (a b : string) : Prop :=
  exists n m, last_added_at ops n a /\ last_added_at ops m b /\ n < m.
Lemma last_added_app (ops : list (state_op Cfg Pos Rot)) o n k : last_added_at ops n k -> (forall cfg p nn r, o <> OpAdd k cfg p nn r) -> last_added_at (ops ++ [o]) n k.
Proof.
  intros [(cfg & p & nn & r & H) Hlast] Ho. split.
  - exists cfg, p, nn, r. by apply lookup_app_l_Some.
  - intros m Hm (cfg' & p' & nn' & r' & H'). apply lookup_app_Some in H' as [H'|[Hlen H']].
    + apply (Hlast m Hm). by exists cfg', p', nn', r'.
    + apply list_lookup_singleton_Some in H' as [_ H']. by apply (Ho cfg' p' nn' r').
Qed.
Lemma sorted_weaken {A} (R R' : A -> A -> Prop) (l : list A) : (forall a b, a ∈ l -> b ∈ l -> R a b -> R' a b) ->
  StronglySorted R l -> StronglySorted R' l.
Proof.
  intros H Hs. induction Hs as [|a l Hs IH Hall]; constructor.
  - apply IH. intros x y Hx Hy. apply H; by right.
  - apply Forall_forall. intros x Hx. apply H; [by left|by right|]. by apply (proj1 (Forall_forall _ _) Hall).
Qed.
Lemma sorted_filter {A} (R : A -> A -> Prop) (P : A -> Prop) `{!forall x, Decision (P x)} (l : list A) :
  StronglySorted R l -> StronglySorted R (filter P l).
Proof.
  intros Hs. induction Hs as [|a l Hs IH Hall]; [constructor|]. rewrite filter_cons. destruct (decide (P a)); [|done].
  constructor; [done|]. apply Forall_forall. intros x Hx. apply elem_of_list_filter in Hx as [_ Hx]. by apply (proj1 (Forall_forall _ _) Hall).
Qed.
Lemma sorted_snoc {A} (R : A -> A -> Prop) (l : list A) z : StronglySorted R l -> (forall a, a ∈ l -> R a z) -> StronglySorted R (l ++ [z]).
Proof.
  intros Hs. induction Hs as [|a l Hs IH Hall]; intros H; simpl.
  - constructor; [constructor|constructor].
  - constructor; [apply IH; intros x Hx; apply H; by right|]. apply Forall_app. split; [done|].
    constructor; [|constructor]. apply H. by left.
Qed.
Lemma order_RemoveContact id s : consistent s -> order (snd (RemoveContact id s)) = filter (fun x => x <> id) (order s).
Proof.
  intros Hc. unfold RemoveContact. destruct (has id (contacts s)) eqn:Hh; simpl; [apply queue_without_filter|].
  symmetry. apply filter_not_in. intros Hin. apply has_false in Hh. destruct (co_keys _ Hc id) as [H _]. apply H in Hin as [? Hin]. congruence.
Qed.
Lemma chronological c0 r0 ops : let s := fold_left state_step ops (state_default c0 r0 : St) in
  Forall (fun a => exists n, last_added_at ops n a) (order s) /\ StronglySorted (older ops) (order s).
Proof.
  induction ops as [|o ops [IH1 IH2]] using rev_ind; [split; constructor|]. cbn zeta. rewrite fold_left_app. cbn [fold_left].
  pose proof (consistent_history c0 r0 ops) as Hc. set (s := fold_left state_step ops (state_default c0 r0)) in *.
  assert (Hkeep : forall a, (forall cfg p nn r, o <> OpAdd a cfg p nn r) -> (exists n, last_added_at ops n a) -> exists n, last_added_at (ops ++ [o]) n a).
  { intros a Ha [n Hn]. exists n. by apply last_added_app. }
  assert (Holder : forall a b, (forall cfg p nn r, o <> OpAdd a cfg p nn r) -> (forall cfg p nn r, o <> OpAdd b cfg p nn r) ->
     older ops a b -> older (ops ++ [o]) a b).
  { intros a b Ha Hb (n & m & H1 & H2 & H3). exists n, m. split_and!; [by apply last_added_app|by apply last_added_app|done]. }
  destruct o as [id cfg p n r|id|]; cbn [state_step].
  - cbn [addContact order]. rewrite order_RemoveContact by done.
    assert (Hne : forall a, a <> id -> forall cfg' p' nn' r', OpAdd id cfg p n r <> OpAdd a cfg' p' nn' r').
    { intros a Ha cfg' p' nn' r' [=]. congruence. }
    assert (Hlast : last_added_at (ops ++ [OpAdd id cfg p n r]) (length ops) id).
    { split; [exists cfg, p, n, r; by rewrite list_lookup_middle|]. intros m Hm (cfg' & p' & nn' & r' & H').
      apply lookup_lt_Some in H'. rewrite app_length in H'. simpl in H'. lia. }
    split.
    + apply Forall_app. split; [|constructor; [by exists (length ops)|constructor]].
      apply Forall_forall. intros a Ha. apply elem_of_list_filter in Ha as [Ha1 Ha2]. apply Hkeep; [by apply Hne|].
      by apply (proj1 (Forall_forall _ _) IH1).
    + apply sorted_snoc.
      * apply (sorted_weaken (older ops)); [|by apply sorted_filter]. intros a b Ha Hb.
        apply elem_of_list_filter in Ha as [Ha _]. apply elem_of_list_filter in Hb as [Hb _]. apply Holder; by apply Hne.
      * intros a Ha. apply elem_of_list_filter in Ha as [Ha1 Ha2].
        destruct (proj1 (Forall_forall _ _) IH1 a Ha2) as [n' Hn']. exists n', (length ops). split_and!; [|done|].
        -- apply last_added_app; [done|by apply Hne].
        -- destruct Hn' as [(? & ? & ? & ? & H) _]. by apply lookup_lt_Some in H.
  - rewrite order_RemoveContact by done. split.
    + apply Forall_forall. intros a Ha. apply elem_of_list_filter in Ha as [_ Ha]. apply Hkeep; [done|]. by apply (proj1 (Forall_forall _ _) IH1).
    + apply (sorted_weaken (older ops)); [intros; by apply Holder|by apply sorted_filter].
  - destruct (order s) as [|a q] eqn:E.
    + rewrite RemoveFirstContact_empty by done. cbn [snd]. rewrite E. split; constructor.
    + destruct (RemoveFirstContact_cons s a q E) as (s' & Hs' & Hq & _). rewrite Hs'. cbn [snd]. rewrite Hq.
      inversion_clear IH1. inversion_clear IH2. split.
      * apply Forall_forall. intros b Hb. apply Hkeep; [done|]. by apply (proj1 (Forall_forall _ _) H0).
      * apply (sorted_weaken (older ops)); [intros; by apply Holder|done].
Qed.
Lemma sorted_lookup {A} (R : A -> A -> Prop) (l : list A) : StronglySorted R l -> forall i j a b, i < j -> l !! i = Some a -> l !! j = Some b -> R a b.
Proof.
  intros Hs. induction Hs as [|x l Hs IH Hall]; intros i j a b Hij Ha Hb; [done|]. destruct j as [|j]; [lia|]. destruct i as [|i].
  - injection Ha as ->. apply (proj1 (Forall_forall _ _) Hall). by apply (elem_of_list_lookup_2 l j).
  - apply (IH i j a b); [lia|done|done].
Qed.
Lemma queue_chronological c0 r0 ops i j a b : let s := fold_left state_step ops (state_default c0 r0 : St) in
  i < j -> order s !! i = Some a -> order s !! j = Some b ->
  exists n m, last_added_at ops n a /\ last_added_at ops m b /\ n < m.
Proof. intros s Hij Ha Hb. destruct (chronological c0 r0 ops) as [_ H]. by apply (sorted_lookup _ _ H i j). Qed.
Lemma consistent_size s :
  consistent s -> size (contacts s) = length (order s).
Proof.
  intros [Hk _ Hnd _]. rewrite <- length_skeys. apply Permutation_length.
  apply NoDup_Permutation; [apply skeys_NoDup|done|].
  intros k. rewrite elem_of_skeys. by destruct (Hk k) as (?&_).
Qed.

(** * Creations, breaks, variations *)
Variable moved : Pos -> Pos -> bool.

Lemma isNew_created this prev k p :
  positions this !! k = Some p -> (isNew moved prev k p = true <-> created moved prev this k).
Proof.
  intros Hp. unfold isNew, created. destruct (positions prev !! k) as [q|] eqn:Hq; split.
  - intros Hm. exists p. split; [done|]. right. eauto.
  - intros (p' & Hp' & [?|(q' & Hq' & Hm)]); [congruence|]. congruence.
  - intros _. exists p. eauto.
  - done.
Qed.

Lemma creations_fold prev l out :
  NoDup (l.*1) ->
  fold_left (fun out '(name, p) =>
     if isNew moved prev name p && negb (inb name out) then out ++ [name] else out) l out
  = out ++ filter (fun k => k ∉ out) (filter (fun '(k, p) => isNew moved prev k p = true) l).*1.
Proof.
  revert out. induction l as [|[k p] l IH]; intros out Hnd; simpl.
  - by rewrite app_nil_r.
  - simpl in Hnd. apply NoDup_cons in Hnd as [Hk Hnd]. rewrite IH by done. clear IH.
    rewrite filter_cons. destruct (decide _) as [Hn|Hn].
    + rewrite Hn. simpl. rewrite filter_cons.
      destruct (inb k out) eqn:Hi.
      * apply inb_true in Hi. simpl. destruct (decide (k ∉ out)); [done|]. done.
      * apply inb_false in Hi. simpl. destruct (decide (k ∉ out)); [|done].
        rewrite <- app_assoc. simpl. f_equal. f_equal.
        apply filter_ext_on. intros x Hx.
        apply elem_of_list_fmap in Hx as ([x' p'] & -> & Hx). apply elem_of_list_filter in Hx as [_ Hx].
        simpl. rewrite elem_of_app, elem_of_list_singleton.
        assert (x' <> k); [|naive_solver].
        intros ->. apply Hk. apply elem_of_list_fmap. by exists (k, p').
    + apply not_true_is_false in Hn. by rewrite Hn.
Qed.

Lemma filter_fst_items this prev :
  (filter (fun '(k, p) => isNew moved prev k p = true) (sitems (positions this))).*1
  = filter (fun k => createdb moved prev this k = true) (skeys (positions this)).
Proof.
  rewrite <- sitems_keys.
  assert (Hall : Forall (fun '(k,p) => positions this !! k = Some p) (sitems (positions this))).
  { apply Forall_forall. intros [k p]. apply elem_of_sitems. }
  induction Hall as [|[k p] l Hk _ IH]; [done|].
  rewrite fmap_cons. simpl. rewrite !filter_cons.
  assert (Hb : createdb moved prev this k = isNew moved prev k p) by (unfold createdb; by rewrite Hk).
  destruct (decide (isNew moved prev k p = true)) as [Hn|Hn];
    destruct (decide (createdb moved prev this k = true)) as [Hn'|Hn']; try congruence.
  rewrite fmap_cons. by rewrite IH.
Qed.

Lemma createdb_spec this prev k : createdb moved prev this k = true <-> created moved prev this k.
Proof.
  unfold createdb. destruct (positions this !! k) as [p|] eqn:Hp.
  - by apply isNew_created.
  - split; [done|]. intros (p & Hp' & _). congruence.
Qed.

Lemma contactCreations_into_eq this prev out :
  contactCreations_into moved this prev out
  = out ++ filter (fun k => k ∉ out)
             (filter (fun k => createdb moved prev this k = true) (skeys (positions this))).
Proof.
  unfold contactCreations_into. rewrite creations_fold.
  - by rewrite filter_fst_items.
  - rewrite sitems_keys. apply skeys_NoDup.
Qed.

Lemma contactCreations_eq this prev :
  contactCreations moved this prev
  = filter (fun k => createdb moved prev this k = true) (skeys (positions this)).
Proof.
  unfold contactCreations. rewrite contactCreations_into_eq. simpl.
  apply filter_all. intros k _. apply not_elem_of_nil.
Qed.

Lemma created_in_this this prev k : created moved prev this k -> is_Some (positions this !! k).
Proof. intros (p & Hp & _). eauto. Qed.

Lemma contactCreations_correct this prev :
  (forall k, k ∈ contactCreations moved this prev <-> created moved prev this k) /\
  NoDup (contactCreations moved this prev) /\
  StronglySorted str_le (contactCreations moved this prev).
Proof.
  rewrite contactCreations_eq. split_and!.
  - intros k. rewrite elem_of_list_filter, createdb_spec, elem_of_skeys.
    split; [naive_solver|]. intros H. split; [done|]. by apply created_in_this in H.
  - apply NoDup_filter, skeys_NoDup.
  - apply filter_StronglySorted, skeys_sorted.
Qed.

Lemma contactCreations_into_correct this prev out :
  exists l, contactCreations_into moved this prev out = out ++ l /\
    (forall k, k ∈ l <-> created moved prev this k /\ k ∉ out) /\ NoDup l /\
    StronglySorted str_le l.
Proof.
  rewrite contactCreations_into_eq. eexists. split; [done|]. split_and!.
  - intros k. rewrite !elem_of_list_filter, createdb_spec, elem_of_skeys.
    split; [naive_solver|]. intros [H ?]. split_and!; [done..|]. by apply created_in_this in H.
  - apply NoDup_filter, NoDup_filter, skeys_NoDup.
  - apply filter_StronglySorted, filter_StronglySorted, skeys_sorted.
Qed.

Lemma contactBreaks_eq this prev :
  contactBreaks moved this prev = contactCreations moved prev this.
Proof. done. Qed.

Lemma elem_of_variations this prev k :
  k ∈ contactVariations moved this prev <->
  created moved prev this k \/ created moved this prev k.
Proof.
  unfold contactVariations, contactBreaks_into.
  destruct (contactCreations_into_correct prev this (contactCreations_into moved this prev []))
    as (l & -> & Hl & _ & _).
  rewrite elem_of_app, Hl. fold (contactCreations moved this prev).
  destruct (contactCreations_correct this prev) as (Hc & _ & _). rewrite Hc.
  destruct (decide (k ∈ contactCreations moved this prev)) as [Hd|Hd]; rewrite Hc in Hd; naive_solver.
Qed.

Lemma variations_NoDup this prev : NoDup (contactVariations moved this prev).
Proof.
  unfold contactVariations, contactBreaks_into.
  destruct (contactCreations_into_correct prev this (contactCreations_into moved this prev []))
    as (l & -> & Hl & Hnd & _).
  apply NoDup_app. fold (contactCreations moved this prev).
  destruct (contactCreations_correct this prev) as (Hc & Hn & _).
  split_and!; [done| |done]. intros k Hk Hkl. apply Hl in Hkl. naive_solver.
Qed.

Lemma created_refl_false this k :
  (forall p, moved p p = false) -> ~ created moved this this k.
Proof. intros Hm (p & Hp & [?|(q & Hq & Hmv)]); [congruence|]. rewrite Hp in Hq. simplify_eq. congruence. Qed.

Lemma variations_self this :
  (forall p, moved p p = false) -> contactVariations moved this this = [].
Proof.
  intros Hm. destruct (contactVariations moved this this) as [|k l] eqn:Hv; [done|].
  assert (Hk : k ∈ contactVariations moved this this) by (rewrite Hv; left).
  apply elem_of_variations in Hk as [Hk|Hk]; by apply created_refl_false in Hk.
Qed.

(** a contact of [this] is a variation iff it is created (as [moved] is symmetric) *)
Lemma variation_iff_created this prev k :
  (forall p q, moved p q = moved q p) -> is_Some (positions this !! k) ->
  (k ∈ contactVariations moved this prev <-> created moved prev this k).
Proof.
  intros Hsym [p Hp]. rewrite elem_of_variations. split; [|naive_solver].
  intros [?|(q & Hq & [Hn|(p' & Hp' & Hm)])]; [done|congruence|].
  exists p. split; [done|]. right. exists q. split; [done|]. rewrite Hsym. congruence.
Qed.

Lemma kept_not_created this prev k :
  kept moved prev this k <-> is_Some (positions this !! k) /\ ~ created moved prev this k.
Proof.
  unfold kept, created. split.
  - intros (p & q & Hp & Hq & Hm). split; [eauto|].
    intros (p' & Hp' & [?|(q' & Hq' & Hm')]); congruence.
  - intros [[p Hp] Hn]. destruct (positions prev !! k) as [q|] eqn:Hq.
    + exists p, q. split_and!; try done. destruct (moved q p) eqn:Hm; [|done].
      exfalso. apply Hn. eauto 10.
    + exfalso. apply Hn. eauto.
Qed.

Lemma fixedContacts_correct this prev :
  (forall p q, moved p q = moved q p) ->
  (forall k, k ∈ fixedContacts moved this prev <-> kept moved prev this k) /\
  NoDup (fixedContacts moved this prev) /\
  StronglySorted str_le (fixedContacts moved this prev).
Proof.
  intros Hsym. unfold fixedContacts. split_and!.
  - intros k. rewrite elem_of_list_filter, inb_false, elem_of_skeys, kept_not_created.
    split.
    + intros [Hv Hk]. split; [done|]. by rewrite <- variation_iff_created.
    + intros [Hk Hv]. split; [|done]. by rewrite variation_iff_created.
  - apply NoDup_filter, skeys_NoDup.
  - apply filter_StronglySorted, skeys_sorted.
Qed.

Lemma partition_fixed_varying this prev k :
  is_Some (positions this !! k) ->
  (k ∈ fixedContacts moved this prev /\ k ∉ contactVariations moved this prev) \/
  (k ∉ fixedContacts moved this prev /\ k ∈ contactVariations moved this prev).
Proof.
  intros Hk. unfold fixedContacts. rewrite !elem_of_list_filter, !inb_false, elem_of_skeys.
  destruct (decide (k ∈ contactVariations moved this prev)); naive_solver.
Qed.

Lemma allVariations_eq this prev effs :
  allVariations moved this prev effs = filter (fun e => e ∉ fixedContacts moved this prev) effs.
Proof.
  unfold allVariations. apply filter_ext_on. intros k _. by rewrite inb_false.
Qed.

Lemma freeEffectors_eq s effs :
  freeEffectors s effs = filter (fun e => contacts s !! e <> Some true) effs.
Proof.
  unfold freeEffectors. apply filter_ext_on. intros k _.
  destruct (contacts s !! k) as [[|]|]; naive_solver.
Qed.

(** * freeVariations *)
Lemma freeLimbMotions_ok effs vars s :
  (forall e, e ∈ effs -> e ∉ vars -> is_Some (contacts s !! e)) ->
  freeLimbMotions effs vars s
  = Ok (filter (fun e => e ∉ vars /\ contacts s !! e = Some false) effs).
Proof.
  induction effs as [|e effs IH]; intros Ht; [done|].
  simpl. rewrite filter_cons. rewrite IH by (intros x Hx; apply Ht; by right).
  destruct (inb e vars) eqn:Hi.
  - apply inb_true in Hi. destruct (decide _); naive_solver.
  - apply inb_false in Hi. destruct (Ht e) as [b Hb]; [by left|done|].
    rewrite Hb. destruct b, (decide _); naive_solver.
Qed.

Lemma freeLimbMotions_throw effs vars s e :
  e ∈ effs -> e ∉ vars -> contacts s !! e = None -> freeLimbMotions effs vars s = Throw.
Proof.
  induction effs as [|x effs IH]; intros He Hv Hc.
  { by apply elem_of_nil in He. }
  simpl. apply elem_of_cons in He as [->|He].
  - apply inb_false in Hv as ->. by rewrite Hc.
  - rewrite (IH He Hv Hc). destruct (inb x vars); [done|]. by destruct (contacts s !! x).
Qed.

(** * Printing *)
Lemma print_names_ub s n it : length it < n -> (forall k, k ∈ it -> is_Some (positions s !! k) /\ is_Some (rotations s !! k)) -> print_names s n it = Ub.
Proof.
  revert it. induction n as [|n IH]; intros it Hl Hin; [lia|].
  destruct it as [|k it]; [done|]. simpl in *.
  destruct (Hin k) as [Hp Hr]; [left|]. apply has_true in Hp as ->. apply has_true in Hr as ->. simpl.
  rewrite IH; [done|lia|]. intros x Hx. apply Hin. by right.
Qed.

Lemma print_names_ok s n it : n <= length it -> (forall k, k ∈ it -> is_Some (positions s !! k) /\ is_Some (rotations s !! k)) -> print_names s n it = Ok (take n it).
Proof.
  revert it. induction n as [|n IH]; intros it Hl Hin; [done|].
  destruct it as [|k it]; simpl in Hl; [lia|]. simpl.
  destruct (Hin k) as [Hp Hr]; [left|]. apply has_true in Hp as ->. apply has_true in Hr as ->. simpl.
  rewrite IH; [done|lia|]. intros x Hx. apply Hin. by right.
Qed.

Lemma consistent_print s :
  consistent s -> (Z.of_nat (size (contacts s)) < 2 ^ 64)%Z ->
  printInternal_names s = Ok (skeys (contacts s)).
Proof.
  intros Hc Hsz. pose proof Hc as [Hk _ _ Hnb].
  assert (Heq : skeys (normals s) = skeys (contacts s)).
  { apply skeys_unique; auto using skeys_sorted, skeys_NoDup. intros k.
    rewrite elem_of_skeys. destruct (Hk k) as (->&->&_). done. }
  unfold printInternal_names. rewrite Heq, Hnb, Z.mod_small by lia.
  rewrite Nat2Z.id. rewrite print_names_ok.
  - rewrite firstn_all2; [done|]. rewrite length_skeys. lia.
  - rewrite length_skeys. lia.
  - intros k. rewrite elem_of_skeys. destruct (Hk k) as (->&_&->&->). done.
Qed.

End proofs.
