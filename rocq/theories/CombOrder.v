(** The exact order of the candidates of maintain_contacts_combinatorial. *)
From Coq Require Import ZArith Lia.
From Verif Require Import Maps MapsProofs StateModel StateSpec StateProofs CombModel CombSpec CombProofs.

Lemma combinations_0 {A} (l : list A) : combinations 0 l = [[]].
Proof. by destruct l. Qed.
Lemma combinations_in {A} (l : list A) : forall k q, q ∈ combinations k l -> length q = k /\ q `sublist_of` l.
Proof.
  induction l as [|x l IH]; intros [|k] q; cbn [combinations].
  - intros H. apply elem_of_list_singleton in H as ->. split; [done|constructor].
  - intros H. by apply elem_of_nil in H.
  - intros H. apply elem_of_list_singleton in H as ->. split; [done|apply sublist_nil_l].
  - rewrite elem_of_app. intros [H|H].
    + apply elem_of_list_fmap in H as (q' & -> & H). apply IH in H as [<- H]. split; [done|by constructor].
    + apply IH in H as [H1 H]. split; [done|by constructor].
Qed.
Lemma combinations_sublist {A} (q l : list A) : q `sublist_of` l -> q ∈ combinations (length q) l.
Proof.
  induction 1 as [|x q l _ IH|x q l _ IH].
  - cbn. left.
  - cbn [combinations length]. apply elem_of_app. left. apply elem_of_list_fmap. eauto.
  - destruct q; [rewrite combinations_0; left|]. cbn [combinations length]. apply elem_of_app. by right.
Qed.
Lemma sublist_subset {A} (q l : list A) : q `sublist_of` l -> q ⊆ l.
Proof. intros H x Hx. by eapply elem_of_submseteq, sublist_submseteq. Qed.
Lemma NoDup_sublist {A} (q l : list A) : q `sublist_of` l -> NoDup l -> NoDup q.
Proof.
  induction 1 as [|x q l H IH|x q l H IH]; [done| |]; intros Hn; apply NoDup_cons in Hn as [Hx Hn].
  - apply NoDup_cons. split; [|auto]. intros Hin. by apply Hx, (sublist_subset _ _ H).
  - auto.
Qed.
Lemma filter_sublist {A} (P : A -> Prop) `{!forall x, Decision (P x)} (l : list A) : filter P l `sublist_of` l.
Proof. induction l as [|x l IH]; [constructor|]. rewrite filter_cons. destruct (decide (P x)); by constructor. Qed.
Lemma combinations_subset (q r : list string) : NoDup q -> NoDup r -> q ⊆ r ->
  exists q', q' ≡ₚ q /\ q' ∈ combinations (length q) r.
Proof.
  intros Hq Hr Hs. exists (filter (fun x => x ∈ q) r).
  assert (Hp : filter (fun x => x ∈ q) r ≡ₚ q).
  { apply NoDup_Permutation; [by apply NoDup_filter|done|]. intros x. rewrite elem_of_list_filter. naive_solver. }
  split; [done|]. rewrite <- (Permutation_length Hp). apply combinations_sublist. apply filter_sublist.
Qed.

Section order.
Context {Cfg Pos Rot Rob : Type}.
Notation St := (State Cfg Pos Rot Rob).
Notation lev res d := (default [] (res !! d)).
Variable (s0 : St) (m : nat).
Hypothesis Hc0 : consistent s0.

(** all the choices that contain [p] have been seen *)
Definition full (p : list string) (res : list (list St)) : Prop :=
  forall q, NoDup (p ++ q) -> p ++ q ⊆ order s0 -> length (p ++ q) <= m -> without (p ++ q) s0 ∈ lev res (length (p ++ q)).
Definition grows (res res' : list (list St)) : Prop := forall d c, c ∈ lev res d -> c ∈ lev res' d.
Lemma full_grows p res res' : grows res res' -> full p res -> full p res'.
Proof. intros Hg Hf q H1 H2 H3. by apply Hg, Hf. Qed.
Lemma full_perm p p' res : p ≡ₚ p' -> full p res -> full p' res.
Proof.
  intros Hp Hf q H1 H2 H3. assert (Hpq : p ++ q ≡ₚ p' ++ q) by (by rewrite Hp).
  rewrite <- (without_perm (p ++ q)) by done. rewrite <- (Permutation_length Hpq). apply Hf.
  - by rewrite Hpq.
  - intros x Hx. apply H2. by rewrite <- Hpq.
  - by rewrite (Permutation_length Hpq).
Qed.
Lemma full_more p x res : full p res -> full (p ++ [x]) res.
Proof. intros Hf q. rewrite <- (assoc_L (++)). apply Hf. Qed.
(** what comes before is there, what comes after is not *)
Definition before (p pre : list string) (res : list (list St)) : Prop := forall y, y ∈ pre -> y ∉ p -> full (p ++ [y]) res.
Definition after (p r : list string) (k : nat) (res : list (list St)) : Prop :=
  forall q, q ∈ combinations k r -> forall c, c ∈ lev res (length p + k) -> order c <> order (without (p ++ q) s0).
Definition added (p r : list string) (k : nat) : list St := map (fun q => without (p ++ q) s0) (combinations k r).

Lemma insert_lev (res : list (list St)) d : d < length res -> <[d := lev res d]> res = res.
Proof. intros Hd. apply list_insert_id. destruct (res !! d) eqn:E; [done|]. apply lookup_ge_None in E. lia. Qed.
Lemma split_order p pre r : order s0 = pre ++ r -> NoDup (pre ++ r) -> p `sublist_of` pre ->
  order (without p s0) = filter (fun x => x ∉ p) pre ++ r /\ NoDup p /\ p ⊆ pre /\ forall x, x ∈ r -> x ∉ p.
Proof.
  intros Ho Hnd Hp. assert (Hsub := sublist_subset _ _ Hp). apply NoDup_app in Hnd as (Hn1 & Hdis & Hn2).
  assert (Hr : forall x, x ∈ r -> x ∉ p) by (intros x Hx Hxp; exact (Hdis x (Hsub x Hxp) Hx)).
  split; [|split; [by eapply NoDup_sublist|by split]].
  rewrite without_order by done. rewrite Ho, filter_app. f_equal. apply filter_all. exact Hr.
Qed.
(** the levels after the call *)
Definition extended (p r : list string) (from : nat) (res res' : list (list St)) : Prop :=
  length res' = length res /\ (forall d, d < from -> lev res' d = lev res d) /\
  forall d, from <= d <= m -> lev res' d = lev res d ++ added p r (d - length p).
Lemma extended_grows p r from res res' : length res = S m -> extended p r from res res' -> grows res res'.
Proof.
  intros Hl (H0 & H1 & H2) d c Hc. destruct (decide (d < from)); [by rewrite H1|].
  destruct (decide (d <= m)); [rewrite H2 by lia; apply elem_of_app; by left|].
  rewrite lookup_ge_None_2 in Hc by lia. by apply elem_of_nil in Hc.
Qed.
Definition calls_ok (fuel : nat) : Prop := forall p pre r res,
  length p + fuel = m -> order s0 = pre ++ r -> NoDup (pre ++ r) -> p `sublist_of` pre -> length res = S m ->
  before p pre res -> (forall k, k <= fuel -> after p r k res) ->
  extended p r (length p) res (maintain_rec fuel (length p) (without p s0) res).
Lemma call_full fuel p pre r res res' :
  length p + fuel = m -> order s0 = pre ++ r -> NoDup (pre ++ r) -> p `sublist_of` pre -> length res = S m ->
  before p pre res -> extended p r (length p) res res' -> full p res'.
Proof.
  intros Hf Ho Hnd Hp Hl Hb He q H1 H2 H3. assert (Hg := extended_grows _ _ _ _ _ Hl He).
  destruct (split_order p pre r Ho Hnd Hp) as (_ & Hnp & Hpp & Hrp).
  destruct (decide (Exists (fun x => x ∈ pre) q)) as [Hx|Hx].
  - apply Exists_exists in Hx as (y & Hy & Hyp). apply elem_of_Permutation in Hy as [q' Hq].
    assert (Hyp' : y ∉ p).
    { intros Hin. apply NoDup_app in H1 as (_ & Hdis & _). apply (Hdis y Hin). rewrite Hq. left. }
    assert (Hpq : p ++ q ≡ₚ (p ++ [y]) ++ q') by (rewrite Hq, <- (assoc_L (++)); done).
    rewrite (without_perm _ _ s0 Hpq), (Permutation_length Hpq). apply (full_grows _ _ _ Hg (Hb y Hyp Hyp')).
    + by rewrite <- Hpq.
    + intros z Hz. apply H2. by rewrite Hpq.
    + by rewrite <- (Permutation_length Hpq).
  - assert (Hq : q ⊆ r).
    { intros x Hx'. assert (x ∈ pre ++ r) as Hin. { rewrite <- Ho. apply H2. apply elem_of_app. by right. }
      apply elem_of_app in Hin as [Hin|Hin]; [|done]. exfalso. apply Hx. apply Exists_exists. eauto. }
    apply NoDup_app in H1 as (_ & _ & Hnq). apply NoDup_app in Hnd as (_ & _ & Hnr).
    destruct (combinations_subset q r Hnq Hnr Hq) as (q' & Hperm & Hin). destruct He as (_ & _ & He).
    rewrite He by (rewrite app_length in *; lia). apply elem_of_app. right. unfold added. apply elem_of_list_fmap.
    exists q'. split; [by apply without_perm; rewrite Hperm|]. rewrite app_length. by replace (length p + length q - length p) with (length q) by lia.
Qed.
(** the children of [p] that come after it *)
Lemma loop_ok fuel p : calls_ok fuel -> length p + S fuel = m -> forall r pre res,
  order s0 = pre ++ r -> NoDup (pre ++ r) -> p `sublist_of` pre -> length res = S m ->
  before p pre res -> (forall k, 1 <= k <= S fuel -> after p r k res) ->
  extended p r (S (length p)) res
    (fold_left (fun res id => maintain_rec fuel (S (length p)) (snd (RemoveContact id (without p s0))) res) r res).
Proof.
  intros IH Hf. induction r as [|x r IHr]; intros pre res Ho Hnd Hp Hl Hb Ha; cbn [fold_left].
  { split; [done|]. split; [done|]. intros d Hd. unfold added. replace (d - length p) with (S (d - S (length p))) by lia. cbn. by rewrite app_nil_r. }
  assert (Hnd' := Hnd). apply NoDup_app in Hnd' as (Hn1 & Hdis & Hn2). apply NoDup_cons in Hn2 as [Hxr Hn2].
  assert (Hxp : x ∉ p). { intros Hin. apply (Hdis x); [by eapply sublist_subset|left]. }
  assert (Ho' : order s0 = (pre ++ [x]) ++ r) by (rewrite <- (assoc_L (++)); done).
  assert (Hnd2 : NoDup ((pre ++ [x]) ++ r)) by (rewrite <- (assoc_L (++)); done).
  assert (Hp' : p ++ [x] `sublist_of` pre ++ [x]) by (apply sublist_app; done).
  assert (Hlp : length (p ++ [x]) = S (length p)) by (rewrite app_length; cbn; lia).
  assert (Hb' : before (p ++ [x]) (pre ++ [x]) res).
  { intros y Hy Hyn. assert (y ∈ pre) as Hyp.
    { apply elem_of_app in Hy as [Hy|Hy]; [done|]. exfalso. apply Hyn. apply elem_of_app. by right. }
    apply (full_perm ((p ++ [y]) ++ [x])); [rewrite <- !(assoc_L (++)); cbn; by rewrite (perm_swap x y)|].
    apply full_more. apply Hb; [done|]. intros Hin. apply Hyn. apply elem_of_app. by left. }
  assert (H1 : extended (p ++ [x]) r (S (length p)) res (maintain_rec fuel (S (length p)) (snd (RemoveContact x (without p s0))) res)).
  { replace (snd (RemoveContact x (without p s0))) with (without (p ++ [x]) s0) by (by rewrite without_app).
    rewrite <- Hlp. apply (IH (p ++ [x]) (pre ++ [x]) r res); try done; [lia|].
    intros k Hk q Hq. rewrite Hlp. rewrite <- (assoc_L (++)). cbn. replace (S (length p + k)) with (length p + S k) by lia.
    apply (Ha (S k)); [lia|]. cbn [combinations]. apply elem_of_app. left. apply elem_of_list_fmap. eauto. }
  set (res1 := maintain_rec fuel (S (length p)) (snd (RemoveContact x (without p s0))) res) in *.
  assert (Hg := extended_grows _ _ _ _ _ Hl H1).
  assert (Hfull : full (p ++ [x]) res1). { apply (call_full fuel (p ++ [x]) (pre ++ [x]) r res res1); try done; [lia|]. by rewrite Hlp. }
  destruct H1 as (L1 & E1 & E2).
  destruct (IHr (pre ++ [x]) res1 Ho' Hnd2) as (L2 & F1 & F2).
  - by apply sublist_inserts_r.
  - by rewrite L1.
  - intros y Hy Hyp. apply elem_of_app in Hy as [Hy|Hy]; [apply (full_grows _ _ _ Hg); by apply Hb|].
    apply elem_of_list_singleton in Hy as ->. done.
  - intros k Hk q Hq c. rewrite E2 by lia. rewrite elem_of_app. intros [Hin|Hin] Hoc.
    + apply (Ha k Hk q) in Hin; [done|]. destruct k as [|k]; [lia|]. cbn [combinations]. apply elem_of_app. by right.
    + unfold added in Hin. apply elem_of_list_fmap in Hin as (q' & -> & Hq').
      apply combinations_in in Hq as [Hlq Hsq]. apply combinations_in in Hq' as [Hlq' Hsq'].
      assert (Hx : x ∈ order (without (p ++ q) s0)).
      { rewrite without_order by done. apply elem_of_list_filter. split.
        - rewrite elem_of_app. intros [Hi|Hi]; [done|]. by apply Hxr, (sublist_subset _ _ Hsq).
        - rewrite Ho. apply elem_of_app. right. left. }
      rewrite <- Hoc in Hx. rewrite without_order in Hx by done. apply elem_of_list_filter in Hx as [Hx _]. apply Hx.
      apply elem_of_app. left. apply elem_of_app. right. left.
  - split; [by rewrite L2|]. split; [intros d Hd; by rewrite F1, E1|].
    intros d Hd. rewrite F2, E2 by lia. rewrite <- (assoc_L (++)). f_equal. unfold added. rewrite Hlp.
    replace (d - length p) with (S (d - S (length p))) by lia. cbn [combinations]. rewrite map_app, map_map. f_equal.
    apply map_ext. intros q. by rewrite <- (assoc_L (++)).
Qed.
Lemma calls_all fuel : calls_ok fuel.
Proof.
  induction fuel as [|fuel IH]; intros p pre r res Hf Ho Hnd Hp Hl Hb Ha; cbn [maintain_rec].
  all: assert (Hd : length p < length res) by lia.
  all: destruct (push_if_new_cases (lev res (length p)) (without p s0)) as [(c' & Hin & Hoc & Hpush)|[Hnew Hpush]]; rewrite Hpush.
  1, 3: exfalso; refine (Ha 0 ltac:(lia) [] _ c' _ _); [rewrite combinations_0; left|by rewrite Nat.add_0_r|by rewrite app_nil_r].
  all: set (res0 := <[length p := lev res (length p) ++ [without p s0]]> res).
  all: assert (Heq : lev res0 (length p) = lev res (length p) ++ [without p s0]) by (by apply lev_insert_eq).
  all: assert (Hne : forall d, d <> length p -> lev res0 d = lev res d) by (intros d Hne; by apply lev_insert_ne).
  all: assert (Hl0 : length res0 = length res) by apply insert_length.
  all: assert (Hone : added p r 0 = [without p s0]) by (unfold added; rewrite combinations_0; cbn; by rewrite app_nil_r).
  - split; [done|]. split; [intros d Hlt; apply Hne; lia|]. intros d Hle. replace d with (length p) by lia.
    by rewrite Nat.sub_diag, Hone.
  - destruct (split_order p pre r Ho Hnd Hp) as (Hord & Hnp & Hpp & Hrp). rewrite Hord, fold_left_app.
    assert (Hb0 : before p pre res0).
    { intros y Hy Hyp. apply (full_grows (p ++ [y]) res); [|by apply Hb]. intros d c Hc. destruct (decide (d = length p)) as [->|Hnd']; [|by rewrite Hne].
      rewrite Heq. apply elem_of_app. by left. }
    assert (Hskip : forall ids, (forall x, x ∈ ids -> x ∈ pre /\ x ∉ p) ->
      fold_left (fun res id => maintain_rec fuel (S (length p)) (snd (RemoveContact id (without p s0))) res) ids res0 = res0).
    { induction ids as [|x ids IHi]; intros Hids; [done|]. cbn [fold_left]. replace (maintain_rec _ _ _ res0) with res0.
      - apply IHi. intros y Hy. apply Hids. by right.
      - symmetry. destruct (Hids x ltac:(left)) as [Hxp Hxn].
        assert (Hin : without (p ++ [x]) s0 ∈ lev res0 (S (length p))).
        { assert (Hlen : length ((p ++ [x]) ++ []) = S (length p)) by (rewrite app_nil_r, app_length; cbn; lia).
          rewrite <- Hlen. rewrite <- (app_nil_r (p ++ [x])) at 1. apply (Hb0 x Hxp Hxn []).
          - rewrite app_nil_r. apply NoDup_app. split; [done|]. split; [|apply NoDup_singleton]. intros z Hz Hz'. apply elem_of_list_singleton in Hz'. by subst.
          - rewrite app_nil_r. intros z Hz. rewrite Ho. apply elem_of_app. left. apply elem_of_app in Hz as [Hz|Hz]; [auto|]. apply elem_of_list_singleton in Hz. by subst.
          - rewrite Hlen. lia. }
        rewrite without_app in Hin. cbn in Hin.
        destruct fuel as [|fuel']; cbn [maintain_rec];
          (destruct (push_if_new_cases (lev res0 (S (length p))) (snd (RemoveContact x (without p s0)))) as [(c' & _ & _ & Hpush')|[Hnew' _]];
           [rewrite Hpush'; apply insert_lev; lia|by destruct (Hnew' _ Hin)]). }
    rewrite Hskip by (intros x Hx; apply elem_of_list_filter in Hx; naive_solver).
    destruct (loop_ok fuel p IH Hf r pre res0 Ho Hnd Hp ltac:(lia) Hb0) as (L & E1 & E2).
    + intros k Hk q Hq c. rewrite Hne by lia. apply Ha; [lia|done].
    + split; [lia|]. split; [intros d Hlt; rewrite E1 by lia; apply Hne; lia|]. intros d Hdd.
      destruct (decide (d = length p)) as [->|Hnd'].
      * rewrite E1 by lia. by rewrite Heq, Nat.sub_diag, Hone.
      * rewrite E2 by lia. by rewrite Hne by lia.
Qed.
Theorem maintain_order : nbContacts s0 <> 1%Z ->
  maintain_contacts_combinatorial s0 m =
  concat (map (fun k => map (fun ids => without ids s0) (combinations k (order s0))) (seq 0 (S m))).
Proof.
  intros Hnb. unfold maintain_contacts_combinatorial. destruct (Z.eqb_spec (nbContacts s0) 1) as [?|_]; [done|]. f_equal.
  destruct (calls_all m [] [] (order s0) (replicate (S m) [])) as (L & _ & E); try done.
  - by destruct Hc0.
  - by rewrite replicate_length.
  - intros y Hy. by apply elem_of_nil in Hy.
  - intros k Hk q Hq c. rewrite lev_replicate. intros Hx. by apply elem_of_nil in Hx.
  - rewrite replicate_length in L. cbn [length] in *. change (without [] s0) with s0 in *.
    apply list_eq. intros d. destruct (decide (d <= m)) as [Hd|Hd].
    + specialize (E d ltac:(lia)). rewrite lev_replicate, Nat.sub_0_r in E. rewrite list_lookup_fmap, lookup_seq_lt by lia. cbn.
      destruct (lookup_lt_is_Some_2 (maintain_rec m 0 s0 (replicate (S m) [])) d ltac:(lia)) as [l Hl].
      change (maintain_rec m 0 s0 ([] :: replicate m [])) with (maintain_rec m 0 s0 (replicate (S m) [])). rewrite Hl in E |- *. cbn in E. by subst l.
    + rewrite !lookup_ge_None_2; [done|rewrite map_length, seq_length; lia|].
      change (maintain_rec m 0 s0 ([] :: replicate m [])) with (maintain_rec m 0 s0 (replicate (S m) [])). lia.
Qed.
End order.
