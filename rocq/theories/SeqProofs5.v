(** What the filters leave. *)
From Coq Require Import Reals ZArith.
From Verif Require Import Maps MapsProofs Vec VecProofs StateModel StateSpec StateReal StateRealProofs ProjModel ProjSpec CombModel GenModel ProjProofs ProjProofs2
  StateProofs SeqModel SeqSpec SeqProofs SeqProofs3 SeqProofs4.
Local Open Scope R_scope.

Notation P3 P := (fun a b c : sframe => P (snd a) (snd b) (snd c)).
Section filters.
Variable useReach : bool.
Variable reachable : PSt -> PSt -> bool.
Notation reach := (fun a b => useReach = true -> reachable a b = true).
Notation FR := (FilterRepositioning useReach reachable).
Notation FB := (FilterBreakCreate useReach reachable).

Lemma thin_filter cond P l : (forall a b c, cond a b c = true <-> P a b c) ->
  (forall a l', l = a :: l' -> l' <> [] -> exists res, filterWith cond l = a :: res /\ thinned P a l' res) /\
  filterWith cond l !! 0%nat = l !! 0%nat /\ last (filterWith cond l) = last l /\ sublist (filterWith cond l) l /\
  consecutive (neighbours P l) (filterWith cond l) /\
  (length (filterWith cond l) <= length l)%nat /\
  (length (filterWith cond l) = length l -> filterWith cond l = l /\ no_three (P3 P) l).
Proof.
  intros HP. destruct l as [|a [|b l]].
  - split; [intros; congruence|]. split_and!; try done; by intros [|[|i]] ? ? ?.
  - split; [intros ? ? [= <- <-]; done|]. split_and!; try done; by intros [|[|i]] ? ? ?.
  - destruct (filterWith_thinned cond P HP a (b :: l)) as (res & E & T); [done|]. split.
    { intros a' l' [= <- <-] _. eauto. }
    rewrite E. split_and!.
    + done.
    + by apply thinned_last in T.
    + apply sublist_skip. by eapply thinned_sublist.
    + by apply thinned_neighbours.
    + apply thinned_length in T as [T _]. simpl in *. lia.
    + apply thinned_length in T as [_ T]. intros Hl. destruct T as [-> T]; [simpl in *; lia|]. done.
Qed.
Lemma obsolete_filter l :
  (forall a l', l = a :: l' -> l' <> [] -> exists res, FilterObsolete l = a :: res /\ pruned same_place a l' res) /\
  FilterObsolete l !! 0%nat = l !! 0%nat /\ last (FilterObsolete l) = last l /\ sublist (FilterObsolete l) l /\
  (length (FilterObsolete l) <= length l)%nat /\
  (length (FilterObsolete l) = length l -> FilterObsolete l = l /\ no_three (fun a b c => same_place (snd a) (snd b)) l).
Proof.
  destruct l as [|a [|b l]].
  - split; [intros; congruence|]. split_and!; done.
  - split; [intros ? ? [= <- <-]; done|]. split_and!; try done.
  - destruct (obsolete_pruned a (b :: l)) as (res & E & T); [done|]. split.
    { intros a' l' [= <- <-] _. eauto. }
    rewrite E. split_and!.
    + done.
    + pose proof (pruned_last _ _ _ _ T). pose proof (pruned_nonempty _ _ _ _ T). destruct res; [done|]. done.
    + apply sublist_skip. by eapply pruned_sublist.
    + apply pruned_length in T as [T _]. simpl in *. lia.
    + apply pruned_length in T as [_ T]. intros Hl. destruct T as [-> T]; [simpl in *; lia|]. done.
Qed.

Lemma C129_lemma l :
  (forall a l', l = a :: l' -> l' <> [] ->
     (exists res, FR l = a :: res /\ thinned (moves_again reach) a l' res) /\
     (exists res, FB l = a :: res /\ thinned (leaves_and_returns reach) a l' res) /\
     (exists res, FilterObsolete l = a :: res /\ pruned same_place a l' res)) /\
  (forall f, f ∈ [FR; FB; FilterObsolete] -> f l !! 0%nat = l !! 0%nat /\ last (f l) = last l /\ sublist (f l) l) /\
  consecutive (neighbours (moves_again reach) l) (FR l) /\ consecutive (neighbours (leaves_and_returns reach) l) (FB l).
Proof.
  destruct (thin_filter (repositioned useReach reachable) (moves_again reach) l) as (R1 & R2 & R3 & R4 & R5 & _); [apply repositioned_iff|].
  destruct (thin_filter (brokenCreated useReach reachable) (leaves_and_returns reach) l) as (B1 & B2 & B3 & B4 & B5 & _); [apply brokenCreated_iff|].
  destruct (obsolete_filter l) as (O1 & O2 & O3 & O4 & _).
  split; [|split; [|done]].
  - intros a l' E H. split_and!; eauto.
  - intros f Hf. rewrite !elem_of_cons, elem_of_nil in Hf. destruct Hf as [->|[->|[->|[]]]]; done.
Qed.

Section deep.
Variable solve : projector -> list R -> bool * list R.
Variable axis : vec3 -> vec3 -> vec3.
Variable B : fullbody.
Notation TR := (tryReplaceStates useReach reachable solve axis B).
Notation TS := (trySkipStates useReach reachable solve axis B).
Notation FS := (FilterStatesRec useReach reachable solve axis B).

Lemma C130_lemma l r : lawful_robot (dev B) -> sound_solver (dev B) solve ->
  (TR l = Ok r -> replaced (moves_at_once reach axis B) false l r /\ r !! 0%nat = l !! 0%nat /\ last r = last l) /\
  (TS l = Ok r -> replaced (moves_later reach axis B) true l r /\ r !! 0%nat = l !! 0%nat /\ last r = last l).
Proof.
  intros LR SS. split; intros H.
  - destruct (replaceStates_spec _ _ (moves_at_once reach axis B) (replacement_spec useReach reachable solve axis B LR SS) l r H) as (H1 & _ & H2 & H3 & _). done.
  - destruct (replaceStates_spec _ _ (moves_later reach axis B) (skipping_spec useReach reachable solve axis B LR SS) l r H) as (H1 & _ & H2 & H3 & _). done.
Qed.

Lemma FS_spec l r : FS l = Ok r ->
  r !! 0%nat = l !! 0%nat /\ last r = last l /\ (length r <= length l)%nat /\
  (length r = length l -> r = l /\ no_three (P3 (moves_again reach)) l /\ no_three (P3 (leaves_and_returns reach)) l /\
     no_three (fun a b c => same_place (snd a) (snd b)) l).
Proof.
  unfold FilterStatesRec. intros H. apply bindo_ok in H as (r1 & H1 & H2).
  destruct (replaceStates_spec _ _ (fun _ _ _ _ _ => True) (fun _ _ _ _ _ _ => I) _ _ H2) as (_ & S1 & S2 & S3 & S4).
  destruct (replaceStates_spec _ _ (fun _ _ _ _ _ => True) (fun _ _ _ _ _ _ => I) _ _ H1) as (_ & T1 & T2 & T3 & T4).
  destruct (thin_filter (repositioned useReach reachable) (moves_again reach) l) as (_ & R2 & R3 & _ & _ & R4 & R5); [apply repositioned_iff|].
  destruct (thin_filter (brokenCreated useReach reachable) (leaves_and_returns reach) (FR l)) as (_ & B2 & B3 & _ & _ & B4 & B5); [apply brokenCreated_iff|].
  destruct (obsolete_filter (FB (FR l))) as (_ & O2 & O3 & _ & O4 & O5).
  fold (FR l) in R2, R3, R4, R5. fold (FB (FR l)) in B2, B3, B4, B5.
  split_and!.
  - congruence.
  - congruence.
  - lia.
  - intros Hl. destruct S4 as [-> _]; [lia|]. destruct T4 as [-> _]; [lia|]. destruct O5 as [-> O5]; [lia|].
    destruct B5 as [EB B5]; [lia|]. rewrite EB in *. destruct R5 as [ER R5]; [lia|]. rewrite ER in *. done.
Qed.
Lemma deepLoop_spec n : forall l fuel, (length l <= n)%nat -> (n < fuel)%nat -> l <> [] -> exists o, deepLoop useReach reachable solve axis B fuel l = Some o /\
  forall r, o = Ok r -> r !! 0%nat = l !! 0%nat /\ last r = last l /\ (length r <= length l)%nat /\ FS r = Ok r /\
    no_three (P3 (moves_again reach)) r /\ no_three (P3 (leaves_and_returns reach)) r /\
    no_three (fun a b c => same_place (snd a) (snd b)) r.
Proof.
  induction n as [|n IH]; intros l fuel Hn Hf Hne; [destruct l; [done|simpl in Hn; lia]|].
  destruct fuel as [|fuel]; [lia|]. cbn [deepLoop]. destruct (FS l) as [r| |] eqn:E; [|by eexists..].
  destruct (FS_spec l r E) as (H1 & H2 & H3 & H4).
  destruct (length r =? length l)%nat eqn:El.
  - apply Nat.eqb_eq in El. eexists. split; [done|]. intros r' [= <-]. destruct (H4 El) as [-> H5].
    split; [done|]. split; [done|]. split; [lia|]. done.
  - apply Nat.eqb_neq in El. destruct (IH r fuel) as (o & Ho & H).
    + lia.
    + lia.
    + intros ->. destruct l; done.
    + exists o. split; [done|]. intros r' Hr'. destruct (H r' Hr') as (A1 & A2 & A3 & A4). split; [congruence|]. split; [congruence|].
      split; [lia|]. done.
Qed.
Lemma C131_lemma l fuel : (length l < fuel)%nat -> exists o, FilterStates useReach reachable solve axis B fuel l true = Some o /\
  forall r, o = Ok r -> r !! 0%nat = l !! 0%nat /\ last r = last l /\ (length r <= length l)%nat /\
    FilterStates useReach reachable solve axis B fuel r true = Some (Ok r) /\
    no_three (P3 (moves_again reach)) r /\ no_three (P3 (leaves_and_returns reach)) r /\
    no_three (fun a b c => same_place (snd a) (snd b)) r.
Proof.
  intros Hf. assert (Hshort : forall Q (l : list sframe), (length l <= 2)%nat -> no_three Q l).
  { intros Q l0 Hl i a b c _ _ Hc. apply lookup_lt_Some in Hc. lia. }
  unfold FilterStates. destruct (length l <=? 2)%nat eqn:E.
  - apply Nat.leb_le in E. eexists. split; [done|]. intros r [= <-]. apply Nat.leb_le in E as E'. rewrite E'. split_and!; try done; by apply Hshort.
  - apply Nat.leb_gt in E. destruct (deepLoop_spec (length l) l fuel) as (o & Ho & H); [lia..|by intros ->; simpl in E; lia|].
    exists o. split; [done|]. intros r Hr. destruct (H r Hr) as (A1 & A2 & A3 & A4 & A5). split_and!; try done; try apply A5.
    destruct (length r <=? 2)%nat eqn:Er; [done|]. destruct fuel as [|fuel]; [lia|]. cbn [deepLoop]. rewrite A4.
    by rewrite Nat.eqb_refl.
Qed.
End deep.
End filters.

(** ** One change at a time *)
Lemma gained_iff (a b : PSt) k : gained a b k <->
  exists p, positions b !! k = Some p /\ forall q, positions a !! k = Some q -> 1 / 100 < dist3 q p.
Proof.
  unfold gained, new_or_moved, displacement. split.
  - intros [[p Hp] H]. exists p. split; [done|]. intros q Hq. destruct H as [H|(d & (q' & p' & H1 & H2 & ->) & Hd)]; [congruence|].
    assert (q' = q) as -> by congruence. assert (p' = p) as -> by congruence. lra.
  - intros (p & Hp & H). split; [eauto|]. destruct (positions a !! k) as [q|] eqn:Eq; [|by left]. right.
    exists (dist3 q p). split; [eauto 10|]. specialize (H q eq_refl). lra.
Qed.
Lemma dist3_symm a b : dist3 a b = dist3 b a.
Proof. unfold dist3, vnorm, vnorm2, vdot, vsub. cbn. f_equal. ring. Qed.
(** a limb both states have *)
Lemma both_gained_lost (a b : PSt) k p q : positions a !! k = Some q -> positions b !! k = Some p -> (gained a b k <-> lost a b k).
Proof.
  intros Ha Hb. unfold lost. fold (gained b a k). rewrite !gained_iff. split; intros (x & Hx & H).
  - exists q. split; [done|]. intros y Hy. rewrite dist3_symm. assert (x = y) as -> by congruence. by apply H.
  - exists p. split; [done|]. intros y Hy. rewrite dist3_symm. assert (x = y) as -> by congruence. by apply H.
Qed.
(** otherwise *)
Lemma not_gained (a b : PSt) k p : ~ gained a b k -> positions b !! k = Some p -> exists q, positions a !! k = Some q /\ dist3 q p <= 1 / 100.
Proof.
  rewrite gained_iff. intros H Hp. destruct (positions a !! k) as [q|] eqn:E.
  - exists q. split; [done|]. apply Rnot_lt_le. intros Hl. apply H. exists p. split; [done|]. intros q' [= <-]. done.
  - exfalso. apply H. exists p. split; [done|]. done.
Qed.
Lemma gained_dec (a b : PSt) k : gained a b k \/ ~ gained a b k.
Proof. rewrite <- in_creations. destruct (decide (k ∈ creations b a)); auto. Qed.

Section one.
Variable reach : PSt -> PSt -> Prop.
Lemma moves_again_one a c b : moves_again reach a c b -> one_change a c -> one_change c b -> one_change a b.
Proof.
  intros (Hl & Hg & _) [G1 L1] [G2 L2].
  assert (Hsub : forall k, gained a b k -> gained a c k).
  { intros k Hk. destruct (gained_dec a c k) as [|Hn]; [done|]. exfalso.
    assert (Hn' : ~ gained c b k) by (rewrite <- Hg; done).
    pose proof Hk as Hk'. rewrite gained_iff in Hk'. destruct Hk' as (p & Hp & _).
    destruct (not_gained _ _ _ _ Hn' Hp) as (q & Hq & _). destruct (not_gained _ _ _ _ Hn Hq) as (x & Hx & _).
    apply Hn. apply (both_gained_lost _ _ _ q x Hx Hq). apply Hl. by apply (both_gained_lost _ _ _ p x Hx Hp). }
  split; intros k k' Hk Hk'.
  - apply G1; apply Hsub; done.
  - apply L1; apply Hl; done.
Qed.
(** pairs of a separated list *)
Definition sep2 (a b : PSt) : Prop := forall k p q, positions a !! k = Some p -> positions b !! k = Some q -> dist3 p q <= 1 / 100 -> p = q.
Lemma leaves_one a c b : leaves_and_returns reach a c b -> sep2 a c -> sep2 c b -> one_change a c -> one_change c b -> one_change a b.
Proof.
  intros (Ng & Nl & Hg & _) S1 S2 [G1 L1] [G2 L2].
  assert (Hc : forall k p, positions c !! k = Some p -> positions a !! k = Some p).
  { intros k p Hp. destruct (not_gained _ _ _ _ (Ng k) Hp) as (q & Hq & Hd). assert (q = p) as -> by (eapply S1; eauto). done. }
  assert (Hb : forall k p, positions c !! k = Some p -> positions b !! k = Some p).
  { intros k p Hp. destruct (not_gained _ _ _ _ (Nl k) Hp) as (q & Hq & Hd). rewrite dist3_symm in Hd. assert (p = q) as -> by (eapply S2; eauto). done. }
  assert (Hz : forall p, dist3 p p = 0).
  { intros p. unfold dist3, vnorm, vnorm2, vdot, vsub. cbn. rewrite <- R_sqrt.sqrt_0. f_equal. ring. }
  split; intros k k' Hk Hk'.
  - apply G2; match goal with |- _ _ _ ?x => destruct (gained_dec c b x) as [|Hn]; [done|]; exfalso;
      assert (Hx : gained a b x) by done; rewrite gained_iff in Hx; destruct Hx as (p & Hp & H);
      destruct (not_gained _ _ _ _ Hn Hp) as (q & Hq & Hd);
      pose proof (Hb _ _ Hq) as Hbq; rewrite Hp in Hbq; injection Hbq as <-; specialize (H p (Hc _ _ Hq)); rewrite Hz in H; lra end.
  - apply L1; match goal with |- _ _ _ ?x => destruct (gained_dec c a x) as [|Hn]; [done|]; exfalso;
      assert (Hx : gained b a x) by done; rewrite gained_iff in Hx; destruct Hx as (p & Hp & H);
      destruct (not_gained _ _ _ _ Hn Hp) as (q & Hq & Hd);
      pose proof (Hc _ _ Hq) as Hbq; rewrite Hp in Hbq; injection Hbq as <-; specialize (H p (Hb _ _ Hq)); rewrite Hz in H; lra end.
Qed.
End one.
Lemma separated_sep2 l a b : separated l -> a ∈ l -> b ∈ l -> sep2 (snd a) (snd b).
Proof. intros H Ha Hb k p q. eapply H; eauto. Qed.
Lemma separated_sublist l l' : separated l -> sublist l' l -> separated l'.
Proof. intros H Hs a b k p q Ha Hb. apply H; eapply elem_of_submseteq; eauto using sublist_submseteq. Qed.

(** the same contacts, at the same places *)
Definition alike_contacts (a b : PSt) : Prop := forall k, positions a !! k = positions b !! k.
Lemma one_change_alike a a' b : alike_contacts a a' -> one_change a b -> one_change a' b.
Proof.
  intros H [G L]. split; intros k k' Hk Hk'.
  - apply G; (eapply new_or_moved_ext; [| |eassumption]); done.
  - apply L; (eapply new_or_moved_ext; [| |eassumption]); done.
Qed.
Lemma same_alike a b : sep2 a b -> (forall k, ~ gained a b k /\ ~ lost a b k) -> alike_contacts a b.
Proof.
  intros S H k. destruct (H k) as [Hg Hl]. destruct (positions b !! k) as [p|] eqn:Eb.
  - destruct (not_gained _ _ _ _ Hg Eb) as (q & Hq & Hd). rewrite Hq. f_equal. eapply S; eauto.
  - destruct (positions a !! k) as [q|] eqn:Ea; [|done]. destruct (not_gained _ _ _ _ Hl Ea) as (p & Hp & _). congruence.
Qed.
Lemma pruned_one L m m' l r : pruned same_place m l r -> separated L -> m ∈ L -> m' ∈ L -> (forall x, x ∈ l -> x ∈ L) ->
  alike_contacts (snd m) (snd m') -> placed (m :: l) ->
  consecutive (fun a b => one_change (snd a) (snd b)) (m :: l) -> consecutive (fun a b => one_change (snd a) (snd b)) (m' :: r).
Proof.
  intros H HS. revert m'. induction H as [m z|m c p rest res Hn Hp IH|m c p rest res Hs Hp IH]; intros m' Hm Hm' Hl Ha Hpl Hc.
  - intros [|[|i]] a b Hi Hj; try done. cbn in Hi, Hj. injection Hi as <-. injection Hj as <-. eapply one_change_alike; [done|]. by apply (Hc 0%nat).
  - intros [|i] a b Hi Hj.
    + cbn in Hi, Hj. injection Hi as <-. injection Hj as <-. eapply one_change_alike; [done|]. by apply (Hc 0%nat).
    + eapply (IH c); [| | | | | |exact Hi|exact Hj].
      * apply Hl. left.
      * apply Hl. left.
      * intros x Hx. apply Hl. by right.
      * by intros k.
      * intros j. apply (Hpl (S j)).
      * intros j. apply (Hc (S j)).
  - apply IH; try done.
    + apply Hl. left.
    + intros x Hx. apply Hl. by right.
    + assert (alike_contacts (snd m) (snd c)) as Hmc.
      { apply same_alike; [eapply separated_sep2; [done..|apply Hl; left]|]. destruct Hs as [Hs|Hs]; [|done]. by apply (Hpl 0%nat m c). }
      intros k. rewrite <- Hmc. apply Ha.
    + intros j. apply (Hpl (S j)).
    + intros j. apply (Hc (S j)).
Qed.

Lemma C132_lemma useReach reachable l : consecutive (fun a b => one_change (snd a) (snd b)) l ->
  consecutive (fun a b => one_change (snd a) (snd b)) (FilterRepositioning useReach reachable l) /\
  (separated l -> consecutive (fun a b => one_change (snd a) (snd b)) (FilterBreakCreate useReach reachable l)) /\
  (separated l -> placed l -> consecutive (fun a b => one_change (snd a) (snd b)) (FilterObsolete l)).
Proof.
  intros Hc. destruct (C129_lemma useReach reachable l) as (H0 & _ & H1 & H2). split; [|split].
  - intros i a b Ha Hb. destruct (H1 i a b Ha Hb) as (j & Hj & [Hj'|(c & Hj' & Hj'' & HP)]); [by apply (Hc j)|].
    eapply moves_again_one; [exact HP|by apply (Hc j)|by apply (Hc (S j))].
  - intros HS i a b Ha Hb. destruct (H2 i a b Ha Hb) as (j & Hj & [Hj'|(c & Hj' & Hj'' & HP)]); [by apply (Hc j)|].
    eapply leaves_one; [exact HP|..|by apply (Hc j)|by apply (Hc (S j))]; eapply separated_sep2; eauto using elem_of_list_lookup_2.
  - intros HS HP. destruct l as [|a [|b l]]; [done..|]. destruct (H0 a (b :: l)) as (_ & _ & res & -> & T); [done..|].
    eapply pruned_one; [exact T|exact HS|left|left| | |done|done].
    + intros x Hx. by right.
    + by intros k.
Qed.
