(** Proofs of C114-C118: what each function does is a sequence of elementary changes. *)
From Coq Require Import Reals ZArith Lra Lia.
From Verif Require Import VecProofs.
From Verif Require Export PlanSpec.
Local Open Scope R_scope.

Lemma ceqb_true a b : ceqb a b = true <-> a = b.
Proof.
  revert b. induction a as [|x a IH]; intros [|y b]; cbn; try (split; [discriminate|intros H; discriminate H]); [tauto|].
  rewrite andb_true_iff, IH, Reqb_true. split; [intros [-> ->]; reflexivity|]. intros [= -> ->]. auto.
Qed.
Lemma nReqb_true a b : negb (Reqb a b) = true <-> a <> b.
Proof.
  rewrite negb_true_iff. split.
  - intros H ->. assert (Reqb b b = true) by (apply Reqb_true; reflexivity). congruence.
  - intros H. destruct (Reqb a b) eqn:He; [|reflexivity]. apply Reqb_true in He. contradiction.
Qed.

Section Changes.
Context {P M : Type}.
Notation rm := (rm P M).
Notation node := (node M).
Variable giwc : nat -> list R -> M.
Variables (start : nat) (ends : list nat).
Variable EP : P -> list R -> list R -> Prop.

(** elementary changes: nothing but time; matrices of a node; a node with an edge from (to) it;
    an edge *)
Inductive change (s s' : rm) : Prop :=
| ch_none : nodes s' = nodes s -> edges s' = edges s -> change s s'
| ch_fill i n k : nodes s !! i = Some n ->
    nodes s' = <[i := mkNode (cfg n) (comp n) (Some (giwc k (cfg n)))]> (nodes s) -> edges s' = edges s -> change s s'
| ch_add (rev : bool) i j n q p k base : nodes s !! i = Some n ->
    (base = nodes s /\ (exists n', base !! j = Some n' /\ comp n' = comp n /\ cfg n' = q) \/
     base = nodes s ++ [mkNode q (comp n) None] /\ j = length (nodes s)) ->
    (if rev then comp n ∈ ends else comp n = start) ->
    nodes s' = <[j := mkNode q (comp n) (Some (giwc k q))]> base ->
    edges s' = edges s ++ [if rev then (j, i, p) else (i, j, p)] ->
    (if rev then EP p q (cfg n) else EP p (cfg n) q) -> change s s'
| ch_link i j ni nj p : nodes s !! i = Some ni -> nodes s !! j = Some nj ->
    nodes s' = nodes s -> edges s' = edges s ++ [(i, j, p)] -> EP p (cfg ni) (cfg nj) -> change s s'.

Inductive evolve (s : rm) : rm -> Prop :=
| ev_refl : evolve s s
| ev_step s' s'' : evolve s s' -> change s' s'' -> evolve s s''.

Lemma ev_trans s s' s'' : evolve s s' -> evolve s' s'' -> evolve s s''.
Proof. intros H1 H2. induction H2; [assumption|]. eapply ev_step; eauto. Qed.
Lemma ev_one s s' : change s s' -> evolve s s'.
Proof. intros H. eapply ev_step; [apply ev_refl|exact H]. Qed.

(** *** Growth *)
Lemma grows_refl (s : rm) : grows s s.
Proof. split; [|exists []; symmetry; apply app_nil_r]. intros i n H. exists n. auto. Qed.
Lemma grows_trans (s s' s'' : rm) : grows s s' -> grows s' s'' -> grows s s''.
Proof.
  intros [H1 [e1 E1]] [H2 [e2 E2]]. split.
  - intros i n Hn. destruct (H1 i n Hn) as (n' & Hn' & Hc & Hp & Hm). destruct (H2 i n' Hn') as (n'' & Hn'' & Hc' & Hp' & Hm').
    exists n''. split; [assumption|]. split; [congruence|]. split; [congruence|auto].
  - exists (e1 ++ e2). rewrite E2, E1. symmetry. apply app_assoc.
Qed.
Lemma change_grows s s' : change s s' -> grows s s'.
Proof.
  intros [Hn He|i n k Hi Hn He|rev i j n q p k base Hi Hb Hc Hn He Hp|i j ni nj p Hi Hj Hn He Hp].
  - split; [|exists []; rewrite He; symmetry; apply app_nil_r]. intros i n H. exists n. rewrite Hn. auto.
  - split; [|exists []; rewrite He; symmetry; apply app_nil_r].
    intros i' n' H. rewrite Hn. destruct (Nat.eq_dec i i') as [->|Hne].
    + exists (mkNode (cfg n) (comp n) (Some (giwc k (cfg n)))). rewrite list_lookup_insert by (eapply lookup_lt_Some; eauto).
      assert (n' = n) as -> by congruence. cbn. repeat split. intros _. discriminate.
    + exists n'. rewrite list_lookup_insert_ne by assumption. auto.
  - split; [|eexists; exact He].
    assert (Hbase : forall i' n', nodes s !! i' = Some n' -> base !! i' = Some n').
    { intros i' n' H. destruct Hb as [[-> _]|[-> _]]; [assumption|]. apply lookup_app_l_Some. assumption. }
    intros i' n' H. rewrite Hn. destruct (Nat.eq_dec j i') as [->|Hne].
    + exists (mkNode q (comp n) (Some (giwc k q))).
      pose proof (Hbase _ _ H) as Hb'. rewrite list_lookup_insert by (eapply lookup_lt_Some; eauto).
      destruct Hb as [[-> (n'' & H1 & H2 & H3)]|[-> Hj]].
      * assert (n'' = n') as -> by congruence. cbn. split; [reflexivity|]. split; [congruence|]. split; [congruence|]. intros _. discriminate.
      * exfalso. apply lookup_lt_Some in H. lia.
    + exists n'. rewrite list_lookup_insert_ne by assumption. auto.
  - split; [|eexists; exact He]. intros i' n' H. exists n'. rewrite Hn. auto.
Qed.
Lemma evolve_grows s s' : evolve s s' -> grows s s'.
Proof. intros H. induction H; [apply grows_refl|]. eapply grows_trans; [eassumption|]. apply change_grows. assumption. Qed.

(** *** Edges *)
Lemma grows_edge_nodes (s s' : rm) i j : grows s s' -> forall ni nj, nodes s !! i = Some ni -> nodes s !! j = Some nj ->
  forall p, EP p (cfg ni) (cfg nj) ->
  exists ni' nj', nodes s' !! i = Some ni' /\ nodes s' !! j = Some nj' /\ EP p (cfg ni') (cfg nj').
Proof.
  intros [H _] ni nj Hi Hj p Hp. destruct (H _ _ Hi) as (ni' & Hi' & Hci & _). destruct (H _ _ Hj) as (nj' & Hj' & Hcj & _).
  exists ni', nj'. rewrite Hci, Hcj. auto.
Qed.
Lemma change_node (s s' : rm) (rev : bool) i j n q k base : nodes s !! i = Some n ->
  (base = nodes s /\ (exists n', base !! j = Some n' /\ comp n' = comp n /\ cfg n' = q) \/
     base = nodes s ++ [mkNode q (comp n) None] /\ j = length (nodes s)) ->
  nodes s' = <[j := mkNode q (comp n) (Some (giwc k q))]> base ->
  nodes s' !! j = Some (mkNode q (comp n) (Some (giwc k q))).
Proof.
  intros Hi Hb ->. apply list_lookup_insert. destruct Hb as [[-> (n' & H & _)]|[-> ->]].
  - eapply lookup_lt_Some; eauto.
  - rewrite app_length. cbn. lia.
Qed.
Lemma change_edges s s' : change s s' -> every_edge EP s -> every_edge EP s'.
Proof.
  intros Hch He. pose proof (change_grows _ _ Hch) as Hg.
  assert (Hold : forall i j p, (i, j, p) ∈ edges s -> exists ni nj, nodes s' !! i = Some ni /\ nodes s' !! j = Some nj /\ EP p (cfg ni) (cfg nj)).
  { intros i j p Hin. destruct (He i j p Hin) as (ni & nj & Hi & Hj & Hp). exact (grows_edge_nodes _ _ i j Hg _ _ Hi Hj p Hp). }
  destruct Hch as [Hn Hee|i n k Hi Hn Hee|rev i j n q p k base Hi Hb Hc Hn Hee Hp|i j ni nj p Hi Hj Hn Hee Hp];
    intros i' j' p'; rewrite Hee; [apply Hold|apply Hold| |].
  - rewrite elem_of_app, elem_of_list_singleton. intros [Hin|Heq]; [apply Hold; assumption|].
    pose proof (change_node s s' rev i j n q k base Hi Hb Hn) as Hj'.
    destruct (proj1 Hg _ _ Hi) as (n' & Hi' & Hcn & _).
    destruct rev; injection Heq as -> -> ->.
    + exists (mkNode q (comp n) (Some (giwc k q))), n'. rewrite Hcn. cbn. auto.
    + exists n', (mkNode q (comp n) (Some (giwc k q))). rewrite Hcn. cbn. auto.
  - rewrite elem_of_app, elem_of_list_singleton. intros [Hin|Heq]; [apply Hold; assumption|].
    injection Heq as -> -> ->. exact (grows_edge_nodes _ _ i j Hg _ _ Hi Hj p Hp).
Qed.
Lemma evolve_edges s s' : evolve s s' -> every_edge EP s -> every_edge EP s'.
Proof. intros H. induction H as [|s' s'' H IH Hch]; [auto|]. intros He. exact (change_edges _ _ Hch (IH He)). Qed.

(** *** Reachability *)
Lemma reach_grows (s s' : rm) i j : grows s s' -> reach s i j -> reach s' i j.
Proof.
  intros [_ [es He]] H. induction H as [|i j k p Hin _ IH]; [apply reach_refl|].
  apply (reach_step s' i j k p); [|assumption]. rewrite He. apply elem_of_app. auto.
Qed.
Lemma reach_trans (s : rm) i j k : reach s i j -> reach s j k -> reach s i k.
Proof. intros H. revert k. induction H as [|i j k p Hin H IH]; [auto|]. intros k' Hk. exact (reach_step s _ _ _ p Hin (IH _ Hk)). Qed.
Lemma reach_edge (s : rm) i j p : (i, j, p) ∈ edges s -> reach s i j.
Proof. intros H. exact (reach_step s _ _ _ p H (reach_refl s j)). Qed.

Lemma grows_goal (s s' : rm) (goals : list nat) g ng' : grows s s' -> (forall g, g ∈ goals -> exists n, nodes s !! g = Some n) ->
  g ∈ goals -> nodes s' !! g = Some ng' -> exists ng, nodes s !! g = Some ng /\ comp ng = comp ng'.
Proof.
  intros [H _] Hgs Hg Hn. destruct (Hgs g Hg) as [ng Hng]. destruct (H _ _ Hng) as (n' & Hn' & _ & Hc & _).
  exists ng. split; [assumption|]. congruence.
Qed.
Definition goals_in (goals : list nat) (s : rm) : Prop :=
  forall g, g ∈ goals -> exists n, nodes s !! g = Some n /\ comp n ∈ ends.
Lemma grows_goals_in goals (s s' : rm) : grows s s' -> goals_in goals s -> goals_in goals s'.
Proof. intros [H _] Hg g Hin. destruct (Hg g Hin) as (n & Hn & Hc). destruct (H _ _ Hn) as (n' & Hn' & _ & Hc' & _). exists n'. split; [assumption|]. rewrite Hc'. assumption. Qed.

Lemma change_trees init goals s s' : start ∉ ends -> goals_in goals s ->
  change s s' -> trees init start goals s -> trees init start goals s'.
Proof.
  intros Hse Hgi Hch Ht. pose proof (change_grows _ _ Hch) as Hg.
  assert (Hgs : forall g, g ∈ goals -> exists n, nodes s !! g = Some n) by (intros g Hin; destruct (Hgi g Hin) as (n & Hn & _); eauto).
  assert (Hold : forall i (n n' : node), nodes s !! i = Some n -> comp n' = comp n ->
    (comp n' = start -> reach s' init i) /\
    (forall g ng, g ∈ goals -> nodes s' !! g = Some ng -> comp n' = comp ng -> reach s' i g)).
  { intros i n n' Hi Hc. destruct (Ht i n Hi) as [H1 H2]. split.
    - intros Hs. apply (reach_grows s); [assumption|]. apply H1. congruence.
    - intros g ng Hgin Hng Hcg. destruct (grows_goal s s' goals g ng Hg Hgs Hgin Hng) as (ng0 & Hng0 & Hc0).
      apply (reach_grows s); [assumption|]. apply (H2 g ng0 Hgin Hng0). congruence. }
  destruct Hch as [Hn Hee|i n k Hi Hn Hee|rev i j n q p k base Hi Hb Hc Hn Hee Hp|i j ni nj p Hi Hj Hn Hee Hp].
  - intros i n Hi. rewrite Hn in Hi. exact (Hold i n n Hi eq_refl).
  - intros i' n' Hi'. rewrite Hn in Hi'. apply list_lookup_insert_Some in Hi'.
    destruct Hi' as [(-> & <- & _)|[_ Hi']]; [exact (Hold i' n _ Hi eq_refl)|exact (Hold i' n' n' Hi' eq_refl)].
  - intros i' n' Hi'.
    pose proof (change_node s s' rev i j n q k base Hi Hb Hn) as Hj'.
    destruct (Nat.eq_dec j i') as [->|Hne].
    + rewrite Hj' in Hi'. injection Hi' as <-. cbn [comp].
      destruct (Hold i n n Hi eq_refl) as [Hr1 Hr2].
      destruct rev.
      * split; [intros Hs; rewrite Hs in Hc; contradiction|].
        intros g ng Hgin Hng Hcg. apply (reach_step s' i' i g p); [rewrite Hee; apply elem_of_app; right; apply elem_of_list_singleton; reflexivity|].
        exact (Hr2 g ng Hgin Hng Hcg).
      * split.
        -- intros Hs. apply (reach_trans s' init i i'); [exact (Hr1 Hs)|]. apply (reach_edge s' i i' p). rewrite Hee. apply elem_of_app. right. apply elem_of_list_singleton. reflexivity.
        -- intros g ng Hgin Hng Hcg. exfalso. destruct (grows_goals_in goals _ _ Hg Hgi g Hgin) as (ng' & Hng' & Hce).
           assert (ng' = ng) as -> by congruence. rewrite <- Hcg, Hc in Hce. contradiction.
    + rewrite Hn, list_lookup_insert_ne in Hi' by assumption.
      assert (Hi'' : nodes s !! i' = Some n').
      { destruct Hb as [[-> _]|[-> Hj]]; [assumption|]. apply lookup_app_Some in Hi' as [H|[Hl H]]; [assumption|].
        exfalso. apply lookup_lt_Some in H. cbn in H. lia. }
      exact (Hold i' n' n' Hi'' eq_refl).
  - intros i' n' Hi'. rewrite Hn in Hi'. exact (Hold i' n' n' Hi' eq_refl).
Qed.
Lemma evolve_trees init goals s s' : start ∉ ends -> goals_in goals s ->
  evolve s s' -> trees init start goals s -> trees init start goals s'.
Proof.
  intros Hse Hgi H. induction H as [|s' s'' H IH Hch]; [auto|]. intros Ht.
  apply (change_trees init goals s' s'' Hse); [|assumption|auto]. exact (grows_goals_in _ _ _ (evolve_grows _ _ H) Hgi).
Qed.

(** *** Matrices *)
Definition filled_at (s : rm) (i : nat) : Prop := exists n k, nodes s !! i = Some n /\ mats n = Some (giwc k (cfg n)).
Lemma change_filled s s' i n : change s s' -> nodes s' !! i = Some n ->
  (exists k, mats n = Some (giwc k (cfg n))) \/ nodes s !! i = Some n.
Proof.
  intros [Hn Hee|i0 n0 k Hi Hn Hee|rev i0 j n0 q p k base Hi Hb Hc Hn Hee Hp|i0 j ni nj p Hi Hj Hn Hee Hp] H.
  - right. congruence.
  - rewrite Hn in H. apply list_lookup_insert_Some in H. destruct H as [(-> & <- & _)|[_ H]]; [left; exists k; reflexivity|auto].
  - rewrite Hn in H. apply list_lookup_insert_Some in H. destruct H as [(-> & <- & _)|[Hne H]]; [left; exists k; reflexivity|].
    right. destruct Hb as [[-> _]|[-> ->]]; [assumption|]. apply lookup_app_Some in H as [H|[Hl H]]; [assumption|].
    exfalso. apply lookup_lt_Some in H as H'. cbn in H'. lia.
  - right. congruence.
Qed.
Lemma evolve_filled s s' i n : evolve s s' -> nodes s' !! i = Some n ->
  (exists k, mats n = Some (giwc k (cfg n))) \/ nodes s !! i = Some n.
Proof.
  intros H. revert n. induction H as [|s' s'' H IH Hch]; [auto|]. intros n Hn.
  destruct (change_filled s' s'' i n Hch Hn) as [Hf|Hn']; [auto|]. exact (IH n Hn').
Qed.
Lemma evolve_filled_at s s' i : evolve s s' -> filled_at s i -> filled_at s' i.
Proof.
  intros He (n & k & Hn & Hm). destruct (proj1 (evolve_grows _ _ He) _ _ Hn) as (n' & Hn' & Hc & _ & Hm').
  destruct (evolve_filled s s' i n' He Hn') as [[k' Hk]|Hs]; [exists n', k'; auto|].
  assert (n' = n) as -> by congruence. exists n, k. auto.
Qed.
Lemma evolve_all_filled s s' : evolve s s' -> all_filled giwc s -> all_filled giwc s'.
Proof. intros He Ha i n Hn. destruct (evolve_filled _ _ _ _ He Hn) as [Hk|Hs]; [assumption|]. exact (Ha i n Hs). Qed.
End Changes.
