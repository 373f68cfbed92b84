(** One step of the generator: its specification determines the outcome. *)
From Coq Require Import ZArith Lia.
From Verif Require Import Maps MapsProofs StateModel StateSpec StateProofs CombModel CombSpec GenModel GenSpec StepSpec StepProofs.

Lemma first_unique {A} (P : A -> Prop) (l1 l1' : list A) c c' l2 l2' :
  l1 ++ c :: l2 = l1' ++ c' :: l2' -> (forall x, x ∈ l1 -> ~ P x) -> (forall x, x ∈ l1' -> ~ P x) -> P c -> P c' ->
  l1 = l1' /\ c = c' /\ l2 = l2'.
Proof.
  revert l1'. induction l1 as [|x l1 IH]; intros [|x' l1'] E H H' Hc Hc'; simpl in E; injection E as E1 E2; subst.
  - done.
  - exfalso. apply (H' x'); [left|done].
  - exfalso. apply (H c'); [left|done].
  - destruct (IH l1' E2) as (-> & -> & ->); try done; intros y Hy; [apply H|apply H']; by right.
Qed.

Section proofs.
Context {Cfg Pos Rot Cand Smp : Type}.
Notation St := (State Cfg Pos Rot Z).
Variable S : services Cfg Pos Rot Cand Smp.

Lemma projects_unique mode limb (cur : St) a x p p' : projects S mode limb cur a x p -> projects S mode limb cur a x p' -> p = p'.
Proof. intros (c & E & _ & ->) (c' & E' & _ & ->). rewrite E in E'. by injection E' as <-. Qed.
Lemma prefix_order {A} (l1 l1' : list A) c c' l2 l2' : l1 ++ c :: l2 = l1' ++ c' :: l2' ->
  (l1 = l1' /\ c = c' /\ l2 = l2') \/ (exists b, l1' = l1 ++ c :: b) \/ (exists b, l1 = l1' ++ c' :: b).
Proof.
  revert l1'. induction l1 as [|x l1 IH]; intros [|x' l1'] E; simpl in E; injection E as -> E.
  - by left.
  - right; left. by exists l1'.
  - right; right. by exists l1.
  - destruct (IH l1' E) as [(-> & -> & ->)|[[b ->]|[b ->]]]; [by left|right; left; by exists b|right; right; by exists b].
Qed.
Lemma first_projection_unique mode limb (cur : St) Q l p p' :
  first_projection_with S mode limb cur Q l p -> first_projection_with S mode limb cur Q l p' -> p = p'.
Proof.
  intros (a & x & b & E & Hp & HQ & Hn) (a' & x' & b' & E' & Hp' & HQ' & Hn'). rewrite E in E'.
  apply prefix_order in E' as [(-> & -> & ->)|[[c ->]|[c ->]]].
  - by eapply projects_unique.
  - exfalso. by apply (Hn' a x c p eq_refl Hp).
  - exfalso. by apply (Hn a' x' c p' eq_refl Hp').
Qed.
Lemma freed_unique limb c c1 c2 : freed S limb c c1 -> freed S limb c c2 -> c1 = c2.
Proof.
  intros [[H ->]|(H & l1 & s & l2 & E & -> & V & F)] [[H' ->]|(H' & l1' & s' & l2' & E' & -> & V' & F')]; try congruence.
  rewrite E in E'. apply prefix_order in E' as [(-> & -> & ->)|[[b ->]|[b ->]]]; [done|exfalso..].
  - rewrite (F' l1 s b eq_refl) in V. done.
  - rewrite (F l1' s' b eq_refl) in V'. done.
Qed.
Lemma all_freed_unique ls c c1 c2 : all_freed S ls c c1 -> all_freed S ls c c2 -> c1 = c2.
Proof.
  intros H. revert c2. induction H as [c|l ls c c' c1 Hf _ IH]; intros c2 H2; inversion H2 as [|? ? ? c'' ? Hf' H']; subst; [done|].
  apply IH. by rewrite (freed_unique _ _ _ _ Hf Hf').
Qed.

Section request.
Variable prev : St.
Variable t : Z.
Variable test qs post : bool.
Notation maintained := (maintained S test qs).
Notation completed := (completed S prev t test qs post).
Notation not_completed := (not_completed S prev t test qs post).
Notation attempts := (attempts S prev t test qs post).
Notation succeeds := (succeeds S prev t test qs post).
Notation fails := (fails S prev t test qs post).

Lemma maintained_unique (w c s s' : St) : maintained w c s -> maintained w c s' -> s = s'.
Proof.
  intros (c1 & c2 & s0 & H1 & H2 & _ & [M1 M2 M3 M4 M5 M6 M7 M8] & H5 & _ & [A1 A2 A3 A4 A5 A6 A7 A8] & H8)
    (d1 & d2 & r0 & G1 & G2 & _ & [N1 N2 N3 N4 N5 N6 N7 N8] & G5 & _ & [B1 B2 B3 B4 B5 B6 B7 B8] & G8).
  rewrite H1 in G1. injection G1 as <-. rewrite (all_freed_unique _ _ _ _ G2 H2) in *.
  destruct s, s'; simpl in *. congruence.
Qed.
Lemma first_contact_some (s : St) limb p : first_contact S prev t test qs post s limb p -> no_contact S prev t test qs post s limb -> False.
Proof.
  intros (m & Hm & a & x & b & E & Hp & HQ & _) [H1 H2]. destruct Hm as [->|[-> _]]; [by eapply H1|by eapply H2].
Qed.
Lemma first_contact_unique (s : St) limb p p' : first_contact S prev t test qs post s limb p -> first_contact S prev t test qs post s limb p' -> p = p'.
Proof.
  intros (m & Hm & Hp) (m' & Hm' & Hp').
  assert (Hno : forall q, first_projection_with S true limb s (passes S prev t test qs s) (octree S limb s s) q ->
    no_projection_with S true limb s (passes S prev t test qs s) (octree S limb s s) -> False).
  { intros q (a & x & b & E & Hq & HQ & _) Hn. by eapply Hn. }
  assert (m = m') as <-; [|by eapply first_projection_unique].
  destruct Hm as [->|[-> Hn]], Hm' as [->|[-> Hn']]; try done; destruct post; try done; exfalso; [by eapply (Hno p)|by eapply (Hno p')].
Qed.
Lemma completed_unique (s : St) st st' r r' : completed s st r -> completed s st' r' -> st = st' /\ same_but_robustness r r'.
Proof.
  intros [l1 limb l2 p q E Hn Hf Hc|q Hn _ _ Hq] [l1' limb' l2' p' q' E' Hn' Hf' Hc'|q' Hn' _ _ Hq'].
  - rewrite E in E'. apply (first_unique (fun x => ~ no_contact S prev t test qs post s x)) in E' as (-> & -> & ->).
    + rewrite (first_contact_unique _ _ _ _ Hf Hf') in *. split; [done|].
      destruct Hc as (A1 & A2 & A3 & A4 & A5 & A6 & A7 & A8 & _), Hc' as (B1 & B2 & B3 & B4 & B5 & B6 & B7 & B8 & _). split; congruence.
    + intros x Hx H. apply H. by apply Hn.
    + intros x Hx H. apply H. by apply Hn'.
    + intros H. exact (first_contact_some _ _ _ Hf H).
    + intros H. exact (first_contact_some _ _ _ Hf' H).
  - exfalso. eapply first_contact_some; [exact Hf|]. apply Hn'. rewrite E. apply elem_of_app. right. left.
  - exfalso. eapply first_contact_some; [exact Hf'|]. apply Hn. rewrite E'. apply elem_of_app. right. left.
  - split; [done|]. destruct Hq as [A1 A2 A3 A4 A5 A6 A7 A8], Hq' as [B1 B2 B3 B4 B5 B6 B7 B8]. split; congruence.
Qed.
Lemma completed_not (s : St) st r : completed s st r -> not_completed s -> False.
Proof.
  intros [l1 limb l2 p q E Hn Hf Hc|q Hn H1 H2 Hq] [H3 H4]; [|by apply H4].
  eapply first_contact_some; [exact Hf|]. apply H3. rewrite E. apply elem_of_app. right. left.
Qed.

(** one failed attempt *)
Definition once (a b : St * list St) : Prop :=
  exists l1 c l2 s, snd a = l1 ++ c :: l2 /\ (forall x y, x ∈ l1 -> ~ maintained (fst a) x y) /\ maintained (fst a) c s /\
    not_completed s /\ l2 <> [] /\ b = (s, l2).
Lemma attempts_rtc (w w' : St) q q' : attempts w q w' q' -> rtc once (w, q) (w', q').
Proof.
  induction 1 as [|w1 l1 c l2 s _ IH Hn Hm Hc Hl]; [constructor|]. eapply rtc_r; [exact IH|]. by exists l1, c, l2, s.
Qed.
Lemma same_first (w : St) l1 l1' c c' l2 l2' s s' : l1 ++ c :: l2 = l1' ++ c' :: l2' ->
  (forall x y, x ∈ l1 -> ~ maintained w x y) -> (forall x y, x ∈ l1' -> ~ maintained w x y) -> maintained w c s -> maintained w c' s' ->
  l1 = l1' /\ c = c' /\ l2 = l2' /\ s = s'.
Proof.
  intros E H H' Hc Hc'. apply (first_unique (fun x => exists y, maintained w x y)) in E as (-> & -> & ->).
  - split_and!; try done. by eapply maintained_unique.
  - intros x Hx [y Hy]. by apply (H x y).
  - intros x Hx [y Hy]. by apply (H' x y).
  - by exists s.
  - by exists s'.
Qed.
Definition ends_well (a : St * list St) (st : status) (r : St) : Prop :=
  exists l1 c l2 s, snd a = l1 ++ c :: l2 /\ (forall x y, x ∈ l1 -> ~ maintained (fst a) x y) /\ maintained (fst a) c s /\ completed s st r.
Definition ends_badly (a : St * list St) : Prop :=
  (forall x y, x ∈ snd a -> ~ maintained (fst a) x y) \/
  exists l1 c s, snd a = l1 ++ [c] /\ (forall x y, x ∈ l1 -> ~ maintained (fst a) x y) /\ maintained (fst a) c s /\ not_completed s.
Lemma once_unique a b b' : once a b -> once a b' -> b = b'.
Proof.
  intros (l1 & c & l2 & s & E & Hn & Hm & _ & _ & ->) (l1' & c' & l2' & s' & E' & Hn' & Hm' & _ & _ & ->). rewrite E in E'.
  destruct (same_first _ _ _ _ _ _ _ _ _ E' Hn Hn' Hm Hm') as (_ & _ & -> & ->). done.
Qed.
Lemma well_stops a b st r : ends_well a st r -> once a b -> False.
Proof.
  intros (l1 & c & l2 & s & E & Hn & Hm & Hc) (l1' & c' & l2' & s' & E' & Hn' & Hm' & Hc' & _ & _). rewrite E in E'.
  destruct (same_first _ _ _ _ _ _ _ _ _ E' Hn Hn' Hm Hm') as (_ & _ & _ & ->). by eapply completed_not.
Qed.
Lemma badly_stops a b : ends_badly a -> once a b -> False.
Proof.
  intros [H|(l1 & c & s & E & Hn & Hm & _)] (l1' & c' & l2' & s' & E' & Hn' & Hm' & _ & Hl & _).
  - apply (H c' s'); [|done]. rewrite E'. apply elem_of_app. right. left.
  - rewrite E in E'. by destruct (same_first _ _ _ _ _ _ _ _ _ E' Hn Hn' Hm Hm') as (_ & _ & <- & _).
Qed.
Lemma stop_unique a b b' : rtc once a b -> rtc once a b' -> (forall c, ~ once b c) -> (forall c, ~ once b' c) -> b = b'.
Proof.
  induction 1 as [a|a c b Hac _ IH]; intros H' Hb Hb'.
  - inversion H' as [|? c ? Hc]; subst; [done|]. by apply Hb in Hc.
  - inversion H' as [|? c' ? Hc H'']; subst; [by apply Hb' in Hac|]. rewrite (once_unique _ _ _ Hc Hac) in H''. by apply IH.
Qed.
Lemma succeeds_unique w q st st' r r' : succeeds w q st r -> succeeds w q st' r' -> st = st' /\ same_but_robustness r r'.
Proof.
  intros (w1 & l1 & c & l2 & s & Ha & Hn & Hm & Hc) (w1' & l1' & c' & l2' & s' & Ha' & Hn' & Hm' & Hc').
  apply attempts_rtc in Ha, Ha'.
  assert (W : ends_well (w1, l1 ++ c :: l2) st r) by (by exists l1, c, l2, s).
  assert (W' : ends_well (w1', l1' ++ c' :: l2') st' r') by (by exists l1', c', l2', s').
  pose proof (stop_unique _ _ _ Ha Ha' (fun b => well_stops _ b _ _ W) (fun b => well_stops _ b _ _ W')) as E. injection E as <- E.
  destruct (same_first _ _ _ _ _ _ _ _ _ E Hn Hn' Hm Hm') as (_ & _ & _ & <-). by eapply completed_unique.
Qed.
Lemma succeeds_fails w q st r : succeeds w q st r -> fails w q -> False.
Proof.
  intros (w1 & l1 & c & l2 & s & Ha & Hn & Hm & Hc) (w1' & q1 & Ha' & Hb).
  apply attempts_rtc in Ha, Ha'.
  assert (W : ends_well (w1, l1 ++ c :: l2) st r) by (by exists l1, c, l2, s).
  assert (W' : ends_badly (w1', q1)) by exact Hb.
  pose proof (stop_unique _ _ _ Ha Ha' (fun b => well_stops _ b _ _ W) (fun b => badly_stops _ b W')) as E. injection E as <- E. subst q1.
  destruct Hb as [H|(l1' & c' & s' & E' & Hn' & Hm' & Hc')].
  - apply (H c s); [|done]. apply elem_of_app. right. left.
  - destruct (same_first _ _ _ _ _ _ _ _ _ E' Hn Hn' Hm Hm') as (_ & _ & _ & <-). by eapply completed_not.
Qed.
End request.
End proofs.
