From Coq Require Import ZArith.
From Verif Require Import Maps MapsProofs StateModel StateSpec StateProofs CombModel CombProofs GenModel GenSpec.

Section proofs.
Context {Cfg Pos Rot Cand Smp : Type}.
Notation St := (State Cfg Pos Rot Z).
Notation Rep := (report Cfg Pos Rot).
Notation Hlp := (helper Cfg Pos Rot).
Variable S : services Cfg Pos Rot Cand Smp.

Lemma state_eta (s : St) :
  s = mkState (configuration s) (contacts s) (normals s) (positions s) (rotations s) (order s)
        (nbContacts s) (stable s) (robustness s).
Proof. by destruct s. Qed.

(** ** setCollisionFree *)
Definition free_fn (limb : string) (c : Cfg) : option Cfg :=
  if limbValid S limb c then Some c else first_valid_load S limb (samples S limb) c.

Lemma first_valid_load_Some limb l c c' :
  first_valid_load S limb l c = Some c' <->
  exists l1 s l2, l = l1 ++ s :: l2 /\ c' = load_all S (l1 ++ [s]) c /\ limbValid S limb c' = true /\
     forall a x b, l1 = a ++ x :: b -> limbValid S limb (load_all S (a ++ [x]) c) = false.
Proof.
  revert c. induction l as [|s l IH]; intros c; simpl.
  - split; [done|]. intros (l1 & s & l2 & E & _). by destruct l1.
  - destruct (limbValid S limb (loadS S s c)) eqn:Ev.
    + split.
      * intros [= <-]. exists [], s, l. split_and!; [done..|]. intros a x b E. by destruct a.
      * intros (l1 & s' & l2 & E & -> & Hv & Hn). destruct l1 as [|y l1].
        { injection E as -> ->. done. }
        injection E as <- ->. specialize (Hn [] s l1 eq_refl). unfold load_all in Hn. simpl in Hn. congruence.
    + rewrite IH. split.
      * intros (l1 & s' & l2 & -> & -> & Hv & Hn). exists (s :: l1), s', l2.
        split_and!; [done..|]. intros a x b E. destruct a as [|y a].
        { injection E as <- ->. done. }
        injection E as <- ->. apply (Hn a x b eq_refl).
      * intros (l1 & s' & l2 & E & -> & Hv & Hn). destruct l1 as [|y l1].
        { injection E as <- <-. unfold load_all in Hv. simpl in Hv. congruence. }
        injection E as <- ->. exists l1, s', l2. split_and!; [done..|].
        intros a x b ->. apply (Hn (s :: a) x b eq_refl).
Qed.

Lemma first_valid_load_None limb l c :
  first_valid_load S limb l c = None <->
  forall a x b, l = a ++ x :: b -> limbValid S limb (load_all S (a ++ [x]) c) = false.
Proof.
  revert c. induction l as [|s l IH]; intros c; simpl.
  - split; [|done]. intros _ a x b E. by destruct a.
  - destruct (limbValid S limb (loadS S s c)) eqn:Ev.
    + split; [done|]. intros Hn. specialize (Hn [] s l eq_refl). unfold load_all in Hn. simpl in Hn. congruence.
    + rewrite IH. split.
      * intros Hn a x b E. destruct a as [|y a]; injection E as <- ->; [done|]. apply (Hn a x b eq_refl).
      * intros Hn a x b ->. apply (Hn (s :: a) x b eq_refl).
Qed.

Lemma freed_iff limb c c' : freed S limb c c' <-> free_fn limb c = Some c'.
Proof.
  unfold freed, free_fn. destruct (limbValid S limb c) eqn:E.
  - split; [|intros [= <-]; by left]. intros [[_ ->]|[? _]]; done.
  - rewrite first_valid_load_Some. split; [intros [[? _]|[_ H]]; done|]. intros H. by right.
Qed.

Lemma stuck_iff limb c : stuck S limb c <-> free_fn limb c = None.
Proof.
  unfold stuck, free_fn. destruct (limbValid S limb c) eqn:E; [naive_solver|].
  rewrite first_valid_load_None. naive_solver.
Qed.

Fixpoint free_all_fn (ls : list string) (c : Cfg) : option Cfg :=
  match ls with
  | [] => Some c
  | l :: ls => match free_fn l c with Some c => free_all_fn ls c | None => None end
  end.
Lemma all_freed_iff ls c c' : all_freed S ls c c' <-> free_all_fn ls c = Some c'.
Proof.
  revert c. induction ls as [|l ls IH]; intros c; simpl.
  - split; [by inversion 1|]. intros [= ->]. constructor.
  - split.
    + inversion 1 as [|? ? ? c1 ? Hf Ha]; subst. apply freed_iff in Hf. rewrite Hf. by apply IH.
    + destruct (free_fn l c) as [c1|] eqn:E; [|done]. intros H. apply IH in H.
      econstructor; [by apply freed_iff|done].
Qed.
Lemma free_all_fn_app l1 l2 c :
  free_all_fn (l1 ++ l2) c = match free_all_fn l1 c with Some c => free_all_fn l2 c | None => None end.
Proof. revert c. induction l1 as [|l l1 IH]; intros c; simpl; [done|]. by destruct (free_fn l c). Qed.

Lemma setCollisionFree_eq limb cur :
  setCollisionFree S limb cur =
  match free_fn limb (configuration cur) with
  | Some c => report_of S true (with_configuration c cur)
  | None => report_of S false cur
  end.
Proof.
  unfold setCollisionFree, free_fn. destruct (limbValid S limb (configuration cur)); [|done].
  by destruct cur.
Qed.

Lemma state_assign_eq (a b : St) :
  state_assign a b = mkState (configuration b) (contacts b) (normals b) (positions b) (rotations b)
    (order b) (nbContacts b) (stable b) (robustness a).
Proof. done. Qed.

Lemma col_free_limbs_false ls rep : success rep = false -> col_free_limbs S ls rep = rep.
Proof. by destruct ls; simpl; [|intros ->]. Qed.

Lemma col_free_limbs_success ls (rep : Rep) :
  success rep = true -> robustness (result rep) = junkRob S ->
  match free_all_fn ls (configuration (result rep)) with
  | Some c => success (col_free_limbs S ls rep) = true /\
      result (col_free_limbs S ls rep) = with_configuration c (result rep)
  | None => success (col_free_limbs S ls rep) = false
  end.
Proof.
  revert rep. induction ls as [|l ls IH]; intros rep Hs Hr; simpl.
  { split; [done|]. by destruct (result rep). }
  rewrite Hs, setCollisionFree_eq.
  destruct (free_fn l (configuration (result rep))) as [c|] eqn:E.
  - specialize (IH (assign_report rep (report_of S true (with_configuration c (result rep))))).
    simpl in IH. destruct (free_all_fn ls c) as [c'|].
    + destruct IH as [H1 H2]; [done..|]. split; [done|]. rewrite H2. done.
    + by apply IH.
  - by rewrite col_free_limbs_false.
Qed.

(** ** maintain_contacts *)
Definition admit_fn (h : Hlp) (c : St) : option St :=
  let '(ok, c1) := projRoot S (configuration (working h)) c in
  if (ok : bool) then
    match free_all_fn (free_limbs S (working h) c) c1 with
    | Some c2 =>
      if validate S c2 then
        let s := state_assign (fresh_state S) (with_configuration c2 c) in
        if quasi h && testReach h && negb (reachQS S (working h) s) then None else Some s
      else None
    | None => None
    end
  else None.

Lemma moved_to_det c2 c s :
  moved_to c2 c s -> robustness s = junkRob S ->
  s = state_assign (fresh_state S) (with_configuration c2 c).
Proof.
  intros [] Hr. rewrite (state_eta s), Hr. unfold state_assign, with_configuration; simpl. congruence.
Qed.

Lemma admissible_iff h c s : admissible S h c s <-> admit_fn h c = Some s.
Proof.
  unfold admissible, admit_fn. split.
  - intros (c1 & c2 & Hp & Ha & Hv & Hm & Hr & Hq). rewrite Hp. apply all_freed_iff in Ha.
    rewrite Ha, Hv. rewrite <- (moved_to_det c2 c s Hm Hr).
    destruct (quasi h) eqn:E1, (testReach h) eqn:E2; simpl; try done. by rewrite Hq.
  - destruct (projRoot S (configuration (working h)) c) as [[] c1]; [|done].
    destruct (free_all_fn (free_limbs S (working h) c) c1) as [c2|] eqn:Ef; [|done].
    destruct (validate S c2) eqn:Ev; [|done].
    destruct (quasi h && testReach h && negb (reachQS S (working h) _)) eqn:Eq; [done|].
    intros [= <-]. exists c1, c2. split_and!; [done|by apply all_freed_iff|done|done|done|].
    intros Hq Ht. rewrite Hq, Ht in Eq. simpl in Eq. by apply negb_false_iff in Eq.
Qed.

Lemma try_maintain_eq h c :
  match admit_fn h c with
  | Some s => success (try_maintain S h c) = true /\ result (try_maintain S h c) = s /\
      (quasi h = true -> testReach h = true -> rstatus (try_maintain S h c) = REACHABLE_CONTACT)
  | None => success (try_maintain S h c) = false
  end.
Proof.
  unfold try_maintain, admit_fn, projectToRootConfiguration.
  destruct (projRoot S (configuration (working h)) c) as [[] c1]; [|done].
  simpl. unfold genColFree, free_limbs. simpl.
  assert (Hfe : freeEffectors (state_assign (fresh_state S) (with_configuration c1 c)) (limbNames S) =
    freeEffectors c (limbNames S)) by done.
  rewrite Hfe. rewrite free_all_fn_app.
  set (ls1 := sortLimbs (order (working h)) (freeEffectors c (limbNames S))).
  set (r0 := report_of S true (with_configuration c1 c)).
  pose proof (col_free_limbs_success ls1 r0 eq_refl eq_refl) as H1.
  change (configuration (result r0)) with c1 in H1.
  destruct (free_all_fn ls1 c1) as [c2|].
  2:{ rewrite (col_free_limbs_false (nonContacting S)); [|done]. rewrite H1. simpl. by rewrite H1. }
  destruct H1 as [H1 H1']. set (r1 := col_free_limbs S ls1 r0) in *.
  pose proof (col_free_limbs_success (nonContacting S) r1 H1) as H2.
  rewrite H1' in H2. specialize (H2 eq_refl). simpl in H2.
  destruct (free_all_fn (nonContacting S) c2) as [c3|].
  2:{ rewrite H2. simpl. by rewrite H2. }
  destruct H2 as [H2 H2']. rewrite H2, H2'. simpl.
  destruct (validate S c3); simpl; [|done].
  change (with_configuration c3 (with_configuration c2 (state_assign (fresh_state S) (with_configuration c1 c))))
    with (state_assign (fresh_state S) (with_configuration c3 c)).
  destruct (quasi h) eqn:E1, (testReach h) eqn:E2; simpl; rewrite ?H2'; try done.
  destruct (reachQS S (working h) _); simpl; done.
Qed.

Lemma try_maintain_rob h c : success (try_maintain S h c) = true ->
  robustness (result (try_maintain S h c)) = junkRob S.
Proof.
  intros Hs. pose proof (try_maintain_eq h c) as H. destruct (admit_fn h c) as [s|] eqn:E.
  - destruct H as (_ & -> & _). apply admissible_iff in E. by destruct E as (?&?&?&?&?&?&?&?).
  - congruence.
Qed.

Lemma maintain_loop_spec h rep q :
  success rep = false -> robustness (result rep) = junkRob S ->
  let '(out, q') := maintain_loop S h rep q in
  (success out = true /\ exists l1 c l2, q = l1 ++ c :: l2 /\ q' = l2 /\
      (forall x, x ∈ l1 -> forall s, ~ admissible S h x s) /\ admissible S h c (result out) /\
      (quasi h = true -> testReach h = true -> rstatus out = REACHABLE_CONTACT)) \/
  (success out = false /\ q' = [] /\ forall x, x ∈ q -> forall s, ~ admissible S h x s).
Proof.
  revert rep. induction q as [|c q IH]; intros rep Hs Hr; simpl.
  { right. split_and!; [done..|]. intros x Hx. by apply elem_of_nil in Hx. }
  rewrite Hs. pose proof (try_maintain_eq h c) as Ht. destruct (admit_fn h c) as [s|] eqn:Ea.
  - destruct Ht as (H1 & H2 & H3). assert (Hra : robustness s = junkRob S).
    { rewrite <- H2. by apply try_maintain_rob. }
    replace (maintain_loop S h (assign_report rep (try_maintain S h c)) q) with
      (assign_report rep (try_maintain S h c), q).
    2:{ destruct q; simpl; [done|]. by rewrite H1. }
    left. split; [done|]. exists [], c, q. split_and!; [done|done| | |done].
    + intros x Hx. by apply elem_of_nil in Hx.
    + apply admissible_iff. rewrite Ea. f_equal. simpl. rewrite H2, state_assign_eq, Hr.
      rewrite (state_eta s) at 1. by rewrite Hra.
  - specialize (IH (assign_report rep (try_maintain S h c)) Ht Hr).
    assert (Hnc : forall s, ~ admissible S h c s).
    { intros s Hads. apply admissible_iff in Hads. congruence. }
    destruct (maintain_loop S h (assign_report rep (try_maintain S h c)) q) as [out q'].
    destruct IH as [(H1 & l1 & c' & l2 & -> & -> & Hn & Ha & Hst)|(H1 & -> & Hn)].
    + left. split; [done|]. exists (c :: l1), c', l2. split_and!; [done..| |done|done].
      intros x [->|Hx]%elem_of_cons; [done|]. by apply Hn.
    + right. split_and!; [done..|]. intros x [->|Hx]%elem_of_cons; [done|]. by apply Hn.
Qed.

Definition queue_of (h : Hlp) : list St :=
  match cands h with
  | [] => if bool_decide (contacts (working h) = ∅) then []
          else maintain_contacts_combinatorial (working h) (maxBreaks h)
  | q => q
  end.
Lemma maintain_queue_iff h q : maintain_queue h q <-> q = queue_of h.
Proof.
  unfold maintain_queue, queue_of. destruct (cands h) eqn:E.
  - destruct (bool_decide (contacts (working h) = ∅)) eqn:Eb.
    + apply bool_decide_eq_true in Eb. naive_solver.
    + apply bool_decide_eq_false in Eb. naive_solver.
  - naive_solver.
Qed.

Lemma maintain_contacts_eq h :
  maintain_contacts S h =
  let '(rep, q) := maintain_loop S h (fresh_report S) (queue_of h) in
  if success rep && checkMaintain h then maintain_contacts_stability S (set_cands q h) rep
  else (rep, set_cands q h).
Proof.
  unfold maintain_contacts, queue_of.
  assert (Hl : forall q0 rep q, maintain_loop S (set_cands q0 h) rep q = maintain_loop S h rep q).
  { intros q0 rep q. revert rep. induction q; intros rep; simpl; [done|]. by destruct (success rep). }
  destruct (cands h) as [|c0 q0] eqn:E.
  - destruct (bool_decide (contacts (working h) = ∅)).
    + rewrite E. destruct (maintain_loop S h (fresh_report S) []). done.
    + simpl. rewrite Hl. by destruct (maintain_loop S h (fresh_report S) _).
  - rewrite E. destruct (maintain_loop S h (fresh_report S) (c0 :: q0)). done.
Qed.

Lemma C15_lemma h q rep h' :
  checkMaintain h = false -> maintain_queue h q -> maintain_contacts S h = (rep, h') ->
  (success rep = true /\ exists l1 c l2, q = l1 ++ c :: l2 /\ h' = set_cands l2 h /\
      (forall x, x ∈ l1 -> forall s, ~ admissible S h x s) /\ admissible S h c (result rep) /\
      (quasi h = true -> testReach h = true -> rstatus rep = REACHABLE_CONTACT)) \/
  (success rep = false /\ h' = set_cands [] h /\ forall x, x ∈ q -> forall s, ~ admissible S h x s).
Proof.
  intros Hc Hq. apply maintain_queue_iff in Hq as ->. rewrite maintain_contacts_eq.
  pose proof (maintain_loop_spec h (fresh_report S) (queue_of h) eq_refl eq_refl) as H.
  destruct (maintain_loop S h (fresh_report S) (queue_of h)) as [r q']. rewrite Hc, andb_false_r.
  intros [= <- <-]. naive_solver.
Qed.
End proofs.
