(** What gen_contacts creates, for any bound on the number of creations. *)
From Coq Require Import ZArith.
From Verif Require Import Maps MapsProofs StateModel StateSpec StateProofs CombModel CombSpec CombProofs CombProofs2
  GenModel GenSpec GenProofs GenProofs2 GenProofs3 GenProofs4 GenProofs5 GenProofs6.

Section proofs.
Context {Cfg Pos Rot Cand Smp : Type}.
Notation St := (State Cfg Pos Rot Z).
Notation Rep := (report Cfg Pos Rot).
Notation Hlp := (helper Cfg Pos Rot).
Variable S : services Cfg Pos Rot Cand Smp.

Lemma try_limbs_order chk first limbs h rep h' rep' :
  try_limbs S chk first limbs h rep = (h', rep') ->
  exists c, c `sublist_of` limbs /\ order (working h') = order (working h) ++ c /\
    (limbs <> [] ->
      (success rep' = true -> last c = last limbs /\ order (result rep') = order (working h')) /\
      (success rep' = false -> c `sublist_of` removelast limbs)).
Proof.
  revert h rep. induction limbs as [|l limbs IH]; intros h rep; simpl.
  { intros [= <- <-]. exists []. by rewrite app_nil_r. }
  set (h1 := match limbs with [] => set_checkGen chk h | _ => h end).
  destruct (generate_contact S h1 l first) as [r post] eqn:Eg.
  apply generate_contact_grown in Eg as (-> & Hg & Hs). rewrite set_postural_same.
  assert (Hw1 : working h1 = working h) by (subst h1; by destruct limbs).
  rewrite Hw1 in *.
  set (rep1 := assign_report rep r).
  set (h2 := if success rep1 then set_working (state_assign (working h) (result rep1)) h1 else h1).
  intros Ht. change (try_limbs S chk first limbs h2 rep1 = (h', rep')) in Ht.
  assert (Hrs : success rep1 = success r) by done.
  assert (Ho2 : order (working h2) = order (working h) ++ (if success r then [l] else [])).
  { subst h2. rewrite Hrs. destruct (success r) eqn:Er; [|by rewrite app_nil_r, Hw1].
    simpl. rewrite Hs by done. done. }
  destruct limbs as [|l' limbs].
  - simpl in Ht. injection Ht as <- <-. rewrite Hrs. destruct (success r) eqn:Er.
    + exists [l]. split_and!; [done|done|]. intros _. split; [|done]. intros _. split; [done|].
      rewrite Ho2. simpl. by rewrite Hs.
    + exists []. split_and!; [apply sublist_nil_l|done|]. intros _. split; [done|]. intros _. simpl. done.
  - apply IH in Ht as (c & Hc & Ho & Hl). destruct (Hl ltac:(done)) as [Hl1 Hl2].
    exists ((if success r then [l] else []) ++ c). split_and!.
    + destruct (success r); [by apply sublist_skip|by apply sublist_cons].
    + by rewrite Ho, Ho2, app_assoc.
    + intros _. split.
      * intros H'. destruct (Hl1 H') as [Hla Hor]. split; [|done].
        rewrite last_cons. rewrite <- Hla.
        destruct (last c) eqn:Elc.
        { destruct (success r); simpl; [|done]. by rewrite last_cons, Elc. }
        symmetry in Hla. apply last_None in Hla. done.
      * intros H'. specialize (Hl2 H'). change (removelast (l :: l' :: limbs)) with (l :: removelast (l' :: limbs)).
        destruct (success r); [by apply sublist_skip|by apply sublist_cons].
Qed.

Lemma gen_loop_order chk q h rep rep' h' (w0 : St) pre :
  gen_loop S chk q h rep = (rep', h') ->
  order (working h) = order w0 ++ pre -> success rep = false -> success rep' = true ->
  exists (failed : list (list string * list string)) arr created rest,
    map snd q = map fst failed ++ arr :: rest /\
    order (result rep') = order w0 ++ pre ++ concat (map snd failed) ++ created /\
    (forall a c, (a, c) ∈ failed -> c `sublist_of` removelast a) /\
    created `sublist_of` arr /\ last created = last arr.
Proof.
  intros Hg. revert h rep pre Hg. induction q as [|[first limbs] q IH]; intros h rep pre; simpl; intros Hg Hw Hs Hs'.
  { injection Hg as <- <-. congruence. }
  rewrite Hs in Hg.
  set (b0 := (bool_decide (limbs = []) && chk && ((2 <=? nbContacts (working h))%Z || stableForOne h) && (thr h <=? isStable S (working h))%Z)) in Hg.
  set (h1 := if b0 then set_working (with_stable true (working h)) h else h) in Hg.
  assert (Hw1 : order (working h1) = order w0 ++ pre).
  { subst h1. by destruct b0. }
  clearbody h1. clear b0.
  destruct (bool_decide (limbs = []) && _ && _) eqn:Ee.
  { injection Hg as <- <-. rewrite !andb_true_iff in Ee. destruct Ee as [[Ee _] _].
    apply bool_decide_eq_true in Ee as ->. exists [], [], [], (map snd q). simpl. split_and!; try done.
    - rewrite app_nil_r. exact Hw1.
    - set_solver. }
  destruct (try_limbs S chk first limbs (set_checkGen false h1) rep) as [h2 rep2] eqn:Et.
  destruct (decide (limbs = [])) as [->|Hne].
  { simpl in Et. injection Et as <- <-.
    destruct (IH (set_checkGen false h1) rep pre Hg Hw1 Hs Hs') as (failed & arr & cr & rest & H1 & H2 & H3 & H4 & H5).
    exists (([], []) :: failed), arr, cr, rest. simpl. split_and!; try done; [by rewrite H1|].
    intros a c [[= -> ->]|Hin]%elem_of_cons; [done|auto]. }
  apply try_limbs_order in Et as (c & Hc & Ho & Hl). destruct (Hl Hne) as [Hl1 Hl2]. simpl in Ho.
  destruct (success rep2) eqn:E2.
  - destruct (Hl1 eq_refl) as [Hla Hor].
    assert (rep' = rep2) as ->.
    { destruct q as [|[] q]; simpl in Hg; [by injection Hg|]. rewrite E2 in Hg. by injection Hg. }
    exists [], limbs, c, (map snd q). simpl. split_and!; try done.
    + rewrite Hor, Ho, Hw1. by rewrite <- app_assoc.
    + set_solver.
  - destruct (IH h2 rep2 (pre ++ c) Hg) as (failed & arr & cr & rest & H1 & H2 & H3 & H4 & H5); try done.
    { by rewrite Ho, Hw1, app_assoc. }
    exists ((limbs, c) :: failed), arr, cr, rest. simpl. split_and!; try done.
    + by rewrite H1.
    + rewrite H2, <- !app_assoc. done.
    + intros a c' [[= -> ->]|Hin]%elem_of_cons; [auto|auto].
Qed.

Lemma C20_general h rep h' :
  NoDup (limbNames S) -> gen_contacts S h = (rep, h') -> success rep = true ->
  exists (failed : list (list string * list string)) arr created,
    order (result rep) = order (working h) ++ concat (map snd failed) ++ created /\
    NoDup (map fst failed ++ [arr]) /\
    (forall a, a ∈ map fst failed ++ [arr] ->
       NoDup a /\ length a <= maxCreations h /\ Forall (free_limb S (working h)) a) /\
    (forall a c, (a, c) ∈ failed -> c `sublist_of` removelast a) /\
    created `sublist_of` arr /\ last created = last arr.
Proof.
  intros Hnd Hg Hs. unfold gen_contacts in Hg.
  destruct (gen_queue_props S (working h) (maxCreations h) (maximise h) Hnd) as (He & Hq & Hfree).
  set (free := sortLimbs (order (working h)) (freeEffectors (working h) (limbNames S))) in *.
  assert (Hndf : NoDup free).
  { assert (Hx : NoDup (freeEffectors (working h) (limbNames S))) by (apply NoDup_filter; done).
    destruct (sortLimbs_correct (order (working h)) _ Hx) as [Hperm _]. unfold free. by rewrite Hperm. }
  assert (Hms : map snd (gen_contacts_combinatorial free (working h) (maxCreations h) (maximise h))
     = stringCombinatorial free (maxCreations h) (maximise h)).
  { unfold gen_contacts_combinatorial. rewrite map_map. simpl. apply map_id. }
  eapply (gen_loop_order _ _ _ _ _ _ (working h) []) in Hg as (failed & arr & cr & rest & H1 & H2 & H3 & H4 & H5);
    [|by rewrite app_nil_r|done|done].
  exists failed, arr, cr. rewrite Hms in H1.
  destruct (stringCombinatorial_correct free (maxCreations h) (maximise h) Hndf) as (Hnd' & Hin & _).
  split_and!; try done.
  - rewrite H1 in Hnd'. change (arr :: rest) with ([arr] ++ rest) in Hnd'. rewrite app_assoc in Hnd'.
    by apply NoDup_app in Hnd' as [? _].
  - intros a Ha. assert (Har : arrangement free (maxCreations h) a).
    { apply Hin. rewrite H1. set_solver. }
    destruct Har as (Ha1 & Ha2 & Ha3). split_and!; [done..|]. apply Forall_forall. intros x Hx. apply Hfree. by apply Ha2.
Qed.
End proofs.
