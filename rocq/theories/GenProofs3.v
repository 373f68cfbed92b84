From Coq Require Import ZArith.
From Verif Require Import Maps MapsProofs StateModel StateSpec StateProofs CombModel CombProofs GenModel GenSpec GenProofs GenProofs2.

Section proofs.
Context {Cfg Pos Rot Cand Smp : Type}.
Notation St := (State Cfg Pos Rot Z).
Notation Rep := (report Cfg Pos Rot).
Notation Hlp := (helper Cfg Pos Rot).
Notation srch := (@search Cfg Pos Rot).
Variable S : services Cfg Pos Rot Cand Smp.

Definition start_of (h : Hlp) : St := with_stable false (state_copy (working h)).
Lemma start_iff h cur : start h cur <-> cur = start_of h.
Proof. done. Qed.

Lemma nocheck_iff h : nocheck h (start_of h) = false <-> stability_requested h.
Proof.
  unfold nocheck, stability_requested. simpl.
  destruct (checkGen h), (stableForOne h); simpl; rewrite ?andb_false_r, ?andb_true_r; try naive_solver.
  rewrite Z.eqb_neq. naive_solver.
Qed.
Lemma reachable_iff h cur p : reachable S h cur p = true <-> reaches S h cur p.
Proof. unfold reachable, reaches. destruct (testReach h), (quasi h); naive_solver. Qed.

Lemma none_in_equiv post limb cur Q Q' l :
  (forall p, Q p <-> Q' p) -> none_in S post limb cur Q l -> no_projection_with S post limb cur Q' l.
Proof. intros HQ Hn a x b p E Hp HQp. apply (Hn a x b p E Hp). by apply HQ. Qed.

(** found_sample alone, with arbitrary carried flags *)
Lemma fold_found_spec h post limb cur l f2 f3 :
  let ok := fun p => nocheck h cur = true \/ ((thr h <= isStable S p)%Z /\ reachable S h cur p = true) in
  let s := fold_left (try_candidate S h post limb cur) l (s_init S cur f2 f3) in
  (found_sample s = false /\ none_in S post limb cur ok l /\
     sCfg s = cfg_after S post limb cur l (configuration cur) /\
     (f2 = true -> found_stable s = true) /\ (f3 = true -> unstableContact s = true)) \/
  (found_sample s = true /\ exists a x b p, l = a ++ x :: b /\ projects S post limb cur a x p /\ ok p /\
     none_in S post limb cur ok a /\ sCfg s = configuration p /\ place s = place_of S limb p).
Proof.
  intros ok. induction l as [|y l IH] using rev_ind; simpl.
  { left. split_and!; try done. apply none_in_nil. }
  rewrite fold_left_app. simpl. set (s := fold_left _ l _) in *. simpl in IH.
  rewrite try_candidate_eq.
  destruct IH as [(Hf & Hno & Hc & H2 & H3)|(Hf & a & x & b & p & -> & Hp & Hok & Hno & Hc & Hpl)].
  2:{ rewrite Hf. right. split; [done|]. exists a, x, (b ++ [y]), p. rewrite <- app_assoc. done. }
  rewrite Hf. simpl. rewrite Hc. rewrite after_snoc.
  destruct (projf S post limb cur (cfg_after S post limb cur l (configuration cur)) y) as [p|] eqn:E.
  2:{ left. simpl. split_and!; try done. apply none_in_snoc; [done|]. intros p Hp.
      apply projects_iff in Hp. congruence. }
  destruct (projf_cfg _ _ _ _ _ _ _ E) as [Hcp _]. pose proof (proj2 (projects_iff _ _ _ _ l y p) E) as HP.
  assert (Hdet : forall q, projects S post limb cur l y q -> q = p).
  { intros q Hq. apply projects_iff in Hq. congruence. }
  assert (Hgo : ok p -> exists a x b p0, l ++ [y] = a ++ x :: b /\ projects S post limb cur a x p0 /\ ok p0 /\
     none_in S post limb cur ok a /\ configuration p = configuration p0 /\ place_of S limb p = place_of S limb p0).
  { intros Hok. by exists l, y, [], p. }
  assert (Hngo : ~ ok p -> none_in S post limb cur ok (l ++ [y])).
  { intros Hnok. apply none_in_snoc; [done|]. intros q Hq. by rewrite (Hdet q Hq). }
  rewrite <- Hcp.
  destruct (nocheck h cur) eqn:Hn.
  { right. split; [done|]. apply Hgo. by left. }
  destruct (Z.leb_spec (thr h) (isStable S p)) as [Hle|Hlt].
  - destruct (reachable S h cur p) eqn:Er.
    { right. split; [done|]. apply Hgo. by right. }
    left. assert (Hnok : ~ ok p). { intros [?|[? ?]]; congruence. }
    destruct (found_stable s) eqn:Hfs; simpl; split_and!; auto.
  - left. assert (Hnok : ~ ok p). { intros [?|[? ?]]; [congruence|lia]. }
    destruct ((maxRob s <? isStable S p)%Z && contactIfFails h); simpl; split_and!; auto.
Qed.

(** the state built from a search that kept the projection [p] *)
Lemma record_place h post limb a x p c b :
  projects S post limb (start_of h) a x p -> c = configuration p ->
  contact_added S (nbContacts (working h)) b p
    (state_assign (fresh_state S)
       (with_stable b (with_configuration c (record_contact limb (place_of S limb p) (start_of h))))).
Proof.
  intros (cfg & _ & _ & ->) ->. unfold contact_added, place_of. simpl.
  rewrite !lookup_insert. simpl. done.
Qed.

Definition pass_ok (h : Hlp) (p : St) : Prop :=
  nocheck h (start_of h) = true \/ ((thr h <= isStable S p)%Z /\ reachable S h (start_of h) p = true).

Lemma pass_ok_iff h p : pass_ok h p <-> acceptable S h (start_of h) p.
Proof.
  unfold pass_ok, acceptable. rewrite <- nocheck_iff, reachable_iff.
  destruct (nocheck h (start_of h)); naive_solver.
Qed.

(** One pass *)
Lemma candidate_pass_found h post limb ps f2 f3 fl out :
  candidate_pass S h post limb ps (false, f2, f3) = (fl, out) ->
  let '(g1, g2, g3) := fl in
  (g1 = true /\ exists p,
     first_projection_with S post limb (start_of h) (acceptable S h (start_of h)) (octree S limb ps (working h)) p /\
     contact_added S (nbContacts (working h)) true p (state_assign (fresh_state S) out)) \/
  (g1 = false /\ no_projection_with S post limb (start_of h) (acceptable S h (start_of h)) (octree S limb ps (working h)) /\
   (f2 = true -> g2 = true) /\ (f3 = true -> g3 = true)).
Proof.
  unfold candidate_pass. fold (start_of h).
  change (mkSearch false f2 f3 (configuration (start_of h)) (emptyCfg S) (emptyCfg S) (minRob S)
           (junkPos S, junkPos S, junkRot S)) with (s_init S (start_of h) f2 f3).
  pose proof (fold_found_spec h post limb (start_of h) (octree S limb ps (working h)) f2 f3) as H.
  simpl in H. set (s := fold_left _ _ _) in *. intros [= <- <-].
  destruct H as [(-> & Hn & Hc & H2 & H3)|(-> & a & x & b & p & El & Hp & Hok & Hn & Hc & Hpl)].
  - right. split_and!; try done. eapply none_in_equiv; [|done]. apply pass_ok_iff.
  - left. split; [done|]. exists p. split.
    + exists a, x, b. split_and!; try done; [by apply pass_ok_iff|].
      eapply none_in_equiv; [|done]. apply pass_ok_iff.
    + simpl. rewrite Hpl. eapply record_place; done.
Qed.

Definition NP h limb ps post Q := no_projection_with S post limb (start_of h) Q (octree S limb ps (working h)).

(** A pass started with clear flags and not finding a sample *)
Lemma candidate_pass_rest h post limb ps fl out :
  candidate_pass S h post limb ps (false, false, false) = (fl, out) ->
  stability_requested h ->
  let cur := start_of h in let l := octree S limb ps (working h) in
  let '(g1, g2, g3) := fl in
  g1 = false ->
  (g2 = true /\ (exists p, first_projection_with S post limb cur (fun p => thr h <= isStable S p)%Z l p /\
      contact_added S (nbContacts (working h)) true p (state_assign (fresh_state S) out))) \/
  (g2 = false /\ no_projection_with S post limb cur (fun p => thr h <= isStable S p)%Z l /\
   ((g3 = true /\ contactIfFails h = true /\ (exists p, most_robust_projection S post limb cur l p /\
       (minRob S < isStable S p)%Z /\
       contact_added S (nbContacts (working h)) false p (state_assign (fresh_state S) out))) \/
    (g3 = false /\ out = start_of h /\
      (contactIfFails h = true -> no_projection_with S post limb cur (fun p => minRob S < isStable S p)%Z l)))).
Proof.
  intros Hpass Hreq. revert Hpass. unfold candidate_pass. fold (start_of h).
  change (mkSearch false false false (configuration (start_of h)) (emptyCfg S) (emptyCfg S) (minRob S)
           (junkPos S, junkPos S, junkRot S)) with (s_init S (start_of h) false false).
  apply nocheck_iff in Hreq.
  pose proof (fold_check S h post limb (start_of h) (octree S limb ps (working h)) Hreq) as H.
  simpl in H. set (s := fold_left _ _ _) in *. intros [= <- <-]. cbv zeta. intros Hg1.
  destruct H as [(_ & Hno & Hc & H)|(H & _)]; [|congruence]. rewrite Hg1. simpl.
  destruct H as [(H1 & a & x & b & p & El & Hp & Hs & Hna & Hb & Hpl & Hm)|(H1 & Hns & H)]; rewrite H1; simpl.
  - left. split; [done|]. exists p. split; [by exists a, x, b|]. rewrite Hpl. by eapply record_place.
  - right. split_and!; [done..|].
    destruct H as [(H2 & Hi & a & x & b & p & El & Hp & Hmin & Hna & Hnl & Hb & Hpl & Hm)|(H2 & Hm & Hnn)]; rewrite H2; simpl.
    + left. split_and!; [done..|]. exists p. split_and!; [by exists a, x, b|done|].
      rewrite Hpl. by eapply record_place.
    + right. done.
Qed.

Lemma candidate_pass_nocheck h post limb ps fl out :
  candidate_pass S h post limb ps (false, false, false) = (fl, out) ->
  ~ stability_requested h ->
  let '(g1, g2, g3) := fl in g2 = false /\ g3 = false /\ (g1 = false -> out = start_of h).
Proof.
  intros Hpass Hreq. revert Hpass. unfold candidate_pass. fold (start_of h).
  change (mkSearch false false false (configuration (start_of h)) (emptyCfg S) (emptyCfg S) (minRob S)
           (junkPos S, junkPos S, junkRot S)) with (s_init S (start_of h) false false).
  rewrite <- nocheck_iff in Hreq. apply not_false_is_true in Hreq.
  set (l := octree S limb ps (working h)). intros [= <- <-].
  assert (Hpres : forall l0, let s := fold_left (try_candidate S h post limb (start_of h)) l0
                      (s_init S (start_of h) false false) in found_stable s = false /\ unstableContact s = false).
  { intros l0. induction l0 as [|y l0 IH] using rev_ind; [done|]. rewrite fold_left_app. simpl.
    rewrite try_candidate_eq. simpl in IH. destruct (found_sample _); [done|].
    destruct (projf _ _ _ _ _ _); simpl; [|done]. rewrite Hreq. done. }
  specialize (Hpres l). simpl in Hpres. set (s := fold_left _ _ _) in *.
  destruct Hpres as [-> ->]. split_and!; [done..|]. intros ->. done.
Qed.
End proofs.
