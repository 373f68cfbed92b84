(** The postural retry of findValidCandidate: the second pass starts with the
    flags the first one left. *)
From Coq Require Import ZArith.
From Verif Require Import Maps MapsProofs StateModel StateSpec StateProofs CombModel CombProofs GenModel GenSpec
  GenProofs GenProofs2 GenProofs3 GenProofs4.

Section proofs.
Context {Cfg Pos Rot Cand Smp : Type}.
Notation St := (State Cfg Pos Rot Z).
Notation Rep := (report Cfg Pos Rot).
Notation Hlp := (helper Cfg Pos Rot).
Notation srch := (@search Cfg Pos Rot).
Variable S : services Cfg Pos Rot Cand Smp.

(** the flag "unstable" is only accumulated *)
Definition or_unst (f : bool) (s : srch) : srch :=
  mkSearch (found_sample s) (found_stable s) (f || unstableContact s) (sCfg s) (moreRobust s)
    (bestUnreachable s) (maxRob s) (place s).

Lemma try_or h post limb cur f (s : srch) x :
  try_candidate S h post limb cur (or_unst f s) x = or_unst f (try_candidate S h post limb cur s x).
Proof.
  rewrite !try_candidate_eq. simpl. destruct (found_sample s); [done|].
  destruct (projf S post limb cur (sCfg s) x) as [p|]; [|done].
  destruct (nocheck h cur); [done|]. destruct (thr h <=? isStable S p)%Z.
  - destruct (reachable S h cur p); [done|]. by destruct (found_stable s).
  - destruct (_ && _); [|done]. unfold or_unst. simpl. by rewrite orb_true_r.
Qed.
Lemma fold_or h post limb cur f l (s : srch) :
  fold_left (try_candidate S h post limb cur) l (or_unst f s)
  = or_unst f (fold_left (try_candidate S h post limb cur) l s).
Proof. revert s. induction l as [|x l IH]; intros s; simpl; [done|]. by rewrite try_or, IH. Qed.

Lemma s_init_or cur f2 f3 : s_init S cur f2 f3 = or_unst f3 (s_init S cur f2 false).
Proof. unfold s_init, or_unst. simpl. by rewrite orb_false_r. Qed.

(** starting with the flag "stable" set: nothing but reachable samples or more
    robust unstable ones change the placement *)
Lemma fold_stable_set h post limb cur l f3 :
  nocheck h cur = false ->
  let low := fun p => (isStable S p < thr h)%Z in
  let s := fold_left (try_candidate S h post limb cur) l (s_init S cur true f3) in
  found_sample s = true \/
  (found_sample s = false /\ found_stable s = true /\ bestUnreachable s = emptyCfg S /\
   ((place s = (junkPos S, junkPos S, junkRot S) /\ maxRob s = minRob S /\
      (contactIfFails h = true -> none_in S post limb cur (fun p => low p /\ (minRob S < isStable S p)%Z) l)) \/
    (contactIfFails h = true /\ exists a x b p, l = a ++ x :: b /\ projects S post limb cur a x p /\
       low p /\ (minRob S < isStable S p)%Z /\
       none_in S post limb cur (fun q => low q /\ (isStable S p <= isStable S q)%Z) a /\
       none_in S post limb cur (fun q => low q /\ (isStable S p < isStable S q)%Z) l /\
       place s = place_of S limb p /\ maxRob s = isStable S p)) /\
   sCfg s = cfg_after S post limb cur l (configuration cur)).
Proof.
  intros Hn low. induction l as [|y l IH] using rev_ind; simpl.
  { right. split_and!; try done. left. split_and!; try done. intros _. apply none_in_nil. }
  rewrite fold_left_app. simpl. set (s := fold_left _ l _) in *. simpl in IH.
  rewrite try_candidate_eq. destruct IH as [Hf|(Hf & H2 & Hb & IH & Hc)].
  { rewrite Hf. by left. }
  rewrite Hf, Hn. simpl. rewrite Hc, after_snoc.
  destruct (projf S post limb cur (cfg_after S post limb cur l (configuration cur)) y) as [p|] eqn:E.
  2:{ right. simpl. split_and!; try done.
    assert (Hsn : forall Q, none_in S post limb cur Q l -> none_in S post limb cur Q (l ++ [y])).
    { intros Q HQ. apply none_in_snoc; [done|]. intros p Hp. apply projects_iff in Hp. congruence. }
    destruct IH as [(H1 & Hm & H3)|(Hi & a & x & b & p & El & Hp & Hlo & Hmin & Hna & Hnl & Hpl & Hm)].
    - left. split_and!; auto.
    - right. split; [done|]. exists a, x, (b ++ [y]), p. split_and!; try done.
      { by rewrite El, <- app_assoc. }
      by apply Hsn. }
  pose proof (proj2 (projects_iff _ _ _ _ l y p) E) as HP.
  assert (Hdet : forall q, projects S post limb cur l y q -> q = p).
  { intros q Hq. apply projects_iff in Hq. congruence. }
  assert (Hkeep : (low p -> contactIfFails h = true -> (isStable S p <= maxRob s)%Z) ->
   (place s = (junkPos S, junkPos S, junkRot S) /\ maxRob s = minRob S /\
      (contactIfFails h = true -> none_in S post limb cur (fun p => low p /\ (minRob S < isStable S p)%Z) (l ++ [y]))) \/
    (contactIfFails h = true /\ exists a x b p, l ++ [y] = a ++ x :: b /\ projects S post limb cur a x p /\
       low p /\ (minRob S < isStable S p)%Z /\
       none_in S post limb cur (fun q => low q /\ (isStable S p <= isStable S q)%Z) a /\
       none_in S post limb cur (fun q => low q /\ (isStable S p < isStable S q)%Z) (l ++ [y]) /\
       place s = place_of S limb p /\ maxRob s = isStable S p)).
  { intros Hle. destruct IH as [(H1 & Hm & H3)|(Hi & a & x & b & p' & El & Hp & Hlo & Hmin & Hna & Hnl & Hpl & Hm)].
    - left. split_and!; [done..|]. intros Hi. apply none_in_snoc; [auto|]. intros q Hq [Hl Hgt].
      apply Hdet in Hq as ->. specialize (Hle Hl Hi). lia.
    - right. split; [done|]. exists a, x, (b ++ [y]), p'. split_and!; try done.
      { by rewrite El, <- app_assoc. }
      apply none_in_snoc; [done|]. intros q Hq [Hl Hgt]. apply Hdet in Hq as ->.
      specialize (Hle Hl Hi). lia. }
  destruct (Z.leb_spec (thr h) (isStable S p)) as [Hle|Hlt].
  - destruct (reachable S h cur p) eqn:Er; [by left|]. rewrite H2. right. simpl. split_and!; try done.
    apply Hkeep. intros Hl. unfold low in Hl. lia.
  - destruct ((maxRob s <? isStable S p)%Z && contactIfFails h) eqn:Em.
    + apply andb_prop in Em as [Em Hi]. apply Z.ltb_lt in Em. right. simpl. split_and!; try done.
      right. split; [done|]. exists l, y, [], p.
      destruct IH as [(H1 & Hm & H3)|(_ & a & x & b & p' & El & Hp & Hlo & Hmin & Hna & Hnl & Hpl & Hm)].
      * split_and!; try done; [lia| |].
        -- intros a' x' b' q' E' Hq' [Hl' Hge]. apply (H3 Hi a' x' b' q' E' Hq'). split; [done|lia].
        -- apply none_in_snoc.
           { intros a' x' b' q' E' Hq' [Hl' Hge]. apply (H3 Hi a' x' b' q' E' Hq'). split; [done|lia]. }
           intros q Hq [_ ?]. apply Hdet in Hq as ->. lia.
      * split_and!; try done; [lia| |].
        -- intros a' x' b' q' E' Hq' [Hl' Hge]. apply (Hnl a' x' b' q' E' Hq'). split; [done|lia].
        -- apply none_in_snoc.
           { intros a' x' b' q' E' Hq' [Hl' Hge]. apply (Hnl a' x' b' q' E' Hq'). split; [done|lia]. }
           intros q Hq [_ ?]. apply Hdet in Hq as ->. lia.
    + right. simpl. split_and!; try done. apply Hkeep. intros _ Hi. rewrite Hi, andb_true_r in Em.
      apply Z.ltb_ge in Em. done.
Qed.

(** a contact of [limb] recorded on top of [w] with the given placement *)
Lemma recorded_placed h limb c b pl :
  placed_contact (working h) limb c b pl
    (state_assign (fresh_state S) (with_stable b (with_configuration c (record_contact limb pl (start_of h))))).
Proof. destruct pl as [[p n] r]. by split. Qed.
Lemma placed_assign w limb c b pl a (s : St) :
  placed_contact w limb c b pl s -> placed_contact w limb c b pl (state_assign a s).
Proof. by intros []. Qed.

(** the second pass, after a first one that found no acceptable sample *)
Lemma retry_spec h limb ps f2 f3 g1 g2 g3 out :
  candidate_pass S h false limb ps (false, f2, f3) = (g1, g2, g3, out) ->
  stability_requested h -> g1 = false ->
  let cur := start_of h in let l := octree S limb ps (working h) in
  let robust := fun p => (thr h <= isStable S p)%Z in
  let r := state_assign (fresh_state S) out in
  let junk := (junkPos S, junkPos S, junkRot S) in
  (f2 = true -> g2 = true /\ exists pl, placed_contact (working h) limb (emptyCfg S) true pl r /\
     ((pl = junk /\ (contactIfFails h = true ->
         no_projection_with S false limb cur (fun p => ~ robust p /\ (minRob S < isStable S p)%Z) l)) \/
      (contactIfFails h = true /\ exists p, best_of S false limb cur (fun q => ~ robust q) l p /\
         (minRob S < isStable S p)%Z /\
         pl = (fkPos S limb (configuration p), default (junkPos S) (normals p !! limb), fkRot S limb (configuration p))))) /\
  (f2 = false -> g2 = true -> exists p, first_projection_with S false limb cur robust l p /\
     contact_added S (nbContacts (working h)) true p r) /\
  (f2 = false -> g2 = false -> no_projection_with S false limb cur robust l /\
     (g3 = true -> (contactIfFails h = true /\ exists p, most_robust_projection S false limb cur l p /\
          (minRob S < isStable S p)%Z /\ contact_added S (nbContacts (working h)) false p r) \/
        (f3 = true /\
          (contactIfFails h = true -> no_projection_with S false limb cur (fun p => minRob S < isStable S p)%Z l) /\
          placed_contact (working h) limb (emptyCfg S) false junk r)) /\
     (g3 = false -> f3 = false /\
       (contactIfFails h = true -> no_projection_with S false limb cur (fun p => minRob S < isStable S p)%Z l))).
Proof.
  intros Hp Hreq Hg1 cur l robust r junk. unfold candidate_pass in Hp. fold (start_of h) in Hp.
  change (mkSearch false f2 f3 (configuration (start_of h)) (emptyCfg S) (emptyCfg S) (minRob S)
           (junkPos S, junkPos S, junkRot S)) with (s_init S (start_of h) f2 f3) in Hp.
  apply nocheck_iff in Hreq. fold cur in Hp, Hreq. fold l in Hp.
  assert (Hlow : forall p, (isStable S p < thr h)%Z <-> ~ robust p) by (intros p; unfold robust; lia).
  split_and!.
  - intros ->. pose proof (fold_stable_set h false limb cur l f3 Hreq) as H. simpl in H.
    set (s := fold_left _ _ _) in *. injection Hp as E1 E2 E3 E4. destruct H as [H|(Hf & Hs & Hb & H & Hc)]; [congruence|].
    rewrite Hf, Hs, Hb in E4. simpl in E4. split; [congruence|]. exists (place s). subst r out. split.
    { apply recorded_placed. }
    destruct H as [(H1 & Hm & H3)|(Hi & a & x & b & p & El & Hpr & Hlo & Hmin & Hna & Hnl & Hpl & Hm)].
    + left. split; [done|]. intros Hi. eapply none_in_equiv; [|by apply H3]. intros p. specialize (Hlow p). cbv beta. tauto.
    + right. split; [done|]. exists p. split_and!; [|done|].
      * exists a, x, b. split_and!; [done|done|by apply Hlow| |].
        -- eapply none_in_equiv; [|exact Hna]. intros q. specialize (Hlow q). cbv beta. tauto.
        -- eapply none_in_equiv; [|exact Hnl]. intros q. specialize (Hlow q). cbv beta. tauto.
      * rewrite Hpl. destruct Hpr as (cfg & _ & _ & ->). unfold place_of. simpl. by rewrite !lookup_insert.
  - intros -> ->. rewrite s_init_or, fold_or in Hp.
    pose proof (fold_check S h false limb cur l Hreq) as H. simpl in H.
    set (s := fold_left _ _ _) in *. injection Hp as E1 E2 E3 E4. simpl in E1, E2, E3.
    destruct H as [(Hf & Hno & Hc & H)|(H & _)]; [|congruence]. simpl in E4. rewrite Hf, E2 in E4. simpl in E4.
    destruct H as [(H1 & a & x & b & p & El & Hpr & Hs & Hna & Hb & Hpl & Hm)|(H1 & Hns & H)]; [|congruence].
    exists p. split; [by exists a, x, b|]. subst r out. rewrite Hpl. by eapply record_place.
  - intros -> ->. rewrite s_init_or, fold_or in Hp.
    pose proof (fold_check S h false limb cur l Hreq) as H. simpl in H.
    set (s := fold_left _ _ _) in *. injection Hp as E1 E2 E3 E4. simpl in E1, E2, E3.
    destruct H as [(Hf & Hno & Hc & H)|(H & _)]; [|congruence]. simpl in E4. rewrite Hf, E2, E3 in E4. simpl in E4.
    destruct H as [(H1 & _)|(H1 & Hns & H)]; [congruence|]. split; [done|].
    destruct H as [(H2 & Hi & a & x & b & p & El & Hpr & Hmin & Hna & Hnl & Hb & Hpl & Hm)|(H2 & Hm & Hnn)].
    + rewrite H2, orb_true_r in E3. subst g3. split; [|done]. intros _. left. split; [done|]. exists p.
      split_and!; [by exists a, x, b|done|]. subst r out. rewrite Hpl. by eapply record_place.
    + rewrite H2, orb_false_r in E3. subst g3. split; [|by intros ->]. intros ->. right. split_and!; try done.
      subst r out. clear E1 E2. 
      assert (Hjunk : place s = junk /\ moreRobust s = emptyCfg S).
      { clear -H2 H1 Hf Hreq. subst s. revert H2 H1 Hf. induction l as [|y l IH] using rev_ind; [done|].
        rewrite fold_left_app. simpl. set (t := fold_left _ _ _) in *. rewrite try_candidate_eq.
        destruct (found_sample t) eqn:Et; [congruence|]. destruct (projf _ _ _ _ _ _) as [p|]; simpl; [|auto].
        rewrite Hreq. destruct (_ <=? _)%Z.
        { destruct (reachable _ _ _ _); [done|]. destruct (found_stable t); [done|]. done. }
        destruct (_ && _); [done|]. auto. }
      destruct Hjunk as [-> ->]. apply recorded_placed.
Qed.

Local Opaque candidate_pass.
(** C17 with the postural task *)
Lemma C17_postural_lemma h limb ps rep post cur :
  start h cur -> stability_requested h -> postural h = true ->
  generate_contact S h limb ps = (rep, post) ->
  let l := octree S limb ps (working h) in let nb := nbContacts (working h) in
  let robust := fun p => (thr h <= isStable S p)%Z in
  let good := fun p => (thr h <= isStable S p)%Z /\ reaches S h cur p in
  let valued := fun p => (minRob S < isStable S p)%Z in
  let junk := (junkPos S, junkPos S, junkRot S) in
  match rstatus rep with
  | REACHABLE_CONTACT => exists mode p, deciding_mode S h limb cur good l mode /\
      first_projection_with S mode limb cur good l p /\ contact_added S nb true p (result rep)
  | STABLE_CONTACT => no_projection_with S true limb cur good l /\ no_projection_with S false limb cur good l /\
      ((no_projection_with S true limb cur robust l /\
        exists p, first_projection_with S false limb cur robust l p /\ contact_added S nb true p (result rep)) \/
       ((exists p, first_projection_with S true limb cur robust l p) /\
        exists pl, placed_contact (working h) limb (emptyCfg S) true pl (result rep) /\
         ((pl = junk /\ (contactIfFails h = true ->
             no_projection_with S false limb cur (fun p => ~ robust p /\ valued p) l)) \/
          (contactIfFails h = true /\ exists p, best_of S false limb cur (fun q => ~ robust q) l p /\ valued p /\
             pl = (fkPos S limb (configuration p), default (junkPos S) (normals p !! limb),
                   fkRot S limb (configuration p))))))
  | UNSTABLE_CONTACT => contactIfFails h = true /\
      no_projection_with S true limb cur robust l /\ no_projection_with S false limb cur robust l /\
      ((exists p, most_robust_projection S false limb cur l p /\ valued p /\ contact_added S nb false p (result rep)) \/
       ((exists p, most_robust_projection S true limb cur l p /\ valued p) /\
        no_projection_with S false limb cur valued l /\
        placed_contact (working h) limb (emptyCfg S) false junk (result rep)))
  | NO_CONTACT =>
      no_projection_with S true limb cur robust l /\ no_projection_with S false limb cur robust l /\
      (contactIfFails h = true -> no_projection_with S true limb cur valued l /\ no_projection_with S false limb cur valued l)
  end.
Proof.
  intros -> Hreq Hp Hg l nb robust good valued junk. fold (start_of h) in *.
  assert (Hacc : forall p, good p <-> acceptable S h (start_of h) p) by (unfold acceptable; naive_solver).
  pose proof (generate_contact_reachable S h limb ps rep post Hg) as H. simpl in H.
  destruct H as [(H1 & H2 & mode & p & Hd & (a & x & b & El & Hpr & Hpp & Hno) & Hca)|(Hst & Hn1 & Hn2)].
  { rewrite H1. exists mode, p. split_and!; [eapply deciding_weaken; [apply Hacc|done]| |done].
    exists a, x, b. split_and!; [done|done|by apply Hacc|].
    eapply no_projection_weaken; [apply Hacc|done]. }
  rewrite Hp in Hn1.
  assert (Hng1 : no_projection_with S true limb (start_of h) good l).
  { eapply no_projection_weaken; [apply Hacc|done]. }
  assert (Hng2 : no_projection_with S false limb (start_of h) good l).
  { eapply no_projection_weaken; [apply Hacc|done]. }
  unfold generate_contact in Hg.
  destruct (findValidCandidate S h limb ps) as [[[[g1 g2] g3] st] post'] eqn:Ef.
  apply findValidCandidate_cases in Ef as (-> & [[f1 f2] f3] & out1 & E1 & Hc).
  destruct g1; [injection Hg as <- <-; done|].
  destruct Hc as [([= <- <- <-] & -> & [?|?])|(_ & Hf1 & out2 & E2 & ->)]; [congruence|done|].
  simpl in Hf1. subst f1.
  pose proof (candidate_pass_rest S h _ limb ps _ _ E1 Hreq) as Hr. simpl in Hr. rewrite Hp in Hr.
  specialize (Hr eq_refl).
  pose proof (retry_spec h limb ps f2 f3 false g2 g3 out2 E2 Hreq eq_refl) as (R1 & R2 & R3).
  assert (Hsa : forall a b c : St, state_assign a (state_assign b c) = state_assign a c) by done.
  destruct Hr as [(-> & p & Hf & _)|(-> & Hns & Hr')].
  { destruct (R1 eq_refl) as (-> & pl & Hpl & Hcase). injection Hg as <- <-. simpl.
    split_and!; [done..|]. right. split; [by exists p|]. exists pl. split; [|done].
    rewrite Hsa. exact Hpl. }
  destruct g2.
  { destruct (R2 eq_refl eq_refl) as (p & Hf & Hca). injection Hg as <- <-. simpl.
    split_and!; [done..|]. left. split; [done|]. exists p. split; [done|]. rewrite Hsa. exact Hca. }
  destruct (R3 eq_refl eq_refl) as (Hns2 & R3a & R3b). destruct g3; injection Hg as <- <-; simpl.
  - destruct (R3a eq_refl) as [(Hi & p & Hm & Hmin & Hca)|(-> & Hno2 & Hpl)].
    + split_and!; [done..|]. left. exists p. split_and!; [done..|]. rewrite Hsa. exact Hca.
    + destruct Hr' as [(_ & Hi & p & Hm & Hmin & _)|(? & _)]; [|done].
      split_and!; [done..|]. right. split_and!; [by exists p|auto|]. rewrite Hsa. exact Hpl.
  - destruct (R3b eq_refl) as (-> & Hno2). split_and!; [done..|]. intros Hi.
    destruct Hr' as [(? & _)|(_ & _ & Hno1)]; [done|]. auto.
Qed.

(** C18 in every mode: the tables, the order and the count *)
Lemma C18_tables h limb ps rep post :
  generate_contact S h limb ps = (rep, post) -> rstatus rep <> NO_CONTACT ->
  exists pl, placed_contact (working h) limb (configuration (result rep)) (stable (result rep)) pl (result rep).
Proof.
  intros Hg Hno. unfold generate_contact in Hg.
  destruct (findValidCandidate S h limb ps) as [[[[g1 g2] g3] st] post'] eqn:Ef.
  apply findValidCandidate_cases in Ef as (-> & fl1 & out1 & E1 & Hc).
  Local Transparent candidate_pass.
  assert (Hpass : forall post fl g1 g2 g3 out, candidate_pass S h post limb ps fl = (g1, g2, g3, out) ->
     (g1 || g2 || g3) = true -> exists pl, placed_contact (working h) limb (configuration out) (stable out) pl out).
  { clear. intros post fl g1 g2 g3 out. unfold candidate_pass. destruct fl as [[? ?] ?].
    set (s := fold_left _ _ _). intros [= <- <- <- <-] Hor. rewrite Hor. exists (place s).
    destruct (place s) as [[p n] r].
    destruct (found_sample s); [by split|]. destruct (found_stable s); [by split|].
    destruct (unstableContact s); [by split|done]. }
  assert (Hst : (g1 || g2 || g3) = true -> exists pl, placed_contact (working h) limb (configuration st) (stable st) pl st).
  { intros Hor. destruct Hc as [(<- & -> & _)|(_ & _ & out2 & E2 & ->)].
    - eapply Hpass; eauto.
    - destruct (Hpass _ _ _ _ _ _ E2 Hor) as [pl Hpl]. exists pl. simpl. by apply placed_assign. }
  destruct g1; [|destruct g2; [|destruct g3]]; injection Hg as <- <-; simpl in *; try done;
    (destruct (Hst eq_refl) as [pl Hpl]; exists pl; by apply placed_assign).
Qed.
End proofs.
