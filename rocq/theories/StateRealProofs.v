From Coq Require Import Reals Lra.
From Verif Require Import Maps MapsProofs StateModel StateSpec StateProofs Vec VecProofs StateReal.
Local Open Scope R_scope.

Lemma moved3_true q p : moved3 q p = true <-> dist3 q p > 1 / 100.
Proof. unfold moved3. rewrite Rltb_true. unfold dist3. lra. Qed.
Lemma moved3_false q p : moved3 q p = false <-> dist3 q p <= 1 / 100.
Proof. unfold moved3. rewrite Rltb_false. unfold dist3. lra. Qed.
Lemma moved3_sym q p : moved3 q p = moved3 p q.
Proof. unfold moved3. by rewrite vnorm_opp_sub. Qed.
Lemma moved3_refl p : moved3 p p = false.
Proof. apply moved3_false. rewrite dist3_refl. lra. Qed.

Section proofs.
Context {Cfg Rot Rob : Type}.
Notation St := (State Cfg vec3 Rot Rob).
Implicit Types from to : St.

Lemma effdist_fold from to l a :
  let f := fun norm name =>
    match positions from !! name, positions to !! name with
    | Some q, Some p => Rmax norm (vnorm (vsub q p))
    | _, _ => norm
    end in
  let r := fold_left f l a in
  a <= r /\
  (forall k d, k ∈ l -> displacement from to k d -> d <= r) /\
  (r = a \/ exists k, k ∈ l /\ displacement from to k r).
Proof.
  intros f. revert a. induction l as [|k l IH]; intros a; simpl.
  - split_and!; [lra| |by left]. intros k d Hk. by apply elem_of_nil in Hk.
  - destruct (IH (f a k)) as (Ha & Hall & Hex). set (r := fold_left f l (f a k)) in *.
    assert (Hfa : a <= f a k).
    { unfold f. destruct (positions from !! k); [|lra]. destruct (positions to !! k); [|lra]. apply Rmax_l. }
    split_and!.
    + lra.
    + intros k' d. rewrite elem_of_cons. intros [->|Hk'] Hd; [|eauto].
      destruct Hd as (q & p & Hq & Hp & ->).
      apply Rle_trans with (f a k); [|done]. unfold f. rewrite Hq, Hp. apply Rmax_r.
    + destruct Hex as [Hr|(k' & Hk' & Hd)].
      * destruct (Req_EM_T r a) as [?|Hne]; [by left|].
        right. exists k. split; [left|]. rewrite Hr in Hne |- *. unfold f in *.
        destruct (positions from !! k) as [q|] eqn:Hq; [|done].
        destruct (positions to !! k) as [p|] eqn:Hp; [|done].
        unfold Rmax in *. destruct (Rle_dec a (vnorm (vsub q p))); [|done].
        exists q, p. done.
      * right. exists k'. split; [by right|done].
Qed.

Lemma created_displacement from to k d :
  displacement from to k d -> (created moved3 from to k <-> d > 1/100).
Proof.
  intros (q & p & Hq & Hp & ->). split.
  - intros (p' & Hp' & [?|(q' & Hq' & Hm)]); [congruence|]. apply moved3_true. congruence.
  - intros Hd. exists p. split; [done|]. right. exists q. split; [done|]. by apply moved3_true.
Qed.

Lemma effectorDistance_correct from to :
  ((forall k d, displacement from to k d -> d <= 1/100) -> effectorDistance from to = 0) /\
  ((exists k d, displacement from to k d /\ d > 1/100) ->
     (forall k d, displacement from to k d -> d <= effectorDistance from to) /\
     (exists k, displacement from to k (effectorDistance from to)) /\
     effectorDistance from to > 1/100).
Proof.
  destruct (effdist_fold from to (contactCreations moved3 to from) 0) as (H0 & Hall & Hex).
  fold (effectorDistance from to) in H0, Hall, Hex.
  destruct (contactCreations_correct moved3 to from) as (Hin & _ & _).
  split.
  - intros Hsmall. destruct Hex as [?|(k & Hk & Hd)]; [done|].
    apply Hin in Hk. apply (created_displacement _ _ _ _ Hd) in Hk.
    specialize (Hsmall _ _ Hd). lra.
  - intros (k & d & Hd & Hgt).
    assert (Hle : d <= effectorDistance from to).
    { eapply Hall; [|done]. apply Hin. by apply (created_displacement _ _ _ _ Hd). }
    split_and!; [| |lra].
    + intros k' d' Hd'. destruct (Rle_dec d' (1/100)) as [?|Hn]; [lra|].
      eapply Hall; [|done]. apply Hin. apply (created_displacement _ _ _ _ Hd'). lra.
    + destruct Hex as [Hz|(k' & Hk' & Hd')]; [lra|]. eauto.
Qed.

Lemma displacement_sym from to k d : displacement from to k d -> displacement to from k d.
Proof. intros (q & p & Hq & Hp & ->). exists p, q. by rewrite dist3_sym. Qed.

Lemma effectorDistance_sym from to : effectorDistance from to = effectorDistance to from.
Proof.
  destruct (effdist_fold from to (contactCreations moved3 to from) 0) as (H0 & Hall & Hex).
  destruct (effdist_fold to from (contactCreations moved3 from to) 0) as (H0' & Hall' & Hex').
  fold (effectorDistance from to) in H0, Hall, Hex.
  fold (effectorDistance to from) in H0', Hall', Hex'.
  destruct (contactCreations_correct moved3 to from) as (Hin & _ & _).
  destruct (contactCreations_correct moved3 from to) as (Hin' & _ & _).
  apply Rle_antisym.
  - destruct Hex as [->|(k & Hk & Hd)]; [done|].
    apply Hin in Hk. apply (created_displacement _ _ _ _ Hd) in Hk.
    eapply Hall'; [|by apply displacement_sym]. apply Hin'.
    apply (created_displacement _ _ _ _ (displacement_sym _ _ _ _ Hd)). done.
  - destruct Hex' as [->|(k & Hk & Hd)]; [done|].
    apply Hin' in Hk. apply (created_displacement _ _ _ _ Hd) in Hk.
    eapply Hall; [|by apply displacement_sym]. apply Hin.
    apply (created_displacement _ _ _ _ (displacement_sym _ _ _ _ Hd)). done.
Qed.

Lemma created_new_or_moved from to k : created moved3 from to k <-> new_or_moved from to k.
Proof.
  unfold created, new_or_moved, displacement. split.
  - intros (p & Hp & [Hn|(q & Hq & Hm)]); split; eauto.
    right. exists (dist3 q p). split; [eauto 10|]. by apply moved3_true.
  - intros ((p & Hp) & [Hn|(d & (q & p' & Hq & Hp' & ->) & Hd)]); exists p; split; eauto.
    right. exists q. split; [done|]. apply moved3_true. congruence.
Qed.

Lemma kept_kept_in_place from to k : kept moved3 from to k <-> kept_in_place from to k.
Proof.
  unfold kept, kept_in_place, displacement. split.
  - intros (p & q & Hp & Hq & Hm). exists (dist3 q p). split; [eauto|]. by apply moved3_false.
  - intros (d & (q & p & Hq & Hp & ->) & Hd). exists p, q. split_and!; try done. by apply moved3_false.
Qed.

Lemma creations_real from to :
  (forall k, k ∈ contactCreations moved3 to from <-> new_or_moved from to k) /\
  NoDup (contactCreations moved3 to from) /\
  StronglySorted str_le (contactCreations moved3 to from).
Proof.
  destruct (contactCreations_correct moved3 to from) as (H1 & H2 & H3).
  split_and!; [|done..]. intros k. by rewrite H1, created_new_or_moved.
Qed.

Lemma creations_into_real from to out :
  exists l, contactCreations_into moved3 to from out = out ++ l /\
    (forall k, k ∈ l <-> new_or_moved from to k /\ k ∉ out) /\ NoDup l /\ StronglySorted str_le l.
Proof.
  destruct (contactCreations_into_correct moved3 to from out) as (l & H0 & H1 & H2 & H3).
  exists l. split_and!; [done| |done..]. intros k. by rewrite H1, created_new_or_moved.
Qed.

Lemma variations_real from to :
  contactBreaks moved3 to from = contactCreations moved3 from to /\
  (forall k, k ∈ contactVariations moved3 to from <-> new_or_moved from to k \/ new_or_moved to from k) /\
  NoDup (contactVariations moved3 to from) /\
  (forall k, k ∈ contactVariations moved3 to from <-> k ∈ contactVariations moved3 from to) /\
  (forall k d, displacement from to k d -> d > 1/100 ->
     k ∈ contactCreations moved3 to from /\ k ∈ contactBreaks moved3 to from) /\
  contactVariations moved3 to to = [].
Proof.
  split_and!.
  - done.
  - intros k. by rewrite elem_of_variations, !created_new_or_moved.
  - apply variations_NoDup.
  - intros k. rewrite !elem_of_variations. naive_solver.
  - intros k d Hd Hgt. rewrite contactBreaks_eq.
    destruct (creations_real from to) as (-> & _). destruct (creations_real to from) as (-> & _).
    pose proof (displacement_sym _ _ _ _ Hd) as Hd'.
    unfold new_or_moved. destruct Hd as (q & p & Hq & Hp & He). split; split; eauto 10.
    right. exists d. split; [exists q, p; done|done].
  - apply variations_self, moved3_refl.
Qed.

Lemma fixed_real from to effs :
  (forall k, k ∈ fixedContacts moved3 to from <-> kept_in_place from to k) /\
  NoDup (fixedContacts moved3 to from) /\
  (forall k, is_Some (positions to !! k) ->
     (k ∈ fixedContacts moved3 to from /\ k ∉ contactVariations moved3 to from) \/
     (k ∉ fixedContacts moved3 to from /\ k ∈ contactVariations moved3 to from)) /\
  allVariations moved3 to from effs = filter (fun e => e ∉ fixedContacts moved3 to from) effs /\
  freeEffectors to effs = filter (fun e => contacts to !! e <> Some true) effs.
Proof.
  destruct (fixedContacts_correct moved3 to from moved3_sym) as (H1 & H2 & H3).
  split_and!; auto.
  - intros k. by rewrite H1, kept_kept_in_place.
  - intros k. apply partition_fixed_varying.
  - apply allVariations_eq.
  - apply freeEffectors_eq.
Qed.

(** * freeVariations *)
Lemma freeVariations_total from to effs :
  (forall e, e ∈ effs -> is_Some (contacts to !! e)) ->
  (forall e, e ∈ effs -> contacts to !! e = Some true <-> is_Some (positions to !! e)) ->
  freeVariations moved3 to from effs
  = Ok (filter (fun e => positions to !! e = None /\ positions from !! e = None) effs).
Proof.
  intros Htot Hpos. unfold freeVariations. rewrite freeLimbMotions_ok by auto. f_equal.
  apply filter_ext_on. intros e He. rewrite elem_of_variations, !created_new_or_moved.
  specialize (Htot e He). specialize (Hpos e He).
  destruct Htot as [b Hb]. rewrite Hb in *. unfold new_or_moved. split.
  - intros [Hv Hf]. simplify_eq.
    assert (Hn : positions to !! e = None).
    { destruct (positions to !! e) eqn:Hpe; [|done]. destruct Hpos as [_ Hpos].
      by discriminate Hpos. }
    split; [done|]. destruct (positions from !! e) as [q|] eqn:Hq; [|done].
    exfalso. apply Hv. right. split; [eauto|]. by left.
  - intros [Hn1 Hn2]. split.
    + rewrite Hn1, Hn2. intros [[[? ?] _]|[[? ?] _]]; done.
    + destruct b; [|done]. destruct Hpos as [Hpos _].
      destruct Hpos as [? Hs]; [done|]. congruence.
Qed.

Lemma freeVariations_throws from to effs e :
  consistent to -> consistent from -> e ∈ effs ->
  contacts to !! e = None -> contacts from !! e = None ->
  freeVariations moved3 to from effs = Throw.
Proof.
  intros [Hk _ _ _] [Hk' _ _ _] He Ht Hf. unfold freeVariations.
  assert (Hp : positions to !! e = None).
  { destruct (Hk e) as (Ha & _ & Hb & _). destruct (positions to !! e) as [x|] eqn:Hx; [|done].
    rewrite Ht in Ha. destruct Ha as [_ Ha]. destruct Ha as [? Ha]; [|done]. apply Hb. eauto. }
  assert (Hp' : positions from !! e = None).
  { destruct (Hk' e) as (Ha & _ & Hb & _). destruct (positions from !! e) as [x|] eqn:Hx; [|done].
    rewrite Hf in Ha. destruct Ha as [_ Ha]. destruct Ha as [? Ha]; [|done]. apply Hb. eauto. }
  eapply freeLimbMotions_throw; [done| |done].
  rewrite elem_of_variations. unfold created. rewrite Hp, Hp'. naive_solver.
Qed.

Lemma freeVariations_exact from to effs :
  ((forall e, e ∈ effs -> ~ new_or_moved from to e -> ~ new_or_moved to from e ->
      is_Some (contacts to !! e)) ->
   freeVariations moved3 to from effs
   = Ok (filter (fun e => e ∉ contactVariations moved3 to from /\ contacts to !! e = Some false) effs)) /\
  ((exists e, e ∈ effs /\ ~ new_or_moved from to e /\ ~ new_or_moved to from e /\
      contacts to !! e = None) ->
   freeVariations moved3 to from effs = Throw).
Proof.
  split.
  - intros H. apply freeLimbMotions_ok. intros e He Hv. apply H; [done|..];
      intros Hn; apply Hv, elem_of_variations; rewrite !created_new_or_moved; auto.
  - intros (e & He & H1 & H2 & Hc). eapply freeLimbMotions_throw; [done| |done].
    rewrite elem_of_variations, !created_new_or_moved. tauto.
Qed.

Lemma freeVariations_library from to effs :
  consistent to -> consistent from ->
  ((exists e, e ∈ effs /\ contacts to !! e = None /\ contacts from !! e = None) ->
   freeVariations moved3 to from effs = Throw) /\
  ((forall e, e ∈ effs -> is_Some (contacts to !! e) \/ is_Some (contacts from !! e)) ->
   freeVariations moved3 to from effs = Ok []).
Proof.
  intros Ht Hf. split.
  - intros (e & He & H1 & H2). by eapply freeVariations_throws.
  - intros H. destruct (freeVariations_exact from to effs) as [Ha _]. rewrite Ha.
    + f_equal. rewrite <- (filter_nil (fun e => e ∉ contactVariations moved3 to from /\ contacts to !! e = Some false)).
      clear -Ht. assert (Hn : forall e, contacts to !! e <> Some false).
      { intros e He. destruct Ht as [Hk Ha _ _]. specialize (Ha e). destruct (Hk e) as ((Hx & _) & _).
        rewrite Ha in He; [done|]. apply Hx. eauto. }
      induction effs as [|e l IH]; [done|]. rewrite filter_cons_False; [done|]. intros [_ He]. by apply (Hn e).
    + intros e He Hn1 Hn2. destruct (H e He) as [?|Hs]; [done|].
      destruct (contacts to !! e) as [b|] eqn:Hc; [eauto|]. exfalso. apply Hn2. unfold new_or_moved.
      destruct Hf as [Hk _ _ _]. destruct Ht as [Hk' _ _ _].
      destruct (Hk e) as (Ha1 & _ & Hb1 & _). destruct (Hk' e) as (Ha2 & _ & Hb2 & _).
      split.
      * destruct Hb1 as [_ Hb1]. apply Ha1 in Hs. destruct (Hb1 Hs) as [p Hp]. eauto.
      * left. destruct (positions to !! e) eqn:Hp; [|done]. destruct Hb2 as [Hb2 _].
        destruct Ha2 as [_ Ha2]. destruct Ha2 as [? Hx]; [apply Hb2; eauto|]. congruence.
Qed.
End proofs.
