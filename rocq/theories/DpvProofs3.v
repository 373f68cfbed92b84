(** User-level statements about the dynamic path validation. *)
From Coq Require Import Lra Lia.
From Verif Require Import Maps MapsProofs Vec SampProofs ValidModel ValidSpec ValidProofs ValidProofs2 ValidProofs3 DpvModel DpvSpec DpvProofs DpvProofs2.
Local Open Scope nat_scope.

Section verdict.
Context {Obj Req Conf Acc Mat : Type} `{EqDecision Obj} `{EqDecision Acc}.
Context (accOf : Conf -> Acc) (fill : Conf -> gmap string Obj -> Mat) (admissible : Mat -> Acc -> bool).
Context (trunkFree inBounds : Conf -> bool) (hit : Conf -> string -> Obj -> bool).
Context (eval : R -> bool * Conf) (evalEmpty : R -> outcome Conf).
Notation Val := (rbValidation Obj Req).
Notation Dyn := (dynVal Obj Acc Mat).
Notation acceptable := (acceptable trunkFree inBounds hit eval (Req := Req)).
Notation contacts_of := (contacts_of hit (Req := Req)).
Notation validateFilter := (validateFilter accOf fill admissible trunkFree inBounds hit eval evalEmpty (Req := Req)).
Notation verdict := (dyn_path_verdict accOf fill admissible trunkFree inBounds hit eval (Req := Req)).

Theorem forward_verdict_dyn step tmin tmax f (v : Val) (d : Dyn) q0 : (0 < step)%R -> (tmin <= tmax)%R -> all_paired v ->
  evalEmpty tmin = Ok q0 ->
  exists ts r0 res v' d' n, instants step tmin tmax ts /\ contacts_of v (defaultFilter v) q0 r0 /\
    (forall fuel, n <= fuel -> validateFilter step tmin tmax false f fuel (v, d) = Some (Ok (res, (v', d')))) /\
    same_validation v v' /\ all_paired v' /\ verdict v f r0 (fun o => Extract tmin (default tmin o)) ts res.
Proof.
  intros Hst Ht Hw He. destruct (instants_exist step tmin tmax Hst Ht) as [ts Hts].
  destruct (filter_forward accOf fill admissible trunkFree inBounds hit eval evalEmpty step tmin tmax f v d ts q0 _ Hst Hw Hts He (le_n _))
    as (r0 & res & v' & d' & Hc & Hv & Hs & Hw' & Hver).
  exists ts, r0, res, v', d', (length ts + 2). split_and!; try done. intros fuel Hf. rewrite <- Hv.
  unfold DpvModel.validateFilter. rewrite He. destruct (initialReport _ _ _ _ _); try done.
  rewrite (forward_instants _ _ _ _ Hst ts _ _ Hts (le_n _)). by apply forward_instants.
Qed.
Theorem reverse_verdict_dyn step tmin tmax f (v : Val) (d : Dyn) q0 : (0 < step)%R -> (tmin <= tmax)%R -> all_paired v ->
  evalEmpty tmax = Ok q0 ->
  exists ts r0 res v' d' n, instants_reverse step tmin tmax ts /\ contacts_of v (defaultFilter v) q0 r0 /\
    (forall fuel, n <= fuel -> validateFilter step tmin tmax true f fuel (v, d) = Some (Ok (res, (v', d')))) /\
    same_validation v v' /\ all_paired v' /\ verdict v f r0 (fun o => Extract (default tmax o) tmax) ts res.
Proof.
  intros Hst Ht Hw He. destruct (instants_reverse_exist step tmin tmax Hst Ht) as [ts Hts].
  destruct (filter_reverse accOf fill admissible trunkFree inBounds hit eval evalEmpty step tmin tmax f v d ts q0 _ Hst Hw Hts He (le_n _))
    as (r0 & res & v' & d' & Hc & Hv & Hs & Hw' & Hver).
  exists ts, r0, res, v', d', (length ts + 2). split_and!; try done. intros fuel Hf. rewrite <- Hv.
  unfold DpvModel.validateFilter. rewrite He. destruct (initialReport _ _ _ _ _); try done.
  rewrite (reverse_instants _ _ _ _ Hst ts _ _ Hts (le_n _)). by apply reverse_instants.
Qed.

(** the overload without filter *)
Theorem default_initial {A} (discretized : dpv Obj Req Acc Mat -> outcome A) tmin tmax reverse (v : Val) (d : Dyn) : all_paired v ->
  exists v' r0, validateDefault trunkFree inBounds hit eval discretized tmin tmax reverse (v, d) =
      discretized (v', setInitialReport (Some r0) d) /\
    same_validation v v' /\ all_paired v' /\ contacts_of v (defaultFilter v) (snd (eval (if reverse then tmax else tmin))) r0.
Proof.
  intros Hw. unfold validateDefault.
  destruct (initialReport_spec trunkFree inBounds hit (snd (eval (if reverse then tmax else tmin))) v d Hw) as (v1 & r0 & -> & Hs & Hw1 & Hc).
  by exists v1, r0.
Qed.

(** contacts that stay the same *)
Notation same_touching := (same_touching hit (Req := Req)).
Lemma same_touching_size (v : Val) f q0 q r r0 : f <> [] -> defaultFilter v <> [] -> same_touching v f q0 q ->
  contacts_of v f q r -> contacts_of v (defaultFilter v) q0 r0 -> size r = size r0.
Proof.
  intros Hf Hd Hs [_ H] [_ H0]. rewrite <- (size_dom (D := gset string) r), <- (size_dom (D := gset string) r0). f_equal.
  apply set_eq. intros n. rewrite !elem_of_dom, (H Hf), (H0 Hd). apply Hs.
Qed.

Lemma steady_agree (v : Val) f q0 q r r0 (qs : Conf -> Prop) : qs q0 -> qs q -> steady hit v qs ->
  contacts_of v f q r -> contacts_of v (defaultFilter v) q0 r0 -> agree r0 r.
Proof.
  intros H0 H1 Hs [Hr _] [Hr0 _] n o o' Ho Ho'. destruct (Hr0 n o Ho) as (rom & E & Hin & Hh).
  destruct (Hr n o' Ho') as (rom' & E' & Hin' & Hh'). rewrite E in E'. inversion E'; subst rom'.
  eapply (Hs q0 q n); eauto.
Qed.

Theorem steady_accepted step tmin tmax f (v : Val) (d : Dyn) q0 : (0 < step)%R -> (tmin <= tmax)%R -> all_paired v ->
  evalEmpty tmin = Ok q0 -> f <> [] -> defaultFilter v <> [] ->
  (forall t, (tmin <= t <= tmax)%R -> exists q, acceptable v f t q /\ same_touching v f q0 q) ->
  steady hit v (fun q => q = q0 \/ exists t, (tmin <= t <= tmax)%R /\ eval t = (true, q)) ->
  exists v' d' n, forall fuel, n <= fuel -> validateFilter step tmin tmax false f fuel (v, d) = Some (Ok (true, Whole, None, (v', d'))).
Proof.
  intros Hst Ht Hw He Hf Hd Hall Hsteady.
  destruct (forward_verdict_dyn step tmin tmax f v d q0 Hst Ht Hw He) as (ts & r0 & res & v' & d' & n & Hts & Hc & Hv & _ & _ & Hver).
  exists v', d', n. intros fuel Hfu. rewrite (Hv fuel Hfu). do 2 f_equal.
  assert (Hin : forall t, t ∈ ts -> (tmin <= t <= tmax)%R).
  { destruct Hts as (k & Hk & ->). intros t. rewrite elem_of_app, elem_of_list_singleton, elem_of_list_In, in_map_iff.
    intros [(j & <- & Hj)| ->]; [|lra]. apply in_seq in Hj. pose proof (pos_INR j).
    assert (INR j <= INR k)%R by (apply le_INR; lia). split.
    - assert (0 <= INR j * step)%R by (apply Rmult_le_pos; lra). lra.
    - assert (INR j * step <= INR k * step)%R by (apply Rmult_le_compat_r; lra). lra. }
  assert (Hpass : forall pre calls, (forall t, t ∈ pre -> (tmin <= t <= tmax)%R) -> seen trunkFree inBounds hit eval v f pre calls -> dyn_passed accOf fill admissible None r0 calls).
  { intros pre calls Hpre Hs. revert Hpre. induction Hs as [|t [q r] pre calls [Ha Hcr] Hs IH]; intros Hpre; [constructor|]. cbn [fst snd] in Ha, Hcr.
    assert (Htr : (tmin <= t <= tmax)%R) by (apply Hpre; left).
    destruct (Hall t Htr) as (q' & Ha' & Hst'). assert (q' = q) as ->.
    { destruct Ha as [E _], Ha' as [E' _]. cbn in E. congruence. }
    apply PassSame.
    - eapply (same_touching_size v f q0 q r r0); eassumption.
    - refine (steady_agree v f q0 q r r0 _ _ _ Hsteady Hcr Hc); [by left|].
      right. exists t. split; [done|]. apply Ha.
    - done.
    - apply IH. intros t' Ht'. apply Hpre. by right. }
  destruct Hver as [calls Hseen Hp|pre t post calls Hts' Hseen Hp Hbad]; [done|exfalso].
  assert (Htin : t ∈ ts) by (rewrite Hts'; apply elem_of_app; right; left).
  destruct (Hall t (Hin t Htin)) as (q & Ha & Hst').
  destruct Hbad as [Hbad|(q' & r & Ha' & Hcr & Hbad)]; [by apply (Hbad q)|].
  apply Hbad. apply (Hpass (pre ++ [t])).
  - intros t'. rewrite elem_of_app, elem_of_list_singleton. intros [Hi| ->]; apply Hin; [|done].
    rewrite Hts'. apply elem_of_app. by left.
  - apply Forall2_app; [done|]. constructor; [done|constructor].
Qed.

(** a filter that leaves out a ROM in contact *)
Theorem narrower_filter_rejected step tmin tmax f (v : Val) (d : Dyn) q0 n : (0 < step)%R -> (tmin <= tmax)%R -> all_paired v ->
  evalEmpty tmin = Ok q0 -> eval tmin = (true, q0) -> f <> [] -> f ⊆ defaultFilter v ->
  n ∈ defaultFilter v -> n ∉ f -> reaches v (hit q0) n ->
  exists v' d' k, forall fuel, k <= fuel ->
    validateFilter step tmin tmax false f fuel (v, d) = Some (Ok (false, Extract tmin tmin, Some tmin, (v', d'))).
Proof.
  intros Hst Ht Hw He Hev Hf Hsub Hn Hnf Hr.
  destruct (forward_verdict_dyn step tmin tmax f v d q0 Hst Ht Hw He) as (ts & r0 & res & v' & d' & k & Hts & Hc & Hv & _ & _ & Hver).
  exists v', d', k. intros fuel Hfu. rewrite (Hv fuel Hfu). do 2 f_equal.
  assert (Hd : defaultFilter v <> []) by (intros E; rewrite E in Hn; by apply elem_of_nil in Hn).
  assert (Hsz : forall r, contacts_of v f q0 r -> size r <> size r0).
  { intros r Hcr. rewrite <- (size_dom (D := gset string) r), <- (size_dom (D := gset string) r0).
    assert (dom r ⊂ (dom r0 : gset string)); [|assert (size (dom r : gset string) < size (dom r0 : gset string)) by (by apply subset_size); lia].
    destruct Hcr as [_ H1], Hc as [_ H2]. split.
    - intros m. rewrite !elem_of_dom, (H1 Hf), (H2 Hd). intros [Hm ?]. split; [by apply Hsub|done].
    - intros Hin. specialize (Hin n). rewrite !elem_of_dom, (H1 Hf), (H2 Hd) in Hin. destruct (Hin (conj Hn Hr)). done. }
  destruct Hts as (m & Hm & ->). cbn [seq map app] in Hver. cbn [INR] in Hver.
  replace (tmin + 0 * step)%R with tmin in Hver by ring.
  inversion Hver as [calls Hseen Hp|pre t post calls Hts' Hseen Hp Hbad]; subst.
  - exfalso. inversion Hseen as [|? [q r] ? ? [[E Ha] Hcr] ? ]; subst. cbn in E, Hcr. rewrite Hev in E. inversion E; subst q.
    specialize (Hsz r Hcr). inversion Hp; subst; done.
  - destruct pre as [|t0 pre]; cbn in Hts'.
    + inversion Hts'; subst. reflexivity.
    + exfalso. inversion Hts'; subst t0. inversion Hseen as [|? [q r] ? ? [[E Ha] Hcr] ? ]; subst. cbn in E, Hcr. rewrite Hev in E. inversion E; subst q.
      specialize (Hsz r Hcr). inversion Hp; subst; done.
Qed.

End verdict.
