(** The verdict of the dynamic path validation. *)
From Coq Require Import Lra Lia.
From Verif Require Import Maps MapsProofs Vec SampProofs ValidModel ValidSpec ValidProofs ValidProofs2 ValidProofs3 DpvModel DpvSpec DpvProofs.
Local Open Scope nat_scope.

Section verdict.
Context {Obj Req Conf Acc Mat : Type} `{EqDecision Obj} `{EqDecision Acc}.
Context (accOf : Conf -> Acc) (fill : Conf -> gmap string Obj -> Mat) (admissible : Mat -> Acc -> bool).
Context (trunkFree inBounds : Conf -> bool) (hit : Conf -> string -> Obj -> bool).
Context (eval : R -> bool * Conf) (evalEmpty : R -> outcome Conf).
Notation Val := (rbValidation Obj Req).
Notation Dyn := (dynVal Obj Acc Mat).
Notation configTest := (configTest accOf fill admissible trunkFree inBounds hit eval (Req := Req)).
Notation acceptable := (acceptable trunkFree inBounds hit eval (Req := Req)).
Notation contacts_of := (contacts_of hit (Req := Req)).
Notation seen := (seen trunkFree inBounds hit eval (Req := Req)).

Lemma same_acceptable (v v' : Val) f t q : same_validation v v' -> acceptable v' f t q <-> acceptable v f t q.
Proof.
  intros Hs. unfold DpvSpec.acceptable. do 4 f_equiv. apply forall_proper. intros r.
  by rewrite (same_excused v v' r Hs), (same_reaches v v' (hit q) r Hs).
Qed.

Lemma dynValidate_total q r (d : Dyn) base : lastReport d = Some base ->
  exists b d', dynValidate accOf fill admissible q (Some r) d = Ok (b, d') /\ is_Some (lastReport d').
Proof.
  intros Hl. unfold dynValidate. rewrite Hl. destruct (negb _); [exists false, d; rewrite Hl; eauto|].
  destruct (_ && _); [exists true, d; rewrite Hl; eauto|]. destruct (sameContacts base r).
  - case_bool_decide; [exists true, d; rewrite Hl; eauto|]. eexists _, _. split; [reflexivity|]. cbn. eauto.
  - eexists _, _. split; [reflexivity|]. cbn. eauto.
Qed.

Lemma configTest_spec f t (v : Val) (d : Dyn) : all_paired v -> is_Some (lastReport d) ->
  exists b v' d', configTest f t (v, d) = Ok (b, (v', d')) /\ same_validation v v' /\ all_paired v' /\ is_Some (lastReport d') /\
  ((b = false /\ forall q, ~ acceptable v f t q) \/
   exists q r, acceptable v f t q /\ contacts_of v f q r /\ dynValidate accOf fill admissible q (Some r) d = Ok (b, d')).
Proof.
  intros Hw [base Hl]. unfold DpvModel.configTest. destruct (eval t) as [[] q] eqn:He.
  2:{ exists false, v, d. split_and!; [done| |done|eauto|].
      - split; [done|]. intros n. destruct (roms v !! n); [apply same_pairs_refl|done].
      - left. split; [done|]. intros q' [E _]. congruence. }
  cbn [fst snd]. destruct (validate_ok (trunkFree q) (inBounds q) (hit q) f v Hw) as (b & v' & rep & Hv & Hs & Hw' & Hb).
  rewrite Hv. destruct b.
  - destruct (dynValidate_total q (romObjects rep) d base Hl) as (b' & d' & Hd & Hl'). rewrite Hd.
    exists b', v', d'. split_and!; [done..|]. right. exists q, (romObjects rep).
    split; [|split; [by eapply validate_report|done]].
    destruct Hb as [Hb _]. destruct (Hb eq_refl) as (H1 & H2 & H3 & H4). by split_and!.
  - exists false, v', d. split_and!; [done..|eauto|]. left. split; [done|].
    intros q' (E & H1 & H2 & H3 & H4). rewrite He in E. inversion E; subst q'. destruct Hb as [_ Hb].
    by discriminate Hb.
Qed.

Lemma dyn_run_app calls q r (d d1 : Dyn) b d2 : dyn_run accOf fill admissible calls d = Ok (true, d1) ->
  dynValidate accOf fill admissible q (Some r) d1 = Ok (b, d2) ->
  dyn_run accOf fill admissible (calls ++ [(q, r)]) d = Ok (b, d2).
Proof.
  revert d. induction calls as [|[q0 r0] calls IH]; intros d H1 H2; cbn [dyn_run app] in *.
  - inversion H1; subst. rewrite H2. by destruct b.
  - destruct (dynValidate accOf fill admissible q0 (Some r0) d) as [[[] d3]| |]; try done. by apply IH.
Qed.

Lemma scan_verdict f cut (v0 : Val) r0 (d0 : Dyn) ts : forall pre calls (v : Val) (d : Dyn),
  all_paired v -> same_validation v0 v -> is_Some (lastReport d) ->
  seen v0 f pre calls -> dyn_run accOf fill admissible calls (setInitialReport (Some r0) d0) = Ok (true, d) ->
  exists res v' d', scan (configTest f) cut ts (last pre) (v, d) = Ok (res, (v', d')) /\ same_validation v0 v' /\ all_paired v' /\
    dyn_path_verdict accOf fill admissible trunkFree inBounds hit eval v0 f r0 cut (pre ++ ts) res.
Proof.
  induction ts as [|t ts IH]; intros pre calls v d Hw Hs Hl Hseen Hrun; cbn [scan].
  - eexists _, v, d. split; [reflexivity|]. split; [done|]. split; [done|]. rewrite app_nil_r.
    apply (DpAccept _ _ _ _ _ _ _ _ _ _ _ _ calls); [done|]. apply (dyn_history_iff accOf fill admissible r0 calls d0). eauto.
  - destruct (configTest_spec f t v d Hw Hl) as (b & v' & d' & Ht & Hs' & Hw' & Hl' & Hcase). rewrite Ht.
    assert (Hs2 : same_validation v0 v') by by eapply same_validation_trans.
    assert (Hp : dyn_passed accOf fill admissible None r0 calls).
    { apply (dyn_history_iff accOf fill admissible r0 calls d0). eauto. }
    destruct b.
    + destruct Hcase as [[? _]|(q & r & Ha & Hc & Hd)]; [done|].
      destruct (IH (pre ++ [t]) (calls ++ [(q, r)]) v' d') as (res & v2 & d2 & H1 & H2 & H3 & H4); [done..| | |].
      * apply Forall2_app; [done|]. constructor; [|constructor]. cbn. split; [by apply (same_acceptable v0 v)|eapply (same_contacts_of hit v0 v); eassumption].
      * by eapply dyn_run_app.
      * exists res, v2, d2. rewrite last_snoc in H1. split_and!; [done..|]. by rewrite <- app_assoc in H4.
    + eexists _, v', d'. split; [reflexivity|]. split; [done|]. split; [done|].
      apply (DpReject _ _ _ _ _ _ _ _ _ _ _ _ pre t ts calls); [done..|].
      destruct Hcase as [[_ Hn]|(q & r & Ha & Hc & Hd)].
      * left. intros q Hq. apply (Hn q). by apply (same_acceptable v0 v).
      * right. exists q, r. split; [by apply (same_acceptable v0 v)|]. split; [eapply (same_contacts_of hit v0 v); eassumption|].
        intros Hp'. apply (dyn_history_iff accOf fill admissible r0 (calls ++ [(q, r)]) d0) in Hp' as [d3 Hp'].
        rewrite (dyn_run_app _ _ _ _ _ _ _ Hrun Hd) in Hp'. congruence.
Qed.

Notation initialReport := (initialReport trunkFree inBounds hit (Req := Req) (Acc := Acc) (Mat := Mat)).
Lemma initialReport_spec q (v : Val) (d : Dyn) : all_paired v ->
  exists v' r0, initialReport q (v, d) = Ok (v', setInitialReport (Some r0) d) /\ same_validation v v' /\ all_paired v' /\
    contacts_of v (defaultFilter v) q r0.
Proof.
  intros Hw. unfold DpvModel.initialReport. cbn [fst snd].
  destruct (validate_ok (trunkFree q) (inBounds q) (hit q) (defaultFilter v) v Hw) as (b & v' & rep & Hv & Hs & Hw' & _).
  rewrite Hv. exists v', (romObjects rep). split_and!; [done..|]. by eapply validate_report.
Qed.

Notation validateFilter := (validateFilter accOf fill admissible trunkFree inBounds hit eval evalEmpty (Req := Req)).
Notation verdict := (dyn_path_verdict accOf fill admissible trunkFree inBounds hit eval (Req := Req)).

Theorem filter_forward step tmin tmax f (v : Val) (d : Dyn) ts q0 fuel : (0 < step)%R -> all_paired v ->
  instants step tmin tmax ts -> evalEmpty tmin = Ok q0 -> length ts + 2 <= fuel ->
  exists r0 res v' d', contacts_of v (defaultFilter v) q0 r0 /\
    validateFilter step tmin tmax false f fuel (v, d) = Some (Ok (res, (v', d'))) /\ same_validation v v' /\ all_paired v' /\
    verdict v f r0 (fun o => Extract tmin (default tmin o)) ts res.
Proof.
  intros Hst Hw Hts He Hf. unfold DpvModel.validateFilter. rewrite He.
  destruct (initialReport_spec q0 v d Hw) as (v1 & r0 & -> & Hs & Hw1 & Hc).
  rewrite (forward_instants _ _ _ _ Hst ts fuel _ Hts Hf).
  destruct (scan_verdict f (fun o => Extract tmin (default tmin o)) v r0 d ts [] [] v1 (setInitialReport (Some r0) d))
    as (res & v2 & d2 & H1 & H2 & H3 & H4); [done|done|by eexists|constructor|done|].
  exists r0, res, v2, d2. cbn [last] in H1. rewrite H1. by split_and!.
Qed.
Theorem filter_reverse step tmin tmax f (v : Val) (d : Dyn) ts q0 fuel : (0 < step)%R -> all_paired v ->
  instants_reverse step tmin tmax ts -> evalEmpty tmax = Ok q0 -> length ts + 2 <= fuel ->
  exists r0 res v' d', contacts_of v (defaultFilter v) q0 r0 /\
    validateFilter step tmin tmax true f fuel (v, d) = Some (Ok (res, (v', d'))) /\ same_validation v v' /\ all_paired v' /\
    verdict v f r0 (fun o => Extract (default tmax o) tmax) ts res.
Proof.
  intros Hst Hw Hts He Hf. unfold DpvModel.validateFilter. rewrite He.
  destruct (initialReport_spec q0 v d Hw) as (v1 & r0 & -> & Hs & Hw1 & Hc).
  rewrite (reverse_instants _ _ _ _ Hst ts fuel _ Hts Hf).
  destruct (scan_verdict f (fun o => Extract (default tmax o) tmax) v r0 d ts [] [] v1 (setInitialReport (Some r0) d))
    as (res & v2 & d2 & H1 & H2 & H3 & H4); [done|done|by eexists|constructor|done|].
  exists r0, res, v2, d2. cbn [last] in H1. rewrite H1. by split_and!.
Qed.
End verdict.
