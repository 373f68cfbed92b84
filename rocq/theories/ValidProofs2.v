(** Proofs about path validation and dynamic validation. *)
From Verif Require Import Maps MapsProofs Vec ValidModel ValidSpec.
From Coq Require Import Lia Lra.

Section path.
Local Open Scope R_scope.

Lemma visits_bound step tmin tmax t : 0 < step -> tmin <= tmax -> visits step tmin tmax t -> tmin <= t <= tmax.
Proof.
  intros Hs Hle [(k & -> & H)| ->]; [|lra]. pose proof (pos_INR k).
  assert (0 <= INR k * step) by (apply Rmult_le_pos; lra). lra.
Qed.

Section forward.
Variables (ok : R -> bool) (step tmin tmax : R).
Hypothesis (Hs : 0 < step) (Hle : tmin <= tmax).
Notation V := (visits step tmin tmax).

Lemma visits_k k : tmin + INR k * step <= tmax -> V (tmin + INR k * step).
Proof. intros H. left. eauto. Qed.

(** the samples below sample [k] are samples before it *)
Lemma visits_below t k : V t -> t < tmin + INR k * step -> tmin + INR k * step <= tmax ->
  exists j, (j < k)%nat /\ t = tmin + INR j * step.
Proof.
  intros [(j & -> & Hj)| ->] Hlt Hk; [|lra]. exists j. split; [|done].
  apply INR_lt. apply (Rmult_lt_reg_r step); lra.
Qed.

Definition lastAt (k : nat) : R := match k with O => tmin | S k' => tmin + INR k' * step end.

Lemma last_phase fuel last : (3 <= fuel)%nat ->
  forwardLoop ok step tmin tmax fuel 1 tmax last =
    Some (if ok tmax then (true, Whole, None) else (false, Extract tmin last, Some tmax)).
Proof.
  intros Hf. destruct fuel as [|[|[|fuel]]]; try lia. cbn [forwardLoop Nat.ltb Nat.leb].
  destruct (ok tmax); [|done]. unfold Rltb. destruct (Rlt_dec tmax (tmax + step)); [|lra]. done.
Qed.

Lemma forward_from m : forall k fuel, tmax < tmin + INR (k + m) * step -> tmin + INR k * step <= tmax ->
  (m + 3 <= fuel)%nat -> (forall j, (j < k)%nat -> ok (tmin + INR j * step) = true) ->
  exists res, forwardLoop ok step tmin tmax fuel 0 (tmin + INR k * step) (lastAt k) = Some res /\
    forward_verdict ok step tmin tmax res.
Proof.
  induction m as [|m IH]; intros k fuel Hm Hk Hf Hb; [rewrite Nat.add_0_r in Hm; lra|].
  destruct fuel as [|fuel]; [lia|]. cbn [forwardLoop Nat.ltb Nat.leb].
  destruct (ok (tmin + INR k * step)) eqn:Hok.
  - unfold Rltb. destruct (Rlt_dec tmax (tmin + INR k * step + step)) as [Hover|Hin].
    + rewrite last_phase by lia. eexists. split; [reflexivity|].
      assert (Hall : forall t, V t -> t < tmax \/ t = tmax -> t <> tmax -> ok t = true /\ t <= tmin + INR k * step).
      { intros t [(j & -> & Hj)| ->] _ Hne; [|done].
        assert (Hjk : (j <= k)%nat).
        { apply INR_le. destruct (Rle_dec (INR j) (INR k)) as [H|H]; [done|]. exfalso.
          assert (Hlt : (k < j)%nat) by (apply INR_lt; lra).
          assert (Hge : INR k + 1 <= INR j) by (rewrite <- S_INR; apply le_INR; lia).
          assert (Hmul : (INR k + 1) * step <= INR j * step) by (apply Rmult_le_compat_r; lra). lra. }
        split.
        - destruct (Nat.eq_dec j k) as [->|Hn]; [done|]. apply Hb. lia.
        - apply Rplus_le_compat_l. apply Rmult_le_compat_r; [lra|]. by apply le_INR. }
      destruct (ok tmax) eqn:Hmax.
      * constructor. intros t Ht. destruct (Req_EM_T t tmax) as [->|Hne]; [done|].
        pose proof (visits_bound _ _ _ _ Hs Hle Ht). apply Hall; [done|lra|done].
      * assert (Hlt : tmin + INR k * step < tmax).
        { destruct (Rlt_dec (tmin + INR k * step) tmax) as [H|H]; [done|]. exfalso.
          assert (tmin + INR k * step = tmax) as E by lra. rewrite E in Hok. congruence. }
        constructor; [by right|done| |left; split; [by apply visits_k|done]].
        intros t' Ht' Hl. apply Hall; [done|lra|lra].
    + assert (Hk1 : tmin + INR k * step + step = tmin + INR (S k) * step) by (rewrite S_INR; lra).
      rewrite Hk1. apply (IH (S k) fuel); [|lra|lia|].
      * replace (S k + m)%nat with (k + S m)%nat by lia. done.
      * intros j Hj. destruct (Nat.eq_dec j k) as [->|Hn]; [done|]. apply Hb. lia.
  - eexists. split; [reflexivity|]. constructor; [by apply visits_k|done| |].
    + intros t' Ht' Hlt. destruct (visits_below t' k Ht' Hlt Hk) as (j & Hj & ->). split; [by apply Hb|].
      destruct k as [|k]; [lia|]. simpl. apply Rplus_le_compat_l, Rmult_le_compat_r; [lra|]. apply le_INR. lia.
    + destruct k as [|k]; [right; simpl; lra|]. left. cbn [lastAt]. rewrite S_INR in Hk.
      split; [apply visits_k; lra|]. rewrite S_INR. lra.
Qed.

Lemma Rgen_unbounded r : exists m, r < INR m.
Proof.
  exists (Z.to_nat (up r)). destruct (archimed r) as [H _].
  destruct (Z_le_gt_dec 0 (up r)) as [Hz|Hz].
  - rewrite INR_IZR_INZ, Z2Nat.id by done. lra.
  - assert (IZR (up r) <= 0) by (apply IZR_le; lia). pose proof (pos_INR (Z.to_nat (up r))). lra.
Qed.

Lemma forward_ok : exists n, forall fuel, (n <= fuel)%nat ->
  exists res, forwardLoop ok step tmin tmax fuel 0 tmin tmin = Some res /\ forward_verdict ok step tmin tmax res.
Proof.
  destruct (Rgen_unbounded ((tmax - tmin) / step)) as [m Hm].
  exists (m + 3)%nat. intros fuel Hf.
  destruct (forward_from m 0 fuel) as (res & Heq & Hv).
  - simpl. apply (Rmult_lt_compat_r step) in Hm; [|lra]. unfold Rdiv in Hm. rewrite Rmult_assoc, Rinv_l in Hm by lra. lra.
  - simpl. lra.
  - done.
  - intros j Hj. lia.
  - exists res. split; [|done]. rewrite <- Heq. simpl. f_equal; lra.
Qed.

Lemma forward_diverges_helper fuel : (forall t, tmin <= t <= tmax -> ok t = true) ->
  forall t last, tmin <= t <= tmax -> forwardLoop ok 0 tmin tmax fuel 0 t last = None.
Proof.
  intros Hok. induction fuel as [|fuel IH]; intros t last Ht; [done|]. cbn [forwardLoop Nat.ltb Nat.leb].
  rewrite Hok by done. rewrite Rplus_0_r. unfold Rltb. destruct (Rlt_dec tmax t); [lra|]. by apply IH.
Qed.
End forward.

Definition mirrorPart (p : validPart) : validPart :=
  match p with Whole => Whole | Extract a b => Extract (- b) (- a) end.
Definition mirror (r : bool * validPart * option R) : bool * validPart * option R :=
  let '(b, p, t) := r in (b, mirrorPart p, Ropp <$> t).

Lemma reverse_mirror ok step tmin tmax fuel : forall f t last,
  reverseLoop ok step tmin tmax fuel f t last =
  option_map mirror (forwardLoop (fun x => ok (- x)) step (- tmax) (- tmin) fuel f (- t) (- last)).
Proof.
  induction fuel as [|fuel IH]; intros f t last; [done|]. cbn [reverseLoop forwardLoop].
  destruct (f <? 2)%nat; [|done]. rewrite Ropp_involutive.
  destruct (ok t).
  - unfold Rltb. destruct (Rlt_dec (t - step) tmin) as [H|H]; destruct (Rlt_dec (- tmin) (- t + step)) as [H'|H']; try lra.
    + by rewrite IH.
    + rewrite IH. do 2 f_equal. lra.
  - simpl. rewrite !Ropp_involutive. done.
Qed.

Lemma visits_mirror step tmin tmax t : visits_reverse step tmin tmax t <-> visits step (- tmax) (- tmin) (- t).
Proof.
  unfold visits, visits_reverse. split.
  - intros [(k & -> & H)| ->]; [left; exists k; lra|by right].
  - intros [(k & H1 & H2)|H]; [left; exists k; lra|right; lra].
Qed.

Lemma reverse_of_forward ok step tmin tmax res :
  forward_verdict (fun x => ok (- x)) step (- tmax) (- tmin) res -> reverse_verdict ok step tmin tmax (mirror res).
Proof.
  intros H. destruct H as [Hall|t last Hv Hno Hb Hlast].
  - simpl. constructor. intros t Ht. apply visits_mirror in Ht. specialize (Hall _ Ht). simpl in Hall.
    by rewrite Ropp_involutive in Hall.
  - simpl. rewrite Ropp_involutive. constructor.
    + apply visits_mirror. by rewrite Ropp_involutive.
    + done.
    + intros t' Ht' Hlt. apply visits_mirror in Ht'. destruct (Hb _ Ht') as [H1 H2]; [lra|].
      rewrite Ropp_involutive in H1. split; [done|lra].
    + destruct Hlast as [[H1 H2]|[H1 H2]].
      * left. split; [|lra]. apply visits_mirror. by rewrite Ropp_involutive.
      * right. lra.
Qed.

Lemma reverse_ok ok step tmin tmax : 0 < step -> tmin <= tmax -> exists n, forall fuel, (n <= fuel)%nat ->
  exists res, reverseLoop ok step tmin tmax fuel 0 tmax tmax = Some res /\ reverse_verdict ok step tmin tmax res.
Proof.
  intros Hs Hle. destruct (forward_ok (fun x => ok (- x)) step (- tmax) (- tmin)) as [n Hn]; [lra|lra|].
  exists n. intros fuel Hf. destruct (Hn fuel Hf) as (res & Heq & Hv). exists (mirror res).
  rewrite reverse_mirror, Heq. split; [done|]. by apply reverse_of_forward.
Qed.

Lemma path_first_invalid ok step tmin tmax fuel : ok tmin = false ->
  validatePath ok step tmin tmax false (S fuel) = Some (false, Extract tmin tmin, Some tmin).
Proof. intros H. unfold validatePath. cbn [forwardLoop Nat.ltb Nat.leb]. by rewrite H. Qed.

Lemma path_zero_step ok tmin tmax fuel : tmin <= tmax -> (forall t, tmin <= t <= tmax -> ok t = true) ->
  validatePath ok 0 tmin tmax false fuel = None.
Proof. intros Hle Hok. unfold validatePath. apply forward_diverges_helper; [done|lra]. Qed.
End path.

Section dynamic.
Context {Obj Conf Acc Mat : Type} `{EqDecision Obj} `{EqDecision Acc}.
Variable accOf : Conf -> Acc.
Variable fill : Conf -> gmap string Obj -> Mat.
Variable admissible : Mat -> Acc -> bool.
Notation Dyn := (dynVal Obj Acc Mat).
Notation dynValidate := (dynValidate accOf fill admissible).

Lemma sameContacts_true (last rep : gmap string Obj) :
  sameContacts last rep = true <-> forall n o o', last !! n = Some o -> rep !! n = Some o' -> o = o'.
Proof.
  unfold sameContacts. rewrite forallb_forall. split.
  - intros H n o o' Ho Ho'. specialize (H n). rewrite Ho, Ho' in H. eapply bool_decide_eq_true, H.
    apply elem_of_list_In. unfold skeys. rewrite merge_sort_Permutation. apply elem_of_list_fmap.
    exists (n, o'). split; [done|]. by apply elem_of_map_to_list.
  - intros H n _. destruct (last !! n) as [o|] eqn:Ho; [|done]. destruct (rep !! n) as [o'|] eqn:Ho'; [|done].
    apply bool_decide_eq_true. by eapply H.
Qed.

Lemma dyn_repeat q (r last : gmap string Obj) (d : Dyn) : lastReport d = Some last -> size last = size r ->
  (exists n o o', last !! n = Some o /\ r !! n = Some o' /\ o <> o') ->
  admissible (fill q r) (accOf q) = false ->
  exists d', dynValidate q (Some r) d = Ok (false, d') /\ dynValidate q (Some r) d' = Ok (true, d').
Proof.
  intros Hl Hsz (n & o & o' & Ho & Ho' & Hne) Ha.
  assert (Hsame : sameContacts last r = false).
  { destruct (sameContacts last r) eqn:E; [|done]. rewrite sameContacts_true in E. exfalso. eauto. }
  unfold dynValidate. rewrite Hl, Hsz, Nat.eqb_refl, Hsame. simpl.
  exists (mkDyn (Some r) false (accOf q) (fill q r)). rewrite Ha. split; [done|]. simpl.
  rewrite Nat.eqb_refl. simpl.
  assert (Hrr : sameContacts r r = true).
  { apply sameContacts_true. intros; congruence. }
  rewrite Hrr. simpl. by rewrite bool_decide_eq_true_2.
Qed.

Lemma dyn_initial q (r rep : gmap string Obj) (d : Dyn) : rep = r ->
  dynValidate q (Some rep) (setInitialReport (Some r) d) = Ok (true, setInitialReport (Some r) d).
Proof.
  intros ->. unfold dynValidate, setInitialReport. simpl. rewrite Nat.eqb_refl. simpl.
  assert (Hrr : sameContacts r r = true).
  { apply sameContacts_true. intros; congruence. }
  by rewrite Hrr.
Qed.

(** other ranges of motion, but as many of them *)
Lemma dyn_other_roms q (r rep : gmap string Obj) (d : Dyn) : size r = size rep -> r ##ₘ rep ->
  dynValidate q (Some rep) (setInitialReport (Some r) d) = Ok (true, setInitialReport (Some r) d).
Proof.
  intros Hsz Hdisj. unfold dynValidate, setInitialReport. simpl. rewrite Hsz, Nat.eqb_refl. simpl.
  assert (Hrr : sameContacts r rep = true).
  { apply sameContacts_true. intros n o o' Ho Ho'. exfalso. eapply map_disjoint_spec; eauto. }
  by rewrite Hrr.
Qed.

Lemma dyn_verdict q (r last : gmap string Obj) (d : Dyn) : lastReport d = Some last -> initContacts d = false ->
  size last = size r -> accOf q <> lastAcc d ->
  exists d' m, dynValidate q (Some r) d = Ok (admissible m (accOf q), d') /\ lastAcc d' = accOf q /\
    initContacts d' = false /\ matrices d' = m /\
    (if sameContacts last r then m = matrices d /\ lastReport d' = Some last
     else m = fill q r /\ lastReport d' = Some r).
Proof.
  intros Hl Hi Hsz Ha. unfold dynValidate. rewrite Hl, Hsz, Nat.eqb_refl, Hi. simpl. rewrite andb_false_r.
  destruct (sameContacts last r) eqn:E.
  - rewrite bool_decide_eq_false_2 by done. eexists _, _. split_and!; try reflexivity.
  - eexists _, _. split_and!; reflexivity.
Qed.

Lemma dyn_false q rep (d : Dyn) last : lastReport d = Some last ->
  (rep = None \/ exists r, rep = Some r /\ size r <> size last) -> dynValidate q rep d = Ok (false, d).
Proof.
  intros Hl [->|(r & -> & Hne)]; unfold dynValidate; [done|]. rewrite Hl.
  destruct (size last =? size r)%nat eqn:E; [apply Nat.eqb_eq in E; congruence|done].
Qed.

(** a state all of whose stored accelerations passed the test *)
Definition tested (d : Dyn) : Prop := initContacts d = false -> admissible (matrices d) (lastAcc d) = true.
Lemma dyn_true_is_admissible q (r last : gmap string Obj) (d d' : Dyn) :
  lastReport d = Some last -> initContacts d = false -> tested d ->
  dynValidate q (Some r) d = Ok (true, d') ->
  tested d' /\ admissible (if sameContacts last r then matrices d else fill q r) (accOf q) = true.
Proof.
  intros Hl Hi Ht. unfold dynValidate. rewrite Hl.
  destruct (negb _); [done|]. rewrite Hi, andb_false_r. destruct (sameContacts last r).
  - case_bool_decide as Ha.
    + intros [= <-]. split; [done|]. rewrite Ha. by apply Ht.
    + intros H. injection H as H <-. split; [|done]. intros _. done.
  - intros H. injection H as H <-. split; [|done]. intros _. done.
Qed.

Lemma sameContacts_agree (last rep : gmap string Obj) : sameContacts last rep = true <-> agree last rep.
Proof. apply sameContacts_true. Qed.

Lemma dyn_true_step q (r : gmap string Obj) (d d' : Dyn) last :
  lastReport d = Some last -> dynValidate q (Some r) d = Ok (true, d') -> tested d ->
  size r = size last /\ tested d' /\
  ((agree last r /\ lastReport d' = Some last /\ matrices d' = matrices d /\ initContacts d' = initContacts d /\
    (initContacts d = false -> admissible (matrices d) (accOf q) = true)) \/
   (~ agree last r /\ lastReport d' = Some r /\ initContacts d' = false /\ matrices d' = fill q r /\
    admissible (fill q r) (accOf q) = true)).
Proof.
  intros Hl. unfold dynValidate. rewrite Hl.
  destruct (size last =? size r)%nat eqn:Hsz; [apply Nat.eqb_eq in Hsz|done]. simpl.
  destruct (sameContacts last r) eqn:E.
  - apply sameContacts_agree in E. simpl. destruct (initContacts d) eqn:Hi.
    + intros [= <-] Ht. split_and!; [done..|]. left. split_and!; try done.
    + case_bool_decide as Ha.
      * intros [= <-] Ht. split_and!; [done..|]. left. split_and!; try done. intros _. rewrite Ha. by apply Ht.
      * intros H. injection H as H <-. intros Ht. split_and!; [done|by intros _|]. left. by split_and!.
  - intros H. simpl in H. injection H as H <-. intros _. split_and!; [done|by intros _|]. right. split_and!; try done.
    intros Hag. apply sameContacts_agree in Hag. congruence.
Qed.

(** [passed]: from a state with reference contacts [base] (computed at [at_], or initial) *)
Lemma dyn_history_from calls : forall (d d' : Dyn) base,
  lastReport d = Some base -> tested d ->
  dyn_run accOf fill admissible calls d = Ok (true, d') ->
  dyn_passed accOf fill admissible (if initContacts d then None else Some (matrices d)) base calls.
Proof.
  induction calls as [|[q r] calls IH]; intros d d' base Hl Ht H; [constructor|].
  cbn [dyn_run] in H. destruct (dynValidate q (Some r) d) as [[[] d1]| |] eqn:Hv; try done.
  destruct (dyn_true_step _ _ _ _ _ Hl Hv Ht) as (Hsz & Ht1 & [(Hag & Hl1 & Hm1 & Hi1 & Ha)|(Hag & Hl1 & Hi1 & Hm1 & Ha)]).
  - apply PassSame; [done|done| |].
    + destruct (initContacts d) eqn:Hi; [done|]. by apply Ha.
    + specialize (IH _ _ _ Hl1 Ht1 H). by rewrite Hi1, Hm1 in IH.
  - apply PassNew; [done|done|done|]. specialize (IH _ _ _ Hl1 Ht1 H). by rewrite Hi1, Hm1 in IH.
Qed.
Lemma dyn_history r0 calls (d d' : Dyn) :
  dyn_run accOf fill admissible calls (setInitialReport (Some r0) d) = Ok (true, d') ->
  dyn_passed accOf fill admissible None r0 calls.
Proof.
  intros H. apply (dyn_history_from calls (setInitialReport (Some r0) d) d' r0 eq_refl) in H; [exact H|done].
Qed.
Lemma dyn_history_conv calls : forall (d : Dyn) base,
  lastReport d = Some base -> 
  dyn_passed accOf fill admissible (if initContacts d then None else Some (matrices d)) base calls ->
  exists d', dyn_run accOf fill admissible calls d = Ok (true, d').
Proof.
  induction calls as [|[q r] calls IH]; intros d base Hl H; [by eexists|].
  cbn [dyn_run]. inversion H as [|cone base' q' r' calls' Hsz Hag Ha Hrest|cone base' q' r' calls' Hsz Hag Ha Hrest]; subst.
  - assert (Hs : sameContacts base r = true) by by apply sameContacts_agree.
    assert (exists d1, dynValidate q (Some r) d = Ok (true, d1) /\ lastReport d1 = Some base /\
      matrices d1 = matrices d /\ initContacts d1 = initContacts d) as (d1 & -> & Hl1 & Hm1 & Hi1).
    { unfold dynValidate. rewrite Hl, Hsz, Nat.eqb_refl, Hs. simpl. destruct (initContacts d) eqn:Hi; [by eexists|].
      case_bool_decide as Hacc; [by eexists|]. rewrite Ha. by eexists. }
    apply (IH d1 base Hl1). by rewrite Hi1, Hm1.
  - assert (Hs : sameContacts base r = false).
    { destruct (sameContacts base r) eqn:E; [|done]. by apply sameContacts_agree in E. }
    assert (dynValidate q (Some r) d = Ok (true, mkDyn (Some r) false (accOf q) (fill q r))) as ->.
    { unfold dynValidate. rewrite Hl, Hsz, Nat.eqb_refl, Hs. simpl. by rewrite Ha. }
    by apply (IH _ r).
Qed.
End dynamic.
