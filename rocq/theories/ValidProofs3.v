(** User-level statements about the validations, from the lemmas of ValidProofs(2). *)
From Verif Require Import Maps MapsProofs Vec ValidModel ValidSpec ValidProofs ValidProofs2.
Local Open Scope nat_scope.

Section create.
Context {O Q : Type} `{EqDecision O}.
Context (q : Q) (names : gmap string unit) (filter : list string)
  (affFilters : gmap string (list string)) (affordances : gmap string (list O)).
Notation V := (create q names filter affFilters affordances).

Lemma verdict_after (ops : list (val_op O)) trunkFree inBounds hit f :
  exists v, val_run ops V = Ok v /\ defaultFilter v = defaultFilter V /\
  exists b v' rep, validate trunkFree inBounds hit f v = Ok (b, v', rep) /\
  (b = true <-> trunkFree = true /\ inBounds = true /\ NoDup f /\
     forall r, r ∈ f -> is_Some (names !! r) /\
       (is_Some (affFilters !! r) /\ r ∉ filter \/ touches affFilters affordances hit r)).
Proof.
  destruct (val_run_ok ops V (create_paired _ _ _ _ _)) as (v & Hr & Hsame & Hw).
  exists v. split; [done|]. split; [apply Hsame|].
  destruct (validate_ok trunkFree inBounds hit f v Hw) as (b & v' & rep & Hv & _ & _ & Hb).
  exists b, v', rep. split; [done|]. rewrite Hb.
  assert (Hex : forall r, (excused v r \/ reaches v hit r) <-> is_Some (names !! r) /\
       (is_Some (affFilters !! r) /\ r ∉ filter \/ touches affFilters affordances hit r)).
  { intros r. rewrite (same_excused V v r Hsame), (same_reaches V v hit r Hsame), create_excused, create_reaches.
    unfold touches. tauto. }
  setoid_rewrite Hex. done.
Qed.

Lemma default_verdict_after (ops : list (val_op O)) trunkFree inBounds hit :
  exists v, val_run ops V = Ok v /\
  exists b v' rep, validate trunkFree inBounds hit (defaultFilter v) v = Ok (b, v', rep) /\
  (b = true <-> trunkFree = true /\ inBounds = true /\
     forall r, is_Some (names !! r) -> is_Some (affFilters !! r) -> r ∈ filter ->
       touches affFilters affordances hit r).
Proof.
  destruct (verdict_after ops trunkFree inBounds hit (defaultFilter V)) as (v & Hr & Hd & b & v' & rep & Hv & Hb).
  exists v. split; [done|]. exists b, v', rep. rewrite Hd. split; [done|]. rewrite Hb. split.
  - intros (H1 & H2 & _ & H3). split_and!; [done..|]. intros r Hn Ha Hf.
    destruct (H3 r) as [_ [[_ Hx]|Ht]]; [by apply create_default|done|done].
  - intros (H1 & H2 & H3). split_and!; [done..|apply create_default_nodup|].
    intros r Hr'. apply create_default in Hr' as [Hn Ha]. split; [done|].
    destruct (decide (r ∈ filter)); [right; by apply H3|left; done].
Qed.

(** the verdict depends on no ROM outside the filter *)
Lemma verdict_others (ops : list (val_op O)) trunkFree inBounds hit hit' f :
  (forall r o, r ∈ f -> hit r o = hit' r o) ->
  exists v b v1 v2 r1 r2, val_run ops V = Ok v /\
    validate trunkFree inBounds hit f v = Ok (b, v1, r1) /\
    validate trunkFree inBounds hit' f v = Ok (b, v2, r2).
Proof.
  intros Hag.
  destruct (verdict_after ops trunkFree inBounds hit f) as (v & Hr & _ & b & v1 & r1 & Hv & Hb).
  destruct (verdict_after ops trunkFree inBounds hit' f) as (w & Hr' & _ & b' & v2 & r2 & Hv' & Hb').
  rewrite Hr in Hr'. injection Hr' as <-.
  assert (b = b') as <-.
  { apply eq_true_iff_eq. rewrite Hb, Hb'.
    assert (Ht : forall r, r ∈ f -> touches affFilters affordances hit r <-> touches affFilters affordances hit' r).
    { intros r Hr0. unfold touches. by setoid_rewrite (Hag r _ Hr0). }
    assert (forall P Q' : string -> Prop, (forall r, r ∈ f -> (P r <-> Q' r)) -> (forall r, r ∈ f -> P r) <-> (forall r, r ∈ f -> Q' r)) as Hall.
    { intros P Q' H. split; intros H1 r Hf; apply H; auto. }
    rewrite (Hall _ (fun r => is_Some (names !! r) /\
       (is_Some (affFilters !! r) /\ r ∉ filter \/ touches affFilters affordances hit' r))); [done|].
    intros r Hf. by rewrite (Ht r Hf). }
  exists v, b, v1, v2, r1, r2. done.
Qed.

(** without a report the call dereferences null, whatever the state *)
Lemma no_report_after (ops : list (val_op O)) hit f :
  exists v, val_run ops V = Ok v /\ validateRoms hit f None v = Ub.
Proof.
  destruct (val_run_ok ops V (create_paired _ _ _ _ _)) as (v & Hr & Hsame & Hw).
  exists v. split; [done|]. by apply validateRoms_null.
Qed.

(** a ROM of the constructor's filter without affordance settings is never required *)
Lemma unset_rom_not_required (ops : list (val_op O)) hit : 
  (forall r, r ∈ filter -> affFilters !! r = None) ->
  exists v v' rep, val_run ops V = Ok v /\ validate true true hit (defaultFilter v) v = Ok (true, v', rep).
Proof.
  intros H. destruct (default_verdict_after ops true true hit) as (v & Hr & b & v' & rep & Hv & Hb).
  exists v, v', rep. split; [done|].
  assert (b = true) as ->; [|done]. apply Hb. split_and!; [done..|]. intros r _ [x Hx] Hf. by rewrite H in Hx.
Qed.

Lemma pairs_kept_after (ops : list (val_op O)) n :
  exists v, val_run ops V = Ok v /\
    match roms V !! n, roms v !! n with
    | Some r, Some r' => paired r' /\ same_pairs r r'
    | None, None => True
    | _, _ => False
    end.
Proof.
  destruct (val_run_ok ops V (create_paired _ _ _ _ _)) as (v & Hr & [_ Hsame] & Hw).
  exists v. split; [done|]. specialize (Hsame n). specialize (Hw n).
  destruct (roms V !! n), (roms v !! n); try done. split; [by apply Hw|done].
Qed.
End create.

Section dynamic.
Context {Obj Conf Acc Mat : Type} `{EqDecision Obj} `{EqDecision Acc}.
Variable accOf : Conf -> Acc.
Variable fill : Conf -> gmap string Obj -> Mat.
Variable admissible : Mat -> Acc -> bool.
Notation Dyn := (dynVal Obj Acc Mat).
Lemma dyn_history_iff r0 calls (d : Dyn) :
  (exists d', dyn_run accOf fill admissible calls (setInitialReport (Some r0) d) = Ok (true, d')) <->
  dyn_passed accOf fill admissible None r0 calls.
Proof.
  split.
  - intros [d' H]. by eapply dyn_history.
  - intros H. by apply (dyn_history_conv _ _ _ _ (setInitialReport (Some r0) d) r0 eq_refl).
Qed.
End dynamic.

Section path.
Local Open Scope R_scope.
Lemma path_verdict ok step tmin tmax : 0 < step -> tmin <= tmax ->
  exists n, forall fuel, (n <= fuel)%nat ->
  (exists res, validatePath ok step tmin tmax false fuel = Some res /\ forward_verdict ok step tmin tmax res) /\
  (exists res, validatePath ok step tmin tmax true fuel = Some res /\ reverse_verdict ok step tmin tmax res).
Proof.
  intros Hs Hle. destruct (forward_ok ok step tmin tmax Hs Hle) as [n1 H1].
  destruct (reverse_ok ok step tmin tmax Hs Hle) as [n2 H2].
  exists (n1 + n2)%nat. intros fuel Hf. unfold validatePath. split; [apply H1|apply H2]; lia.
Qed.
(** consecutive visited parameters are at most a step apart: accepted paths are dense *)
Lemma accepted_dense ok step tmin tmax fuel p t0 :
  0 < step -> tmin <= tmax ->
  validatePath ok step tmin tmax false fuel = Some (true, p, t0) ->
  forall t, tmin <= t <= tmax -> exists u, tmin <= u <= t /\ t - u < step /\ ok u = true.
Proof.
  intros Hs Hle H t Ht.
  assert (Hv : forward_verdict ok step tmin tmax (true, p, t0)).
  { destruct (forward_ok ok step tmin tmax Hs Hle) as [n Hn].
    destruct (Hn (n + fuel)%nat) as (res & Heq & Hv); [lia|].
    assert (Hmono : forall fuel k fin a b r, forwardLoop ok step tmin tmax fuel fin a b = Some r ->
              forwardLoop ok step tmin tmax (k + fuel) fin a b = Some r).
    { clear. induction fuel as [|fuel IH]; intros k fin a b r H; [done|].
      rewrite Nat.add_succ_r. cbn [forwardLoop] in *. destruct (fin <? 2)%nat; [|done].
      destruct (ok a); [|done]. destruct (Rltb tmax (a + step)); by apply IH. }
    unfold validatePath in H. apply (Hmono _ n) in H. rewrite H in Heq. injection Heq as <-. done. }
  inversion Hv as [Hall|]; subst.
  set (k := Z.to_nat (Int_part ((t - tmin) / step))).
  assert (Hpos : 0 <= (t - tmin) / step).
  { unfold Rdiv. apply Rmult_le_pos; [lra|]. apply Rlt_le. by apply Rinv_0_lt_compat. }
  pose proof (base_Int_part ((t - tmin) / step)) as [Hb1 Hb2].
  assert (Hk : INR k = IZR (Int_part ((t - tmin) / step))).
  { unfold k. rewrite INR_IZR_INZ, Z2Nat.id; [done|].
    apply Znot_gt_le. intros Hneg. assert (Int_part ((t - tmin) / step) <= -1)%Z as Hz by lia.
    apply IZR_le in Hz. lra. }
  assert (Hmul : (t - tmin) / step * step = t - tmin) by (field; lra).
  assert (Hk1 : INR k * step <= t - tmin).
  { rewrite <- Hmul. apply Rmult_le_compat_r; [lra|]. lra. }
  assert (Hk2 : t - tmin < (INR k + 1) * step).
  { rewrite <- Hmul. apply Rmult_lt_compat_r; [lra|]. lra. }
  pose proof (pos_INR k). assert (0 <= INR k * step) by (apply Rmult_le_pos; lra).
  exists (tmin + INR k * step). split_and!; try lra. apply Hall. left. exists k. split; [done|lra].
Qed.
End path.
