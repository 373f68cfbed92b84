(** Proofs about the dynamic path validation. *)
From Coq Require Import Lra Lia.
From Verif Require Import Maps MapsProofs Vec SampProofs ValidModel ValidSpec ValidProofs ValidProofs2 ValidProofs3 DpvModel DpvSpec.
Local Open Scope nat_scope.

(** * The reports *)
Section report.
Context {O Q : Type} `{EqDecision O}.
Notation Val := (rbValidation O Q).

Lemma romValidate_report hit n (r r' : romv O Q) p p' b : romValidate hit n r (Some p) = Ok (b, r', Some p') ->
  (romObjects p' = romObjects p /\ (forall o, o ∈ pairs r -> hit o = false)) \/
  (exists o, o ∈ pairs r /\ hit o = true /\ romObjects p' = insertNew n o (romObjects p)).
Proof.
  unfold romValidate, firstHit. destruct (List.find hit (pairs r)) as [o|] eqn:Hf.
  - destruct (find_some _ _ _ Hf). destruct (bringToFront o r); intros H1; inversion H1; subst.
    right. exists o. done.
  - intros H1. inversion H1; subst. left. split; [done|]. by apply find_none.
Qed.
Lemma romValidate_b hit n (r r' : romv O Q) p p' b : romValidate hit n r (Some p) = Ok (b, r', p') ->
  exists p1, p' = Some p1.
Proof.
  unfold romValidate. destruct (firstHit hit (pairs r)).
  - destruct (bringToFront _ r); intros H1; inversion H1; subst; eauto.
  - intros H1; inversion H1; subst; eauto.
Qed.

Lemma romsLoop_sound hit f (todo : list (string * romv O Q)) : forall m rs p m' rs' p',
  romsLoop hit f todo m rs (Some p) = Ok (m', rs', Some p') ->
  forall n o, romObjects p' !! n = Some o -> romObjects p !! n = Some o \/
    exists r, (n, r) ∈ todo /\ o ∈ pairs r /\ hit n o = true /\ (f <> [] -> n ∈ f).
Proof.
  induction todo as [|[k r] todo IH]; intros m rs p m' rs' p' Hl n o Hn; cbn [romsLoop] in Hl.
  { inversion Hl; subst. by left. }
  destruct (_ || _) in Hl; [|inversion Hl; subst; by left].
  destruct ((length f =? 0) || inb k f) eqn:Ef.
  - destruct (romValidate (hit k) k r (Some p)) as [[[b r'] p1]| |] eqn:Hv; try done.
    destruct (romValidate_b _ _ _ _ _ _ _ Hv) as [p2 ->].
    destruct (IH _ _ _ _ _ _ Hl n o Hn) as [H1|(r1 & H1 & H2)].
    + apply romValidate_report in Hv as [[E _]|(o' & Ho & Hh & E)].
      * left. by rewrite <- E.
      * rewrite E in H1. unfold insertNew in H1. destruct (romObjects p !! k) eqn:Ek; [by left|].
        apply lookup_insert_Some in H1 as [[<- <-]|[_ H1]]; [|by left].
        right. exists r. split; [left|]. split; [done|]. split; [done|]. intros Hf.
        destruct f; [done|]. cbn in Ef. unfold inb in Ef. by apply bool_decide_eq_true in Ef.
    + right. exists r1. split; [by right|done].
  - destruct (IH _ _ _ _ _ _ Hl n o Hn) as [H1|(r1 & H1 & H2)]; [by left|].
    right. exists r1. split; [by right|done].
Qed.

Definition wanted (f : list string) (todo : list (string * romv O Q)) : list string :=
  (List.filter (fun nr => inb nr.1 f) todo).*1.

Lemma romsLoop_keeps hit f (todo : list (string * romv O Q)) : forall m rs p m' rs' p' n,
  romsLoop hit f todo m rs (Some p) = Ok (m', rs', Some p') ->
  is_Some (romObjects p !! n) -> is_Some (romObjects p' !! n).
Proof.
  induction todo as [|[k r] todo IH]; intros m rs p m' rs' p' n Hl Hn; cbn [romsLoop] in Hl.
  { by inversion Hl; subst. }
  destruct (_ || _) in Hl; [|by inversion Hl; subst].
  destruct ((length f =? 0) || inb k f) eqn:Ef; [|by eapply IH].
  destruct (romValidate (hit k) k r (Some p)) as [[[b r'] p1]| |] eqn:Hv; try done.
  destruct (romValidate_b _ _ _ _ _ _ _ Hv) as [p2 ->].
  eapply IH; [exact Hl|]. apply romValidate_report in Hv as [[-> _]|(o' & _ & _ & ->)]; [done|].
  unfold insertNew. destruct (romObjects p !! k) eqn:Ek; [done|].
  destruct (decide (n = k)) as [->|]; [rewrite lookup_insert; eauto|by rewrite lookup_insert_ne].
Qed.

Lemma romsLoop_complete hit f (todo : list (string * romv O Q)) : forall m rs p m' rs' p',
  NoDup todo.*1 -> m + length (wanted f todo) <= length f -> f <> [] ->
  romsLoop hit f todo m rs (Some p) = Ok (m', rs', Some p') ->
  forall n r o, (n, r) ∈ todo -> n ∈ f -> o ∈ pairs r -> hit n o = true -> is_Some (romObjects p' !! n).
Proof.
  induction todo as [|[k rk] todo IH]; intros m rs p m' rs' p' Hnd Hm Hf Hl n r o Hin Hnf Ho Hh.
  { by apply elem_of_nil in Hin. }
  cbn [romsLoop] in Hl. inversion_clear Hnd as [|? ? Hk Hnd'].
  assert (Hpos : 0 < length f) by (destruct f; [done|cbn; lia]).
  destruct ((m <? 1) || (m <? length f)) eqn:Ec.
  2:{ exfalso. apply orb_false_iff in Ec as [_ E2%Nat.ltb_ge].
      assert (length (wanted f ((k, rk) :: todo)) = 0) by lia.
      apply nil_length_inv in H. assert (Hw : n ∈ wanted f ((k, rk) :: todo)).
      { unfold wanted. apply elem_of_list_fmap. exists (n, r). split; [done|]. rewrite elem_of_list_In, filter_In, <- elem_of_list_In.
        split; [done|]. unfold inb. by apply bool_decide_eq_true. }
      rewrite H in Hw. by apply elem_of_nil in Hw. }
  unfold wanted in Hm. cbn [List.filter fst] in Hm.
  assert (Ef0 : (length f =? 0) = false) by (apply Nat.eqb_neq; lia). rewrite Ef0 in Hl. cbn [orb] in Hl.
  apply elem_of_cons in Hin as [Hin|Hin].
  - inversion Hin; subst k rk. assert (En : inb n f = true) by (unfold inb; by apply bool_decide_eq_true).
    rewrite En in Hl. destruct (romValidate (hit n) n r (Some p)) as [[[b r'] p1]| |] eqn:Hv; try done.
    destruct (romValidate_b _ _ _ _ _ _ _ Hv) as [p2 ->]. eapply romsLoop_keeps; [exact Hl|].
    apply romValidate_report in Hv as [[_ E]|(o' & _ & _ & ->)]; [by rewrite (E o Ho) in Hh|].
    unfold insertNew. destruct (romObjects p !! n) eqn:Ek; [eauto|]. rewrite lookup_insert. eauto.
  - destruct (inb k f) eqn:Ek.
    + destruct (romValidate (hit k) k rk (Some p)) as [[[b r'] p1]| |] eqn:Hv; try done.
      destruct (romValidate_b _ _ _ _ _ _ _ Hv) as [p2 ->].
      eapply (IH _ _ _ _ _ _ Hnd'); [|done|exact Hl|exact Hin|done|exact Ho|done].
      cbn [fmap list_fmap length] in Hm. unfold wanted. destruct b; lia.
    + eapply (IH _ _ _ _ _ _ Hnd'); [|done|exact Hl|exact Hin|done|exact Ho|done]. unfold wanted. lia.
Qed.

Lemma wanted_nodup f (todo : list (string * romv O Q)) : NoDup todo.*1 -> NoDup (wanted f todo).
Proof.
  unfold wanted. induction todo as [|[n r] l IH]; intros Hnd; [constructor|].
  inversion_clear Hnd as [|? ? Hn Hnd']. cbn [List.filter].
  destruct (inb (n, r).1 f); [|by apply IH].
  cbn [fmap list_fmap]. constructor; [|by apply IH]. intros H. apply Hn.
  apply elem_of_list_fmap in H as ([n' r'] & Heq & H). simpl in Heq. subst n'.
  rewrite elem_of_list_In, filter_In in H. destruct H as [H _]. apply elem_of_list_fmap.
  exists (n, r'). split; [done|]. by apply elem_of_list_In.
Qed.
Lemma wanted_length f (todo : list (string * romv O Q)) : NoDup todo.*1 -> length (wanted f todo) <= length f.
Proof.
  intros Hnd. apply submseteq_length, NoDup_submseteq; [by apply wanted_nodup|].
  intros n Hn. unfold wanted in Hn. apply elem_of_list_fmap in Hn as (x & -> & H).
  rewrite elem_of_list_In, filter_In in H. destruct H as [_ H]. unfold inb in H. by apply bool_decide_eq_true in H.
Qed.

Context {Conf : Type} (hit : Conf -> string -> O -> bool).
Lemma validate_report tf ib q f (v v' : Val) b rep : validate tf ib (hit q) f v = Ok (b, v', rep) ->
  contacts_of hit v f q (romObjects rep).
Proof.
  unfold validate, validateRoms.
  destruct (romsLoop (hit q) f (sitems (roms v)) 0 (roms v) (Some (mkReports ∅ ∅))) as [[[m rs] [p|]]| |] eqn:Hl; try done.
  intros H. inversion H; subst. split.
  - intros n o Hn. destruct (romsLoop_sound _ _ _ _ _ _ _ _ _ Hl n o Hn) as [E|(r & Hr & Ho & Hh & _)].
    { cbn in E. by rewrite lookup_empty in E. }
    exists r. split; [by apply sitems_elem|done].
  - intros Hf n. split.
    + intros [o Hn]. destruct (romsLoop_sound _ _ _ _ _ _ _ _ _ Hl n o Hn) as [E|(r & Hr & Ho & Hh & Hi)].
      { cbn in E. by rewrite lookup_empty in E. }
      split; [by apply Hi|]. exists r, o. split; [by apply sitems_elem|done].
    + intros [Hnf (r & o & Hr & Ho & Hh)].
      eapply (romsLoop_complete _ _ _ _ _ _ _ _ _ (sitems_nodup _)); [|done|exact Hl|by apply sitems_elem|done|exact Ho|done].
      apply wanted_length, sitems_nodup.
Qed.

Lemma same_contacts_of (v v' : Val) f q r : same_validation v v' -> contacts_of hit v' f q r -> contacts_of hit v f q r.
Proof.
  intros Hs [H1 H2]. split.
  - intros n o Hn. destruct (H1 n o Hn) as (rom & Hr & Ho & Hh). destruct Hs as [_ Hs]. specialize (Hs n).
    rewrite Hr in Hs. destruct (roms v !! n) as [rom0|]; [|done]. exists rom0. split; [done|].
    by rewrite <- (sp_pairs _ _ Hs).
  - intros Hf n. rewrite (H2 Hf n). by rewrite (same_reaches v v').
Qed.
Lemma same_validation_trans (a b c : Val) : same_validation a b -> same_validation b c -> same_validation a c.
Proof.
  intros [H1 H2] [H3 H4]. split; [congruence|]. intros n. specialize (H2 n). specialize (H4 n).
  destruct (roms a !! n), (roms b !! n), (roms c !! n); try done. by eapply same_pairs_trans.
Qed.
End report.

(** * The loops *)
Section loops.
Local Open Scope R_scope.
Context {S : Type} (test : R -> S -> outcome (bool * S)).
Fixpoint scan (cut : option R -> validPart) (ts : list R) (prev : option R) (s : S) : outcome (bool * validPart * option R * S) :=
  match ts with
  | [] => Ok (true, Whole, None, s)
  | t :: ts' =>
    match test t s with
    | Ok (true, s') => scan cut ts' (Some t) s'
    | Ok (false, s') => Ok (false, cut prev, Some t, s')
    | Throw => Throw
    | Ub => Ub
    end
  end.
Variables (step tmin tmax : R).
Hypothesis Hstep : 0 < step.

Lemma forward_scan m : forall k fuel prev s,
  tmin + INR (k + m) * step <= tmax < tmin + INR (Datatypes.S (k + m)) * step -> (m + 4 <= fuel)%nat ->
  forwardLoopS test step tmin tmax fuel 0 (tmin + INR k * step) (default tmin prev) s =
  Some (scan (fun o => Extract tmin (default tmin o)) (map (fun k => tmin + INR k * step) (seq k (Datatypes.S m)) ++ [tmax]) prev s).
Proof.
  induction m as [|m IH]; intros k fuel prev s Hk Hf; (destruct fuel as [|fuel]; [lia|]);
    cbn [forwardLoopS seq map app scan Nat.ltb Nat.leb]; destruct (test _ s) as [[[] s']| |]; try done.
  - unfold Rltb; destruct (Rlt_dec tmax (tmin + INR k * step + step)) as [_|Hn].
    2:{ exfalso. rewrite Nat.add_0_r in Hk. rewrite S_INR in Hk. lra. }
    destruct fuel as [|fuel]; [lia|]. cbn [forwardLoopS seq map app scan Nat.ltb Nat.leb default].
    destruct (test _ s') as [[[] s'']| |]; try done.
    unfold Rltb; destruct (Rlt_dec tmax (tmax + step)) as [_|Hn]; [|exfalso; lra].
    destruct fuel as [|fuel]; [lia|]. reflexivity.
  - unfold Rltb; destruct (Rlt_dec tmax (tmin + INR k * step + step)) as [Hn|_].
    { exfalso. destruct Hk as [Hk _]. rewrite Nat.add_succ_r, <- Nat.add_succ_l, plus_INR, S_INR in Hk.
      pose proof (pos_INR m). assert (0 <= INR m * step) by nra. lra. }
    replace (tmin + INR k * step + step) with (tmin + INR (Datatypes.S k) * step) by (rewrite S_INR; ring).
    specialize (IH (Datatypes.S k) fuel (Some (tmin + INR k * step)) s'). cbn [from_option] in IH; unfold Datatypes.id in IH. rewrite IH; [reflexivity| |lia].
    replace (Datatypes.S k + m)%nat with (k + Datatypes.S m)%nat by lia. exact Hk.
Qed.
Lemma reverse_scan m : forall k fuel prev s,
  tmax - INR (Datatypes.S (k + m)) * step < tmin <= tmax - INR (k + m) * step -> (m + 4 <= fuel)%nat ->
  reverseLoopS test step tmin tmax fuel 0 (tmax - INR k * step) (default tmax prev) s =
  Some (scan (fun o => Extract (default tmax o) tmax) (map (fun k => tmax - INR k * step) (seq k (Datatypes.S m)) ++ [tmin]) prev s).
Proof.
  induction m as [|m IH]; intros k fuel prev s Hk Hf; (destruct fuel as [|fuel]; [lia|]);
    cbn [reverseLoopS seq map app scan Nat.ltb Nat.leb]; destruct (test _ s) as [[[] s']| |]; try done.
  - unfold Rltb; destruct (Rlt_dec (tmax - INR k * step - step) tmin) as [_|Hn].
    2:{ exfalso. rewrite Nat.add_0_r in Hk. rewrite S_INR in Hk. lra. }
    destruct fuel as [|fuel]; [lia|]. cbn [reverseLoopS seq map app scan Nat.ltb Nat.leb default].
    destruct (test _ s') as [[[] s'']| |]; try done.
    unfold Rltb; destruct (Rlt_dec (tmin - step) tmin) as [_|Hn]; [|exfalso; lra].
    destruct fuel as [|fuel]; [lia|]. reflexivity.
  - unfold Rltb; destruct (Rlt_dec (tmax - INR k * step - step) tmin) as [Hn|_].
    { exfalso. destruct Hk as [_ Hk]. rewrite Nat.add_succ_r, <- Nat.add_succ_l, plus_INR, S_INR in Hk.
      pose proof (pos_INR m). assert (0 <= INR m * step) by nra. lra. }
    replace (tmax - INR k * step - step) with (tmax - INR (Datatypes.S k) * step) by (rewrite S_INR; ring).
    specialize (IH (Datatypes.S k) fuel (Some (tmax - INR k * step)) s'). cbn [from_option] in IH; unfold Datatypes.id in IH. rewrite IH; [reflexivity| |lia].
    replace (Datatypes.S k + m)%nat with (k + Datatypes.S m)%nat by lia. exact Hk.
Qed.
Lemma forward_instants ts fuel s : instants step tmin tmax ts -> (length ts + 2 <= fuel)%nat ->
  forwardLoopS test step tmin tmax fuel 0 tmin tmin s = Some (scan (fun o => Extract tmin (default tmin o)) ts None s).
Proof.
  intros (n & Hn & ->) Hf. rewrite app_length, map_length, seq_length in Hf. cbn in Hf.
  pose proof (forward_scan n 0 fuel None s) as H. cbn [default Nat.add] in H.
  rewrite <- H; [|exact Hn|lia]. cbn [INR]. replace (tmin + 0 * step) with tmin by ring. reflexivity.
Qed.
Lemma reverse_instants ts fuel s : instants_reverse step tmin tmax ts -> (length ts + 2 <= fuel)%nat ->
  reverseLoopS test step tmin tmax fuel 0 tmax tmax s = Some (scan (fun o => Extract (default tmax o) tmax) ts None s).
Proof.
  intros (n & Hn & ->) Hf. rewrite app_length, map_length, seq_length in Hf. cbn in Hf.
  pose proof (reverse_scan n 0 fuel None s) as H. cbn [default Nat.add] in H.
  rewrite <- H; [|exact Hn|lia]. cbn [INR]. replace (tmax - 0 * step) with tmax by ring. reflexivity.
Qed.
Lemma count_steps x : 0 <= x -> exists n : nat, INR n * step <= x < INR (Datatypes.S n) * step.
Proof.
  intros Hx. destruct (archimed (x / step)) as [A1 A2].
  assert (Hd : 0 <= x / step) by (apply Rmult_le_pos; [done|left; by apply Rinv_0_lt_compat]).
  assert (Hz : (0 < up (x / step))%Z) by (apply lt_IZR; lra).
  exists (Z.to_nat (up (x / step) - 1)). rewrite S_INR, INR_IZR_INZ, Z2Nat.id by lia. rewrite minus_IZR.
  assert (E : x = x / step * step) by (field; lra). split.
  - rewrite E at 2. apply Rmult_le_compat_r; lra.
  - rewrite E at 1. apply Rmult_lt_compat_r; lra.
Qed.
Lemma instants_exist : tmin <= tmax -> exists ts, instants step tmin tmax ts.
Proof.
  intros Ht. destruct (count_steps (tmax - tmin)) as [n Hn]; [lra|]. eexists. exists n. split; [lra|reflexivity].
Qed.
Lemma instants_reverse_exist : tmin <= tmax -> exists ts, instants_reverse step tmin tmax ts.
Proof.
  intros Ht. destruct (count_steps (tmax - tmin)) as [n Hn]; [lra|]. eexists. exists n. split; [lra|reflexivity].
Qed.
End loops.
