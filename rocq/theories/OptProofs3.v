(** Proofs of C104_starts and C107_draws. *)
From Coq Require Import Reals ZArith Lra Lia.
From Verif Require Import VecProofs.
From Verif Require Export OptProofs2.
Local Open Scope R_scope.

Section P.
Context {E : Type} {einit eend : E -> list R} {elen : E -> R}.
Context {evalAt : list E -> R -> option (list R)} {extract : list E -> R -> R -> option (list E)}.
Context {sm : list R -> list R -> option E} {projector : option (E -> option E)} {validate : E -> bool}.
Local Notation steer := (steer E einit eend elen sm projector).
Local Notation testPart := (testPart E einit eend elen extract sm projector validate).
Local Notation round := (round E einit eend elen evalAt extract sm projector validate).
Local Notation rounds := (rounds E einit eend elen evalAt extract sm projector validate).
Local Notation shortcut := (shortcut E einit eend elen evalAt extract sm projector validate).
Local Notation addPart := (addPart E extract).
Local Notation st := (starts_at einit).
Context (Hx : extraction_keeps_start einit extract) (Hpk : projector_keeps_ends einit eend projector).
Context (q0 : list R).

Lemma st_append h a es b : st q0 (contents E h b) -> st q0 (contents E (appendTo E h a es) b).
Proof.
  unfold contents, appendTo. destruct (Nat.eq_dec a b) as [->|Hne].
  - rewrite list_lookup_alter. destruct (h !! b) as [p|]; [|auto]. cbn. intros (e & He & Hq). exists e.
    split; [|assumption]. destruct p; [discriminate|]. exact He.
  - rewrite list_lookup_alter_ne by assumption. auto.
Qed.
Lemma addPart_st c h r pe part : st q0 (contents E h c) -> st q0 (contents E h r) ->
  let '(h', r', _) := addPart c (h, r, pe) part in st q0 (contents E h' c) /\ st q0 (contents E h' r').
Proof.
  intros Hc Hr. destruct part as [[s|] [t t']]; cbn.
  - split; apply st_append; assumption.
  - destruct (extract _ t t') as [p'|]; [split; apply st_append; assumption|auto].
Qed.
Lemma st_first c h pe v t1 q1 : st q0 (contents E h c) -> 0 < t1 -> testPart (contents E h c) q0 q1 0 t1 = Ok v ->
  let '(h', r', _) := addPart c (h ++ [[]], length h, pe) (v, (0, t1)) in st q0 (contents E h' c) /\ st q0 (contents E h' r').
Proof.
  intros Hc Ht Hv.
  assert (Hlt : (c < length h)%nat).
  { destruct Hc as (e & He & _). unfold contents in He. destruct (h !! c) as [p|] eqn:Ec; [|discriminate]. eapply lookup_lt_Some; eauto. }
  assert (Hc' : st q0 (contents E (h ++ [[]]) c)) by (rewrite contents_cur by assumption; exact Hc).
  destruct v as [s|]; cbn.
  - split; [apply st_append; exact Hc'|]. rewrite appendTo_last, contents_last. exists s. split; [reflexivity|].
    unfold OptModel.testPart in Hv. destruct (steer q0 q1) as [e|] eqn:Es; [|discriminate].
    destruct (extract _ 0 t1); [|discriminate]. destruct (Rltb _ _); [|discriminate]. destruct (validate e); [|discriminate].
    injection Hv as ->. exact (proj1 (steer_joins _ _ _ Hpk Es)).
  - rewrite contents_cur by assumption. destruct (extract _ 0 t1) as [p'|] eqn:Ee; [|split; assumption].
    split; [apply st_append; exact Hc'|]. rewrite appendTo_last, contents_last. cbn. exact (Hx _ _ _ _ Ht Hc Ee).
Qed.

Definition stinv (s : ost E) : Prop := st q0 (contents E (hp E s) (cur E s)) /\
  match res E s with Some a => st q0 (contents E (hp E s) a) | None => True end.

Lemma round_st n q3 t1 t2 s s' : 0 < t1 -> stinv s -> round n q0 q3 t1 t2 s = Ok s' -> stinv s'.
Proof.
  intros Ht [Hc Hr] H. unfold OptModel.round in H. cbv zeta in H.
  destruct (evalAt _ t1) as [q1|]; [|injection H as <-; split; assumption].
  destruct (evalAt _ t2) as [q2|]; [|injection H as <-; split; assumption].
  destruct (testPart _ q0 q1 _ _) as [v0| |] eqn:Ev0; try discriminate. cbn [ubind] in H.
  destruct (testPart _ q1 q2 _ _) as [v1| |] eqn:Ev1; try discriminate. cbn [ubind] in H.
  destruct (testPart _ q2 q3 _ _) as [v2| |] eqn:Ev2; try discriminate. cbn [ubind fold_left] in H.
  pose proof (st_first (cur E s) (hp E s) (perr E s) v0 t1 q1 Hc Ht Ev0) as H1.
  destruct (addPart (cur E s) (hp E s ++ [[]], length (hp E s), perr E s) _) as [[h1 r1] pe1]. destruct H1 as [A1 B1].
  match type of H with context [addPart (cur E s) (h1, r1, pe1) ?x] => pose proof (addPart_st (cur E s) h1 r1 pe1 x A1 B1) as H2 end.
  destruct (addPart (cur E s) (h1, r1, pe1) _) as [[h2 r2] pe2]. destruct H2 as [A2 B2].
  match type of H with context [addPart (cur E s) (h2, r2, pe2) ?x] => pose proof (addPart_st (cur E s) h2 r2 pe2 x A2 B2) as H3 end.
  destruct (addPart (cur E s) (h2, r2, pe2) _) as [[h3 r3] pe3]. destruct H3 as [A3 B3].
  destruct (lens E s !! _) as [old|]; [|discriminate].
  destruct (inf_sub_le _ _ _); [injection H as <-; split; exact A3|].
  destruct (_ !! 0%nat) as [l0|]; [|discriminate]. destruct (_ !! (n - 1)%nat) as [[l1|]|]; try discriminate.
  injection H as <-. split; exact B3.
Qed.
Lemma rounds_st fuel n m q3 : 0 < m -> forall s rs k k' a h, stinv s ->
  rounds fuel n m q0 q3 s rs k = (k', Some (Ok (a, h))) -> st q0 (contents E h a).
Proof.
  intros Hm. induction fuel as [|fuel IH]; intros s rs k k' a h Hs; cbn [OptModel.rounds];
    (destruct (fin E s || (perr E s =? 0)%Z);
     [intros [= _ Hr]; destruct Hs as [_ Hs]; destruct (res E s); [|discriminate]; injection Hr as <- <-; exact Hs|]).
  - discriminate.
  - destruct (sample _ _ _) as [[[t1 t2] rs']|] eqn:Esm; [|discriminate]. apply sample_spec in Esm.
    destruct (round n q0 q3 t1 t2 s) as [s2| |] eqn:Er; try discriminate.
    intros H. eapply IH; [|exact H]. eapply round_st; [|exact Hs|exact Er]. lra.
Qed.
Lemma shortcut_starts n path rs k a h r : 0 < total elen path -> st q0 path ->
  shortcut n path rs = (k, Some (Ok (a, h))) -> h !! a = Some r -> st q0 r.
Proof.
  intros Ht Hst. unfold OptModel.shortcut. destruct path as [|e0 path'] eqn:Ep; [discriminate|]. rewrite <- Ep in *.
  destruct (last path) as [e1|]; [|discriminate]. destruct (Nat.eqb n 0); [discriminate|].
  assert (Hq : einit e0 = q0) by (destruct Hst as (e & He & Hq); rewrite Ep in He; cbn in He; congruence). rewrite Hq.
  intros H Hr. apply rounds_st in H.
  - unfold contents in H. rewrite Hr in H. exact H.
  - rewrite pvlen_total. apply Rmin_glb_lt; lra.
  - split; [exact Hst|exact I].
Qed.
End P.

Lemma sample_accepts m t3 r1 r2 rs : 0 <= m -> 2 * m <= t3 -> 0 <= r1 <= 1 -> 0 <= r2 <= 1 -> m <= (t3 - 2 * m) * Rabs (r2 - r1) ->
  sample m t3 (r2 :: r1 :: rs) = Some (m + (t3 - 2 * m) * Rmin r1 r2, m + (t3 - 2 * m) * Rmax r1 r2, rs).
Proof.
  intros Hm Ht H1 H2 Hd. cbn [sample]. set (d := t3 - 2 * m) in *. assert (Hd0 : 0 <= d) by (unfold d; lra).
  replace (t3 - 0 - 2 * m) with d by (unfold d; lra). replace (0 + m) with m by lra.
  destruct (Rltb (m + d * r1) (m + d * r2)) eqn:Eb.
  - apply Rltb_true in Eb.
    assert (Hr : r1 <= r2) by (destruct (Rle_lt_dec r1 r2); [assumption|]; assert (d * r2 <= d * r1) by (apply Rmult_le_compat_l; lra); lra).
    rewrite (Rmin_left r1 r2), (Rmax_right r1 r2) by assumption. rewrite Rabs_right in Hd by lra.
    assert (0 <= d * r1) by (apply Rmult_le_pos; lra). assert (d * r2 <= d * 1) by (apply Rmult_le_compat_l; lra).
    assert (d * (r2 - r1) = d * r2 - d * r1) by ring.
    replace (Rltb (m + d * r1 - 0) m) with false by (symmetry; apply Rltb_false; lra).
    replace (Rltb (t3 - (m + d * r2)) m) with false by (symmetry; apply Rltb_false; unfold d in *; lra).
    replace (Rltb (m + d * r2 - (m + d * r1)) m) with false by (symmetry; apply Rltb_false; lra). reflexivity.
  - apply Rltb_false in Eb.
    assert (Hr : d * r2 <= d * r1) by lra.
    assert (Hcase : r2 <= r1 \/ m = 0 /\ (d = 0)).
    { destruct (Rle_lt_dec r2 r1); [auto|]. right. rewrite Rabs_right in Hd by lra.
      assert (d * (r2 - r1) = d * r2 - d * r1) by ring. assert (m = 0) by lra.
      assert (0 <= d * (r2 - r1)) by (apply Rmult_le_pos; lra). assert (Hz : d * (r2 - r1) = 0) by lra.
      split; [assumption|]. apply Rmult_integral in Hz as [|]; lra. }
    destruct Hcase as [Hc|[-> ->]].
    + rewrite (Rmin_right r1 r2), (Rmax_left r1 r2) by assumption. rewrite Rabs_left1 in Hd by lra.
      assert (0 <= d * r2) by (apply Rmult_le_pos; lra). assert (d * r1 <= d * 1) by (apply Rmult_le_compat_l; lra).
      assert (d * - (r2 - r1) = d * r1 - d * r2) by ring.
      replace (Rltb (m + d * r2 - 0) m) with false by (symmetry; apply Rltb_false; lra).
      replace (Rltb (t3 - (m + d * r1)) m) with false by (symmetry; apply Rltb_false; unfold d in *; lra).
      replace (Rltb (m + d * r1 - (m + d * r2)) m) with false by (symmetry; apply Rltb_false; lra). reflexivity.
    + rewrite !Rmult_0_l. replace (Rltb (0 + 0 - 0) 0) with false by (symmetry; apply Rltb_false; lra).
      replace (Rltb (t3 - (0 + 0)) 0) with false by (symmetry; apply Rltb_false; lra).
      replace (Rltb (0 + 0 - (0 + 0)) 0) with false by (symmetry; apply Rltb_false; lra). reflexivity.
Qed.
