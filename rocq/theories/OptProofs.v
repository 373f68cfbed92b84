From Coq Require Import Reals ZArith Lra Lia.
From Verif Require Import VecProofs.
From Verif Require Export OptSpec.
Local Open Scope R_scope.

Lemma Reqb_true a b : Reqb a b = true <-> a = b.
Proof. unfold Reqb. destruct (Req_EM_T a b); split; congruence. Qed.
Lemma Rltb_false a b : Rltb a b = false <-> b <= a.
Proof. unfold Rltb. destruct (Rlt_dec a b); split; intros; try discriminate; try reflexivity; lra. Qed.
Lemma Rleb_false a b : Rleb a b = false <-> b < a.
Proof. unfold Rleb. destruct (Rle_dec a b); split; intros; try discriminate; try reflexivity; lra. Qed.

Lemma ceqb_true a b : ceqb a b = true -> a = b.
Proof.
  revert b. induction a as [|x a IH]; intros [|y b]; cbn; try discriminate; auto.
  intros H. apply andb_prop in H. destruct H as [H1 H2]. apply Reqb_true in H1. apply IH in H2. congruence.
Qed.

Section P.
Context {E : Type} {einit eend : E -> list R} {elen : E -> R}.
Context {evalAt : list E -> R -> option (list R)} {extract : list E -> R -> R -> option (list E)}.
Context {sm : list R -> list R -> option E} {projector : option (E -> option E)} {validate : E -> bool}.

Local Notation joins := (joins einit eend).
Local Notation total := (total elen).
Local Notation at_time := (at_time einit eend elen evalAt).
Local Notation steer := (steer E einit eend elen sm projector).
Local Notation testPart := (testPart E einit eend elen extract sm projector validate).
Local Notation round := (round E einit eend elen evalAt extract sm projector validate).
Local Notation rounds := (rounds E einit eend elen evalAt extract sm projector validate).
Local Notation shortcut := (shortcut E einit eend elen evalAt extract sm projector validate).
Local Notation addPart := (addPart E extract).

Lemma pvlen_total p : pvlen E elen p = total p.
Proof. unfold pvlen. induction p as [|e p IH]; cbn; [reflexivity|]. rewrite IH. reflexivity. Qed.

Lemma total_app p q : total (p ++ q) = total p + total q.
Proof. induction p as [|e p IH]; cbn; [lra|]. rewrite IH. lra. Qed.

Lemma joins_app p q a b c : joins p a b -> joins q b c -> joins (p ++ q) a c.
Proof.
  revert a. induction p as [|e p IH]; intros a; cbn.
  - intros ->. auto.
  - intros [H1 H2] H3. split; auto.
Qed.

Lemma steer_joins q q' e : projector_keeps_ends einit eend projector -> steer q q' = Some e ->
  einit e = q /\ eend e = q'.
Proof.
  intros Hk. unfold OptModel.steer. destruct (sm q q') as [dp|]; [|discriminate].
  destruct (ceqb (einit dp) q) eqn:E1; [|discriminate]. destruct (ceqb (eend dp) q') eqn:E2; [|discriminate].
  cbn. apply ceqb_true in E1, E2. destruct (Rleb _ _); [discriminate|].
  destruct projector as [f|] eqn:Ep.
  - intros Hf. destruct (Hk f dp e eq_refl Hf). split; congruence.
  - intros [= <-]. auto.
Qed.

Lemma sample_spec m t3 rs t1 t2 rs' : sample m t3 rs = Some (t1, t2, rs') ->
  m <= t1 /\ t1 + m <= t2 /\ t2 + m <= t3.
Proof.
  revert rs t1 t2 rs'. fix IH 1. intros [|r2 [|r1 rs]] t1 t2 rs'; try discriminate.
  cbn [sample]. intros H.
  destruct (if Rltb _ _ then _ else _) as [a b].
  destruct (Rltb (a - 0) m) eqn:E1; [eapply IH; exact H|].
  destruct (Rltb (t3 - b) m) eqn:E2; [eapply IH; exact H|].
  destruct (Rltb (b - a) m) eqn:E3; [eapply IH; exact H|].
  cbn in H. injection H as -> -> <-. rewrite Rltb_false in *. lra.
Qed.

(** what is put in the result for a part *)
Definition piece (v : option E) (part : list E) : list E := match v with Some s => [s] | None => part end.

Lemma testPart_ok p q q' t t' v part : testPart p q q' t t' = Ok v -> extract p t t' = Some part ->
  match v with Some s => steer q q' = Some s /\ elen s < total part /\ validate s = true | None => True end.
Proof.
  unfold OptModel.testPart. intros H Hp. destruct (steer q q') as [s|]; [|injection H as <-; exact I].
  rewrite Hp in H. destruct (Rltb _ _) eqn:El; [|injection H as <-; exact I].
  destruct (validate s) eqn:Ev; injection H as <-; [|exact I].
  rewrite Rltb_true, pvlen_total in El. auto.
Qed.

Lemma contents_cur (h : list (list E)) x a : (a < length h)%nat -> contents E (h ++ [x]) a = contents E h a.
Proof. intros H. unfold contents. rewrite lookup_app_l by exact H. reflexivity. Qed.
Lemma contents_last (h : list (list E)) x : contents E (h ++ [x]) (length h) = x.
Proof. unfold contents. rewrite lookup_app_r by lia. rewrite Nat.sub_diag. reflexivity. Qed.

Lemma appendTo_last (h : list (list E)) x es : appendTo E (h ++ [x]) (length h) es = h ++ [x ++ es].
Proof.
  unfold appendTo. rewrite alter_app_r_alt by lia. rewrite Nat.sub_diag. reflexivity.
Qed.

Lemma addPart_ok h acc c pe v t t' part : (c < length h)%nat ->
  extract (contents E h c) t t' = Some part ->
  addPart c (h ++ [acc], length h, pe) (v, (t, t')) = (h ++ [acc ++ piece v part], length h, pe).
Proof.
  intros Hc Hx. unfold OptModel.addPart. destruct v as [s|]; cbn [piece].
  - rewrite appendTo_last. reflexivity.
  - rewrite contents_cur by exact Hc. rewrite Hx. rewrite appendTo_last. reflexivity.
Qed.

Lemma fold_ok h c pe v0 v1 v2 t1 t2 t3 x0 x1 x2 : (c < length h)%nat ->
  extract (contents E h c) 0 t1 = Some x0 -> extract (contents E h c) t1 t2 = Some x1 ->
  extract (contents E h c) t2 t3 = Some x2 ->
  fold_left (addPart c) [(v0, (0, t1)); (v1, (t1, t2)); (v2, (t2, t3))] (h ++ [[]], length h, pe) =
  (h ++ [piece v0 x0 ++ piece v1 x1 ++ piece v2 x2], length h, pe).
Proof.
  intros Hc H0 H1 H2. cbn [fold_left].
  rewrite (addPart_ok h [] c pe v0 0 t1 x0) by assumption.
  rewrite (addPart_ok h _ c pe v1 t1 t2 x1) by assumption.
  rewrite (addPart_ok h _ c pe v2 t2 t3 x2) by assumption.
  rewrite app_nil_l, <- !app_assoc. reflexivity.
Qed.

Section Inv.
Context (Hfaith : faithful_extraction einit eend elen evalAt extract).
Context (Hext : extraction_succeeds elen extract).
Context (Hproj : projector_keeps_ends einit eend projector).
Context (n : nat) (path : list E) (q0 q3 : list R) (m : R) (Hm : 0 < m).

Definition oinv (s : ost E) : Prop := exists p,
  hp E s !! cur E s = Some p /\ hp E s !! 0%nat = Some path /\ joins p q0 q3 /\
  lens E s !! (n - 1)%nat = Some (Some (total p)) /\ length (lens E s) = n /\
  (cur E s = 0%nat \/ total p < total path - 10 * depsilon) /\
  (res E s = None \/ res E s = Some (cur E s)).

(** the two kinds of rounds *)
Definition kept (s s' : ost E) : Prop :=
  cur E s' = cur E s /\ lens E s' = lens E s /\ fin E s' = fin E s /\ perr E s' = pdec (perr E s) /\
  (res E s' = res E s \/ res E s' = Some (cur E s)) /\ hp E s' !! cur E s = hp E s !! cur E s.
Definition shortened (s s' : ost E) : Prop := exists old new l0,
  lens E s !! (n - 1)%nat = Some (Some old) /\ new < old - 10 * depsilon /\
  lens E s' = (tail (lens E s) ++ [Some new])%list /\ perr E s' = Z.of_nat n /\
  res E s' = Some (cur E s') /\
  lens E s' !! 0%nat = Some l0 /\ fin E s' = inf_sub_le l0 new (1 / 10000 * new) /\
  total (contents E (hp E s') (cur E s')) = new.

Lemma piece_joins p q q' t t' v part : 0 <= t < t' -> t' <= total p -> joins p q0 q3 ->
  at_time p t q -> at_time p t' q' ->
  testPart p q q' t t' = Ok v -> extract p t t' = Some part -> joins (piece v part) q q'.
Proof.
  intros Ht Ht' Hj Hq Hq' Hv Hp. pose proof (testPart_ok _ _ _ _ _ _ _ Hv Hp) as Hs.
  destruct v as [s|]; cbn.
  - destruct Hs as (Hs & _). destruct (steer_joins _ _ _ Hproj Hs). auto.
  - destruct (Hfaith _ _ _ _ _ _ Hj Ht Ht' Hp) as [_ Hl]. apply Hl; assumption.
Qed.

Lemma round_ok s t1 t2 s' : oinv s -> (0 < n)%nat ->
  0 < t1 < t2 -> t2 < total (contents E (hp E s) (cur E s)) ->
  round n q0 q3 t1 t2 s = Ok s' -> oinv s' /\ (kept s s' \/ shortened s s').
Proof.
  intros Hinv Hn Ht1 Ht2 Hr. pose proof Hinv as Hinv0.
  destruct Hinv as (p & Hcur & H0 & Hj & Hlast & Hlen & Hshort & Hres).
  assert (Hc : contents E (hp E s) (cur E s) = p) by (unfold contents; rewrite Hcur; reflexivity).
  rewrite Hc in Ht2.
  assert (Hcl : (cur E s < length (hp E s))%nat) by (eapply lookup_lt_Some; exact Hcur).
  unfold OptModel.round in Hr. cbv zeta in Hr. rewrite Hc in Hr. rewrite pvlen_total in Hr.
  assert (Hfail : forall s2, Ok (mkOst E (hp E s) (cur E s) (res E s) (pdec (perr E s)) (lens E s) (fin E s)) = Ok s2 ->
                  oinv s2 /\ (kept s s2 \/ shortened s s2)).
  { intros s2 [= <-]. split; [exists p; cbn; repeat (split; [assumption|]); assumption|].
    left. unfold kept; cbn. split_and!; auto. }
  destruct (evalAt p t1) as [q1|] eqn:Eq1; [|apply Hfail; exact Hr].
  destruct (evalAt p t2) as [q2|] eqn:Eq2; [|apply Hfail; exact Hr].
  clear Hfail.
  destruct (testPart p q0 q1 0 t1) as [v0| |] eqn:Ev0; try discriminate. cbn [ubind] in Hr.
  destruct (testPart p q1 q2 t1 t2) as [v1| |] eqn:Ev1; try discriminate. cbn [ubind] in Hr.
  destruct (testPart p q2 q3 t2 (total p)) as [v2| |] eqn:Ev2; try discriminate. cbn [ubind] in Hr.
  destruct (extract p 0 t1) as [x0|] eqn:Ex0; [|exfalso; revert Ex0; apply Hext; lra].
  destruct (extract p t1 t2) as [x1|] eqn:Ex1; [|exfalso; revert Ex1; apply Hext; lra].
  destruct (extract p t2 (total p)) as [x2|] eqn:Ex2; [|exfalso; revert Ex2; apply Hext; lra].
  rewrite (fold_ok (hp E s) (cur E s) (perr E s) v0 v1 v2 t1 t2 (total p) x0 x1 x2) in Hr
    by (first [exact Hcl | rewrite Hc; assumption]).
  rewrite contents_last, pvlen_total, Hlast in Hr.
  assert (Hpath0 : forall x, (hp E s ++ [x])%list !! 0%nat = Some path)
    by (intros x; rewrite lookup_app_l by lia; exact H0).
  assert (Hpcur : forall x, (hp E s ++ [x])%list !! cur E s = Some p)
    by (intros x; rewrite lookup_app_l by lia; exact Hcur).
  assert (Ha0 : at_time p 0 q0) by (right; left; eauto).
  assert (Ha1 : at_time p t1 q1) by (left; assumption).
  assert (Ha2 : at_time p t2 q2) by (left; assumption).
  assert (Ha3 : at_time p (total p) q3) by (right; right; eauto).
  pose proof (piece_joins p q0 q1 0 t1 v0 x0 ltac:(lra) ltac:(lra) Hj Ha0 Ha1 Ev0 Ex0) as J0.
  pose proof (piece_joins p q1 q2 t1 t2 v1 x1 ltac:(lra) ltac:(lra) Hj Ha1 Ha2 Ev1 Ex1) as J1.
  pose proof (piece_joins p q2 q3 t2 (total p) v2 x2 ltac:(lra) ltac:(lra) Hj Ha2 Ha3 Ev2 Ex2) as J2.
  set (np := piece v0 x0 ++ piece v1 x1 ++ piece v2 x2) in *.
  assert (Jn : joins np q0 q3) by (eapply joins_app; [exact J0|]; eapply joins_app; eassumption).
  destruct (inf_sub_le (Some (total p)) (total np) (10 * depsilon)) eqn:Eacc.
  - injection Hr as <-. split.
    + exists p; cbn. split; [apply Hpcur|]. split; [apply Hpath0|]. split; [assumption|].
      split; [assumption|]. split; [assumption|]. split; [assumption|]. right; reflexivity.
    + left. unfold kept; cbn. split; [reflexivity|]. split; [reflexivity|]. split; [reflexivity|].
      split; [reflexivity|]. split; [right; reflexivity|]. rewrite Hpcur, Hcur. reflexivity.
  - cbn in Eacc. rewrite Rleb_false in Eacc.
    assert (Htl : length (tail (lens E s)) = (n - 1)%nat) by (destruct (lens E s); cbn in *; lia).
    assert (El1 : (tail (lens E s) ++ [Some (total np)])%list !! (n - 1)%nat = Some (Some (total np)))
      by (rewrite lookup_app_r by lia; rewrite Htl, Nat.sub_diag; reflexivity).
    rewrite El1 in Hr.
    destruct ((tail (lens E s) ++ [Some (total np)])%list !! 0%nat) as [l0|] eqn:El0; [|discriminate].
    injection Hr as <-. split.
    + exists np; cbn. split; [rewrite lookup_app_r by lia; rewrite Nat.sub_diag; reflexivity|].
      split; [apply Hpath0|]. split; [assumption|]. split; [exact El1|].
      split; [rewrite app_length, Htl; cbn; lia|].
      split; [|right; reflexivity]. right.
      assert (Hp : total p <= total path).
      { destruct Hshort as [Hz|Hz].
        - rewrite Hz in Hcur. rewrite H0 in Hcur. injection Hcur as ->. lra.
        - pose proof (pow_lt 2 52 ltac:(lra)) as Hpw. unfold depsilon in Hz.
          pose proof (Rinv_0_lt_compat _ Hpw). lra. }
      lra.
    + right. exists (total p), (total np), l0. cbn.
      repeat (split; [first [assumption | reflexivity | lra]|]).
      rewrite contents_last. reflexivity.
Qed.

Lemma rounds_inv fuel s rs k k' o : (0 < n)%nat -> oinv s ->
  rounds fuel n m q0 q3 s rs k = (k', Some (Ok o)) ->
  exists s', oinv s' /\ o = (cur E s', hp E s').
Proof.
  revert s rs k. induction fuel as [|fuel IH]; intros s rs k Hn Hs; cbn [OptModel.rounds];
    (destruct (fin E s || (perr E s =? 0)%Z); [intros [= _ Hr]; exists s; split; [exact Hs|];
       destruct Hs as (p & _ & _ & _ & _ & _ & _ & [Hx|Hx]); rewrite Hx in Hr; [discriminate|]; congruence|]).
  - discriminate.
  - destruct (sample _ _ _) as [[[t1 t2] rs']|] eqn:Es; [|discriminate].
    apply sample_spec in Es. rewrite pvlen_total in Es.
    destruct (round n q0 q3 t1 t2 s) as [s2| |] eqn:Er; try discriminate.
    intros H. eapply IH; [exact Hn| |exact H]. eapply (round_ok s t1 t2); try eassumption; lra.
Qed.
End Inv.
End P.
