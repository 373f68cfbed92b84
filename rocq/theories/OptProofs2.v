From Coq Require Import Reals ZArith Lra Lia.
From Verif Require Import VecProofs.
From Verif Require Export OptProofs.
Local Open Scope R_scope.

Lemma pdec_pos z : (0 < z <= 2 ^ 64)%Z -> pdec z = (z - 1)%Z.
Proof. intros H. unfold pdec. apply Z.mod_small. lia. Qed.

Section T.
Context {E : Type} {einit eend : E -> list R} {elen : E -> R}.
Context {evalAt : list E -> R -> option (list R)} {extract : list E -> R -> R -> option (list E)}.
Context {sm : list R -> list R -> option E} {projector : option (E -> option E)} {validate : E -> bool}.

Local Notation joins := (joins einit eend).
Local Notation total := (total elen).
Local Notation steer := (steer E einit eend elen sm projector).
Local Notation testPart := (testPart E einit eend elen extract sm projector validate).
Local Notation round := (round E einit eend elen evalAt extract sm projector validate).
Local Notation rounds := (rounds E einit eend elen evalAt extract sm projector validate).
Local Notation shortcut := (shortcut E einit eend elen evalAt extract sm projector validate).
Local Notation addPart := (addPart E extract).

Section Bound.
Context (Hfaith : faithful_extraction einit eend elen evalAt extract).
Context (Hext : extraction_succeeds elen extract).
Context (Hproj : projector_keeps_ends einit eend projector).
Context (n : nat) (path : list E) (q0 q3 : list R) (m : R) (Hm : 0 < m) (Hn : (0 < n)%nat).
Context (Hn64 : (Z.of_nat n < 2 ^ 64)%Z).
Context (K : nat) (HK : total path <= 3 * m * (10001 / 10000) ^ K) (HK1 : (1 <= K)%nat).
Local Notation oinv := (@oinv E einit eend elen n path q0 q3).

(** the lengths of the successive paths *)
Definition ghost (s : ost E) (k : nat) (hist : list R) : Prop :=
  (1 <= length hist)%nat /\ hist !! 0%nat = Some (total path) /\
  lens E s = drop (length hist - 1) (replicate (n - 1) None ++ map Some hist)%list /\
  (forall i x, hist !! i = Some x -> total (contents E (hp E s) (cur E s)) <= x) /\
  hist !! (length hist - 1)%nat = Some (total (contents E (hp E s) (cur E s))) /\
  (fin E s = false -> forall i x y, (1 <= i + (n - 1))%nat -> hist !! i = Some x -> hist !! (i + (n - 1))%nat = Some y ->
     y * (10001 / 10000) < x) /\
  (0 <= perr E s <= Z.of_nat n)%Z /\
  (Z.of_nat k <= Z.of_nat (length hist - 1) * Z.of_nat n + (Z.of_nat n - perr E s))%Z.

Lemma tail_drop_S {A} (l : list A) j : tail (drop j l) = drop (S j) l.
Proof. revert l. induction j as [|j IH]; intros [|x l]; cbn; try reflexivity. rewrite IH. destruct l; reflexivity. Qed.

Lemma hist_power s k hist : ghost s k hist -> fin E s = false -> (2 <= n)%nat -> forall j, (1 <= j)%nat -> forall y,
  hist !! ((n - 1) * j)%nat = Some y -> y * (10001 / 10000) ^ j < total path.
Proof.
  intros (Hl & H0 & _ & _ & _ & Hg & _) Hf Hn2. induction j as [|j IH]; [lia|].
  intros _ y Hy.
  assert (Hlt : ((n - 1) * j < length hist)%nat) by (apply lookup_lt_Some in Hy; nia).
  destruct (lookup_lt_is_Some_2 _ _ Hlt) as [x Hx].
  assert (Hxy : y * (10001 / 10000) < x).
  { apply (Hg Hf ((n - 1) * j)%nat x y); [generalize ((n - 1) * j)%nat; lia|exact Hx|]. rewrite <- Hy. f_equal. nia. }
  pose proof (pow_lt (10001 / 10000) j ltac:(lra)) as Hp.
  assert (Hx0 : x * (10001 / 10000) ^ j <= total path).
  { destruct j as [|j].
    - rewrite Nat.mul_0_r, H0 in Hx. injection Hx as <-. rewrite pow_O. lra.
    - left. apply IH; [lia|exact Hx]. }
  cbn [pow]. apply Rlt_le_trans with (x * (10001 / 10000) ^ j); [|exact Hx0].
  replace (y * (10001 / 10000 * (10001 / 10000) ^ j)) with (y * (10001 / 10000) * (10001 / 10000) ^ j) by ring.
  apply Rmult_lt_compat_r; assumption.
Qed.

Lemma hist_bound s k hist : ghost s k hist -> fin E s = false -> 3 * m <= total (contents E (hp E s) (cur E s)) ->
  (length hist - 1 <= (n - 1) * K)%nat.
Proof.
  intros Hgh Hf Ht. destruct (Nat.le_gt_cases (length hist - 1) ((n - 1) * K)) as [Hle|Hgt]; [exact Hle|exfalso].
  pose proof Hgh as (Hl & H0 & _ & Hdec & Hlast & Hg & _).
  destruct (Nat.eq_dec n 1) as [->|Hn1].
  - pose proof (fun y => Hg Hf (length hist - 1)%nat _ y ltac:(lia) Hlast) as Hg1. cbn in Hg1.
    rewrite Nat.add_0_r in Hg1. specialize (Hg1 _ Hlast). lra.
  - assert (Hlt : ((n - 1) * K < length hist)%nat) by lia.
    destruct (lookup_lt_is_Some_2 _ _ Hlt) as [x Hx].
    pose proof (hist_power s k hist Hgh Hf ltac:(lia) K HK1 x Hx) as Hp.
    pose proof (Hdec _ _ Hx) as Hd. pose proof (pow_lt (10001 / 10000) K ltac:(lra)) as Hpw.
    assert (3 * m * (10001 / 10000) ^ K <= x * (10001 / 10000) ^ K) by (apply Rmult_le_compat_r; lra).
    lra.
Qed.

Lemma ghost_kept s s' k hist : ghost s k hist -> kept s s' -> fin E s = false -> (perr E s <> 0)%Z -> ghost s' (S k) hist.
Proof.
  intros (Hl & H0 & Hlens & Hdec & Hlast & Hg & Hp & Hk) (Ec & El & Ef & Ep & _ & Eh) Hf Hp0.
  assert (Ecn : contents E (hp E s') (cur E s') = contents E (hp E s) (cur E s))
    by (unfold contents; rewrite Ec, Eh; reflexivity).
  unfold ghost. rewrite Ecn, El, Ef, Ep, pdec_pos by lia. split_and!; auto; lia.
Qed.

Lemma ghost_shortened s s' k hist : oinv s -> ghost s k hist -> shortened (elen := elen) n s s' -> fin E s = false -> (perr E s <> 0)%Z ->
  ghost s' (S k) (hist ++ [total (contents E (hp E s') (cur E s'))]).
Proof.
  intros Hinv (Hl & H0 & Hlens & Hdec & Hlast & Hg & Hp & Hk) (old & new & l0 & Eo & Hno & El & Ep & _ & El0 & Ef & Et) Hf Hp0.
  destruct Hinv as (p & Hcur & _ & _ & Hlst & _).
  assert (Hold : old = total (contents E (hp E s) (cur E s))).
  { rewrite Hlst in Eo. injection Eo as <-. unfold contents. rewrite Hcur. reflexivity. }
  assert (Hpos : 0 < depsilon) by (unfold depsilon; apply Rinv_0_lt_compat, pow_lt; lra).
  rewrite Et. set (j := length hist) in *.
  set (X := (replicate (n - 1) None ++ map Some hist)%list) in *.
  assert (HX : length X = (n - 1 + j)%nat) by (unfold X; rewrite app_length, replicate_length, map_length; reflexivity).
  assert (Elens : lens E s' = drop j (X ++ [Some new])).
  { rewrite El, Hlens, tail_drop_S. replace (S (j - 1)) with j by lia.
    rewrite drop_app_le by lia. reflexivity. }
  unfold ghost. rewrite app_length. cbn [length].
  replace (length hist + 1 - 1)%nat with j by (unfold j; lia).
  split; [lia|]. split; [rewrite lookup_app_l by (fold j; lia); exact H0|].
  split; [rewrite Elens, map_app; unfold X; rewrite <- app_assoc; reflexivity|].
  split.
  { intros i x Hx. rewrite Et. apply lookup_app_Some in Hx. destruct Hx as [Hx|[_ Hx]].
    - specialize (Hdec _ _ Hx). lra.
    - apply list_lookup_singleton_Some in Hx. destruct Hx as [_ <-]. lra. }
  split; [rewrite Et, lookup_app_r by (fold j; lia); fold j; rewrite Nat.sub_diag; reflexivity|].
  split.
  { intros Hf' i x y Hi Hx Hy. apply lookup_app_Some in Hy. destruct Hy as [Hy|[Hi2 Hy]].
    - apply lookup_lt_Some in Hy as Hy2. rewrite lookup_app_l in Hx by lia. eapply Hg; eassumption.
    - apply list_lookup_singleton_Some in Hy. destruct Hy as [Hi3 <-]. fold j in Hi2, Hi3.
      assert (El0' : l0 = Some x).
      { rewrite Elens, lookup_drop, Nat.add_0_r in El0.
        assert (Hfull : (X ++ [Some new])%list !! j = Some (Some x)).
        { replace (X ++ [Some new])%list with (replicate (n - 1) None ++ map Some (hist ++ [new]))%list
            by (rewrite map_app; unfold X; rewrite app_assoc; reflexivity).
          rewrite lookup_app_r by (rewrite replicate_length; lia). rewrite replicate_length.
          replace (j - (n - 1))%nat with i by lia. rewrite list_lookup_fmap, Hx. reflexivity. }
        congruence. }
      subst l0. cbn in Ef. rewrite Hf' in Ef. symmetry in Ef. rewrite Rleb_false in Ef. lra. }
  split; [lia|]. rewrite Ep. nia.
Qed.

Lemma rounds_bound fuel : forall s rs k hist, oinv s -> ghost s k hist ->
  (k <= n * ((n - 1) * K + 1))%nat ->
  (fst (rounds fuel n m q0 q3 s rs k) <= n * ((n - 1) * K + 1))%nat.
Proof.
  induction fuel as [|fuel IH]; intros s rs k hist Hs Hg Hk; cbn [OptModel.rounds];
    (destruct (fin E s || (perr E s =? 0)%Z) eqn:Ef; [exact Hk|]).
  - exact Hk.
  - apply orb_false_iff in Ef. destruct Ef as [Ef Ep]. apply Z.eqb_neq in Ep.
    destruct (sample _ _ _) as [[[t1 t2] rs']|] eqn:Es; [|exact Hk].
    apply sample_spec in Es. rewrite pvlen_total in Es.
    pose proof (hist_bound s k hist Hg Ef ltac:(lra)) as Hb.
    assert (HSk : (S k <= n * ((n - 1) * K + 1))%nat).
    { destruct Hg as (_ & _ & _ & _ & _ & _ & Hp & Hkk). nia. }
    destruct (round n q0 q3 t1 t2 s) as [s2| |] eqn:Er; cbn [fst]; try exact HSk.
    destruct (round_ok Hfaith Hext Hproj n path q0 q3 s t1 t2 s2 Hs Hn ltac:(lra) ltac:(lra) Er) as [Hs2 Hor].
    destruct Hor as [Hkept|Hsh].
    + eapply IH; [exact Hs2|eapply ghost_kept; eassumption|exact HSk].
    + eapply IH; [exact Hs2|apply (ghost_shortened s s2 k hist Hs Hg Hsh Ef Ep)|exact HSk].
Qed.
End Bound.

(** * Every element of every object is good *)
Section Good.
Context (good : E -> Prop).
Context (Hv : forall e, validate e = true -> good e).
Context (Hx : forall p a b p', Forall good p -> extract p a b = Some p' -> Forall good p').

Lemma appendTo_good h a es : Forall (Forall good) h -> Forall good es -> Forall (Forall good) (appendTo E h a es).
Proof.
  intros Hh Hes. unfold appendTo. apply Forall_alter; [exact Hh|].
  intros p Hp Hg. apply Forall_app. auto.
Qed.

Lemma contents_good h a : Forall (Forall good) h -> Forall good (contents E h a).
Proof.
  intros Hh. unfold contents. destruct (h !! a) as [p|] eqn:Ea; cbn; [|constructor].
  rewrite Forall_lookup in Hh. eauto.
Qed.

Lemma addPart_good c h r pe part : Forall (Forall good) h ->
  (forall s, fst part = Some s -> good s) -> Forall (Forall good) (fst (fst (addPart c (h, r, pe) part))).
Proof.
  intros Hh Hp. destruct part as [[s|] [t t']]; cbn.
  - apply appendTo_good; [exact Hh|]. constructor; [apply Hp; reflexivity|constructor].
  - destruct (extract _ _ _) as [p'|] eqn:Ee; cbn; [|exact Hh].
    apply appendTo_good; [exact Hh|]. eapply Hx; [|exact Ee]. apply contents_good, Hh.
Qed.

Lemma fold_good c parts : forall h r pe, Forall (Forall good) h ->
  Forall (fun part : option E * (R * R) => forall s, fst part = Some s -> good s) parts ->
  Forall (Forall good) (fst (fst (fold_left (addPart c) parts (h, r, pe)))).
Proof.
  induction parts as [|part parts IH]; intros h r pe Hh Hp; cbn [fold_left]; [exact Hh|].
  inversion Hp as [|? ? Hp1 Hp2]; subst.
  pose proof (addPart_good c h r pe part Hh Hp1) as H1.
  destruct (addPart c (h, r, pe) part) as [[h' r'] pe']. apply IH; assumption.
Qed.

Lemma testPart_good p q q' t t' v s : testPart p q q' t t' = Ok v -> v = Some s -> good s.
Proof.
  unfold OptModel.testPart. intros H ->. destruct (steer q q') as [e|]; [|discriminate].
  destruct (extract p t t') as [x|]; [|discriminate].
  destruct (Rltb _ _); [|discriminate]. destruct (validate e) eqn:Ee; [|discriminate].
  injection H as <-. auto.
Qed.

Lemma round_good n q0 q3 t1 t2 s s' : Forall (Forall good) (hp E s) -> round n q0 q3 t1 t2 s = Ok s' ->
  Forall (Forall good) (hp E s').
Proof.
  intros Hh Hr. unfold OptModel.round in Hr. cbv zeta in Hr.
  destruct (evalAt _ t1) as [q1|]; [|injection Hr as <-; exact Hh].
  destruct (evalAt _ t2) as [q2|]; [|injection Hr as <-; exact Hh].
  destruct (testPart _ q0 q1 _ _) as [v0| |] eqn:Ev0; try discriminate. cbn [ubind] in Hr.
  destruct (testPart _ q1 q2 _ _) as [v1| |] eqn:Ev1; try discriminate. cbn [ubind] in Hr.
  destruct (testPart _ q2 q3 _ _) as [v2| |] eqn:Ev2; try discriminate. cbn [ubind] in Hr.
  match type of Hr with context [fold_left ?f ?l ?i] => assert (Hf : Forall (Forall good) (fst (fst (fold_left f l i)))) end.
  { apply fold_good.
    - apply Forall_app. split; [exact Hh|]. constructor; [constructor|constructor].
    - constructor; [cbn; intros x Hs; exact (testPart_good _ _ _ _ _ _ _ Ev0 Hs)|].
      constructor; [cbn; intros x Hs; exact (testPart_good _ _ _ _ _ _ _ Ev1 Hs)|].
      constructor; [cbn; intros x Hs; exact (testPart_good _ _ _ _ _ _ _ Ev2 Hs)|]. constructor. }
  destruct (fold_left _ _ _) as [[h r] pe]. cbn in Hf.
  destruct (lens E s !! _) as [old|]; [|discriminate].
  destruct (inf_sub_le _ _ _); [injection Hr as <-; exact Hf|].
  destruct (_ !! 0%nat) as [l0|]; [|discriminate]. destruct (_ !! (n - 1)%nat) as [[l1|]|]; try discriminate.
  injection Hr as <-. exact Hf.
Qed.

Lemma rounds_good fuel n m q0 q3 : forall s rs k k' a h, Forall (Forall good) (hp E s) ->
  rounds fuel n m q0 q3 s rs k = (k', Some (Ok (a, h))) -> Forall (Forall good) h.
Proof.
  induction fuel as [|fuel IH]; intros s rs k k' a h Hs; cbn [OptModel.rounds];
    (destruct (fin E s || (perr E s =? 0)%Z); [intros [= _ Hr]; destruct (res E s); [|discriminate]; injection Hr as _ <-; exact Hs|]).
  - discriminate.
  - destruct (sample _ _ _) as [[[t1 t2] rs']|]; [|discriminate].
    destruct (round n q0 q3 t1 t2 s) as [s2| |] eqn:Er; try discriminate.
    intros H. eapply IH; [|exact H]. eapply round_good; eassumption.
Qed.

Lemma shortcut_good n path rs k a h r : Forall good path -> shortcut n path rs = (k, Some (Ok (a, h))) ->
  h !! a = Some r -> Forall good r.
Proof.
  intros Hp. unfold OptModel.shortcut. destruct path as [|e0 path']; [discriminate|].
  destruct (last (e0 :: path')) as [e1|]; [|discriminate]. destruct (Nat.eqb n 0); [discriminate|].
  intros H Hr. apply rounds_good in H; [|constructor; [exact Hp|constructor]].
  rewrite Forall_lookup in H. eauto.
Qed.
End Good.

Lemma joins_last e0 p q q3 e1 : joins (e0 :: p) q q3 -> last (e0 :: p) = Some e1 -> eend e1 = q3.
Proof.
  revert e0 q. induction p as [|e p IH]; intros e0 q.
  - cbn. intros [_ H] [= <-]. exact H.
  - intros [_ H] Hl. eapply IH; [exact H|]. exact Hl.
Qed.

Lemma shortcut_start n path rs q0 q3 : joins path q0 q3 -> 0 < total path -> (0 < n)%nat ->
  shortcut n path rs = rounds (length rs) n (Rmin 1 (total path * (1 / 5))) q0 q3
    (mkOst E [path] 0 None (Z.of_nat n) (replicate (n - 1) None ++ [Some (total path)])%list false) rs 0 /\
  @oinv E einit eend elen n path q0 q3
    (mkOst E [path] 0 None (Z.of_nat n) (replicate (n - 1) None ++ [Some (total path)])%list false) /\
  0 < Rmin 1 (total path * (1 / 5)).
Proof.
  intros Hj Ht Hn. split_and!.
  - unfold OptModel.shortcut. destruct path as [|e0 path']; [cbn in Ht; lra|].
    destruct (last (e0 :: path')) as [e1|] eqn:El.
    + destruct (Nat.eqb_spec n 0); [lia|]. rewrite pvlen_total.
      rewrite (joins_last _ _ _ _ _ Hj El). destruct Hj as [-> _]. reflexivity.
    + apply last_None in El. discriminate.
  - exists path. cbn. split_and!; auto.
    + rewrite lookup_app_r by (rewrite replicate_length; lia). rewrite replicate_length, Nat.sub_diag. reflexivity.
    + rewrite app_length, replicate_length. cbn. lia.
  - apply Rmin_glb_lt; lra.
Qed.

Lemma shortcut_result n path rs q0 q3 k a h :
  faithful_extraction einit eend elen evalAt extract -> extraction_succeeds elen extract ->
  projector_keeps_ends einit eend projector -> joins path q0 q3 -> 0 < total path ->
  shortcut n path rs = (k, Some (Ok (a, h))) ->
  exists r, h !! a = Some r /\ joins r q0 q3 /\ h !! 0%nat = Some path /\
    (a = 0%nat \/ total r < total path - 10 / 2 ^ 52).
Proof.
  intros Hf He Hp Hj Ht H.
  destruct (Nat.eq_dec n 0) as [->|Hn].
  { exfalso. revert H. unfold OptModel.shortcut. destruct path as [|e0 path']; [discriminate|].
    destruct (last (e0 :: path')); discriminate. }
  destruct (shortcut_start n path rs q0 q3 Hj Ht ltac:(lia)) as (Es & Hinv & Hm). rewrite Es in H.
  apply (rounds_inv Hf He Hp n path) in H; [|exact Hm|lia|exact Hinv].
  destruct H as (s' & (p & H1 & H2 & H3 & _ & _ & H4 & _) & [= -> ->]).
  exists p. split_and!; [exact H1|exact H3|exact H2|].
  destruct H4 as [H4|H4]; [left; exact H4|right]. unfold depsilon in H4. unfold Rdiv. exact H4.
Qed.

Lemma shortcut_bounded n path rs q0 q3 K :
  faithful_extraction einit eend elen evalAt extract -> extraction_succeeds elen extract ->
  projector_keeps_ends einit eend projector -> joins path q0 q3 -> 0 < total path ->
  (Z.of_nat n < 2 ^ 64)%Z -> (1 <= K)%nat -> total path <= 3 * Rmin 1 (total path / 5) * (10001 / 10000) ^ K ->
  (fst (shortcut n path rs) <= n * ((n - 1) * K + 1))%nat.
Proof.
  intros Hf He Hp Hj Ht Hn64 HK1 HK.
  destruct (Nat.eq_dec n 0) as [->|Hn].
  { unfold OptModel.shortcut. destruct path as [|e0 path']; [cbn; lia|].
    destruct (last (e0 :: path')); cbn; lia. }
  destruct (shortcut_start n path rs q0 q3 Hj Ht ltac:(lia)) as (Es & Hinv & Hm). rewrite Es.
  eapply (rounds_bound Hf He Hp n path q0 q3 _ Hm ltac:(lia) Hn64 K) with (hist := [total path]);
    [|exact HK1|exact Hinv| |lia].
  - replace (total path * (1 / 5)) with (total path / 5) by lra. exact HK.
  - unfold ghost. cbn. split; [lia|]. split; [reflexivity|]. split; [reflexivity|].
    split; [intros i x Hx; apply list_lookup_singleton_Some in Hx; destruct Hx as [_ <-]; unfold contents; cbn; lra|].
    split; [reflexivity|].
    split; [intros _ i x y Hi Hx Hy; apply list_lookup_singleton_Some in Hx, Hy; lia|]. lia.
Qed.

(** a factor that is large enough *)
Lemma pow_large (a b : R) : 0 < b -> exists K, (1 <= K)%nat /\ a <= b * (10001 / 10000) ^ K.
Proof.
  intros Hb. destruct (archimed (10000 * a / b)) as [Hz _].
  set (z := up (10000 * a / b)) in *. exists (Z.to_nat (Z.max 1 z)). split; [lia|].
  pose proof (poly (Z.to_nat (Z.max 1 z)) (1 / 10000) ltac:(lra)) as Hp.
  replace (1 + 1 / 10000) with (10001 / 10000) in Hp by lra.
  rewrite INR_IZR_INZ, Z2Nat.id in Hp by lia.
  assert (Hmz : IZR z <= IZR (Z.max 1 z)) by (apply IZR_le; lia).
  assert (Hab : a / b <= (10001 / 10000) ^ Z.to_nat (Z.max 1 z)).
  { apply Rle_trans with (IZR (Z.max 1 z) * (1 / 10000)); [|lra].
    unfold Rdiv in Hz. rewrite Rmult_assoc in Hz. fold (a / b) in Hz. lra. }
  apply (Rmult_le_compat_r b) in Hab; [|lra].
  replace (a / b * b) with a in Hab by (field; lra). lra.
Qed.

Lemma shortcut_bounded_all n path q0 q3 :
  faithful_extraction einit eend elen evalAt extract -> extraction_succeeds elen extract ->
  projector_keeps_ends einit eend projector -> joins path q0 q3 -> 0 < total path -> (Z.of_nat n < 2 ^ 64)%Z ->
  exists N, forall rs, (fst (shortcut n path rs) <= N)%nat.
Proof.
  intros Hf He Hp Hj Ht Hn.
  destruct (pow_large (total path) (3 * Rmin 1 (total path / 5))) as (K & HK1 & HK).
  { pose proof (Rmin_glb_lt 1 (total path / 5) 0 ltac:(lra) ltac:(lra)). lra. }
  exists (n * ((n - 1) * K + 1))%nat. intros rs. eapply shortcut_bounded; eauto.
Qed.

(** * No error when no configuration and no extraction fails *)

Definition noerr (o : option (outcome (nat * list (list E)))) : Prop := o <> Some Throw /\ o <> Some Ub.

Lemma testPart_noerr p q q' t t' : extraction_succeeds elen extract -> 0 <= t < t' -> t' <= total p ->
  exists v, testPart p q q' t t' = Ok v.
Proof.
  intros He Ht Ht'. unfold OptModel.testPart. destruct (steer q q') as [s|]; [|eauto].
  destruct (extract p t t') eqn:Ex; [|exfalso; revert Ex; apply He; assumption].
  destruct (Rltb _ _); [destruct (validate s)|]; eauto.
Qed.

Lemma round_noerr n path q0 q3 s t1 t2 : extraction_succeeds elen extract -> evaluation_succeeds elen evalAt ->
  (0 < n)%nat -> @oinv E einit eend elen n path q0 q3 s -> 0 < t1 < t2 -> t2 < total (contents E (hp E s) (cur E s)) ->
  exists s', round n q0 q3 t1 t2 s = Ok s' /\ res E s' <> None.
Proof.
  intros He Hev Hn (p & Hcur & H0 & Hj & Hlast & Hlen & Hshort & Hres) Ht1 Ht2.
  assert (Hc : contents E (hp E s) (cur E s) = p) by (unfold contents; rewrite Hcur; reflexivity).
  rewrite Hc in Ht2. unfold OptModel.round. cbv zeta. rewrite Hc, pvlen_total.
  destruct (evalAt p t1) as [q1|] eqn:Eq1; [|exfalso; revert Eq1; apply Hev; lra].
  destruct (evalAt p t2) as [q2|] eqn:Eq2; [|exfalso; revert Eq2; apply Hev; lra].
  destruct (testPart_noerr p q0 q1 0 t1 He ltac:(lra) ltac:(lra)) as [v0 ->]. cbn [ubind].
  destruct (testPart_noerr p q1 q2 t1 t2 He ltac:(lra) ltac:(lra)) as [v1 ->]. cbn [ubind].
  destruct (testPart_noerr p q2 q3 t2 (total p) He ltac:(lra) ltac:(lra)) as [v2 ->]. cbn [ubind].
  destruct (fold_left _ _ _) as [[h r] pe]. rewrite Hlast.
  destruct (inf_sub_le _ _ _); [eexists; split; [reflexivity|discriminate]|].
  assert (Htl : length (tail (lens E s)) = (n - 1)%nat) by (destruct (lens E s); cbn in *; lia).
  assert (El1 : forall x, (tail (lens E s) ++ [Some x])%list !! (n - 1)%nat = Some (Some x))
    by (intros x; rewrite lookup_app_r by lia; rewrite Htl, Nat.sub_diag; reflexivity).
  rewrite El1.
  match goal with |- context [match ?l !! 0%nat with _ => _ end] => destruct (l !! 0%nat) as [l0|] eqn:El0 end.
  - eexists. split; [reflexivity|discriminate].
  - apply lookup_ge_None in El0. rewrite app_length in El0. cbn in El0. lia.
Qed.

Lemma rounds_noerr n path q0 q3 m fuel :
  faithful_extraction einit eend elen evalAt extract -> extraction_succeeds elen extract ->
  projector_keeps_ends einit eend projector -> evaluation_succeeds elen evalAt -> (0 < n)%nat -> 0 < m ->
  forall s rs k, @oinv E einit eend elen n path q0 q3 s -> (res E s <> None \/ (fin E s = false /\ perr E s = Z.of_nat n)) ->
  noerr (snd (rounds fuel n m q0 q3 s rs k)).
Proof.
  intros Hf He Hp Hev Hn Hm. induction fuel as [|fuel IH]; intros s rs k Hs Hres; cbn [OptModel.rounds];
    (destruct (fin E s || (perr E s =? 0)%Z) eqn:Ef; [cbn; destruct (res E s); [split; discriminate|];
      destruct Hres as [Hres|[Hf1 Hf2]]; [congruence|]; rewrite Hf1 in Ef; cbn in Ef; apply Z.eqb_eq in Ef; lia|]).
  - split; discriminate.
  - destruct (sample _ _ _) as [[[t1 t2] rs']|] eqn:Es; [|split; discriminate].
    apply sample_spec in Es. rewrite pvlen_total in Es.
    destruct (round_noerr n path q0 q3 s t1 t2 He Hev Hn Hs ltac:(lra) ltac:(lra)) as (s' & Er & Hr').
    rewrite Er. apply IH; [|left; exact Hr'].
    eapply (round_ok Hf He Hp n path q0 q3 s t1 t2 s'); try eassumption; lra.
Qed.

Lemma shortcut_noerr n path rs q0 q3 :
  faithful_extraction einit eend elen evalAt extract -> extraction_succeeds elen extract ->
  projector_keeps_ends einit eend projector -> evaluation_succeeds elen evalAt ->
  joins path q0 q3 -> 0 < total path -> (0 < n)%nat ->
  snd (shortcut n path rs) <> Some Throw /\ snd (shortcut n path rs) <> Some Ub.
Proof.
  intros Hf He Hp Hev Hj Ht Hn.
  destruct (shortcut_start n path rs q0 q3 Hj Ht Hn) as (Es & Hinv & Hm). rewrite Es.
  eapply (rounds_noerr n path q0 q3); eauto.
Qed.
End T.

(** * OrientedPathOptimizer *)
Section O.
Context {P : Type} (kino : P -> bool) (orient : P -> option P) (withEnd withInit : P -> P -> option P) (valid : P -> bool).
Local Notation checkReplace := (checkReplace P withEnd withInit valid).
Local Notation replaceLoop := (replaceLoop P withEnd withInit valid).

Lemma check_ok (path : list P) fuel : forall i rv ov,
  length rv = length path -> (i < length path)%nat -> (length path - i < fuel)%nat ->
  ov = map (fun o : option P => match o with Some o => valid o | None => false end) (map orient path) ->
  exists b, checkReplace fuel i (length path) rv ov (map orient path) (map Some path) = Ok b.
Proof.
  induction fuel as [|fuel IH]; intros i rv ov Hrv Hi Hf Hov; [lia|]. cbn [OptModel.checkReplace].
  assert (Hlook : forall j, (j < length path)%nat -> exists e, path !! j = Some e /\
    map Some path !! j = Some (Some e) /\ map orient path !! j = Some (orient e) /\
    ov !! j = Some (match orient e with Some o => valid o | None => false end)).
  { intros j Hj. destruct (lookup_lt_is_Some_2 _ _ Hj) as [e He]. exists e. subst ov.
    rewrite !list_lookup_fmap, He. auto. }
  destruct (Hlook i Hi) as (e & _ & Er & Eo & Ev). rewrite Ev, Eo.
  destruct (orient e) as [o|]; [|eauto]. destruct (valid o); [|eauto].
  assert (Hprev : exists pv, (if Nat.ltb 0 i then
          match ov !! (i - 1)%nat, rv !! (i - 1)%nat with
          | Some true, Some true => Ok true
          | Some _, Some _ =>
              match map Some path !! (i - 1)%nat with
              | Some (Some r) => Ok (match withEnd r o with Some p => valid p | None => false end)
              | _ => Ub
              end
          | _, _ => Ub
          end
        else Ok true) = Ok pv).
  { destruct (Nat.ltb_spec 0 i) as [Hi0|]; [|eauto].
    destruct (Hlook (i - 1)%nat ltac:(lia)) as (e' & _ & -> & _ & ->).
    destruct (lookup_lt_is_Some_2 rv (i - 1)%nat ltac:(lia)) as [b ->].
    destruct (match orient e' with Some o0 => valid o0 | None => false end), b; eauto. }
  destruct Hprev as [pv ->]. cbn [ubind]. destruct pv; cbn [negb]; [|eauto].
  destruct (Nat.ltb_spec i (length path - 1)) as [Hlt|]; [|eauto].
  destruct (Hlook (i + 1)%nat ltac:(lia)) as (e' & _ & -> & _ & ->).
  destruct (match orient e' with Some o0 => valid o0 | None => false end).
  - apply IH; auto; [rewrite insert_length; exact Hrv|lia|lia].
  - destruct (withInit e' o); [eauto|].
    destruct (lookup_lt_is_Some_2 rv i ltac:(lia)) as [b ->]. eauto.
Qed.

Lemma loop_ok (path : list P) ov : ov = map (fun o : option P => match o with Some o => valid o | None => false end) (map orient path) ->
  forall k i rv, length rv = length path -> (i + k = length path)%nat ->
  exists rv', replaceLoop k i (length path) rv ov (map orient path) (map Some path) = Ok rv'.
Proof.
  intros Hov. induction k as [|k IH]; intros i rv Hrv Hik; cbn [OptModel.replaceLoop]; [eauto|].
  destruct (lookup_lt_is_Some_2 rv i ltac:(lia)) as [b Hb]. rewrite Hb. destruct b.
  - apply IH; lia.
  - destruct (check_ok path (S (length path)) i rv ov Hrv ltac:(lia) ltac:(lia) Hov) as [b Hc].
    change (S (length path)) with (1 + length path)%nat in Hc. cbn [Nat.add] in Hc.
    rewrite Hc. cbn [ubind]. apply IH; [rewrite insert_length; exact Hrv|lia].
Qed.

Lemma oriented_same (path : list P) : Forall (fun e => kino e = true) path ->
  orientedOptimize P kino orient withEnd withInit valid path = Ok path.
Proof.
  intros Hk. unfold orientedOptimize.
  assert (E1 : map (fun e => if kino e then Some e else None) path = map Some path).
  { apply map_ext_in. intros e He. rewrite Forall_forall in Hk. rewrite Hk; [reflexivity|].
    apply elem_of_list_In. exact He. }
  assert (E2 : map (fun e => if kino e then orient e else None) path = map orient path).
  { apply map_ext_in. intros e He. rewrite Forall_forall in Hk. rewrite Hk; [reflexivity|].
    apply elem_of_list_In. exact He. }
  rewrite E1, E2.
  destruct (loop_ok path _ eq_refl (length path) 0 (replicate (length path) false)) as [rv Hl];
    [apply replicate_length|lia|]. rewrite Hl. cbn [ubind]. clear.
  induction path as [|e path IH]; cbn; [reflexivity|]. rewrite IH. reflexivity.
Qed.
End O.
