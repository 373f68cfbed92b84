(** Proofs of C162: the weights of the shooter with doubles. *)
From Coq Require Import Reals ZArith Lra Lia Psatz.
From Flocq Require Import Core Relative.
From Verif Require Import Maps Vec VecProofs GeomModel ShootModel ShootSpec StateModel.
From Verif Require Import FloatSpec FloatModel FloatProofs.
Local Open Scope R_scope.

Definition u : R := powerRZ 2 (-53).
Lemma nearest_plus' rnd x y : to_nearest rnd -> is_double x -> is_double y -> Rabs (rnd (x + y) - (x + y)) <= u * Rabs (x + y).
Proof. intros Hr. apply nearest_plus, Hr. Qed.
Lemma u_small : 0 < u <= / 1024.
Proof.
  unfold u. split; [apply powerRZ_lt; lra|]. change (/ 2 ^ 53 <= / 1024). apply Rinv_le_contravar; [lra|]. replace 1024 with (2 ^ 10) by ring. apply Rle_pow; [lra|lia].
Qed.
Lemma zero_double : is_double 0.
Proof. exists 0%Z, 0%Z. split; [ring|]. split; reflexivity || discriminate. Qed.
(** any number: underflow included *)
Lemma nearest_any rnd x : to_nearest rnd -> Rabs (rnd x - x) <= u * Rabs x + u.
Proof.
  intros Hr. eapply Rle_trans; [apply (proj2 (Hr _)), (proj1 (nearestEven_ok x))|]. unfold nearestEven.
  destruct (Relative.error_N_FLT Zaux.radix2 (-1074) 53 ltac:(reflexivity) (fun n => negb (Z.even n)) x) as (eps & eta & H1 & H2 & _ & ->).
  replace (x * (1 + eps) + eta - x) with (x * eps + eta) by ring. eapply Rle_trans; [apply Rabs_triang|]. rewrite Rabs_mult.
  assert (E1 : / 2 * Raux.bpow Zaux.radix2 (- (53) + 1) = u).
  { unfold u. rewrite Raux.bpow_powerRZ. change (IZR Zaux.radix2) with 2. change (-(53) + 1)%Z with (-53 + 1)%Z. rewrite powerRZ_add by lra. rewrite powerRZ_1. lra. }
  assert (E2 : / 2 * Raux.bpow Zaux.radix2 (-1074) <= u).
  { assert (Raux.bpow Zaux.radix2 (-1074) <= Raux.bpow Zaux.radix2 (-53)) by (apply Raux.bpow_le; lia).
    pose proof (Raux.bpow_gt_0 Zaux.radix2 (-1074)). rewrite (Raux.bpow_powerRZ _ (-53)) in H. change (IZR Zaux.radix2) with 2 in H. fold u in H. lra. }
  rewrite E1 in H1. pose proof (Rabs_pos x). pose proof (Rmult_le_compat_l _ _ _ H H1). lra.
Qed.
Lemma pow_upper n : INR n * u <= / 16 -> (1 + u) ^ n <= 1 + 2 * (INR n * u).
Proof.
  pose proof u_small. induction n as [|n IH]; intros Hn; [cbn; lra|]. rewrite S_INR in *. rewrite <- tech_pow_Rmult.
  assert (0 <= INR n * u) by (apply Rmult_le_pos; [apply pos_INR|lra]).
  specialize (IH ltac:(lra)). assert ((1 + u) * (1 + u) ^ n <= (1 + u) * (1 + 2 * (INR n * u))) by (apply Rmult_le_compat_l; lra).
  assert (u * (INR n * u) <= u * / 16) by (apply Rmult_le_compat_l; lra). lra.
Qed.
Lemma pow_lower n : 1 - INR n * u <= (1 - u) ^ n.
Proof.
  pose proof u_small. induction n as [|n IH]; [cbn; lra|]. rewrite S_INR. rewrite <- tech_pow_Rmult.
  assert (0 <= INR n * u) by (apply Rmult_le_pos; [apply pos_INR|lra]).
  assert ((1 - u) * (1 - INR n * u) <= (1 - u) * (1 - u) ^ n) by (apply Rmult_le_compat_l; lra).
  assert (0 <= u * (INR n * u)) by (apply Rmult_le_pos; lra). lra.
Qed.
Lemma sum_first_nonneg i l : Forall (fun a => 0 <= a) l -> 0 <= sum_first i l.
Proof. revert i. induction l as [|a l IH]; intros [|i] H; cbn; try lra. inversion H; subst. specialize (IH i H3). lra. Qed.
Lemma sum_first_le i l : Forall (fun a => 0 <= a) l -> sum_first i l <= ShootSpec.total l.
Proof.
  revert i. unfold ShootSpec.total. induction l as [|a l IH]; intros [|i] H; cbn; try lra.
  - inversion H; subst. pose proof (sum_first_nonneg (length l) l H3). lra.
  - inversion H; subst. specialize (IH i H3). lra.
Qed.

Section weights.
Context (rnd : R -> R) (Hr : to_nearest rnd).
Lemma sum_error l : forall s S k, Forall (fun a => 0 <= a /\ is_double a) l -> is_double s -> 0 <= S -> (1 - u) ^ k * S <= s <= (1 + u) ^ k * S ->
  is_double (fold_left (fun s a => rnd (s + a)) l s) /\
  (1 - u) ^ (k + length l) * (S + ShootSpec.total l) <= fold_left (fun s a => rnd (s + a)) l s <= (1 + u) ^ (k + length l) * (S + ShootSpec.total l).
Proof.
  pose proof u_small as Hu. unfold ShootSpec.total. induction l as [|a l IH]; intros s S k Hl Hs HS Hb; cbn [fold_left length sum_first].
  - rewrite Nat.add_0_r, Rplus_0_r. split; assumption.
  - inversion Hl as [|? ? [Ha Hda] Hl']; subst. rewrite <- Nat.add_succ_comm.
    replace (S + (a + sum_first (length l) l)) with ((S + a) + sum_first (length l) l) by ring.
    pose proof (nearest_plus' rnd s a Hr Hs Hda) as He.
    assert (Hp1 : 0 <= (1 - u) ^ k <= 1). { split; [apply pow_le; lra|]. apply Rle_trans with (1 ^ k); [apply pow_incr; lra|rewrite pow1; lra]. }
    assert (Hp2 : 1 <= (1 + u) ^ k) by (apply pow_R1_Rle; lra).
    assert (Hs0 : 0 <= s). { apply Rle_trans with ((1 - u) ^ k * S); [apply Rmult_le_pos; lra|apply Hb]. }
    assert (Ha1 : (1 - u) ^ k * a <= a) by (rewrite <- (Rmult_1_l a) at 2; apply Rmult_le_compat_r; lra).
    assert (Ha2 : a <= (1 + u) ^ k * a) by (rewrite <- (Rmult_1_l a) at 1; apply Rmult_le_compat_r; lra).
    rewrite (Rabs_right (s + a)) in He by lra.
    assert (Hlow : (1 - u) * (s + a) <= rnd (s + a)) by (revert He; unfold Rabs; destruct (Rcase_abs _); lra).
    assert (Hup : rnd (s + a) <= (1 + u) * (s + a)) by (revert He; unfold Rabs; destruct (Rcase_abs _); lra).
    apply IH; [exact Hl'|apply nearest_double, Hr|lra|]. rewrite <- !tech_pow_Rmult. split.
    + apply Rle_trans with ((1 - u) * (s + a)); [|exact Hlow]. rewrite Rmult_assoc. apply Rmult_le_compat_l; lra.
    + apply Rle_trans with ((1 + u) * (s + a)); [exact Hup|]. rewrite Rmult_assoc. apply Rmult_le_compat_l; lra.
Qed.
Context (areas : list R) (Ha : Forall (fun a => 0 <= a /\ is_double a) areas) (Hn : INR (length areas) * u <= / 16) (HT : 0 < ShootSpec.total areas).
Let e := INR (length areas) * u.
Let T := ShootSpec.total areas. Let T' := sumR rnd areas.
Lemma Ha0 : Forall (fun a => 0 <= a) areas.
Proof. eapply Forall_impl; [exact Ha|]. intros a [H _]. exact H. Qed.
Lemma e_pos : 0 <= e.
Proof. apply Rmult_le_pos; [apply pos_INR|]. pose proof u_small. lra. Qed.
Lemma sum_bounds : (1 - e) * T <= T' <= (1 + 2 * e) * T /\ 0 < T'.
Proof.
  destruct (sum_error areas 0 0 0 Ha zero_double ltac:(lra) ltac:(cbn; lra)) as [_ [H1 H2]]. rewrite Rplus_0_l in H1, H2. cbn [Nat.add] in H1, H2.
  fold T in H1, H2. change (fold_left _ areas 0) with T' in H1, H2. pose proof e_pos.
  pose proof (pow_upper _ Hn) as Hu. pose proof (pow_lower (length areas)) as Hl. fold e in Hu, Hl, Hn.
  assert ((1 - e) * T <= (1 - u) ^ length areas * T) by (apply Rmult_le_compat_r; [unfold T; lra|exact Hl]).
  assert ((1 + u) ^ length areas * T <= (1 + 2 * e) * T) by (apply Rmult_le_compat_r; [unfold T; lra|exact Hu]).
  split; [lra|]. assert (0 < (1 - e) * T) by (apply Rmult_lt_0_compat; [lra|exact HT]). lra.
Qed.
Lemma ratio_bounds : Rabs (T / T' - 1) <= 2 * e /\ T / T' <= 9 / 8.
Proof.
  destruct sum_bounds as [[H1 H2] H3]. pose proof e_pos. assert (HT0 : 0 < T) by exact HT. unfold e in Hn; fold e in Hn.
  assert (Hq : T / T' * T' = T) by (field; lra). set (q := T / T') in *.
  assert (Hq0 : 0 < q). { unfold q. apply Rdiv_lt_0_compat; lra. }
  assert (Hlow : q * (1 - e) <= 1).
  { apply Rmult_le_reg_r with T; [exact HT0|]. assert (q * ((1 - e) * T) <= q * T') by (apply Rmult_le_compat_l; lra). lra. }
  assert (Hup : 1 <= q * (1 + 2 * e)).
  { apply Rmult_le_reg_r with T; [exact HT0|]. assert (q * T' <= q * ((1 + 2 * e) * T)) by (apply Rmult_le_compat_l; lra). lra. }
  assert (Hq1 : q <= 1 + 2 * e).
  { apply Rmult_le_reg_r with (1 - e); [lra|]. assert (0 <= e * (1 - 2 * e)) by (apply Rmult_le_pos; lra). lra. }
  assert (Hq2 : 1 - 2 * e <= q).
  { apply Rmult_le_reg_r with (1 + 2 * e); [lra|]. assert (0 <= e * e) by (apply Rmult_le_pos; lra). lra. }
  split; [|lra]. unfold Rabs. destruct (Rcase_abs _); lra.
Qed.
Lemma cumulate_error l : forall p S k, Forall (fun a => 0 <= a) l -> is_double p -> 0 <= p -> 0 <= S -> S + ShootSpec.total l <= T -> (k + length l <= length areas)%nat ->
  Rabs (p - S / T') <= 6 * (INR k * u) ->
  forall i w, cumulateR rnd p T' l !! i = Some w -> is_double w /\ p <= w /\ Rabs (w - (S + sum_first (i + 1) l) / T') <= 6 * (INR (k + i + 1) * u).
Proof.
  pose proof u_small as Hu. destruct sum_bounds as [_ HT'p]. destruct ratio_bounds as [_ Hratio]. pose proof e_pos as He0.
  unfold ShootSpec.total. induction l as [|a l IH]; intros p S k Hl Hp Hp0 HS Htot Hk Hd i w Hi; [discriminate|].
  inversion Hl as [|? ? Haa Hl']; subst. cbn [cumulateR] in Hi. cbn [length sum_first] in Htot, Hk.
  pose proof (sum_first_nonneg (length l) l Hl') as Hrest.
  set (q := rnd (a / T')) in *. set (c := rnd (p + q)) in *.
  assert (Hdiv : forall x, 0 <= x <= T -> 0 <= x / T' <= 9 / 8).
  { intros x Hx. split; [apply Rmult_le_pos; [lra|apply Rlt_le, Rinv_0_lt_compat, HT'p]|].
    apply Rle_trans with (T / T'); [|exact Hratio]. apply Rmult_le_compat_r; [apply Rlt_le, Rinv_0_lt_compat, HT'p|lra]. }
  assert (Hax : 0 <= a / T' <= 9 / 8) by (apply Hdiv; lra). assert (HSx : 0 <= S / T' <= 9 / 8) by (apply Hdiv; lra).
  assert (Hq0 : 0 <= q). { unfold q. rewrite <- (nearest_fix rnd Hr 0 zero_double). apply nearest_mono; [exact Hr|lra]. }
  pose proof (nearest_any rnd (a / T') Hr) as Hq. fold q in Hq. rewrite (Rabs_right (a / T')) in Hq by lra.
  assert (Hqe : Rabs (q - a / T') <= 9 / 8 * u + u). { assert (u * (a / T') <= u * (9 / 8)) by (apply Rmult_le_compat_l; lra). lra. }
  assert (Hke : 6 * (INR k * u) <= 6 * / 16).
  { apply Rmult_le_compat_l; [lra|]. apply Rle_trans with e; [|exact Hn]. apply Rmult_le_compat_r; [lra|]. apply le_INR. lia. }
  assert (Hp2 : p <= 9 / 8 + 6 / 16). { revert Hd. unfold Rabs. destruct (Rcase_abs _); lra. }
  assert (Hq2 : q <= 5 / 4). { revert Hqe. unfold Rabs. destruct (Rcase_abs _); lra. }
  pose proof (nearest_plus' rnd p q Hr Hp (nearest_double rnd Hr _)) as Hc. fold c in Hc. rewrite (Rabs_right (p + q)) in Hc by lra.
  assert (Hce : Rabs (c - (p + q)) <= 3 * u). { assert (u * (p + q) <= u * 3) by (apply Rmult_le_compat_l; lra). lra. }
  assert (Hcd : is_double c) by apply nearest_double, Hr.
  assert (Hpc : p <= c). { unfold c. rewrite <- (nearest_fix rnd Hr p Hp) at 1. apply nearest_mono; [exact Hr|lra]. }
  assert (Hd' : Rabs (c - (S + a) / T') <= 6 * (INR (k + 1) * u)).
  { replace (c - (S + a) / T') with ((c - (p + q)) + ((q - a / T') + (p - S / T'))) by (field; lra).
    eapply Rle_trans; [apply Rabs_triang|]. pose proof (Rabs_triang (q - a / T') (p - S / T')). rewrite plus_INR. cbn [INR]. lra. }
  destruct i as [|i].
  - cbn in Hi. injection Hi as <-. split; [exact Hcd|]. split; [exact Hpc|]. cbn [sum_first Nat.add]. replace (sum_first 0 l) with 0 by (destruct l; reflexivity).
    rewrite Nat.add_0_r, Rplus_0_r. exact Hd'.
  - cbn [lookup list_lookup] in Hi.
    destruct (IH c (S + a) (k + 1)%nat Hl' Hcd ltac:(lra) ltac:(lra) ltac:(lra) ltac:(lia) Hd' i w Hi) as (H1 & H2 & H3).
    split; [exact H1|]. split; [lra|]. cbn [Nat.add sum_first]. replace (S + (a + sum_first (i + 1) l)) with (S + a + sum_first (i + 1) l) by ring.
    replace (k + Datatypes.S i + 1)%nat with (k + 1 + i + 1)%nat by lia. exact H3.
Qed.
Lemma cumulate_length p s l : length (cumulateR rnd p s l) = length l.
Proof. revert p. induction l as [|a l IH]; intros p; [reflexivity|]. cbn. rewrite IH. reflexivity. Qed.
Lemma weights_rounded : exists ws, weightsR rnd areas = Some ws /\ length ws = length areas /\
  (forall i w, ws !! i = Some w -> Rabs (w - sum_first (S i) areas / ShootSpec.total areas) <= 8 * INR (length areas) * powerRZ 2 (-53)).
Proof.
  destruct sum_bounds as [_ HT'p]. exists (cumulateR rnd 0 T' areas). split.
  { unfold weightsR. fold T'. unfold Reqb. destruct (Req_EM_T T' 0); [lra|reflexivity]. }
  split; [apply cumulate_length|]. intros i w Hi.
  assert (Hil : (i < length areas)%nat). { apply lookup_lt_Some in Hi. rewrite cumulate_length in Hi. exact Hi. }
  destruct (cumulate_error areas 0 0 0 Ha0 zero_double ltac:(lra) ltac:(lra) ltac:(unfold T; lra) ltac:(lia)
    ltac:(cbn [INR]; replace (0 - 0 / T') with 0 by (field; lra); rewrite Rabs_R0; lra) i w Hi) as (_ & _ & H).
  rewrite Rplus_0_l in H. replace (i + 1)%nat with (S i) in H by lia. cbn [Nat.add] in H. replace (i + 1)%nat with (S i) in H by lia.
  pose proof u_small as Hu. fold T. change (powerRZ 2 (-53)) with u.
  destruct ratio_bounds as [Hrat _]. set (X := sum_first (S i) areas) in *.
  assert (HX : 0 <= X <= T). { split; [apply sum_first_nonneg, Ha0|apply sum_first_le, Ha0]. }
  assert (HXT : 0 <= X / T <= 1).
  { split; [apply Rmult_le_pos; [lra|apply Rlt_le, Rinv_0_lt_compat, HT]|]. apply Rmult_le_reg_r with T; [exact HT|]. unfold Rdiv. rewrite Rmult_assoc, Rinv_l by (unfold T; lra). lra. }
  assert (H6 : 6 * (INR (S i) * u) <= 6 * e). { apply Rmult_le_compat_l; [lra|]. apply Rmult_le_compat_r; [lra|]. apply le_INR. lia. }
  replace (w - X / T) with ((w - X / T') + (X / T) * (T / T' - 1)) by (field; unfold T; lra).
  eapply Rle_trans; [apply Rabs_triang|]. rewrite Rabs_mult, (Rabs_right (X / T)) by lra.
  assert (X / T * Rabs (T / T' - 1) <= 1 * (2 * e)). { apply Rmult_le_compat; [lra|apply Rabs_pos|lra|exact Hrat]. }
  unfold e in *. lra.
Qed.
End weights.
Lemma cumulate_mono rnd p s l : to_nearest rnd -> 0 < s -> Forall (fun a => 0 <= a) l -> is_double p -> forall i w, cumulateR rnd p s l !! i = Some w -> p <= w.
Proof.
  intros Hr Hs. revert p. induction l as [|a l IH]; intros p Hl Hp i w Hi; [discriminate|]. inversion Hl as [|? ? Haa Hl']; subst. cbn [cumulateR] in Hi.
  set (q := rnd (a / s)) in *. set (c := rnd (p + q)) in *.
  assert (Hq0 : 0 <= q). { unfold q. rewrite <- (nearest_fix rnd Hr 0 zero_double). apply nearest_mono; [exact Hr|]. apply Rmult_le_pos; [lra|apply Rlt_le, Rinv_0_lt_compat, Hs]. }
  assert (Hpc : p <= c). { unfold c. rewrite <- (nearest_fix rnd Hr p Hp) at 1. apply nearest_mono; [exact Hr|lra]. }
  destruct i as [|i]; [injection Hi as <-; exact Hpc|]. specialize (IH c Hl' (nearest_double rnd Hr _) i w Hi). lra.
Qed.
(** the weights never decrease, and stay the same for a triangle without area *)
Lemma cumulate_next rnd p s l : to_nearest rnd -> 0 < s -> Forall (fun a => 0 <= a) l -> is_double p ->
  forall i v w, cumulateR rnd p s l !! i = Some v -> cumulateR rnd p s l !! S i = Some w -> v <= w /\ (l !! S i = Some 0 -> v = w).
Proof.
  intros Hr Hs. revert p. induction l as [|a l IH]; intros p Hl Hp i v w Hv Hw; [discriminate|]. inversion Hl as [|? ? Haa Hl']; subst. cbn [cumulateR] in Hv, Hw.
  destruct i as [|i].
  - injection Hv as <-. split; [exact (cumulate_mono rnd _ s l Hr Hs Hl' (nearest_double rnd Hr _) 0 w Hw)|].
    destruct l as [|b l]; [discriminate|]. intros [= ->]. cbn in Hw. injection Hw as <-.
    replace (0 / s) with 0 by (field; lra). rewrite (nearest_fix rnd Hr 0 zero_double), Rplus_0_r.
    symmetry. apply nearest_fix, nearest_double; exact Hr.
  - exact (IH _ Hl' (nearest_double rnd Hr _) i v w Hv Hw).
Qed.
Lemma first_at_least r ws k : match firstAtLeast r ws k with
  | Some i => (k <= i)%nat /\ (exists w, ws !! (i - k)%nat = Some w /\ r <= w) /\ (forall j w, (j < i - k)%nat -> ws !! j = Some w -> w < r)
  | None => forall j w, ws !! j = Some w -> w < r
  end.
Proof.
  revert k. induction ws as [|w ws IH]; intros k; cbn [firstAtLeast]; [intros j w H; discriminate|].
  destruct (Rleb r w) eqn:E.
  - apply Rleb_true in E. split; [lia|]. rewrite Nat.sub_diag. split; [exists w; split; [reflexivity|exact E]|intros j w' Hj; lia].
  - assert (E' : w < r). { apply Rnot_le_lt. intros H. apply Rleb_true in H. congruence. }
    specialize (IH (S k)). destruct (firstAtLeast r ws (S k)) as [i|].
    + destruct IH as (H1 & (w' & H2 & H3) & H4). split; [lia|]. replace (i - k)%nat with (S (i - S k)) by lia. split; [exists w'; split; [exact H2|exact H3]|].
      intros [|j] w'' Hj Hw; [injection Hw as <-; exact E'|]. apply (H4 j w''); [lia|exact Hw].
    + intros [|j] w' Hw; [injection Hw as <-; exact E'|exact (IH j w' Hw)].
Qed.
Lemma index_rounded rnd areas r : to_nearest rnd -> Forall (fun a => 0 <= a /\ is_double a) areas -> INR (length areas) * powerRZ 2 (-53) <= / 16 ->
  0 < ShootSpec.total areas -> 0 <= r <= 1 -> let delta := 8 * INR (length areas) * powerRZ 2 (-53) in
  exists i, weightedIndexR rnd areas r = Ok i /\ (i < length areas)%nat /\
    r <= sum_first (S i) areas / ShootSpec.total areas + delta /\ (i = 0%nat \/ sum_first i areas / ShootSpec.total areas - delta < r) /\
    (areas !! i = Some 0 -> i = 0%nat \/ S i = length areas).
Proof.
  intros Hr Ha Hn HT Hr01 delta. destruct (weights_rounded rnd Hr areas Ha Hn HT) as (ws & Ew & Hl & Hw). fold delta in Hw.
  assert (Hlen : (0 < length areas)%nat). { destruct areas; [unfold ShootSpec.total in HT; cbn in HT; lra|cbn; lia]. }
  assert (Hdelta : 0 <= delta). { unfold delta. pose proof u_small. change (powerRZ 2 (-53)) with u. apply Rmult_le_pos; [|lra]. pose proof (pos_INR (length areas)). lra. }
  assert (Hex : forall j, (j < length areas)%nat -> exists w, ws !! j = Some w). { intros j Hj. rewrite <- Hl in Hj. apply lookup_lt_is_Some_2 in Hj as [w Hj]. eauto. }
  assert (Hnext : forall i v w, ws !! i = Some v -> ws !! S i = Some w -> v <= w /\ (areas !! S i = Some 0 -> v = w)).
  { pose proof (sum_bounds rnd Hr areas Ha Hn HT) as [_ HT']. unfold weightsR in Ew. destruct (Reqb _ _); [discriminate|]. injection Ew as <-.
    apply cumulate_next; [exact Hr|exact HT'|apply (Ha0 areas Ha)|apply zero_double]. }
  unfold weightedIndexR. rewrite Ew. pose proof (first_at_least r ws 0) as HF. destruct (firstAtLeast r ws 0) as [i|].
  - destruct HF as (_ & (w & H1 & H2) & H3). rewrite Nat.sub_0_r in *. exists i. split; [reflexivity|].
    assert (Hi : (i < length areas)%nat) by (apply lookup_lt_Some in H1; lia). split; [exact Hi|].
    pose proof (Hw i w H1) as Hwi. split; [revert Hwi; unfold Rabs; destruct (Rcase_abs _); lra|].
    destruct i as [|i]; [split; [left; reflexivity|intros _; left; reflexivity]|].
    destruct (Hex i ltac:(lia)) as [v Hv]. pose proof (H3 i v ltac:(lia) Hv) as Hvr. pose proof (Hw i v Hv) as Hwv.
    split; [right; revert Hwv; unfold Rabs; destruct (Rcase_abs _); lra|].
    intros H0. exfalso. destruct (Hnext i v w Hv H1) as [_ H]. specialize (H H0). lra.
  - destruct (length areas =? 0)%nat eqn:E0; [apply Nat.eqb_eq in E0; lia|]. exists (length areas - 1)%nat. split; [reflexivity|]. split; [lia|].
    replace (S (length areas - 1)) with (length areas) by lia.
    split; [unfold ShootSpec.total; unfold Rdiv; rewrite Rinv_r by (unfold ShootSpec.total in HT; lra); lra|].
    split; [|intros _; right; reflexivity].
    destruct (length areas - 1)%nat as [|m] eqn:Em; [left; reflexivity|right].
    destruct (Hex m ltac:(lia)) as [v Hv]. pose proof (HF m v Hv). pose proof (Hw m v Hv) as Hwv. revert Hwv. unfold Rabs. destruct (Rcase_abs _); lra.
Qed.

Lemma weights_rounded' rnd areas : to_nearest rnd -> Forall (fun a => 0 <= a /\ is_double a) areas -> INR (length areas) * powerRZ 2 (-53) <= / 16 ->
  0 < ShootSpec.total areas -> let delta := 8 * INR (length areas) * powerRZ 2 (-53) in
  exists ws, weightsR rnd areas = Some ws /\ length ws = length areas /\
  (forall i w, ws !! i = Some w -> Rabs (w - sum_first (S i) areas / ShootSpec.total areas) <= delta) /\
  (forall i v w, ws !! i = Some v -> ws !! S i = Some w -> v <= w).
Proof.
  intros Hr Ha Hn HT delta. destruct (weights_rounded rnd Hr areas Ha Hn HT) as (ws & Ew & Hl & Hw). exists ws. split; [exact Ew|]. split; [exact Hl|]. split; [exact Hw|].
  pose proof (sum_bounds rnd Hr areas Ha Hn HT) as [_ HT']. unfold weightsR in Ew. destruct (Reqb _ _); [discriminate|]. injection Ew as <-.
  intros i v w Hv Hw'. exact (proj1 (cumulate_next rnd 0 _ areas Hr HT' (Ha0 areas Ha) zero_double i v w Hv Hw')).
Qed.
