From Coq Require Import Reals ZArith Lra Lia.
From Verif Require Import SampModel VecProofs ProjProofs2.
From Verif Require Export NodeProofs.
Local Open Scope R_scope.

(** * The tangent vectors *)
Lemma vnorm2_cross n d : vnorm2 (vcross n d) = vnorm2 n * vnorm2 d - vdot n d * vdot n d.
Proof. destruct n, d. unfold vnorm2, vdot, vcross. cbn. ring. Qed.
Lemma vnorm2_pos_ne a : vnorm2 a <> 0 -> a <> vzero.
Proof. intros H ->. apply H. unfold vnorm2, vdot, vzero. cbn. ring. Qed.

Lemma tangent_ok tq n : vnorm2 n = 1 -> tangents tq n (tangent1 n tq) (vcross n (tangent1 n tq)).
Proof.
  intros Hn. split; [reflexivity|]. unfold tangent1. cbv zeta.
  set (hd := V3 (vx tq) (vy tq) 0). set (tp := vnormalize hd).
  assert (Hup : forall d, vnorm2 d = 1 -> vnorm2 (vcross n d) <= 1).
  { intros d Hd. rewrite vnorm2_cross, Hn, Hd. nra. }
  assert (Htp : forall d0 k, vnorm2 d0 = 1 -> 0 < k -> hd = vscale k d0 -> tp = d0).
  { intros d0 k Hd Hk E. unfold tp, vnormalize.
    assert (Hh : vnorm2 hd = k * k) by (rewrite E; replace (vnorm2 (vscale k d0)) with (k * k * vnorm2 d0) by (unfold vnorm2, vdot, vscale; cbn; ring); rewrite Hd; ring).
    destruct (Rlt_dec 0 (vnorm2 hd)) as [_|Hneg]; [|rewrite Hh in Hneg; nra].
    unfold vnorm. rewrite Hh. replace (R_sqrt.sqrt (k * k)) with k by (symmetry; apply sqrt_square; lra).
    rewrite E. destruct d0 as [a b c]. unfold vscale. cbn. apply (f_equal3 V3); field; lra. }
  fold (vnorm2 (vcross n tp)).
  destruct (Rltb (vnorm2 (vcross n tp)) (1 / 1000)) eqn:E1.
  - rewrite Rltb_true in E1.
    fold (vnorm2 (vcross n (V3 1 0 0))).
    destruct (Rltb (vnorm2 (vcross n (V3 1 0 0))) (1 / 1000)) eqn:E2.
    + rewrite Rltb_true in E2. split.
      * split; [|apply Hup; unfold vnorm2, vdot; cbn; ring].
        rewrite vnorm2_cross in *. rewrite Hn in *. destruct n as [a b c]. unfold vnorm2, vdot in *. cbn in *. nra.
      * exists (V3 0 1 0). split; [reflexivity|]. split; [unfold vnorm2, vdot; cbn; ring|]. split; [reflexivity|].
        intros d0 k Hd Hk E Hge. rewrite (Htp d0 k Hd Hk E) in E1. lra.
    + rewrite Rltb_false in E2. split.
      * split; [exact E2|apply Hup; unfold vnorm2, vdot; cbn; ring].
      * exists (V3 1 0 0). split; [reflexivity|]. split; [unfold vnorm2, vdot; cbn; ring|]. split; [reflexivity|].
        intros d0 k Hd Hk E Hge. rewrite (Htp d0 k Hd Hk E) in E1. lra.
  - fold (vnorm2 (vcross n tp)). rewrite E1. rewrite Rltb_false in E1.
    assert (Hnz : hd <> vzero).
    { intros Hz. assert (tp = vzero). { unfold tp, vnormalize. rewrite Hz.
        destruct (Rlt_dec 0 (vnorm2 vzero)) as [H|]; [|reflexivity]. unfold vscale, vzero; cbn; apply (f_equal3 V3); ring. }
      rewrite H in E1. unfold vnorm2, vdot, vcross, vzero in E1. cbn in E1. lra. }
    pose proof (vnormalize_unit hd Hnz) as Hu. fold tp in Hu.
    split; [split; [exact E1|apply Hup, Hu]|].
    exists tp. split; [reflexivity|]. split; [exact Hu|]. split.
    + destruct (vnormalize_scale hd Hnz) as (k & _ & E). unfold tp. rewrite E. unfold hd, vscale. cbn. ring.
    + intros d0 k Hd Hk E _. exact (Htp d0 k Hd Hk E).
Qed.

Definition well_formed (c : contact) : Prop :=
  vnorm2 (cnormal c) = 1 /\ vdot (cnormal c) (ctan1 c) = 0 /\ vdot (cnormal c) (ctan2 c) = 0.

Section Main.
Context (approx : string -> bool * vec3 * vec3).
Context (roms : list string) (rect : bool) (sx sy m mu : R) (c tq : vec3).
Context (Hn : forall r, r ∈ roms -> vnorm2 (snd (fst (approx r))) = 1) (Hmu : 0 <= mu).
Local Notation cs := (all_contacts approx rect sx sy tq roms).

Lemma cs_contacts : contacts_of approx rect sx sy tq roms cs.
Proof.
  eexists. split; [reflexivity|]. clear Hmu. revert Hn. induction roms as [|r l IH]; intros Hn; cbn [map]; constructor.
  - exists (tangent1 (snd (fst (approx r))) tq), (vcross (snd (fst (approx r))) (tangent1 (snd (fst (approx r))) tq)).
    split; [apply tangent_ok, Hn; left|]. reflexivity.
  - apply IH. intros r' Hr'. apply Hn. right. exact Hr'.
Qed.

Lemma cs_well_formed : Forall well_formed cs.
Proof.
  unfold all_contacts. apply Forall_concat. apply Forall_map. apply Forall_forall. intros r Hr.
  unfold model_contacts. cbv zeta. apply Forall_map. apply Forall_true. intros p. unfold well_formed. cbn.
  split; [apply Hn; exact Hr|].
  split; [|apply dot_cross_self].
  unfold tangent1. cbv zeta. repeat match goal with |- context [if ?b then _ else _] => destruct b end; apply dot_cross_self.
Qed.

Lemma fill_shape : exists x, minv x (map (contact_point_of mu) cs) /\
  fillNodeMatrices approx roms rect sx sy m mu c tq = Ok (mkNode (length cs) (Gm (length cs) x)
    (fun i j => m * (setBlock (setBlock (fun _ _ => 0) 0 0 3 3 identity3) 3 0 3 3 (crossMatrix c)) i j)
    (fun i => m * (if (i <? 3)%nat then comp (vopp gravity_) i else comp (vcross c (vopp gravity_)) (i - 3)))).
Proof.
  unfold fillNodeMatrices. cbv zeta. rewrite <- (all_contacts_length approx rect sx sy tq roms).
  set (x0 := mkAcc (length cs) 0 (fun _ _ => 0) (fun _ _ => 0)).
  assert (H0 : minv x0 []).
  { split; [reflexivity|]. split; [cbn; lia|]. split; intros; reflexivity. }
  destruct (allPoints_inv approx roms sx sy rect mu tq x0 [] H0 ltac:(cbn; lia)) as (x & E & Hx & _).
  rewrite E. cbn [nbind]. exists x. split; [exact Hx|]. reflexivity.
Qed.

Lemma rhs i a : (i < 6)%nat ->
  sumn 3 (fun j => m * (setBlock (setBlock (fun _ _ => 0) 0 0 3 3 identity3) 3 0 3 3 (crossMatrix c)) i j * comp a j) +
  m * (if (i <? 3)%nat then comp (vopp gravity_) i else comp (vcross c (vopp gravity_)) (i - 3)) =
  if (i <? 3)%nat then comp (vscale m (vsub a gravity_)) i else comp (vcross c (vscale m (vsub a gravity_))) (i - 3).
Proof.
  intros Hi. destruct i as [|[|[|[|[|[|i]]]]]]; [| | | | | |lia];
    unfold setBlock, identity3, crossMatrix, gravity_, vopp, vscale, vsub, vcross; cbn; ring.
Qed.

Lemma lhs x f Fs i : minv x (map (contact_point_of mu) cs) -> length Fs = length cs -> (i < 6)%nat ->
  (forall p k, cs !! p = Some k -> nth p Fs vzero = force_at f (rays mu (cnormal k) (ctan1 k) (ctan2 k)) p) ->
  sumn (4 * length cs) (fun j => Gm (length cs) x i j * f j) =
  if (i <? 3)%nat then comp (vsum Fs) i else comp (moments cs Fs) (i - 3).
Proof.
  intros Hx HF Hi Hf.
  rewrite (G_times (length cs) _ x Hx ltac:(apply map_length) f i Hi).
  destruct (Nat.ltb_spec i 3) as [Hi3|Hi3].
  - rewrite vsum_sumn by exact Hi3. rewrite HF. apply sumn_ext. intros p Hp.
    destruct (lookup_lt_is_Some_2 _ _ Hp) as [k Hk]. rewrite list_lookup_fmap, Hk. cbn [fmap option_fmap option_map].
    cbn. rewrite (Hf p k Hk). reflexivity.
  - rewrite moments_vsum by congruence. rewrite vsum_sumn by lia.
    rewrite map_length, zip_with_length, HF, Nat.min_id. apply sumn_ext. intros p Hp.
    destruct (lookup_lt_is_Some_2 _ _ Hp) as [k Hk]. rewrite list_lookup_fmap, Hk. cbn.
    assert (HFp : Fs !! p = Some (nth p Fs vzero)).
    { destruct (lookup_lt_is_Some_2 Fs p ltac:(lia)) as [F HF2]. rewrite HF2. f_equal. symmetry.
      apply nth_lookup_Some. exact HF2. }
    assert (Hz : map (fun q : contact * vec3 => vcross (cpos (fst q)) (snd q)) (zip cs Fs) !! p = Some (vcross (cpos k) (nth p Fs vzero))).
    { rewrite list_lookup_fmap, lookup_zip_with, Hk, HFp. reflexivity. }
    rewrite (nth_lookup_Some _ _ _ _ Hz). rewrite (Hf p k Hk). reflexivity.
Qed.

Lemma lp_iff x a : fillNodeMatrices approx roms rect sx sy m mu c tq = Ok x ->
  (exists f, lp_solution x a f) <-> exists Fs, Forall2 (in_pyramid mu) cs Fs /\ newton_euler m c a cs Fs.
Proof.
  intros E. destruct fill_shape as (y & Hy & Ey). rewrite Ey in E. injection E as <-.
  unfold lp_solution. cbn [nPoints nG nH nh].
  pose proof cs_well_formed as Hwf. rewrite Forall_lookup in Hwf.
  split.
  - intros (f & Hf & Heq).
    set (Fs := imap (fun p k => force_at f (rays mu (cnormal k) (ctan1 k) (ctan2 k)) p) cs).
    assert (HFl : length Fs = length cs) by apply imap_length.
    assert (HFn : forall p k, cs !! p = Some k -> nth p Fs vzero = force_at f (rays mu (cnormal k) (ctan1 k) (ctan2 k)) p).
    { intros p k Hk. apply nth_lookup_Some. unfold Fs. rewrite list_lookup_imap, Hk. reflexivity. }
    exists Fs. split.
    + apply Forall2_same_length_lookup_2; [congruence|]. intros p k F Hk HF.
      apply nth_lookup_Some with (d := vzero) in HF. rewrite (HFn p k Hk) in HF. subst F.
      destruct (Hwf p k Hk) as (W1 & W2 & W3). apply pyramid_of_coeffs; try assumption.
      intros j Hj. apply Hf. apply lookup_lt_Some in Hk. lia.
    + assert (Hi : forall i, (i < 6)%nat -> (if (i <? 3)%nat then comp (vsum Fs) i else comp (moments cs Fs) (i - 3)) =
        if (i <? 3)%nat then comp (vscale m (vsub a gravity_)) i else comp (vcross c (vscale m (vsub a gravity_))) (i - 3)).
      { intros i Hi. rewrite <- rhs by exact Hi. rewrite <- (lhs y f Fs i Hy HFl Hi HFn). apply Heq. exact Hi. }
      split; apply comp_ext; intros i Hi3.
      * specialize (Hi i ltac:(lia)). destruct (Nat.ltb_spec i 3); [exact Hi|lia].
      * specialize (Hi (i + 3)%nat ltac:(lia)). destruct (Nat.ltb_spec (i + 3) 3); [lia|].
        replace (i + 3 - 3)%nat with i in Hi by lia. exact Hi.
  - intros (Fs & HFs & Hs & Hm).
    assert (HFl : length Fs = length cs) by (symmetry; eapply Forall2_length; exact HFs).
    destruct (finite_choice (fun _ : nat => 0) (length cs) (fun p g => (forall j, 0 <= g j) /\ forall k, cs !! p = Some k ->
      nth p Fs vzero = vadd (vadd (vscale (g 0%nat) (rays mu (cnormal k) (ctan1 k) (ctan2 k) 0)) (vscale (g 1%nat) (rays mu (cnormal k) (ctan1 k) (ctan2 k) 1)))
       (vadd (vscale (g 2%nat) (rays mu (cnormal k) (ctan1 k) (ctan2 k) 2)) (vscale (g 3%nat) (rays mu (cnormal k) (ctan1 k) (ctan2 k) 3))))) as [g Hg].
    { intros p Hp. destruct (lookup_lt_is_Some_2 _ _ Hp) as [k Hk].
      destruct (lookup_lt_is_Some_2 Fs p ltac:(lia)) as [F HF].
      pose proof (Forall2_lookup_lr _ _ _ _ _ _ HFs Hk HF) as HP.
      destruct (Hwf p k Hk) as (W1 & W2 & W3).
      destruct (coeffs_of_pyramid mu k F W1 W2 W3 Hmu HP) as (g & Hg0 & HgF).
      exists g. split; [exact Hg0|]. intros k' Hk'. rewrite Hk in Hk'. injection Hk' as <-.
      rewrite (nth_lookup_Some _ _ _ _ HF). exact HgF. }
    exists (fun j => g (j / 4)%nat (j mod 4)%nat).
    split.
    + intros j Hj. apply Hg. apply Nat.div_lt_upper_bound; lia.
    + intros i Hi. rewrite (lhs y _ Fs i Hy HFl Hi).
      * rewrite rhs by exact Hi. rewrite Hs, Hm. reflexivity.
      * intros p k Hk. assert (Hp : (p < length cs)%nat) by (eapply lookup_lt_Some; exact Hk).
        destruct (Hg p Hp) as [_ Hk2]. rewrite (Hk2 k Hk). unfold force_at.
        assert (Ed : forall j, (j < 4)%nat -> ((4 * p + j) / 4 = p /\ (4 * p + j) mod 4 = j)%nat).
        { intros j Hj. split.
          - rewrite Nat.mul_comm, Nat.div_add_l by lia. rewrite Nat.div_small by lia. lia.
          - rewrite Nat.add_comm, Nat.mul_comm, Nat.mod_add by lia. apply Nat.mod_small. lia. }
        destruct (Ed 0%nat ltac:(lia)) as [-> ->]. destruct (Ed 1%nat ltac:(lia)) as [-> ->].
        destruct (Ed 2%nat ltac:(lia)) as [-> ->]. destruct (Ed 3%nat ltac:(lia)) as [-> ->]. reflexivity.
Qed.

Lemma node_matrices : exists x, fillNodeMatrices approx roms rect sx sy m mu c tq = Ok x /\
  exists k, contacts_of approx rect sx sy tq roms k /\ nPoints x = length k /\
  forall a, (exists f, lp_solution x a f) <-> exists Fs, Forall2 (in_pyramid mu) k Fs /\ newton_euler m c a k Fs.
Proof.
  destruct fill_shape as (y & Hy & Ey). eexists. split; [exact Ey|].
  exists cs. split; [exact cs_contacts|]. split; [reflexivity|].
  intros a. apply lp_iff. exact Ey.
Qed.
End Main.

(** a force of the pyramid is in the friction cone *)
Lemma pyramid_in_cone tq mu k F : 0 <= mu -> vnorm2 (cnormal k) = 1 -> tangents tq (cnormal k) (ctan1 k) (ctan2 k) ->
  in_pyramid mu k F -> in_cone mu (cnormal k) F.
Proof.
  intros Hmu Hn (E2 & [_ Hle] & d & E1 & _) (al & be & ga & -> & Ha & Hbg).
  destruct k as [p n t1 t2]. cbn [cpos cnormal ctan1 ctan2] in *.
  assert (D1 : vdot n t1 = 0) by (rewrite E1; apply dot_cross_self).
  assert (D2 : vdot n t2 = 0) by (rewrite E2; apply dot_cross_self).
  assert (N2 : vnorm2 t2 = vnorm2 t1) by (rewrite E2, vnorm2_cross, Hn, D1; ring).
  assert (Hal : vdot n (vadd (vscale al n) (vadd (vscale be t1) (vscale ga t2))) = al).
  { replace (vdot n _) with (al * vnorm2 n + be * vdot n t1 + ga * vdot n t2) by (unfold vnorm2, vdot, vadd, vscale; cbn; ring).
    rewrite Hn, D1, D2. ring. }
  split; rewrite Hal; [exact Ha|].
  replace (vsub (vadd (vscale al n) (vadd (vscale be t1) (vscale ga t2))) (vscale al n)) with (vadd (vscale be t1) (vscale ga t2))
    by (unfold vsub, vadd, vscale; cbn; apply (f_equal3 V3); ring).
  apply Rle_trans with (Rabs be + Rabs ga); [|exact Hbg].
  apply Rle_trans with (vnorm (vscale be t1) + vnorm (vscale ga t2)); [apply vnorm_triangle|].
  assert (Hs : forall s t, vnorm2 t <= 1 -> vnorm (vscale s t) <= Rabs s).
  { intros s t Ht. unfold vnorm. replace (vnorm2 (vscale s t)) with (Rsqr s * vnorm2 t) by (unfold vnorm2, vdot, vscale, Rsqr; cbn; ring).
    rewrite <- sqrt_Rsqr_abs. apply sqrt_le_1_alt. pose proof (Rle_0_sqr s). nra. }
  pose proof (Hs be t1 Hle). rewrite <- N2 in Hle. pose proof (Hs ga t2 Hle). lra.
Qed.
