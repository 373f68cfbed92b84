From Verif Require Import DevModel DevSpec.

Section D.
Context {T V : Type} `{EqDecision T}.
Variable resize : nat -> nat -> list T -> list T.
Variable uninit : V.
Notation run := (dev_run (V:=V) resize).

Lemma setConf_snd q (d : device T) : snd (setConf q d) = mkDev q (dextra d).
Proof.
  unfold setConf. case_bool_decide as E; [|reflexivity]. subst q. destruct d; reflexivity.
Qed.
Lemma current_exact q (d : rbdevice T V) b d' : currentConfiguration q d = (b, d') ->
  dconf (base d') = q /\ dextra (base d') = dextra (base d) /\ (b = true <-> dconf (base d) <> q) /\
  refs d' = refs d /\
  forall n, roms d' !! n = (fun r => mkDev q (dextra r)) <$> roms d !! n.
Proof.
  unfold currentConfiguration. destruct (setConf q (base d)) as [b0 base'] eqn:E. intros [= <- <-].
  pose proof (setConf_snd q (base d)) as Hs. rewrite E in Hs. cbn in Hs. subst base'. cbn. split_and!; auto.
  - revert E. unfold setConf. case_bool_decide as Eq; intros E; inversion E; split; congruence.
  - intros n. rewrite lookup_fmap. destruct (roms d !! n); cbn; [rewrite setConf_snd|]; reflexivity.
Qed.
Lemma step_in_step (d : rbdevice T V) o : in_step d -> in_step (dev_step resize d o).
Proof.
  intros H n r. destruct o as [q|k|rom v]; cbn [dev_step].
  - destruct (currentConfiguration q d) as [b d'] eqn:E. destruct (current_exact _ _ _ _ E) as (E1 & E2 & _ & _ & E3).
    cbn. rewrite E3. destruct (roms d !! n) as [r0|] eqn:Er; cbn; [|discriminate]. intros [= <-]. cbn.
    rewrite E1, E2. split; [reflexivity|]. apply (H n r0 Er).
  - cbn. rewrite lookup_fmap. destruct (roms d !! n) as [r0|] eqn:Er; cbn; [|discriminate]. intros [= <-]. cbn.
    destruct (H n r0 Er) as [-> ->]. auto.
  - unfold setEffectorReference. destruct (refs d !! rom); cbn; apply H.
Qed.
Lemma run_in_step ops (d : rbdevice T V) : in_step d -> in_step (run d ops).
Proof.
  unfold dev_run. revert d. induction ops as [|o ops IH]; cbn; intros d H; [assumption|]. apply IH, step_in_step, H.
Qed.

(** the last configuration set, when no extra dimension is changed afterwards *)
Lemma run_last ops q tail (d : rbdevice T V) : in_step d -> Forall (fun o => exists rom v, o = DRef rom v) tail ->
  let d' := run d (ops ++ DConf q :: tail) in
  dconf (base d') = q /\ forall n r, roms d' !! n = Some r -> dconf r = q.
Proof.
  intros H Ht. cbn zeta.
  assert (G : dconf (base (run d (ops ++ DConf q :: tail))) = q).
  { unfold dev_run. rewrite fold_left_app. cbn [fold_left dev_step].
    destruct (currentConfiguration q (fold_left (dev_step resize) ops d)) as [b d1] eqn:E. cbn [snd].
    destruct (current_exact _ _ _ _ E) as (E1 & _). clear E. revert d1 E1.
    induction Ht as [|o tl (rom & v & ->) Ht IH]; cbn; intros d1 E1; [assumption|]. apply IH.
    unfold setEffectorReference. destruct (refs d1 !! rom); cbn; assumption. }
  split; [exact G|]. intros n r Hr. rewrite <- G. apply (run_in_step _ d H n r Hr).
Qed.

Lemma reference_set rom v (d : rbdevice T V) : getEffectorReference uninit rom (setEffectorReference rom v d) = v.
Proof. unfold getEffectorReference, setEffectorReference. destruct (refs d !! rom); cbn; rewrite lookup_insert; reflexivity. Qed.
Lemma reference_other rom rom' v (d : rbdevice T V) : rom <> rom' ->
  getEffectorReference uninit rom' (setEffectorReference rom v d) = getEffectorReference uninit rom' d.
Proof. intros H. unfold getEffectorReference, setEffectorReference. destruct (refs d !! rom); cbn; rewrite lookup_insert_ne by assumption; reflexivity. Qed.
Lemma run_reference ops rom (d : rbdevice T V) : refs d = ∅ ->
  getEffectorReference uninit rom (run d ops) = match last_ref rom ops with Some v => v | None => uninit end.
Proof.
  intros H. unfold getEffectorReference.
  assert (G : forall ops (d : rbdevice T V), refs (run d ops) !! rom =
    fold_left (fun acc o => match o with DRef r v => if bool_decide (r = rom) then Some v else acc | _ => acc end) ops (refs d !! rom)).
  { clear. induction ops as [|o ops IH]; intros d; [reflexivity|]. unfold dev_run in *. cbn [fold_left]. rewrite IH. f_equal.
    destruct o as [q|k|r v]; cbn [dev_step].
    - destruct (currentConfiguration q d) as [b d'] eqn:E. destruct (current_exact _ _ _ _ E) as (_ & _ & _ & E4 & _). cbn [snd]. rewrite E4. reflexivity.
    - reflexivity.
    - unfold setEffectorReference. assert ((if refs d !! r then true else true) = true) by (destruct (refs d !! r); reflexivity).
      destruct (refs d !! r); cbn; (case_bool_decide as E; [subst; apply lookup_insert|apply lookup_insert_ne; congruence]). }
  rewrite G, H, lookup_empty. reflexivity.
Qed.
End D.
