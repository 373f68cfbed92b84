(** Replaced states: one change at a time, but for a redone contact. *)
From Coq Require Import Reals ZArith Lra.
From Verif Require Import Maps MapsProofs Vec VecProofs StateModel StateSpec StateReal StateRealProofs ProjModel ProjSpec CombModel GenModel SeqModel SeqSpec SeqProofs2 SeqProofs3 SeqProofs4 SeqProofs5.
Local Open Scope R_scope.

Lemma positions_removed limb (s : PSt) k : k <> limb -> positions (snd (RemoveContact limb s)) !! k = positions s !! k.
Proof. intros H. unfold RemoveContact. destruct (has limb (contacts s)); [|done]. cbn. by rewrite lookup_delete_ne. Qed.
Lemma redone_positions axis B limb l s q n p root s' : contact_redone axis B limb l s q n p root s' ->
  (forall k, k <> limb -> positions s' !! k = positions s !! k) /\
  exists f x, frames (dev B) !! effName l = Some f /\ positions s' !! limb = Some x /\ dist3 x (tra (computeProjectionMatrix B axis l f q n p mzero)) <= tol B.
Proof.
  intros (f & x & r & Hf & Hx & (_ & _ & Hp & _) & _). split.
  - intros k Hk. rewrite Hp. cbn [addContact positions]. rewrite lookup_insert_ne by done. by apply positions_removed.
  - exists f, x. split; [done|]. split; [|done]. rewrite Hp. cbn [addContact positions]. by rewrite lookup_insert.
Qed.
Lemma gained_ext a a' b b' k : positions a !! k = positions a' !! k -> positions b !! k = positions b' !! k -> gained a b k -> gained a' b' k.
Proof. intros H1 H2 H. eapply new_or_moved_ext; [| |exact H]; done. Qed.

(** contacts unchanged between two separated states are at the same places *)
Lemma still a b k : sep2 a b -> ~ gained a b k -> ~ lost a b k -> positions a !! k = positions b !! k.
Proof.
  intros HS Hg Hl. destruct (positions b !! k) as [p|] eqn:Eb.
  - destruct (not_gained _ _ _ _ Hg Eb) as (q & Hq & Hd). rewrite Hq. f_equal. eapply HS; eauto.
  - destruct (positions a !! k) as [q|] eqn:Ea; [|done]. destruct (not_gained _ _ _ _ Hl Ea) as (p & Hp & _). congruence.
Qed.
Lemma only_one limb a b : (forall k, k <> limb -> positions a !! k = positions b !! k) -> one_change a b.
Proof.
  intros H.
  assert (Hz : forall a b k, gained a b k -> positions a !! k <> positions b !! k).
  { intros a' b' k Hg Heq. rewrite gained_iff in Hg. destruct Hg as (p & Hp & Hd). rewrite Hp in Heq. specialize (Hd p Heq). rewrite dist3_refl in Hd. lra. }
  assert (Hs : forall k, positions a !! k <> positions b !! k -> k = limb). { intros k Hk. destruct (decide (k = limb)) as [|Hn]; [done|]. exfalso. auto. }
  split; intros k k' Hk Hk'.
  - rewrite (Hs k), (Hs k'); [done|by apply Hz..].
  - rewrite (Hs k), (Hs k'); [done|intros E; symmetry in E; revert E; by apply Hz..].
Qed.
(** one change between [a'] and [b'], which have the same contacts as [a] and [b] but for [limb] *)
Lemma besides limb a b a' b' : (forall k, k <> limb -> positions a !! k = positions a' !! k) -> (forall k, k <> limb -> positions b !! k = positions b' !! k) ->
  one_change a' b' -> one_change_besides limb a b.
Proof.
  intros Ha Hb [G L]. split; intros k k' Hn Hn' Hk Hk'.
  - apply G; (eapply gained_ext; [..|eassumption]); auto.
  - apply L; (eapply gained_ext; [..|eassumption]); auto.
Qed.
Lemma besides_in_place limb a b x y : one_change_besides limb a b -> positions a !! limb = Some x -> positions b !! limb = Some y -> dist3 x y <= 1 / 100 ->
  one_change a b.
Proof.
  intros [G L] Ha Hb Hd.
  assert (Hg : ~ gained a b limb). { rewrite gained_iff. intros (p & Hp & H). rewrite Hb in Hp. injection Hp as <-. specialize (H _ Ha). lra. }
  assert (Hl : ~ lost a b limb). { unfold lost. intros H. apply gained_iff in H. destruct H as (p & Hp & H). rewrite Ha in Hp. injection Hp as <-. specialize (H _ Hb). rewrite dist3_symm in H. lra. }
  split; intros k k' Hk Hk'; [apply G|apply L]; try done; by intros ->.
Qed.
Lemma near_or_slipped limb a b x y : one_change_besides limb a b -> positions a !! limb = Some x -> positions b !! limb = Some y -> one_change a b \/ slipped limb a b.
Proof.
  intros H Ha Hb. destruct (Rle_lt_dec (dist3 x y) (1 / 100)); [left; by eapply besides_in_place|]. right. exists x, y. done.
Qed.

Section four.
Variable reach : PSt -> PSt -> Prop.
Variable axis : vec3 -> vec3 -> vec3.
Variable B : fullbody.
Lemma replace_changes c0 c1 c2 c3 s : moves_at_once reach axis B c0 c1 c2 c3 s -> sep2 c0 c1 -> sep2 c2 c3 -> one_change c1 c2 ->
  one_change c0 s /\ exists limb l f n x x3, limbsOf B !! limb = Some l /\ frames (dev B) !! effName l = Some f /\ normals c3 !! limb = Some n /\
    positions s !! limb = Some x /\ positions c3 !! limb = Some x3 /\
    dist3 x (tra (computeProjectionMatrix B axis l f (configuration c3) n (vadd x3 (loffset l)) mzero)) <= tol B /\ one_change_besides limb s c3.
Proof.
  intros (limb & l & n & x1 & x3 & (M1 & M2 & _) & Hl & Hn & H3 & H1 & _ & Hr & _) S1 S2 H12.
  apply redone_positions in Hr as (Hs & f & x & Hf & Hx & Hd).
  assert (E01 : forall k, k <> limb -> positions c0 !! k = positions c1 !! k).
  { intros k Hk. destruct (M1 k) as [Mg Ml]. apply still; [done|rewrite Mg|rewrite Ml]; by rewrite elem_of_list_singleton. }
  assert (E23 : forall k, k <> limb -> positions c2 !! k = positions c3 !! k).
  { intros k Hk. destruct (M2 k) as [Mg Ml]. apply still; [done|rewrite Mg|rewrite Ml]; by rewrite elem_of_list_singleton. }
  split; [apply (only_one limb); intros k Hk; rewrite Hs by done; auto|].
  exists limb, l, f, n, x, x3. split_and!; try done. apply (besides limb s c3 c1 c2); auto. intros k Hk. symmetry. auto.
Qed.
Lemma skip_changes c0 c1 c2 c3 s : moves_later reach axis B c0 c1 c2 c3 s -> sep2 c0 c1 -> sep2 c2 c3 -> one_change c0 c1 -> one_change c1 c2 ->
  one_change s c3 /\ exists limb l f n x x0, limbsOf B !! limb = Some l /\ frames (dev B) !! effName l = Some f /\ normals c0 !! limb = Some n /\
    positions s !! limb = Some x /\ positions c0 !! limb = Some x0 /\
    dist3 x (tra (computeProjectionMatrix B axis l f (configuration c0) n (vsub (vadd x0 (loffset l)) (vscale (1 / 100) n)) mzero)) <= tol B /\
    one_change_besides limb c0 s.
Proof.
  intros (S & limb & l & k0 & n0 & n1 & x0 & x1 & (M1 & M2 & _) & HS & _ & _ & Hl & Hn & H0 & _ & H1 & _ & Hr & _) S1 S2 [G01 L01] H12.
  apply redone_positions in Hr as (Hs & f & x & Hf & Hx & Hd).
  assert (HS' : forall k, k ∈ S -> k = limb). { intros k Hk. apply G01; by apply M1. }
  assert (E01 : forall k, k <> limb -> positions c0 !! k = positions c1 !! k).
  { intros k Hk. destruct (M1 k) as [Mg Ml]. apply still; [done|rewrite Mg|rewrite Ml]; intros HkS; by apply Hk, HS'. }
  assert (E23 : forall k, k <> limb -> positions c2 !! k = positions c3 !! k).
  { intros k Hk. destruct (M2 k) as [Mg Ml]. apply still; [done|rewrite Mg|rewrite Ml]; intros HkS; by apply Hk, HS'. }
  split; [apply (only_one limb); intros k Hk; rewrite Hs by done; auto|].
  exists limb, l, f, n0, x, x0. split_and!; try done. apply (besides limb c0 s c1 c2); auto.
Qed.
End four.

Section list.
Variable reach : PSt -> PSt -> Prop.
Variable axis : vec3 -> vec3 -> vec3.
Variable B : fullbody.
(** an offset the aimed rotation leaves alone: the contact is redone where it should *)
Lemma aim_is l f q n p : steady_offset axis B l f n ->
  tra (computeProjectionMatrix B axis l f q n (vadd p (loffset l)) mzero) = vadd p (vscale (10 / 10000) n).
Proof.
  intros Hst. specialize (Hst q (vadd p (loffset l))). unfold computeProjectionMatrix in *. cbn [rot tra] in *. rewrite Hst.
  destruct p, n, (loffset l). unfold vadd, vsub, vscale. cbn. f_equal; ring.
Qed.
Lemma dist3_along p n k : 0 <= k -> vnorm2 n <= 1 -> dist3 (vadd p (vscale k n)) p <= k.
Proof.
  intros Hk Hn. unfold dist3, vnorm. replace (vnorm2 (vsub (vadd p (vscale k n)) p)) with (k * k * vnorm2 n) by (destruct p, n; unfold vnorm2, vdot, vsub, vadd, vscale; cbn; ring).
  assert (0 <= vnorm2 n). { destruct n. unfold vnorm2, vdot. cbn. pose proof (Rle_0_sqr vx) as A1. pose proof (Rle_0_sqr vy) as A2. pose proof (Rle_0_sqr vz) as A3. unfold Rsqr in *. lra. }
  apply Rle_trans with (R_sqrt.sqrt (k * k)); [|rewrite R_sqrt.sqrt_square by done; lra]. apply R_sqrt.sqrt_le_1_alt.
  assert (0 <= k * k) by (apply Rmult_le_pos; done). assert (k * k * vnorm2 n <= k * k * 1) by (apply Rmult_le_compat_l; done). lra.
Qed.
Lemma replace_near l f q n x x3 : steady_offset axis B l f n -> vnorm2 n <= 1 -> tol B <= 1 / 1000 ->
  dist3 x (tra (computeProjectionMatrix B axis l f q n (vadd x3 (loffset l)) mzero)) <= tol B -> dist3 x x3 <= 1 / 100.
Proof.
  intros Hst Hn Ht Hd. rewrite aim_is in Hd by done. pose proof (dist3_along x3 n (10 / 10000) ltac:(lra) Hn).
  pose proof (dist3_triangle x (vadd x3 (vscale (10 / 10000) n)) x3). lra.
Qed.
Lemma skip_near l f q n x x0 : steady_offset axis B l f n -> vnorm2 n <= 1 -> tol B <= 1 / 1000 ->
  dist3 x (tra (computeProjectionMatrix B axis l f q n (vsub (vadd x0 (loffset l)) (vscale (1 / 100) n)) mzero)) <= tol B -> dist3 x0 x <= 1 / 100.
Proof.
  intros Hst Hn Ht Hd.
  replace (vsub (vadd x0 (loffset l)) (vscale (1 / 100) n)) with (vadd (vadd x0 (vscale (- (1 / 100)) n)) (loffset l)) in Hd
    by (destruct x0, n, (loffset l); unfold vadd, vsub, vscale; cbn; f_equal; ring).
  rewrite aim_is in Hd by done.
  replace (vadd (vadd x0 (vscale (- (1 / 100)) n)) (vscale (10 / 10000) n)) with (vadd x0 (vscale (9 / 1000) (vscale (-1) n))) in Hd
    by (destruct x0, n; unfold vadd, vscale; cbn; f_equal; field).
  assert (Hn' : vnorm2 (vscale (-1) n) <= 1). { replace (vnorm2 (vscale (-1) n)) with (vnorm2 n) by (destruct n; unfold vnorm2, vdot, vscale; cbn; ring). done. }
  pose proof (dist3_along x0 _ (9 / 1000) ltac:(lra) Hn'). rewrite dist3_sym.
  pose proof (dist3_triangle x (vadd x0 (vscale (9 / 1000) (vscale (-1) n))) x0). lra.
Qed.

Lemma replaced_head Q later l r : replaced Q later l r -> r !! 0%nat = l !! 0%nat.
Proof. by intros []. Qed.
Lemma replaced_consecutive (Q : PSt -> PSt -> PSt -> PSt -> PSt -> Prop) later (Rel Rel' : sframe -> sframe -> Prop) (L l r : list sframe) :
  replaced Q later l r -> consecutive Rel l -> (forall x, x ∈ l -> x ∈ L) -> (forall a b, Rel a b -> Rel' a b) ->
  (forall c0 c1 c2 c3 s, c0 ∈ L -> c1 ∈ L -> c2 ∈ L -> c3 ∈ L -> Rel c0 c1 -> Rel c1 c2 -> Rel c2 c3 -> Q (snd c0) (snd c1) (snd c2) (snd c3) s ->
     Rel' c0 (fst (if later then c2 else c1), s) /\ Rel' (fst (if later then c2 else c1), s) c3) ->
  consecutive Rel' r.
Proof.
  intros H Hc HL Hsub HQ. revert Hc HL. induction H as [l|c l r H IH|c0 c1 c2 c3 rest r s Hq H IH]; intros Hc HL.
  - intros i a b Ha Hb. apply Hsub. by apply (Hc i).
  - intros [|i] a b Ha Hb.
    + cbn in Ha, Hb. injection Ha as <-. apply Hsub, (Hc 0%nat); [done|]. change (l !! 0%nat = Some b). rewrite <- (replaced_head _ _ _ _ H). exact Hb.
    + apply (IH ltac:(intros j; apply (Hc (S j))) ltac:(intros x Hx; apply HL; by right) i); done.
  - assert (Hs : Rel' c0 (fst (if later then c2 else c1), s) /\ Rel' (fst (if later then c2 else c1), s) c3).
    { apply (HQ c0 c1 c2 c3 s); try done.
      - apply HL. left. - apply HL. right. left. - apply HL. do 2 right. left. - apply HL. do 3 right. left.
      - by apply (Hc 0%nat). - by apply (Hc 1%nat). - by apply (Hc 2%nat). }
    destruct Hs as [Hs1 Hs2]. intros [|[|i]] a b Ha Hb; cbn in Ha, Hb.
    + injection Ha as <-. injection Hb as <-. done.
    + injection Ha as <-. change (r !! 0%nat = Some b) in Hb. rewrite (replaced_head _ _ _ _ H) in Hb. injection Hb as <-. done.
    + apply (IH ltac:(intros j; apply (Hc (S (S (S j))))) ltac:(intros x Hx; apply HL; do 3 right; done) i); done.
Qed.
End list.

Section final.
Variables (useReach : bool) (reachable : PSt -> PSt -> bool).
Variable solve : projector -> list R -> bool * list R.
Variable axis : vec3 -> vec3 -> vec3.
Variable B : fullbody.
Let reach := fun a b => useReach = true -> reachable a b = true.
Notation oc := (fun a b : sframe => one_change (snd a) (snd b)).
Notation os := (fun a b : sframe => one_change (snd a) (snd b) \/ exists limb, slipped limb (snd a) (snd b)).
Lemma C132_replaced_lemma l r : lawful_robot (dev B) -> sound_solver (dev B) solve -> consecutive oc l -> separated l ->
  tryReplaceStates useReach reachable solve axis B l = Ok r \/ trySkipStates useReach reachable solve axis B l = Ok r ->
  consecutive os r /\ (steady_offsets axis B l -> tol B <= 1 / 1000 -> consecutive oc r).
Proof.
  intros LR SS Hc HS H. destruct (C130_lemma useReach reachable solve axis B l r LR SS) as [HR HK]. destruct H as [H|H].
  - destruct (HR H) as [Hr _]. split.
    + eapply (replaced_consecutive _ _ oc os l); [exact Hr|exact Hc|done|by left|]. intros c0 c1 c2 c3 s H0 H1 H2 H3 R1 R2 R3 HQ.
      destruct (replace_changes _ _ _ _ _ _ _ _ HQ) as [A (limb & l' & f & n & x & x3 & _ & _ & _ & Hx & Hx3 & _ & Hb)];
        [by eapply separated_sep2..|done|]. cbn [snd]. split; [by left|]. destruct (near_or_slipped _ _ _ _ _ Hb Hx Hx3); [by left|right; eauto].
    + intros Hst Ht. eapply (replaced_consecutive _ _ oc oc l); [exact Hr|exact Hc|done|done|]. intros c0 c1 c2 c3 s H0 H1 H2 H3 R1 R2 R3 HQ.
      destruct (replace_changes _ _ _ _ _ _ _ _ HQ) as [A (limb & l' & f & n & x & x3 & Hl & Hf & Hn & Hx & Hx3 & Hd & Hb)];
        [by eapply separated_sep2..|done|]. cbn [snd]. split; [done|]. destruct (Hst c3 limb l' f n H3 Hl Hf Hn) as [Hs1 Hs2].
      eapply besides_in_place; [done..|]. by eapply replace_near.
  - destruct (HK H) as [Hr _]. split.
    + eapply (replaced_consecutive _ _ oc os l); [exact Hr|exact Hc|done|by left|]. intros c0 c1 c2 c3 s H0 H1 H2 H3 R1 R2 R3 HQ.
      destruct (skip_changes _ _ _ _ _ _ _ _ HQ) as [A (limb & l' & f & n & x & x0 & _ & _ & _ & Hx & Hx0 & _ & Hb)];
        [by eapply separated_sep2..|done|done|]. cbn [snd]. split; [|by left]. destruct (near_or_slipped _ _ _ _ _ Hb Hx0 Hx); [by left|right; eauto].
    + intros Hst Ht. eapply (replaced_consecutive _ _ oc oc l); [exact Hr|exact Hc|done|done|]. intros c0 c1 c2 c3 s H0 H1 H2 H3 R1 R2 R3 HQ.
      destruct (skip_changes _ _ _ _ _ _ _ _ HQ) as [A (limb & l' & f & n & x & x0 & Hl & Hf & Hn & Hx & Hx0 & Hd & Hb)];
        [by eapply separated_sep2..|done|done|]. cbn [snd]. split; [|done]. destruct (Hst c0 limb l' f n H0 Hl Hf Hn) as [Hs1 Hs2].
      eapply besides_in_place; [done..|]. by eapply skip_near.
Qed.
End final.
