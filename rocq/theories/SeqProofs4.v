(** The filters of the sequence. *)
From Coq Require Import Reals ZArith.
From Verif Require Import Maps MapsProofs Vec VecProofs StateModel StateSpec StateReal StateRealProofs ProjModel ProjSpec CombModel GenModel ProjProofs ProjProofs2
  StateProofs SeqModel SeqSpec SeqProofs.
Local Open Scope R_scope.

Lemma in_creations (a b : PSt) k : k ∈ creations b a <-> gained a b k.
Proof. apply (creations_real a b). Qed.
Lemma in_breaks (a b : PSt) k : k ∈ breaks b a <-> lost a b k.
Proof. rewrite contactBreaks_eq. apply (creations_real b a). Qed.
Lemma creations_sorted (a b : PSt) : NoDup (creations b a) /\ StronglySorted str_le (creations b a).
Proof. split; apply (creations_real a b). Qed.
Lemma sorted_same (l l' : list string) : NoDup l -> NoDup l' -> StronglySorted str_le l -> StronglySorted str_le l' ->
  (l = l' <-> forall k, k ∈ l <-> k ∈ l').
Proof.
  intros H1 H2 H3 H4. split; [intros ->; done|]. intros H. eapply (StronglySorted_unique str_le); eauto.
  apply NoDup_Permutation; done.
Qed.
Lemma eqs_iff (a b c d : PSt) : EqStringVec (creations b a) (creations d c) = true <-> forall k, gained a b k <-> gained c d k.
Proof.
  unfold EqStringVec. rewrite bool_decide_eq_true. destruct (creations_sorted a b), (creations_sorted c d).
  rewrite sorted_same by done. split; intros H' k; specialize (H' k); rewrite !in_creations in *; done.
Qed.
Lemma nil_iff (a b : PSt) : creations b a = [] <-> forall k, ~ gained a b k.
Proof.
  split.
  - intros H k Hk. apply in_creations in Hk. rewrite H in Hk. by apply elem_of_nil in Hk.
  - intros H. apply elem_of_nil_inv. intros k Hk. apply in_creations in Hk. by apply (H k).
Qed.

Section filters.
Variable useReach : bool.
Variable reachable : PSt -> PSt -> bool.
Notation reach := (fun a b => useReach = true -> reachable a b = true).
Lemma reach_iff a b : testReachability useReach reachable a b = true <-> (useReach = true -> reachable a b = true).
Proof. unfold testReachability. destruct useReach; naive_solver. Qed.
Lemma repositioned_iff a b c : repositioned useReach reachable a b c = true <-> moves_again reach a b c.
Proof.
  unfold repositioned, moves_again. rewrite !andb_true_iff, reach_iff, !contactBreaks_eq, !eqs_iff. unfold lost, gained. tauto.
Qed.
Lemma brokenCreated_iff a b c : brokenCreated useReach reachable a b c = true <-> leaves_and_returns reach a b c.
Proof.
  unfold brokenCreated, leaves_and_returns. rewrite !andb_true_iff, reach_iff, !bool_decide_eq_true, !contactBreaks_eq, eqs_iff, !nil_iff.
  unfold lost, gained. tauto.
Qed.
End filters.
Lemma confDistance_sum a b : confDistance a b = R_sqrt.sqrt (sum_sq a b) /\ 0 <= sum_sq a b.
Proof.
  unfold confDistance. revert b. induction a as [|x a IH]; intros b; [split; [done|cbn; lra]|].
  destruct b as [|y b]; [split; [done|cbn; lra]|]. destruct (IH b) as [_ I2].
  assert (E : fold_right Rplus 0 (map (fun '(x, y) => (x - y) * (x - y)) (zip (x :: a) (y :: b))) = sum_sq (x :: a) (y :: b)).
  { clear. revert y b. change (forall y b, fold_right Rplus 0 (map (fun '(x, y) => (x - y) * (x - y)) (zip (x :: a) (y :: b))) = sum_sq (x :: a) (y :: b)).
    revert x. induction a as [|x' a IH]; intros x y b; [destruct b; cbn; ring|]. destruct b as [|y' b]; [cbn; ring|].
    specialize (IH x' y' b). cbn [sum_sq]. cbn [sum_sq] in IH. rewrite <- IH. cbn [zip zip_with map fold_right]. ring. }
  split; [f_equal; exact E|]. cbn [sum_sq]. assert (0 <= (x - y) ^ 2) by apply pow2_ge_0. lra.
Qed.
Lemma same_conf_iff a b : confDistance a b <= epsilon <-> same_conf a b.
Proof.
  destruct (confDistance_sum a b) as [-> H]. unfold same_conf, epsilon.
  assert (0 < / 2 ^ 52) by (apply Rinv_0_lt_compat, pow_lt; lra).
  split; intros Hle.
  - rewrite <- (pow2_sqrt (sum_sq a b) H). apply pow_incr. split; [apply sqrt_pos|exact Hle].
  - rewrite <- (sqrt_pow2 (/ 2 ^ 52)) by lra. apply sqrt_le_1_alt. exact Hle.
Qed.
Lemma keepState_iff a b : keepState a b = false <-> same_place a b.
Proof.
  unfold keepState, same_place. rewrite andb_false_iff, negb_false_iff, andb_true_iff, !bool_decide_eq_true, contactBreaks_eq, !nil_iff.
  unfold lost, gained. split.
  - intros [H|[H1 H2]]; [left; apply same_conf_iff; by apply Rltb_false in H|right; intros k; split; auto].
  - intros [H|H]; [left; by apply Rltb_false, same_conf_iff|right; split; intros k; apply H].
Qed.

Section thinned.
Variable cond : PSt -> PSt -> PSt -> bool.
Variable P : PSt -> PSt -> PSt -> Prop.
Hypothesis HP : forall a b c, cond a b c = true <-> P a b c.
Lemma HPf a b c : cond a b c = false <-> ~ P a b c.
Proof. rewrite <- HP. destruct (cond a b c); naive_solver. Qed.
Lemma skipWith_thinned n : forall m l z, (length l <= n)%nat -> last l = Some z -> thinned P m l (skipWith cond (snd m) l ++ [z]).
Proof.
  induction n as [|n IH]; intros m l z Hn Hl; [destruct l; [done|simpl in Hn; lia]|].
  destruct l as [|c [|p rest]]; [done| |].
  - simpl in Hl. injection Hl as ->. simpl. constructor.
  - cbn [skipWith]. destruct (cond (snd m) (snd c) (snd p)) eqn:E.
    + apply HP in E. destruct rest as [|q rest].
      * simpl in Hl. injection Hl as ->. simpl. by constructor.
      * simpl app. constructor; [done|]. apply IH; [simpl in *; lia|done].
    + apply HPf in E. simpl app. constructor; [done|]. apply IH; [simpl in *; lia|done].
Qed.
Lemma filterWith_thinned a l : l <> [] -> exists res, filterWith cond (a :: l) = a :: res /\ thinned P a l res.
Proof.
  intros Hl. destruct l as [|b [|c r]]; [done| |].
  - exists [b]. split; [done|constructor].
  - destruct (last (a :: b :: c :: r)) as [z|] eqn:E.
    + unfold filterWith. rewrite E. eexists. split; [done|]. eapply skipWith_thinned; [done|]. done.
    + apply last_None in E. done.
Qed.
Lemma thinned_det m l r r' : thinned P m l r -> thinned P m l r' -> r = r'.
Proof.
  intros H. revert r'. induction H; intros r' H'; inversion H'; subst; try done; try (by inversion H0); try (f_equal; auto).
  all: try (by inversion H3). all: try (by inversion H6).
Qed.
Lemma thinned_length m l r : thinned P m l r -> (length r <= length l)%nat /\ (length r = length l -> r = l /\ no_three (fun a b c => P (snd a) (snd b) (snd c)) (m :: l)).
Proof.
  induction 1; simpl in *.
  - split; [lia|]. intros _. split; [done|]. intros [|[|i]] ? ? ? ? ?; done.
  - destruct IHthinned as [I1 I2]. split; [lia|]. intros Hl. destruct I2 as [-> I2]; [lia|]. split; [done|].
    intros [|i] x y z Hx Hy Hz; [simpl in *; congruence|]. apply (I2 i x y z); done.
  - split; [lia|]. intros; lia.
  - split; [lia|]. intros; lia.
Qed.
Lemma thinned_last m l r : thinned P m l r -> last (m :: r) = last (m :: l).
Proof.
  induction 1; done.
Qed.
Lemma thinned_sublist m l r : thinned P m l r -> sublist r l.
Proof.
  induction 1; try done.
  - by apply sublist_skip.
  - apply sublist_cons, sublist_skip, sublist_nil_l.
  - apply sublist_cons. by apply sublist_skip.
Qed.
Lemma thinned_neighbours m l r : thinned P m l r -> consecutive (neighbours P (m :: l)) (m :: r).
Proof.
  assert (Hsh : forall x l a b, neighbours P l a b -> neighbours P (x :: l) a b).
  { intros x l0 a b (i & Hi & H). by exists (S i). }
  induction 1; intros [|i] x y Hx Hy; cbn in Hx, Hy; try (injection Hx as <-); try (injection Hy as <-); try done.
  - exists 0%nat. split; [done|]. by left.
  - exists 0%nat. split; [done|]. by left.
  - apply Hsh. apply (IHthinned i); done.
  - exists 0%nat. split; [done|]. right. exists c. done.
  - exists 0%nat. split; [done|]. right. exists c. done.
  - apply Hsh, Hsh. apply (IHthinned i); done.
Qed.
End thinned.

Lemma obsoleteLoop_pruned (m : sframe) l z : last l = Some z -> pruned same_place m l (obsoleteLoop (snd m) l ++ [z]).
Proof.
  revert m. induction l as [|c l IH]; intros m Hl; [done|]. destruct l as [|p rest].
  - simpl in Hl. injection Hl as ->. constructor.
  - cbn [obsoleteLoop]. destruct (keepState (snd m) (snd c)) eqn:E.
    + simpl app. constructor; [|by apply IH]. rewrite <- keepState_iff, E. done.
    + constructor; [|by apply IH]. by apply keepState_iff.
Qed.
Lemma obsolete_pruned a l : l <> [] -> exists res, FilterObsolete (a :: l) = a :: res /\ pruned same_place a l res.
Proof.
  intros Hl. destruct l as [|b [|c r]]; [done| |].
  - exists [b]. split; [done|constructor].
  - destruct (last (a :: b :: c :: r)) as [z|] eqn:E.
    + unfold FilterObsolete. rewrite E. eexists. split; [done|]. apply obsoleteLoop_pruned. done.
    + apply last_None in E. done.
Qed.
Section pruned.
Variable P : PSt -> PSt -> Prop.
Lemma pruned_length m l r : pruned P m l r -> (length r <= length l)%nat /\
  (length r = length l -> r = l /\ no_three (fun a b c => P (snd a) (snd b)) (m :: l)).
Proof.
  induction 1; simpl in *.
  - split; [lia|]. intros _. split; [done|]. intros [|[|i]] ? ? ? ? ?; done.
  - destruct IHpruned as [I1 I2]. split; [lia|]. intros Hl. destruct I2 as [-> I2]; [lia|]. split; [done|].
    intros [|i] x y z Hx Hy Hz; [simpl in *; congruence|]. apply (I2 i x y z); done.
  - split; [lia|]. intros; lia.
Qed.
Lemma pruned_nonempty m l r : pruned P m l r -> r <> [].
Proof. induction 1; done. Qed.
Lemma pruned_last m l r : pruned P m l r -> last r = last l.
Proof.
  induction 1; try done.
  assert (Hr := pruned_nonempty _ _ _ H0). destruct res; [done|]. simpl in *. done.
Qed.
Lemma pruned_sublist m l r : pruned P m l r -> sublist r l.
Proof. induction 1; [done|by apply sublist_skip|by apply sublist_cons]. Qed.
End pruned.

(** ** Replacements *)
Lemma bindo_ok {A C} (x : outcome A) (f : A -> outcome C) r : bindo x f = Ok r -> exists a, x = Ok a /\ f a = Ok r.
Proof. destruct x; simpl; try done. eauto. Qed.
Lemma at_ok {A} (m : gmap string A) k x : at_ m k = Ok x -> m !! k = Some x.
Proof. unfold at_. destruct (m !! k); [intros [= ->]; done|done]. Qed.
Lemma dist3_shift a b o : dist3 (vadd a o) (vadd b o) = dist3 a b.
Proof. unfold dist3, vsub, vadd. destruct a, b, o; cbn. f_equal. f_equal; ring. Qed.

Lemma EqStringVec_true a b : EqStringVec a b = true <-> a = b.
Proof. unfold EqStringVec. by rewrite bool_decide_eq_true. Qed.
Lemma sameLimbTwice_moves c0 c1 c2 c3 : sameLimbTwice c0 c1 c2 c3 = true -> moves_twice (creations c1 c0) c0 c1 c2 c3.
Proof.
  unfold sameLimbTwice. rewrite !andb_true_iff, !negb_true_iff. intros [[[[H1 H2] H3] H4] H5].
  apply EqStringVec_true in H1, H2, H3. apply not_true_iff_false in H4, H5. rewrite EqStringVec_true in H4, H5.
  unfold moves_twice, moves. split_and!.
  - intros k. rewrite <- in_creations, <- in_breaks, H2. done.
  - intros k. rewrite <- in_creations, <- in_breaks, <- H1, <- H3, H2. done.
  - intros Hk. apply H5. destruct (creations_sorted c0 c1), (creations_sorted c1 c2). apply sorted_same; try done.
    intros k. rewrite (in_creations c1 c2). rewrite (Hk k). done.
  - intros Hk. apply H4. rewrite H2, contactBreaks_eq. destruct (creations_sorted c0 c1), (creations_sorted c2 c1). apply sorted_same; try done.
    intros k. rewrite (in_creations c2 c1). symmetry. apply Hk.
Qed.

Section replace.
Variable useReach : bool.
Variable reachable : PSt -> PSt -> bool.
Notation reach := (fun a b => useReach = true -> reachable a b = true).
Variable solve : projector -> list R -> bool * list R.
Variable axis : vec3 -> vec3 -> vec3.
Variable B : fullbody.
Hypothesis LR : lawful_robot (dev B).
Hypothesis SS : sound_solver (dev B) solve.

Lemma removed_conf limb q (s : PSt) : snd (RemoveContact limb (with_conf q s)) = with_conf q (snd (RemoveContact limb s)).
Proof. unfold RemoveContact, with_conf. cbn. by destruct (has limb (contacts s)). Qed.

Lemma moveContact_redone limb l s q n p root s' : limbsOf B !! limb = Some l ->
  moveContact solve axis B limb l s q n p root = Ok (true, s') -> wholeValid B (configuration s') = true ->
  contact_redone axis B limb l s q n p root s'.
Proof.
  intros Hl H Hv. unfold moveContact in H.
  destruct (projectStateToObstacle solve B axis [] limb l (with_conf q s) n p (wholeValid B) false mzero) as [rep| |] eqn:E1; try done.
  destruct (psuccess rep) eqn:Eok; [|done].
  destruct (projectToRootConfiguration solve B root (presult rep) vzero) as [rep'| |] eqn:E2; try done.
  injection H as Hok <-.
  apply (state_to_obstacle solve axis B LR SS) in E1 as [_ H1]. specialize (H1 Eok). cbn zeta in H1.
  destruct H1 as (f & Hf & _ & _ & _ & Hd & _ & Hs). rewrite removed_conf in Hs.
  apply (root_configuration solve B LR SS) in E2 as [Hsame H2]. specialize (H2 Hok). destruct H2 as (Hheld & Hroot & _).
  specialize (Hroot eq_refl).
  exists f, (tra (fpose (dev B) (configuration (presult rep)) f)), (rot (fpose (dev B) (configuration (presult rep)) f)).
  cbn [state_assign configuration] in *. split_and!; try done.
  - unfold same_but_configuration in *. cbn in *. naive_solver congruence.
  - intros e l0 f0 p0 Hl0 Hf0 Hp0. cbn in Hp0. unfold same_but_configuration in Hsame.
    destruct Hsame as (_ & _ & HP & HR & _). rewrite HP in Hp0. cbn. rewrite HR. by apply Hheld.
Qed.

Lemma replacement_spec c0 c1 c2 c3 s : replacement useReach reachable solve axis B c0 c1 c2 c3 = Ok (Some s) ->
  moves_at_once reach axis B c0 c1 c2 c3 s.
Proof.
  unfold replacement. destruct (creations c3 c2) as [|limb [|? ?]] eqn:Ec; try done.
  destruct (sameLimbTwice c0 c1 c2 c3) eqn:Et; [|done].
  intros H. apply bindo_ok in H as (n & Hn & H). apply bindo_ok in H as (x3 & Hx3 & H).
  apply bindo_ok in H as (l & Hl & H). apply bindo_ok in H as (x1 & Hx1 & H). apply bindo_ok in H as ([ok s'] & Hm & H).
  apply at_ok in Hn, Hx3, Hl, Hx1.
  destruct (Rltb _ _ && ok && wholeValid B (configuration s') && testReachability useReach reachable s' c3) eqn:E; [|done].
  injection H as ->. rewrite !andb_true_iff in E. destruct E as [[[E1 ->] E2] E3].
  apply Rltb_true in E1. rewrite reach_iff in E3. rewrite dist3_shift in E1.
  assert (HS : creations c1 c0 = [limb]).
  { unfold sameLimbTwice in Et. rewrite !andb_true_iff in Et. destruct Et as [[[[H1 H2] H3] _] _].
    apply EqStringVec_true in H1, H2, H3. rewrite <- H2, H3. done. }
  apply sameLimbTwice_moves in Et. rewrite HS in Et.
  exists limb, l, n, x1, x3. split_and!; try done. by apply moveContact_redone.
Qed.
Lemma skipping_spec c0 c1 c2 c3 s : skipping useReach reachable solve axis B c0 c1 c2 c3 = Ok (Some s) ->
  moves_later reach axis B c0 c1 c2 c3 s.
Proof.
  unfold skipping. destruct (creations c2 c1) as [|k [|? ?]] eqn:Ec; try done.
  destruct (sameLimbTwice c0 c1 c2 c3) eqn:Et; [|done]. destruct (creations c1 c0) as [|limb S] eqn:ES; [done|].
  intros H. apply bindo_ok in H as (n0 & Hn & H). apply bindo_ok in H as (x0 & Hx0 & H).
  apply bindo_ok in H as (l & Hl & H). apply bindo_ok in H as (x1 & Hx1 & H). apply bindo_ok in H as (n1 & Hn1 & H).
  apply bindo_ok in H as ([ok s'] & Hm & H).
  apply at_ok in Hn, Hx0, Hl, Hx1, Hn1.
  destruct (Rltb _ _ && ok && wholeValid B (configuration s') && testReachability useReach reachable c0 s' &&
            testReachability useReach reachable s' c3) eqn:E; [|done].
  injection H as ->. rewrite !andb_true_iff in E. destruct E as [[[[E1 ->] E2] E3] E4].
  apply Rltb_true in E1. rewrite reach_iff in E3, E4.
  apply sameLimbTwice_moves in Et. rewrite ES in Et.
  replace (10 / 1000) with (1 / 100) in * by lra.
  exists (limb :: S), limb, l, k, n0, n1, x0, x1. split_and!; try done.
  - left.
  - destruct (creations_sorted c0 c1) as [_ Hs]. rewrite ES in Hs. intros e He. apply elem_of_cons in He as [->|He].
    + reflexivity.
    + inversion Hs as [|? ? _ Hf]; subst. rewrite Forall_forall in Hf. by apply Hf.
  - intros e. rewrite <- in_creations, Ec. apply elem_of_list_singleton.
  - replace (dist3 _ _) with (dist3 (vsub (vadd x1 (loffset l)) (vscale (1 / 100) n1)) (vsub (vadd x0 (loffset l)) (vscale (1 / 100) n0))); [done|].
    unfold dist3, vsub, vadd, vscale. cbn. f_equal. f_equal; ring.
  - by apply moveContact_redone.
Qed.

Section rw.
Variable repl : PSt -> PSt -> PSt -> PSt -> outcome (option PSt).
Variable which : bool.
Variable Q : PSt -> PSt -> PSt -> PSt -> PSt -> Prop.
Hypothesis HQ : forall c0 c1 c2 c3 s, repl c0 c1 c2 c3 = Ok (Some s) -> Q c0 c1 c2 c3 s.
Lemma replaceWith_eq c0 c1 c2 c3 rest : replaceWith repl which (c0 :: c1 :: c2 :: c3 :: rest) =
  match repl (snd c0) (snd c1) (snd c2) (snd c3) with
  | Ok (Some s) =>
    let two := [c0; (fst (if which then c2 else c1), s)] in
    match rest with
    | [] => Ok two
    | [_] => Ok (two ++ [c3])
    | _ => bindo (replaceWith repl which (c3 :: rest)) (fun r => Ok (two ++ r))
    end
  | Ok None => bindo (replaceWith repl which (c1 :: c2 :: c3 :: rest)) (fun r => Ok (c0 :: r))
  | Throw => Throw
  | Ub => Ub
  end.
Proof. reflexivity. Qed.
Lemma replaceWith_spec n : forall l r z, (length l <= n)%nat -> (3 <= length l)%nat -> replaceWith repl which l = Ok r -> last l = Some z ->
  replaced Q which l (r ++ [z]) /\ (length (r ++ [z]) <= length l)%nat /\
  (length (r ++ [z]) = length l -> r ++ [z] = l /\ no_four (fun a b c d => exists s, repl (snd a) (snd b) (snd c) (snd d) = Ok (Some s)) l) /\
  (2 <= length r)%nat /\ r !! 0%nat = l !! 0%nat.
Proof.
  induction n as [|n IH]; intros l r z Hn H3 Hr Hz; [lia|].
  destruct l as [|c0 [|c1 [|c2 [|c3 rest]]]]; try (simpl in H3; lia).
  - simpl in Hr, Hz. injection Hr as <-. injection Hz as <-. simpl. split_and!; try done; try lia; try apply rp_same.
  - rewrite replaceWith_eq in Hr. cbn zeta in Hr. destruct (repl (snd c0) (snd c1) (snd c2) (snd c3)) as [[s|]| |] eqn:E; try done.
    + destruct rest as [|c4 [|c5 rest]].
      * injection Hr as <-. simpl in Hz. injection Hz as <-. simpl. split_and!; try done; try lia.
        apply rp_replace; [by apply HQ|apply rp_same].
      * injection Hr as <-. simpl in Hz. injection Hz as <-. simpl. split_and!; try done; try lia.
        apply rp_replace; [by apply HQ|apply rp_same].
      * apply bindo_ok in Hr as (r' & Hr' & [= <-]). apply (IH _ _ z) in Hr' as (I1 & I2 & I3 & I4 & I5); [|simpl in *; lia..|done].
        simpl app. split_and!; try done.
        -- apply rp_replace; [by apply HQ|done].
        -- simpl in *. lia.
        -- simpl in *. lia.
        -- simpl. lia.
    + apply bindo_ok in Hr as (r' & Hr' & [= <-]). apply (IH _ _ z) in Hr' as (I1 & I2 & I3 & I4 & I5); [|simpl in *; lia..|done].
      simpl app. split_and!; try done.
      -- by apply rp_keep.
      -- simpl in *. lia.
      -- intros Hl. destruct I3 as [-> I3]; [simpl in *; lia|]. split; [done|].
         intros [|i] a b c d Ha Hb Hc Hd; [|by apply (I3 i)].
         simpl in *. injection Ha as <-. injection Hb as <-. injection Hc as <-. injection Hd as <-. rewrite E. intros [? ?]; done.
      -- simpl. lia.
Qed.
Lemma replaceStates_spec l r : replaceStates repl which l = Ok r ->
  replaced Q which l r /\ (length r <= length l)%nat /\ r !! 0%nat = l !! 0%nat /\ last r = last l /\
  (length r = length l -> r = l /\ no_four (fun a b c d => exists s, repl (snd a) (snd b) (snd c) (snd d) = Ok (Some s)) l).
Proof.
  unfold replaceStates. destruct (length l <? 4)%nat eqn:E.
  - apply Nat.ltb_lt in E. intros [= <-]. split_and!; try done; try lia; try apply rp_same.
    intros _. split; [done|]. intros i a b c d _ _ _ Hd. apply lookup_lt_Some in Hd. lia.
  - apply Nat.ltb_ge in E. intros H. apply bindo_ok in H as (r' & Hr & [= <-]).
    destruct (last l) as [z|] eqn:Ez; [|apply last_None in Ez; subst; simpl in E; lia].
    destruct (replaceWith_spec (length l) l r' z (le_n _) ltac:(lia) Hr Ez) as (I1 & I2 & I3 & I4 & I5).
    split_and!; try done.
    + rewrite lookup_app_l by lia. done.
    + by rewrite last_app.
Qed.
End rw.
End replace.
