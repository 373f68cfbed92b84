(** Proofs about the reference positions of the limbs. *)
From Coq Require Import Reals Lra Lia.
From Verif Require Import Maps MapsProofs Vec VecProofs ProjModel ProjSpec ProjProofs ProjProofs2 LimbModel LimbProofs RefModel RefSpec.
Local Open Scope R_scope.

Lemma turned_matrix w x y z v : mapp (toRotationMatrix (w, V3 x y z)) v = turned w (V3 x y z) v.
Proof.
  destruct v as [a b c]. unfold toRotationMatrix, turned, mapp, vdot, vadd, vscale, vcross. cbn. apply vec3_ext; cbn; ring.
Qed.
Lemma from_root q x p : root_ok q -> fromRoot q x = Ok p -> seen_from_root q p x.
Proof.
  intros (px & py & pz & a & b & c & w & rest & -> & Hq) H. cbn [fromRoot] in H. injection H as <-.
  intros px' py' pz' a' b' c' w' rest' E. injection E as <- <- <- <- <- <- <- _. rewrite <- turned_matrix.
  assert (Hr : is_rotation (toRotationMatrix (w, V3 a b c))) by (apply toRotationMatrix_rotation; lra).
  set (M := toRotationMatrix (w, V3 a b c)) in *.
  assert (E := inverseAct_act (SE3 M (V3 px py pz)) x Hr). unfold se3act, inverseAct in E. cbn [rot tra] in E.
  assert (E2 : mapp (mtr M) (vsub x (V3 px py pz)) = vadd (mapp (mtr M) x) (mapp (mtr M) (vopp (V3 px py pz)))).
  { clear. destruct M as [[m1 m2 m3] [m4 m5 m6] [m7 m8 m9]], x as [x1 x2 x3]. unfold mapp, mtr, vsub, vadd, vopp, vdot. cbn. apply vec3_ext; cbn; ring. }
  match goal with |- context [mtr (M3 ?r1 ?r2 ?r3)] => change (M3 r1 r2 r3) with M end. rewrite E2. symmetry. rewrite <- E at 2. generalize (mapp M (vadd (mapp (mtr M) x) (mapp (mtr M) (vopp (V3 px py pz))))). intros v. clear.
  destruct v. unfold vadd. cbn. apply vec3_ext; cbn; ring.
Qed.
Lemma from_root_defined q x : root_ok q -> exists p, fromRoot q x = Ok p.
Proof. intros (px & py & pz & a & b & c & w & rest & -> & _). cbn. eauto. Qed.

Section proofs.
Variable neutral : list R.
Hypothesis neutral_ok : root_ok neutral.
Notation newLimb := (newLimb neutral).
Notation step := (step neutral).
Notation run := (run neutral).
Notation history := (history neutral).

Lemma newLimb_ok eff off nor d : exists l, newLimb eff off nor d = Ok (l, mkDevice neutral neutral) /\ l_eff l = eff /\
  l_offset l = mapp (mtr (rot (eff (computed d)))) off /\ l_normal l = mapp (mtr (rot (eff (computed d)))) nor /\
  seen_from_root neutral (l_ref l) (tra (eff neutral)).
Proof.
  destruct neutral_ok as (px & py & pz & a & b & c & w & rest & E & Hq).
  destruct (create_ok eff neutral (fun _ => Ok []) off nor d px py pz a b c w rest [] E) as (p & Hp & Hx); [lra|reflexivity|].
  unfold RefModel.newLimb. rewrite Hp. eexists. split; [reflexivity|]. cbn [l_eff l_offset l_normal l_ref]. split; [reflexivity|].
  split; [reflexivity|]. split; [reflexivity|]. intros px' py' pz' a' b' c' w' rest' E'. rewrite E in E'. injection E' as <- <- <- <- <- <- <- _.
  rewrite <- Hx. unfold se3act. cbn [rot tra]. rewrite turned_matrix. destruct (turned w (V3 a b c) p). unfold vadd. cbn. apply vec3_ext; cbn; ring.
Qed.

Lemma run_app h1 : forall h2 b, run (h1 ++ h2) b = match run h1 b with Ok b' => run h2 b' | Throw => Throw | Ub => Ub end.
Proof.
  induction h1 as [|o h1 IH]; intros h2 b; [reflexivity|]. cbn. destruct (step o b) as [[t b']| |]; [apply IH|reflexivity|reflexivity].
Qed.
Lemma last_given_app q h1 h2 : last_given q (h1 ++ h2) = last_given (last_given q h1) h2.
Proof. revert q. induction h1 as [|o h1 IH]; intros q; [reflexivity|]. destruct o; cbn; apply IH. Qed.

Definition limb_of (d0 : device) (h : list rop) (id : string) (l : rlimb) : Prop :=
  exists h1 eff off nor h2 b1, h = h1 ++ RAdd id eff off nor None :: h2 /\ ~ has_added id h1 /\ history d0 h1 = Ok b1 /\
    l_eff l = eff /\ l_offset l = mapp (mtr (rot (eff (computed (r_dev b1))))) off /\ l_normal l = mapp (mtr (rot (eff (computed (r_dev b1))))) nor /\
    seen_from_root (last_given neutral h2) (l_ref l) (tra (eff (last_given neutral h2))).
Definition non_of (d0 : device) (h : list rop) (id : string) (l : rlimb) : Prop :=
  exists h1 eff h2 b1, h = h1 ++ RAddNon id eff None :: h2 /\ ~ has_added_non id h1 /\ history d0 h1 = Ok b1 /\
    l_eff l = eff /\ l_normal l = mapp (mtr (rot (eff (computed (r_dev b1))))) (V3 0 0 1) /\
    seen_from_root neutral (l_ref l) (tra (eff neutral)).
Definition told (d0 : device) (h : list rop) (b : rbody) : Prop :=
  r_reference b = last_given neutral h /\
  (forall id, is_Some (r_limbs b !! id) <-> has_added id h) /\
  (forall id, is_Some (r_non b !! id) <-> has_added_non id h) /\
  (forall id l, r_limbs b !! id = Some l -> limb_of d0 h id l) /\
  (forall id l, r_non b !! id = Some l -> non_of d0 h id l).

Lemma limb_more d0 h o id l : (forall q, o <> RRef q) -> limb_of d0 h id l -> limb_of d0 (h ++ [o]) id l.
Proof.
  intros Ho (h1 & eff & off & nor & h2 & b1 & -> & Hn & Hh & He & H1 & H2 & Hr). exists h1, eff, off, nor, (h2 ++ [o]), b1.
  rewrite last_given_app. assert (E : last_given (last_given neutral h2) [o] = last_given neutral h2) by (destruct o; try reflexivity; destruct (Ho q); reflexivity).
  rewrite E. rewrite <- app_assoc. cbn [app]. repeat split; assumption.
Qed.
Lemma non_more d0 h o id l : non_of d0 h id l -> non_of d0 (h ++ [o]) id l.
Proof.
  intros (h1 & eff & h2 & b1 & -> & Hn & Hh & He & H2 & Hr). exists h1, eff, (h2 ++ [o]), b1.
  rewrite <- app_assoc. cbn [app]. repeat split; assumption.
Qed.
Lemma added_snoc id h o : has_added id (h ++ [o]) <-> has_added id h \/ exists eff off nor, o = RAdd id eff off nor None.
Proof.
  unfold has_added. setoid_rewrite elem_of_app. setoid_rewrite elem_of_list_singleton. split.
  - intros (eff & off & nor & [H|H]); [left; eauto|right; eauto].
  - intros [(eff & off & nor & H)|(eff & off & nor & H)]; exists eff, off, nor; auto.
Qed.
Lemma added_non_snoc id h o : has_added_non id (h ++ [o]) <-> has_added_non id h \/ exists eff, o = RAddNon id eff None.
Proof.
  unfold has_added_non. setoid_rewrite elem_of_app. setoid_rewrite elem_of_list_singleton. split.
  - intros (eff & [H|H]); [left; eauto|right; eauto].
  - intros [(eff & H)|(eff & H)]; exists eff; auto.
Qed.

Lemma has_some {A} k (m : gmap string A) : has k m = true <-> is_Some (m !! k).
Proof. unfold has. destruct (m !! k); split; intros H; eauto; try done. by destruct H. Qed.

(** nothing but the robot changes *)
Lemma told_same d0 h o b d : (forall q, o <> RRef q) ->
  (forall id, (exists eff off nor, o = RAdd id eff off nor None) -> has_added id h) ->
  (forall id, (exists eff, o = RAddNon id eff None) -> has_added_non id h) ->
  told d0 h b -> told d0 (h ++ [o]) (mkRbody (r_limbs b) (r_non b) (r_reference b) d).
Proof.
  intros Ho Ha Hb (T1 & T2 & T3 & T4 & T5). split; [|split; [|split; [|split]]]; cbn [r_limbs r_non r_reference].
  - rewrite T1, last_given_app. destruct o; try reflexivity. destruct (Ho q); reflexivity.
  - intros id. rewrite added_snoc, T2. split; [auto|]. intros [H|H]; [exact H|exact (Ha id H)].
  - intros id. rewrite added_non_snoc, T3. split; [auto|]. intros [H|H]; [exact H|exact (Hb id H)].
  - intros id l H. apply limb_more; auto.
  - intros id l H. apply non_more; auto.
Qed.
Lemma told_same_body d0 h o b : (forall q, o <> RRef q) ->
  (forall id, (exists eff off nor, o = RAdd id eff off nor None) -> has_added id h) ->
  (forall id, (exists eff, o = RAddNon id eff None) -> has_added_non id h) ->
  told d0 h b -> told d0 (h ++ [o]) b.
Proof. intros. destruct b as [a1 a2 a3 a4]. exact (told_same d0 h o (mkRbody a1 a2 a3 a4) a4 ltac:(assumption) ltac:(assumption) ltac:(assumption) ltac:(assumption)). Qed.

Lemma step_told d0 h o b t b' : history d0 h = Ok b -> (forall q, o = RRef q -> root_ok q) -> told d0 h b ->
  step o b = Ok (t, b') -> told d0 (h ++ [o]) b'.
Proof.
  intros Hh Hq T. assert (T' := T). destruct T' as (T1 & T2 & T3 & T4 & T5).
  destruct o as [id eff off nor fails|id eff fails|q|d]; cbn [RefModel.step].
  - destruct (has id (r_limbs b)) eqn:Eh.
    + intros [= <- <-]. apply told_same_body; auto; try discriminate.
      * intros id' (e' & o' & n' & [= <- <- <- <- ->]). apply T2. apply has_some. exact Eh.
      * intros id' (e' & [=]).
    + destruct fails as [d|].
      * intros [= <- <-]. apply told_same; auto; try discriminate; intros ? [? H]; [destruct H as (? & ? & [=])|discriminate].
      * destruct (newLimb_ok eff off nor (r_dev b)) as (l & -> & E1 & E2 & E3 & E4). intros [= <- <-].
        assert (Hnew : ~ has_added id h).
        { rewrite <- T2, <- has_some, Eh. discriminate. }
        split; [|split; [|split; [|split]]]; cbn [r_limbs r_non r_reference].
        -- rewrite T1, last_given_app. reflexivity.
        -- intros id'. rewrite added_snoc, <- T2. destruct (decide (id' = id)) as [->|Hne].
           ++ rewrite lookup_insert. split; [intros _; right; eauto|intros _; eauto].
           ++ rewrite lookup_insert_ne by auto. split; [auto|]. intros [H|(? & ? & ? & [=])]; [exact H|congruence].
        -- intros id'. rewrite added_non_snoc, <- T3. split; [auto|]. intros [H|(? & [=])]; exact H.
        -- intros id' l' H. destruct (decide (id' = id)) as [->|Hne].
           ++ rewrite lookup_insert in H. injection H as <-. exists h, eff, off, nor, [], b. repeat split; auto.
           ++ rewrite lookup_insert_ne in H by auto. apply limb_more; [discriminate|auto].
        -- intros id' l' H. apply non_more. auto.
  - destruct (has id (r_non b)) eqn:Eh.
    + intros [= <- <-]. apply told_same_body; auto; try discriminate.
      * intros id' (e' & o' & n' & [=]).
      * intros id' (e' & [= <- <- ->]). apply T3. apply has_some. exact Eh.
    + destruct fails as [d|].
      * intros [= <- <-]. apply told_same; auto; try discriminate; intros ? [? H]; [destruct H as (? & ? & [=])|discriminate].
      * destruct (newLimb_ok eff vzero (V3 0 0 1) (r_dev b)) as (l & -> & E1 & E2 & E3 & E4). intros [= <- <-].
        assert (Hnew : ~ has_added_non id h).
        { rewrite <- T3, <- has_some, Eh. discriminate. }
        split; [|split; [|split; [|split]]]; cbn [r_limbs r_non r_reference].
        -- rewrite T1, last_given_app. reflexivity.
        -- intros id'. rewrite added_snoc, <- T2. split; [auto|]. intros [H|(? & ? & ? & [=])]; exact H.
        -- intros id'. rewrite added_non_snoc, <- T3. destruct (decide (id' = id)) as [->|Hne].
           ++ rewrite lookup_insert. split; [intros _; right; eauto|intros _; eauto].
           ++ rewrite lookup_insert_ne by auto. split; [auto|]. intros [H|(? & [=])]; [exact H|congruence].
        -- intros id' l' H. apply limb_more; [discriminate|auto].
        -- intros id' l' H. destruct (decide (id' = id)) as [->|Hne].
           ++ rewrite lookup_insert in H. injection H as <-. exists h, eff, [], b. repeat split; auto.
           ++ rewrite lookup_insert_ne in H by auto. apply non_more. auto.
  - unfold referenceConfig. destruct (length q <? 7)%nat; [discriminate|]. intros [= <- <-].
    assert (Hr := Hq q eq_refl).
    split; [|split; [|split; [|split]]]; cbn [r_limbs r_non r_reference].
    + rewrite last_given_app. reflexivity.
    + intros id. rewrite added_snoc, <- T2, lookup_fmap, fmap_is_Some. split; [auto|]. intros [H|(? & ? & ? & [=])]; exact H.
    + intros id. rewrite added_non_snoc, <- T3. split; [auto|]. intros [H|(? & [=])]; exact H.
    + intros id l H. rewrite lookup_fmap in H. destruct (r_limbs b !! id) as [l0|] eqn:El; [|discriminate]. cbn in H.
      destruct (T4 id l0 El) as (h1 & eff & off & nor & h2 & b1 & -> & Hn & Hh1 & He & H1 & H2 & _).
      unfold refresh in H. destruct (from_root_defined q (tra (l_eff l0 q)) Hr) as [p Hp]. rewrite Hp in H. injection H as <-.
      exists h1, eff, off, nor, (h2 ++ [RRef q]), b1. rewrite <- app_assoc. cbn [app l_eff l_offset l_normal l_ref].
      rewrite last_given_app. cbn [last_given]. rewrite He in Hp. repeat split; auto. apply from_root; assumption.
    + intros id l H. apply non_more. auto.
  - intros [= <- <-]. apply told_same; auto; try discriminate; intros ? [? H]; [destruct H as (? & ? & [=])|discriminate].
Qed.

Theorem history_told d0 h b : refs_ok h -> history d0 h = Ok b -> told d0 h b.
Proof.
  revert b. induction h as [|o h IH] using rev_ind; intros b Hq Hh.
  - injection Hh as <-. split; [reflexivity|]. cbn [r_limbs r_non]. split; [|split; [|split]].
    + intros id. rewrite lookup_empty. split; [intros [? [=]]|intros (? & ? & ? & H); inversion H].
    + intros id. rewrite lookup_empty. split; [intros [? [=]]|intros (? & H); inversion H].
    + intros id l. rewrite lookup_empty. discriminate.
    + intros id l. rewrite lookup_empty. discriminate.
  - unfold RefModel.history in Hh. rewrite run_app in Hh. destruct (run h _) as [b0| |] eqn:E0; try discriminate.
    cbn in Hh. destruct (step o b0) as [[t b']| |] eqn:Es; try discriminate. injection Hh as <-.
    eapply step_told; [exact E0| |apply IH; [|exact E0]|exact Es].
    + intros q ->. apply Hq. apply elem_of_app. right. apply elem_of_list_singleton. reflexivity.
    + intros q H. apply Hq. apply elem_of_app. auto.
Qed.
Theorem history_defined d0 h : refs_ok h -> exists b, history d0 h = Ok b.
Proof.
  intros Hq. unfold RefModel.history. generalize (mkRbody ∅ ∅ neutral d0). induction h as [|o h IH]; intros b; [eexists; reflexivity|].
  assert (Hq' : refs_ok h) by (intros q H; apply Hq; right; exact H).
  cbn [RefModel.run]. destruct o as [id eff off nor fails|id eff fails|q|d]; cbn [RefModel.step].
  - destruct (has id (r_limbs b)); [apply IH; exact Hq'|]. destruct fails; [apply IH; exact Hq'|].
    destruct (newLimb_ok eff off nor (r_dev b)) as (l & -> & _). apply IH. exact Hq'.
  - destruct (has id (r_non b)); [apply IH; exact Hq'|]. destruct fails; [apply IH; exact Hq'|].
    destruct (newLimb_ok eff vzero (V3 0 0 1) (r_dev b)) as (l & -> & _). apply IH. exact Hq'.
  - destruct (Hq q) as (px & py & pz & a & b' & c & w & rest & -> & _); [left|]. unfold referenceConfig. cbn [length Nat.ltb Nat.leb].
    apply IH. exact Hq'.
  - apply IH. exact Hq'.
Qed.
Theorem left_at d0 h o b : refs_ok (h ++ [o]) -> history d0 (h ++ [o]) = Ok b ->
  match o with
  | RRef q => r_dev b = mkDevice q q
  | RAdd id _ _ _ None => ~ has_added id h -> r_dev b = mkDevice neutral neutral
  | RAddNon id _ None => ~ has_added_non id h -> r_dev b = mkDevice neutral neutral
  | RAdd id _ _ _ (Some d) => ~ has_added id h -> r_dev b = d
  | RAddNon id _ (Some d) => ~ has_added_non id h -> r_dev b = d
  | RMove d => r_dev b = d
  end.
Proof.
  intros Hq Hh. unfold RefModel.history in Hh. rewrite run_app in Hh. destruct (run h _) as [b0| |] eqn:E0; try discriminate.
  assert (Hq0 : refs_ok h) by (intros q H; apply Hq, elem_of_app; auto).
  assert (T := history_told d0 h b0 Hq0 E0). destruct T as (_ & T2 & T3 & _).
  cbn in Hh. destruct o as [id eff off nor [d|]|id eff [d|]|q|d]; cbn [RefModel.step] in Hh.
  - intros Hn. rewrite <- T2, <- has_some in Hn. destruct (has id (r_limbs b0)); [congruence|]. injection Hh as <-. reflexivity.
  - intros Hn. rewrite <- T2, <- has_some in Hn. destruct (has id (r_limbs b0)); [congruence|].
    destruct (newLimb_ok eff off nor (r_dev b0)) as (l & El & _). rewrite El in Hh. injection Hh as <-. reflexivity.
  - intros Hn. rewrite <- T3, <- has_some in Hn. destruct (has id (r_non b0)); [congruence|]. injection Hh as <-. reflexivity.
  - intros Hn. rewrite <- T3, <- has_some in Hn. destruct (has id (r_non b0)); [congruence|].
    destruct (newLimb_ok eff vzero (V3 0 0 1) (r_dev b0)) as (l & El & _). rewrite El in Hh. injection Hh as <-. reflexivity.
  - unfold referenceConfig in Hh. destruct (length q <? 7)%nat; [discriminate|]. injection Hh as <-. reflexivity.
  - injection Hh as <-. reflexivity.
Qed.
(** a limb created just after the reference configuration has been given *)
Theorem added_after d0 h q id eff off nor b : refs_ok (h ++ [RRef q]) -> ~ has_added id h ->
  history d0 (h ++ [RRef q; RAdd id eff off nor None]) = Ok b ->
  r_reference b = q /\ exists l, r_limbs b !! id = Some l /\
    l_offset l = mapp (mtr (rot (eff q))) off /\ l_normal l = mapp (mtr (rot (eff q))) nor /\
    seen_from_root neutral (l_ref l) (tra (eff neutral)).
Proof.
  intros Hq Hn Hh.
  assert (E : h ++ [RRef q; RAdd id eff off nor None] = (h ++ [RRef q]) ++ [RAdd id eff off nor None]) by (rewrite <- app_assoc; reflexivity).
  rewrite E in Hh. unfold RefModel.history in Hh. rewrite run_app in Hh. destruct (run (h ++ [RRef q]) _) as [b0| |] eqn:E0; try discriminate.
  assert (D := left_at d0 h (RRef q) b0 Hq E0). cbn in D.
  assert (T := history_told d0 _ b0 Hq E0). destruct T as (T1 & T2 & _). rewrite last_given_app in T1. cbn in T1.
  cbn in Hh. destruct (has id (r_limbs b0)) eqn:Eh.
  { exfalso. apply has_some in Eh. apply T2 in Eh. apply added_snoc in Eh as [H|(? & ? & ? & [=])]. contradiction. }
  destruct (newLimb_ok eff off nor (r_dev b0)) as (l & El & E1 & E2 & E3 & E4). rewrite El in Hh. injection Hh as <-.
  cbn [r_reference r_limbs]. split; [exact T1|]. exists l. rewrite lookup_insert. split; [reflexivity|]. rewrite D in E2, E3. auto.
Qed.
(** which calls throw, and what is left then *)
Theorem refused_calls d0 h o b : refs_ok h -> history d0 h = Ok b -> (forall q, o = RRef q -> root_ok q) ->
  exists t b', step o b = Ok (t, b') /\ history d0 (h ++ [o]) = Ok b' /\ (t = true <-> throws_after h o) /\
    (t = true -> r_limbs b' = r_limbs b /\ r_non b' = r_non b /\ r_reference b' = r_reference b).
Proof.
  intros Hq Hh Ho. assert (T := history_told d0 h b Hq Hh). destruct T as (_ & T2 & T3 & _).
  assert (G : exists t b', step o b = Ok (t, b') /\ (t = true <-> throws_after h o) /\
    (t = true -> r_limbs b' = r_limbs b /\ r_non b' = r_non b /\ r_reference b' = r_reference b)).
  { destruct o as [id eff off nor fails|id eff fails|q|d]; cbn [RefModel.step throws_after].
    - assert (E : has_added id h <-> has id (r_limbs b) = true) by (rewrite has_some; symmetry; apply T2). destruct (has id (r_limbs b)) eqn:Eh.
      + exists true, b. split; [reflexivity|]. split; [split; [intros _; left; apply E; reflexivity|auto]|auto].
      + destruct fails as [d|].
        * eexists _, _. split; [reflexivity|]. split; [split; eauto|]. intros _. repeat split; reflexivity.
        * destruct (newLimb_ok eff off nor (r_dev b)) as (l & -> & _). eexists _, _. split; [reflexivity|].
          split; [|discriminate]. split; [discriminate|]. intros [H|[? H]]; [apply E in H|]; discriminate.
    - assert (E : has_added_non id h <-> has id (r_non b) = true) by (rewrite has_some; symmetry; apply T3). destruct (has id (r_non b)) eqn:Eh.
      + exists true, b. split; [reflexivity|]. split; [split; [intros _; left; apply E; reflexivity|auto]|auto].
      + destruct fails as [d|].
        * eexists _, _. split; [reflexivity|]. split; [split; eauto|]. intros _. repeat split; reflexivity.
        * destruct (newLimb_ok eff vzero (V3 0 0 1) (r_dev b)) as (l & -> & _). eexists _, _. split; [reflexivity|].
          split; [|discriminate]. split; [discriminate|]. intros [H|[? H]]; [apply E in H|]; discriminate.
    - destruct (Ho q eq_refl) as (px & py & pz & a & b' & c & w & rest & -> & _). unfold referenceConfig. cbn [length Nat.ltb Nat.leb].
      eexists _, _. split; [reflexivity|]. split; [|discriminate]. split; [discriminate|contradiction].
    - eexists _, _. split; [reflexivity|]. split; [|discriminate]. split; [discriminate|contradiction]. }
  destruct G as (t & b' & Hs & G1 & G2). exists t, b'. split; [exact Hs|]. split; [|split; assumption].
  unfold RefModel.history in Hh |- *. rewrite run_app, Hh. cbn. rewrite Hs. reflexivity.
Qed.
End proofs.
