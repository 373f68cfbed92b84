(** Proofs about the steering method under time-dependent constraints. *)
From Verif Require Import Maps Vec VecProofs ParaModel ParaSpec ParaProofs4 TrajModel TrajSpec TrajProofs TrajProofs2 TrajProofs3 SteerModel SteerSpec.
From Coq Require Import Psatz.
Local Open Scope R_scope.

Section S.
Context (distance : config -> config -> R).
Context (copyFrom : (world -> config -> config * bool) -> (world -> config -> bool) -> config ->
                    (world -> config -> config * bool) * (world -> config -> bool)).
Notation St := (steer distance copyFrom).

Lemma steer_cases s q1 q2 w :
  let p := TCP q1 q2 (distance q1 q2) (steerConstraints copyFrom s q1) (st_rank s) (st_tds s) in
  St s q1 q2 w = (fst (tc_create p w), match snd (tc_create p w) with Ok p => Some p | _ => None end).
Proof. cbn zeta. unfold steer, steerImpl. destruct (tc_create _ w) as [w' r]. reflexivity. Qed.
Lemma create_ok_same p w r : snd (tc_create p w) = Ok r -> r = p.
Proof. unfold tc_create. destruct (tc_check p w) as [w' [[]| |]]; cbn; congruence. Qed.

Lemma steer_fields s q1 q2 w p : snd (St s q1 q2 w) = Some p ->
  tc_init p = q1 /\ tc_end p = q2 /\ tc_len p = distance q1 q2 /\ tc_rank p = st_rank s /\ tc_tds p = st_tds s /\
  (match st_cons s with
   | Some (Projector apply sat) => tc_cons p = Some (Projector (fst (copyFrom apply sat q1)) (snd (copyFrom apply sat q1)))
   | c => tc_cons p = c
   end).
Proof.
  rewrite steer_cases. cbn [snd]. destruct (snd (tc_create _ w)) eqn:E; try discriminate. intros [= <-].
  apply create_ok_same in E. subst. cbn. repeat (split; [reflexivity|]).
  unfold steerConstraints. destruct (st_cons s) as [[|a b]|]; try reflexivity. destruct (copyFrom a b q1). reflexivity.
Qed.

Lemma steer_iff s q1 q2 w :
  (st_cons s = None -> exists p, snd (St s q1 q2 w) = Some p) /\
  (forall apply sat, st_cons s = Some (NoProjector apply sat) ->
     ((exists p, snd (St s q1 q2 w) = Some p) <-> sat q1 = true /\ sat q2 = true)) /\
  (forall apply sat, st_cons s = Some (Projector apply sat) ->
     ((exists p, snd (St s q1 q2 w) = Some p) <->
      forall w1 w2, rightHandSides (st_tds s) (qi q1 (st_rank s)) w w1 -> rightHandSides (st_tds s) (qi q2 (st_rank s)) w w2 ->
        snd (copyFrom apply sat q1) w1 q1 = true /\ snd (copyFrom apply sat q1) w2 q2 = true)).
Proof.
  rewrite steer_cases. cbn [snd].
  set (p := TCP _ _ _ _ _ _). destruct (create_iff p w) as [r [Hr H]]. rewrite Hr. split_and!.
  - intros E. assert (tc_cons p = None) as Ec by (subst p; cbn; unfold steerConstraints; rewrite E; reflexivity).
    rewrite Ec in H. rewrite H. eauto.
  - intros a b E. assert (tc_cons p = Some (NoProjector a b)) as Ec by (subst p; cbn; unfold steerConstraints; rewrite E; reflexivity).
    rewrite Ec in H. destruct H as (w1 & w2 & _ & _ & H). cbn [satisfied] in H. change (tc_init p) with q1 in H. change (tc_end p) with q2 in H.
    destruct H as [(A & B & ->)|(A & ->)]; split; intros X; eauto.
    + destruct X; discriminate.
    + destruct X as [X Y]. rewrite X, Y in A. destruct A; discriminate.
  - intros a b E. assert (tc_cons p = Some (Projector (fst (copyFrom a b q1)) (snd (copyFrom a b q1)))) as Ec
      by (subst p; cbn; unfold steerConstraints; rewrite E; destruct (copyFrom a b q1); reflexivity).
    rewrite Ec in H. destruct H as (w1 & w2 & H1 & H2 & H). cbn [satisfied] in H. change (tc_init p) with q1 in *. change (tc_end p) with q2 in *.
    change (tc_tds p) with (st_tds s) in *. change (tc_rank p) with (st_rank s) in *.
    destruct H as [(A & B & ->)|(A & ->)]; split; intros X; eauto.
    + intros w1' w2' H1' H2'. rewrite (spec_unique _ _ _ _ _ H1' H1), (spec_unique _ _ _ _ _ H2' H2). auto.
    + destruct X; discriminate.
    + destruct (X _ _ H1 H2) as [X1 X2]. rewrite X1, X2 in A. destruct A; discriminate.
Qed.

Lemma steer_frame s q1 q2 w e : ~ e ∈ map td_eq (st_tds s) -> fst (St s q1 q2 w) e = w e.
Proof. intros H. rewrite steer_cases. cbn [fst]. apply create_frame. exact H. Qed.
Lemma actions_frame d s l : ownPaths s l -> forall w e, ~ e ∈ map td_eq (st_tds s) -> afterActions d distance copyFrom s l w e = w e.
Proof.
  intros O. unfold afterActions. induction l as [|a l IH] in O |- *; intros w e He; [reflexivity|]. cbn [fold_left].
  rewrite IH; [|intros u Hu; apply O; apply elem_of_cons; auto|exact He].
  destruct a as [q1 q2|u]; cbn [perform]; [apply steer_frame; exact He|].
  apply use_frame. unfold equations. rewrite (O u) by (apply elem_of_cons; auto). exact He.
Qed.
(** whatever was steered or evaluated in between with the same steering method *)
Lemma steer_later d s l q1 q2 w p t : ownPaths s l -> snd (St s q1 q2 w) = Some p ->
  snd (tc_at d p t (afterActions d distance copyFrom s l w)) = snd (tc_at d p t w) /\
  snd (St s q1 q2 (afterActions d distance copyFrom s l w)) = Some p.
Proof.
  intros O H. destruct (steer_fields _ _ _ _ _ H) as (E1 & E2 & E3 & E4 & E5 & E6). split.
  - apply at_agree. intros e He. apply actions_frame; [exact O|]. unfold equations in He. rewrite E5 in He. exact He.
  - destruct (steer_iff s q1 q2 w) as (N & P & Q).
    destruct (steer_iff s q1 q2 (afterActions d distance copyFrom s l w)) as (N' & P' & Q').
    set (w' := afterActions d distance copyFrom s l w) in *.
    assert (exists p', snd (St s q1 q2 w') = Some p') as [p' Hp'].
    { destruct (st_cons s) as [[a b|a b]|] eqn:Ec.
      - apply (P' a b eq_refl). apply (P a b eq_refl). eauto.
      - apply (Q' a b eq_refl). intros w1 w2 H1 H2. apply (proj1 (Q a b eq_refl) (ex_intro _ p H)).
        + rewrite (spec_unique _ _ _ _ _ H1 (update_spec _ _ _)).
          rewrite (update_agree _ _ w' w); [apply update_spec|].
          intros e He. apply actions_frame; [exact O|]. intros X. apply elem_of_list_fmap in X as (td & -> & X). exact (He _ X eq_refl).
        + rewrite (spec_unique _ _ _ _ _ H2 (update_spec _ _ _)).
          rewrite (update_agree _ _ w' w); [apply update_spec|].
          intros e He. apply actions_frame; [exact O|]. intros X. apply elem_of_list_fmap in X as (td & -> & X). exact (He _ X eq_refl).
      - apply N'. reflexivity. }
    rewrite Hp'. f_equal. destruct (steer_fields _ _ _ _ _ Hp') as (F1 & F2 & F3 & F4 & F5 & F6).
    destruct p, p'. cbn in *. subst. f_equal. destruct (st_cons s) as [[]|]; congruence.
Qed.

(** the ends of the path *)
Lemma steer_ends d s q1 q2 w p : snd (St s q1 q2 w) = Some p -> (forall c, tc_cons p = Some c -> stable c) ->
  snd (tc_at d p 0 w) = (q1, true) /\ (distance q1 q2 <> 0 -> snd (tc_at d p (distance q1 q2) w) = (q2, true)) /\
  (distance q1 q2 = 0 -> forall t, snd (tc_at d p t w) = (q1, true)).
Proof.
  intros H Hs. destruct (steer_fields _ _ _ _ _ H) as (E1 & E2 & E3 & E4 & E5 & E6).
  assert (forall t, (tc_raw d p t = q1 -> snd (tc_at d p t w) = (q1, true)) /\ (tc_raw d p t = q2 -> snd (tc_at d p t w) = (q2, true))) as K.
  { intros t. destruct (steer_iff s q1 q2 w) as (N & P & Q). unfold tc_at, tc_update.
    destruct (st_cons s) as [[a b|a b]|] eqn:Ec.
    - destruct (proj1 (P a b eq_refl) (ex_intro _ p H)) as [S1 S2]. rewrite E6 in *. specialize (Hs _ eq_refl). cbn in Hs.
      split; intros ->; apply Hs; assumption.
    - destruct (proj1 (Q a b eq_refl) (ex_intro _ p H) _ _ (update_spec _ _ _) (update_spec _ _ _)) as [S1 S2].
      rewrite E6 in *. specialize (Hs _ eq_refl). cbn in Hs. rewrite E4, E5.
      split; intros ->; apply Hs; assumption.
    - rewrite E6. split; intros ->; reflexivity. }
  split; [|split].
  - apply K. unfold tc_raw. rewrite (proj2 (Reqb_true 0 0) eq_refl). exact E1.
  - intros Hd. apply K. rewrite <- E3. rewrite (proj2 (raw_ends d p)); [exact E2|]. rewrite E3. exact Hd.
  - intros Hd t. apply K. unfold tc_raw. rewrite (proj2 (Reqb_true (tc_len p) 0)) by congruence. rewrite orb_true_r. exact E1.
Qed.

(** the validation installed beside it: the time never decreases along an accepted path *)
Lemma steer_validated {A} (disc : tcPath -> world -> A) d s q1 q2 w w' p a t1 t2 :
  lawful d -> length q1 = csize d -> length q2 = csize d -> (7 <= csize d)%nat -> (st_rank s < csize d)%nat -> 0 < distance q1 q2 ->
  snd (St s q1 q2 w) = Some p -> tc_validate disc d (st_rank s) p w' = Ok (Discretized a) ->
  0 <= t1 -> t1 <= t2 -> t2 <= distance q1 q2 ->
  qi q1 (st_rank s) <= timeAt p t1 /\ timeAt p t1 <= timeAt p t2 /\ timeAt p t2 <= qi q2 (st_rank s).
Proof.
  intros L L1 L2 L7 Hr Hd H HV T0 T1 T2. destruct (steer_fields _ _ _ _ _ H) as (E1 & E2 & E3 & E4 & E5 & E6).
  destruct (validate_iff disc d (st_rank s) p w') as (v & Hv & w'' & _ & C); [rewrite E1, L1; exact L7|].
  rewrite HV in Hv. injection Hv as <-. destruct C as [(C & _ & _)|(_ & C)]; [|discriminate].
  unfold timeAt. rewrite E1, E2, E3, E4 in *.
  set (D := distance q1 q2) in *. set (a1 := qi q1 (st_rank s)) in *. set (a2 := qi q2 (st_rank s)) in *.
  assert (forall t, t / D = t * / D) as X by reflexivity. rewrite !X.
  assert (0 < / D) as P by (apply Rinv_0_lt_compat; exact Hd).
  assert (0 <= t1 * / D) by (apply Rmult_le_pos; lra).
  assert (t1 * / D <= t2 * / D) by (apply Rmult_le_compat_r; lra).
  assert (t2 * / D <= 1). { replace 1 with (D * / D) by (apply Rinv_r; lra). apply Rmult_le_compat_r; lra. }
  set (u1 := t1 * / D) in *. set (u2 := t2 * / D) in *.
  pose proof (Rmult_le_pos u1 (a2 - a1) ltac:(lra) ltac:(lra)).
  pose proof (Rmult_le_pos (u2 - u1) (a2 - a1) ltac:(lra) ltac:(lra)).
  pose proof (Rmult_le_pos (1 - u2) (a2 - a1) ltac:(lra) ltac:(lra)).
  lra.
Qed.

Lemma steer_projected d s q1 q2 w0 p t w apply sat :
  lawful d -> length q1 = csize d -> length q2 = csize d -> (st_rank s < csize d)%nat -> distance q1 q2 <> 0 ->
  snd (St s q1 q2 w0) = Some p -> st_cons s = Some (Projector apply sat) ->
  exists w' q, rightHandSides (st_tds s) (timeAt p t) w w' /\ tc_at d p t w = (w', fst (copyFrom apply sat q1) w' q) /\
    qi q (st_rank s) = timeAt p t /\ (t = 0 -> q = q1) /\ (t = distance q1 q2 -> q = q2) /\
    (t <> 0 -> t <> distance q1 q2 -> forall i, i <> st_rank s -> qi q i = qi (interp d q1 q2 (t / distance q1 q2)) i).
Proof.
  intros L L1 L2 Hr Hd H Hc. destruct (steer_fields _ _ _ _ _ H) as (E1 & E2 & E3 & E4 & E5 & E6). rewrite Hc in E6.
  rewrite <- E1, <- E2 in *. rewrite <- E3 in Hd.
  destruct (projected_time d p t w _ _ L L1 L2 ltac:(rewrite E4; exact Hr) Hd E6) as (w' & q & A & B & C).
  pose (p0 := TCP (tc_init p) (tc_end p) (tc_len p) None (tc_rank p) (tc_tds p)).
  pose proof (C w) as Cw. fold p0 in Cw. rewrite (at_plain d p0 t w eq_refl) in Cw. injection Cw as Cq.
  exists w', q. rewrite <- E5, <- E4, <- E3. split; [exact A|]. split; [exact B|]. subst q. split; [|split; [|split]].
  - exact (raw_time d p0 t L L1 L2 ltac:(cbn; rewrite E4; exact Hr) Hd).
  - intros ->. exact (proj1 (raw_ends d p0)).
  - intros ->. exact (proj2 (raw_ends d p0) Hd).
  - intros T0 T1 i Hi. exact (raw_other d p0 t i Hi T0 T1 Hd).
Qed.
End S.

(** a copy of the steering method *)
Lemma steer_copy distance copyFrom copyCons s q1 q2 w :
  (forall a b, copyCons (NoProjector a b) = NoProjector a b) ->
  (forall a b, exists a' b', copyCons (Projector a b) = Projector a' b' /\
     forall q w q', fst (copyFrom a' b' q) w q' = fst (copyFrom a b q) w q' /\ snd (copyFrom a' b' q) w q' = snd (copyFrom a b q) w q') ->
  let r := steer distance copyFrom s q1 q2 w in
  let r' := steer distance copyFrom (steerCopy copyCons s) q1 q2 w in
  fst r' = fst r /\
  match snd r, snd r' with
  | Some p, Some p' => tc_init p' = q1 /\ tc_end p' = q2 /\ tc_len p' = tc_len p /\ (forall d t w, tc_at d p' t w = tc_at d p t w)
  | None, None => True
  | _, _ => False
  end.
Proof.
  intros C1 C2. cbn zeta. rewrite !steer_cases. cbn [st_rank st_tds steerCopy fst snd].
  destruct (st_cons s) as [[a b|a b]|] eqn:Ec.
  - replace (steerConstraints copyFrom (steerCopy copyCons s) q1) with (steerConstraints copyFrom s q1)
      by (unfold steerConstraints, steerCopy; cbn [st_cons]; rewrite Ec; cbn [option_map]; rewrite C1; reflexivity).
    split; [reflexivity|]. destruct (snd (tc_create _ w)) eqn:E; auto. apply create_ok_same in E. subst. cbn. auto.
  - destruct (C2 a b) as (a' & b' & E & Ex). 
    unfold steerConstraints, steerCopy. cbn [st_cons]. rewrite Ec. cbn [option_map]. rewrite E.
    assert (forall q w q', fst (copyFrom a' b' q) w q' = fst (copyFrom a b q) w q') as Ex1 by (intros q w0 q'; apply (Ex q w0 q')).
    assert (forall q w q', snd (copyFrom a' b' q) w q' = snd (copyFrom a b q) w q') as Ex2 by (intros q w0 q'; apply (Ex q w0 q')).
    specialize (Ex1 q1). specialize (Ex2 q1). destruct (copyFrom a b q1) as [f g]. destruct (copyFrom a' b' q1) as [f' g']. cbn [fst snd] in Ex1, Ex2.
    unfold tc_create, tc_check, tc_update. cbn [tc_cons tc_init tc_end tc_rank tc_tds satisfied]. rewrite !Ex2.
    destruct (g _ q1); cbn [negb]; [|split; [reflexivity|exact I]]. destruct (g _ q2); cbn [negb fst snd]; [|split; [reflexivity|exact I]].
    split; [reflexivity|]. cbn [tc_init tc_end tc_len]. repeat (split; [reflexivity|]). intros d t w0.
    unfold tc_at, tc_update, tc_raw. cbn [tc_cons tc_init tc_end tc_rank tc_tds tc_len]. rewrite Ex1. reflexivity.
  - replace (steerConstraints copyFrom (steerCopy copyCons s) q1) with (steerConstraints copyFrom s q1)
      by (unfold steerConstraints, steerCopy; cbn [st_cons]; rewrite Ec; reflexivity).
    split; [reflexivity|]. destruct (snd (tc_create _ w)) eqn:E; auto. apply create_ok_same in E. subst. cbn. auto.
Qed.
