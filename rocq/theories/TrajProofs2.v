(** Proofs about the paths with constraints that depend on time. *)
From Verif Require Import Maps Vec VecProofs ParaModel ParaSpec ParaProofs4 TrajModel TrajSpec TrajProofs.
From Coq Require Import Psatz FunctionalExtensionality.
Local Open Scope R_scope.

Lemma rhsAt_reference f s : rhsAt f s = f_map f (reference (f_ref f) s).
Proof. unfold rhsAt, reference. do 2 f_equal. ring. Qed.
(** ** the update of the right hand sides *)
Lemma update_spec tds s : forall w, rightHandSides tds s w (updateRhs tds s w).
Proof.
  induction tds as [|t tl IH]; intros w e; cbn [updateRhs].
  - right. split; [intros t' Ht'; inversion Ht'|reflexivity].
  - destruct (IH (td_apply t s w) e) as [(pre & td & post & E1 & E2 & E3 & E4)|[N E]].
    + left. exists (t :: pre), td, post. split; [rewrite E1; reflexivity|]. auto.
    + destruct (Nat.eq_dec (td_eq t) e) as [<-|Ne].
      * left. exists [], t, tl. repeat split; try assumption. rewrite E. unfold td_apply, assign. rewrite Nat.eqb_refl. apply rhsAt_reference.
      * right. split.
        -- intros t' Ht'. apply elem_of_cons in Ht' as [->|Ht']; [exact Ne|apply N, Ht'].
        -- rewrite E. unfold td_apply, assign. destruct (Nat.eqb_spec e (td_eq t)); [congruence|reflexivity].
Qed.
Lemma split_last {A} (P : A -> Prop) (l pre pre' post post' : list A) x x' :
  l = pre ++ x :: post -> l = pre' ++ x' :: post' -> P x -> P x' -> (forall y, y ∈ post -> ~ P y) -> (forall y, y ∈ post' -> ~ P y) -> x = x'.
Proof.
  revert l pre'. induction pre as [|a pre IH]; intros l pre' E E' Px Px' N N'.
  - destruct pre' as [|a' pre'].
    + rewrite E in E'. injection E' as -> _. reflexivity.
    + rewrite E in E'. injection E' as _ E'. exfalso. apply (N x'); [|exact Px']. rewrite E'. apply elem_of_app. right. left.
  - destruct pre' as [|a' pre'].
    + rewrite E in E'. injection E' as _ E'. exfalso. apply (N' x); [|exact Px]. rewrite <- E'. apply elem_of_app. right. left.
    + rewrite E in E'. injection E' as _ E'. eapply IH; [reflexivity|exact E'|..]; assumption.
Qed.
Lemma spec_unique tds s w w1 w2 : rightHandSides tds s w w1 -> rightHandSides tds s w w2 -> w1 = w2.
Proof.
  intros H1 H2. apply functional_extensionality. intros e.
  destruct (H1 e) as [(pre & td & post & E1 & E2 & E3 & E4)|[N E]]; destruct (H2 e) as [(pre' & td' & post' & E1' & E2' & E3' & E4')|[N' E']].
  - assert (td = td') as <- by (eapply (split_last (fun t => td_eq t = e)); eauto). rewrite E4, E4'. reflexivity.
  - exfalso. apply (N' td); [|exact E2]. rewrite E1. apply elem_of_app. right. left.
  - exfalso. apply (N td'); [|exact E2']. rewrite E1'. apply elem_of_app. right. left.
  - rewrite E, E'. reflexivity.
Qed.
(** worlds that agree on the equations that are not updated have the same update *)
Lemma update_agree tds s w1 w2 : (forall e, (forall t, t ∈ tds -> td_eq t <> e) -> w1 e = w2 e) -> updateRhs tds s w1 = updateRhs tds s w2.
Proof.
  intros H. apply (spec_unique tds s w2); [|apply update_spec]. intros e.
  destruct (update_spec tds s w1 e) as [(pre & td & post & E)|[N E]]; [left; eauto|].
  right. split; [exact N|]. rewrite E. apply H, N.
Qed.
Lemma update_elsewhere tds s w e : (forall t, t ∈ tds -> td_eq t <> e) -> updateRhs tds s w e = w e.
Proof.
  intros H. destruct (update_spec tds s w e) as [(pre & td & post & E1 & E2 & _)|[_ E]]; [|exact E].
  exfalso. apply (H td); [|exact E2]. rewrite E1. apply elem_of_app. right. left.
Qed.
Lemma not_equation p e : ~ e ∈ equations p <-> (forall t, t ∈ tc_tds p -> td_eq t <> e).
Proof.
  unfold equations. split.
  - intros H t Ht E. apply H. apply elem_of_list_fmap. exists t. auto.
  - intros H He. apply elem_of_list_fmap in He as (t & -> & Ht). apply (H t Ht eq_refl).
Qed.
Lemma update_frame p q w e : ~ e ∈ equations p -> tc_update p q w e = w e.
Proof.
  intros H. unfold tc_update. destruct (tc_cons p) as [[]|]; try reflexivity. apply update_elsewhere, not_equation, H.
Qed.

(** ** the configuration before the projection *)
Lemma raw_ends d p : tc_raw d p 0 = tc_init p /\ (tc_len p <> 0 -> tc_raw d p (tc_len p) = tc_end p).
Proof.
  split.
  - unfold tc_raw. rewrite (proj2 (Reqb_true 0 0) eq_refl). reflexivity.
  - intros H. unfold tc_raw. rewrite (proj2 (Reqb_false _ _) H), (proj2 (Reqb_true (tc_len p) (tc_len p)) eq_refl). reflexivity.
Qed.
Lemma raw_inside d p t : t <> 0 -> t <> tc_len p -> tc_len p <> 0 ->
  tc_raw d p t = <[tc_rank p := timeAt p t]> (interp d (tc_init p) (tc_end p) (t / tc_len p)).
Proof.
  intros H1 H2 H3. unfold tc_raw. rewrite !(proj2 (Reqb_false _ _)) by assumption. cbn [orb].
  replace ((t - 0) / (tc_len p - 0)) with (t / tc_len p) by (rewrite !Rminus_0_r; reflexivity).
  f_equal. unfold extraDof, timeAt. ring.
Qed.
Lemma raw_time d p t : lawful d -> length (tc_init p) = csize d -> length (tc_end p) = csize d -> (tc_rank p < csize d)%nat ->
  tc_len p <> 0 -> qi (tc_raw d p t) (tc_rank p) = timeAt p t.
Proof.
  intros L L1 L2 Hr Hl. destruct (Req_EM_T t 0) as [->|N0].
  - rewrite (proj1 (raw_ends d p)). unfold timeAt. field. exact Hl.
  - destruct (Req_EM_T t (tc_len p)) as [->|N1].
    + rewrite (proj2 (raw_ends d p)) by exact Hl. unfold timeAt. field. exact Hl.
    + rewrite raw_inside by assumption. apply qi_insert_eq. destruct L as (_ & L & _). rewrite L by assumption. exact Hr.
Qed.
Lemma raw_other d p t i : i <> tc_rank p -> t <> 0 -> t <> tc_len p -> tc_len p <> 0 ->
  qi (tc_raw d p t) i = qi (interp d (tc_init p) (tc_end p) (t / tc_len p)) i.
Proof. intros Hi H1 H2 H3. rewrite raw_inside by assumption. apply qi_insert_ne. congruence. Qed.

(** ** evaluation *)
Lemma at_projector d p t w apply sat : tc_cons p = Some (Projector apply sat) ->
  exists w', rightHandSides (tc_tds p) (qi (tc_raw d p t) (tc_rank p)) w w' /\ tc_at d p t w = (w', apply w' (tc_raw d p t)).
Proof.
  intros E. eexists. split; [apply update_spec|]. unfold tc_at, tc_update. rewrite E. reflexivity.
Qed.
Lemma at_plain d p t w : tc_cons p = None -> tc_at d p t w = (w, (tc_raw d p t, true)).
Proof. intros E. unfold tc_at, tc_update. rewrite E. reflexivity. Qed.
Lemma at_agree d p t w1 w2 : (forall e, ~ e ∈ equations p -> w1 e = w2 e) -> snd (tc_at d p t w1) = snd (tc_at d p t w2).
Proof.
  intros H. unfold tc_at, tc_update. destruct (tc_cons p) as [[]|]; cbn [snd]; try reflexivity.
  rewrite (update_agree (tc_tds p) _ w1 w2); [reflexivity|]. intros e He. apply H, not_equation, He.
Qed.
Lemma at_frame d p t w e : ~ e ∈ equations p -> fst (tc_at d p t w) e = w e.
Proof. intros H. unfold tc_at. cbn [fst]. apply update_frame, H. Qed.
Lemma create_frame p w e : ~ e ∈ equations p -> fst (tc_create p w) e = w e.
Proof.
  intros H. unfold tc_create, tc_check. destruct (tc_cons p) as [c|].
  - destruct (negb (satisfied c _ (tc_init p))); [apply update_frame, H|].
    destruct (negb (satisfied c _ (tc_end p))); cbn; rewrite !update_frame by exact H; reflexivity.
  - apply update_frame, H.
Qed.
Lemma extract_frame d p a b w e : ~ e ∈ equations p -> fst (tc_extract d p a b w) e = w e.
Proof.
  intros H. unfold tc_extract. pose proof (at_frame d p a w e H) as F1.
  destruct (tc_at d p a w) as [w1 [q1 ok1]]. cbn [fst] in F1. destruct (negb ok1); [exact F1|]. destruct (Reqb _ 0); [exact F1|].
  pose proof (at_frame d p b w1 e H) as F2. destruct (tc_at d p b w1) as [w2 [q2 ok2]]. cbn [fst] in F2.
  destruct (negb ok2); [cbn; congruence|].
  match goal with |- context [tc_create ?P w2] => pose proof (create_frame P w2 e H) as F3; destruct (tc_create P w2) as [w3 r] end.
  cbn [fst] in *. congruence.
Qed.
Lemma use_frame d u w e : ~ e ∈ equations (usedPath u) -> useWorld d u w e = w e.
Proof. destruct u; cbn; [apply at_frame|apply create_frame|apply extract_frame]. Qed.
Lemma history_frame d us : forall w e, (forall u, u ∈ us -> ~ e ∈ equations (usedPath u)) -> history d us w e = w e.
Proof.
  unfold history. induction us as [|u us IH]; intros w e H; [reflexivity|]. cbn [fold_left].
  rewrite IH by (intros u' Hu'; apply H; right; exact Hu'). apply use_frame, H. left.
Qed.
Lemma history_independent d us p t w :
  (forall u e, u ∈ us -> e ∈ equations (usedPath u) -> e ∈ equations p) ->
  snd (tc_at d p t (history d us w)) = snd (tc_at d p t w).
Proof.
  intros H. apply at_agree. intros e He. apply history_frame. intros u Hu Hu'. apply He, (H u e Hu Hu').
Qed.

(** ** creation *)
Lemma create_iff p w : exists r, snd (tc_create p w) = r /\
  match tc_cons p with
  | None => r = Ok p
  | Some c => exists w1 w2, rightHandSides (match c with Projector _ _ => tc_tds p | _ => [] end) (qi (tc_init p) (tc_rank p)) w w1 /\
      rightHandSides (match c with Projector _ _ => tc_tds p | _ => [] end) (qi (tc_end p) (tc_rank p)) w w2 /\
      ((satisfied c w1 (tc_init p) = true /\ satisfied c w2 (tc_end p) = true /\ r = Ok p) \/
       ((satisfied c w1 (tc_init p) = false \/ satisfied c w2 (tc_end p) = false) /\ r = Throw))
  end.
Proof.
  eexists. split; [reflexivity|]. unfold tc_create, tc_check.
  destruct (tc_cons p) as [c|] eqn:E; [|reflexivity].
  exists (tc_update p (tc_init p) w), (tc_update p (tc_end p) w).
  assert (U : forall q w, rightHandSides (match c with Projector _ _ => tc_tds p | _ => [] end) (qi q (tc_rank p)) w (tc_update p q w)).
  { intros q w'. unfold tc_update. rewrite E. destruct c; [|apply update_spec]. intros e. right. split; [intros t Ht; inversion Ht|reflexivity]. }
  split; [apply U|]. split; [apply U|].
  assert (T : tc_update p (tc_end p) (tc_update p (tc_init p) w) = tc_update p (tc_end p) w).
  { unfold tc_update. rewrite E. destruct c; [reflexivity|]. apply update_agree. intros e He. apply update_elsewhere, He. }
  rewrite T.
  destruct (satisfied c (tc_update p (tc_init p) w) (tc_init p)); cbn [negb snd]; [|right; auto].
  destruct (satisfied c (tc_update p (tc_end p) w) (tc_end p)); cbn [negb snd]; [left; auto|right; auto].
Qed.

(** ** extraction *)
Lemma extract_spec d p a b w r : tc_len p <> 0 -> snd (tc_extract d p a b w) = Extracted (Ok r) ->
  tc_len r = Rabs (b - a) /\ tc_cons r = tc_cons p /\ tc_rank r = tc_rank p /\ tc_tds r = tc_tds p /\
  (exists q1 q2, snd (tc_at d p a w) = (q1, true) /\ snd (tc_at d p b w) = (q2, true) /\
     tc_init r = <[tc_rank p := timeAt p a]> q1 /\ tc_end r = <[tc_rank p := timeAt p b]> q2) /\
  exists w', snd (tc_create r w') = Ok r /\ forall e, ~ e ∈ equations p -> w' e = w e.
Proof.
  intros Hl. unfold tc_extract. pose proof (at_frame d p a w) as F1.
  destruct (tc_at d p a w) as [w1 [q1 ok1]] eqn:E1. cbn [fst] in F1.
  destruct ok1; cbn [negb]; [|discriminate]. rewrite (proj2 (Reqb_false _ _) Hl).
  assert (A2 : snd (tc_at d p b w1) = snd (tc_at d p b w)) by (apply at_agree; exact F1).
  pose proof (at_frame d p b w1) as F2.
  destruct (tc_at d p b w1) as [w2 [q2 ok2]] eqn:E2. cbn [fst snd] in F2, A2.
  destruct ok2; cbn [negb]; [|discriminate].
  assert (T : forall x, extraDof (tc_rank p) (tc_init p) (tc_end p) ((x - 0) / (tc_len p - 0)) = timeAt p x).
  { intros x. unfold extraDof, timeAt. field. lra. }
  rewrite !T. set (P := TCP _ _ _ _ _ _). destruct (tc_create P w2) as [w3 r'] eqn:E3. cbn [snd]. intros H. injection H as ->.
  assert (r = P) as ->. { unfold tc_create in E3. destruct (tc_check P w2) as [w4 []]; congruence. }
  do 4 (split; [reflexivity|]). split.
  - exists q1, q2. split; [reflexivity|]. split; [symmetry; exact A2|]. split; reflexivity.
  - exists w2. rewrite E3. split; [reflexivity|]. intros e He. rewrite F2, F1 by exact He. reflexivity.
Qed.
Lemma extract_time d p a b w r u : lawful d -> tc_len p <> 0 -> snd (tc_extract d p a b w) = Extracted (Ok r) ->
  (forall t q, snd (tc_at d p t w) = (q, true) -> length q = csize d) -> (tc_rank p < csize d)%nat -> a <> b ->
  timeAt r u = timeAt p (if Rleb a b then a + u else a - u).
Proof.
  intros L Hl H Hs Hr Hab. destruct (extract_spec d p a b w r Hl H) as (E1 & _ & E2 & _ & (q1 & q2 & A & B & C & D) & _).
  unfold timeAt at 1. rewrite E1, E2, C, D. rewrite !qi_insert_eq by (rewrite (Hs _ _ A) || rewrite (Hs _ _ B); exact Hr).
  destruct (Rleb a b) eqn:E.
  - apply Rleb_true in E. rewrite Rabs_pos_eq by lra. unfold timeAt. field. lra.
  - apply Rleb_false in E. rewrite Rabs_left by lra. unfold timeAt. field. lra.
Qed.
Lemma extract_null d p a b w q : tc_len p = 0 -> snd (tc_at d p a w) = (q, true) -> snd (tc_extract d p a b w) = NotANumber.
Proof.
  intros Hl H. unfold tc_extract. destruct (tc_at d p a w) as [w1 [q1 ok1]]. cbn in H. injection H as -> ->. cbn [negb].
  rewrite (proj2 (Reqb_true _ _) Hl). reflexivity.
Qed.
Lemma extract_failed d p a b w : tc_len p <> 0 ->
  (snd (snd (tc_at d p a w)) = false \/ snd (snd (tc_at d p b w)) = false) -> snd (tc_extract d p a b w) = Extracted Throw.
Proof.
  intros Hl H. unfold tc_extract. pose proof (at_frame d p a w) as F1. destruct (tc_at d p a w) as [w1 [q1 ok1]]. cbn [fst snd] in *.
  destruct ok1; [|reflexivity]. destruct H as [H|H]; [discriminate|]. cbn [negb]. rewrite (proj2 (Reqb_false _ _) Hl).
  assert (A2 : snd (tc_at d p b w1) = snd (tc_at d p b w)) by (apply at_agree; exact F1).
  destruct (tc_at d p b w1) as [w2 [q2 ok2]]. cbn [snd] in A2. rewrite <- A2 in H. cbn in H. subst ok2. reflexivity.
Qed.
Lemma projected_time d p t w apply sat : lawful d -> length (tc_init p) = csize d -> length (tc_end p) = csize d -> (tc_rank p < csize d)%nat ->
  tc_len p <> 0 -> tc_cons p = Some (Projector apply sat) ->
  exists w' q, rightHandSides (tc_tds p) (timeAt p t) w w' /\ tc_at d p t w = (w', apply w' q) /\
    forall w0, tc_at d (TCP (tc_init p) (tc_end p) (tc_len p) None (tc_rank p) (tc_tds p)) t w0 = (w0, (q, true)).
Proof.
  intros L L1 L2 Hr Hl Hc. destruct (at_projector d p t w apply sat Hc) as (w' & A & B).
  rewrite (raw_time d p t L L1 L2 Hr Hl) in A. exists w', (tc_raw d p t). split; [exact A|]. split; [exact B|].
  intros w0. rewrite at_plain by reflexivity. reflexivity.
Qed.
Lemma edit_ends p q : (tc_rank p < length q)%nat ->
  (qi (tc_init (tc_initialConfig p q)) (tc_rank p) = qi (tc_init p) (tc_rank p) /\ qi (tc_end (tc_endConfig p q)) (tc_rank p) = qi (tc_end p) (tc_rank p)) /\
  (forall i, i <> tc_rank p -> qi (tc_init (tc_initialConfig p q)) i = qi q i /\ qi (tc_end (tc_endConfig p q)) i = qi q i) /\
  tc_end (tc_initialConfig p q) = tc_end p /\ tc_init (tc_endConfig p q) = tc_init p.
Proof.
  intros H. split; [|split; [|split; reflexivity]].
  - unfold tc_initialConfig, tc_endConfig. cbn [tc_init tc_end]. rewrite !qi_insert_eq by exact H. auto.
  - intros i Hi. unfold tc_initialConfig, tc_endConfig. cbn [tc_init tc_end]. rewrite !qi_insert_ne by congruence. auto.
Qed.
