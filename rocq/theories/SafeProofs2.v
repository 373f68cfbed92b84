(** Valid configurations along a whole sequence: proofs. *)
From Coq Require Import Reals ZArith Lra Lia.
From Verif Require Import Maps MapsProofs CombModel GenModel GenSpec GenProofs13 StateModel StateSpec StateReal StateProofs Vec VecProofs SampModel ToolModel ToolSpec
  ProjModel ProjSpec ProjProofs ProjProofs2 SeqModel SeqSpec SeqProofs SeqProofs2 SeqProofs3 SeqProofs4 SeqProofs5 SeqProofs7 SeqProofs8 HoldSpec HoldProofs HoldRobot HoldProofs2 HoldProofs3
  StepSpec StepProofs SafeSpec SafeProofs.
From Verif Require Import StateModel ToolSpec ProjModel.
Local Open Scope R_scope.

(** ** The robot *)
Section robot.
Context {Cand : Type}.
Variable solve : projector -> list R -> bool * list R.
Variable axis : vec3 -> vec3 -> vec3.
Variable B : fullbody.
Hypothesis LR : lawful_robot (dev B).
Hypothesis SS : sound_solver (dev B) solve.
Lemma robot_safe (S : services (list R) vec3 mat3 Cand (sample R)) :
  robot_services solve axis B S -> safe_robot B S ->
  (forall x l ls, x ∈ limbNames S -> groupOf S x = l :: ls -> l ∈ limbNames S) ->
  safe_services S (fun x q q' => forall l, limbsOf B !! x = Some l -> elsewhere B l q q').
Proof.
  intros H HS Hgr. split.
  - by intros limb c l _ j _.
  - intros limb a b c H1 H2 l Hl j Hj. by rewrite (H2 l Hl j Hj), (H1 l Hl j Hj).
  - intros limb x c cur Hlimb Hso l Hl. specialize (Hso l Hl). destruct (ik S false limb x c cur) as [ok c'] eqn:Eik. simpl.
    destruct (rs_create _ _ _ _ H limb l x c cur ok c' Hl Hso Eik) as [H1 H2]. destruct ok; [|by apply H2].
    destruct (H1 eq_refl) as (devq & smp & n & v1 & v2 & v3 & s & rep & Hdev & _ & Hpr & Hs & <-).
    eapply sample_to_obstacle in Hpr; [|exact LR|exact SS]; destruct Hpr as [_ Hpr]. destruct (Hpr Hs) as (_ & Hl' & _).
    intros j Hj. rewrite (Hl' j Hj). by apply Hdev.
  - intros limb x c Hlimb Hx l Hl j Hj. rewrite (rs_load _ _ _ _ H). apply lock_entries. intros i Hi. apply load_entries. by eapply (sr_samples _ _ HS).
  - intros limb c c' Hlimb Ho Hv Hlv. apply (rs_limbs _ _ _ _ H) in Hlimb as [l Hl]. rewrite (sr_valid _ _ HS) in *.
    eapply (sr_limb _ _ HS); [exact Hl|by apply Ho|exact Hv|exact Hlv].
  - intros c c'. rewrite !(sr_valid _ _ HS). apply (sr_extra _ _ HS).
  - exact Hgr.
Qed.
End robot.

Lemma generated_safe {Cand} solve axis B (Sv : nat -> vec3 -> vec3 -> R -> services (list R) vec3 mat3 Cand (sample R)) threshold test quasi compute limbs :
  lawful_robot (dev B) -> sound_solver (dev B) solve ->
  generated Sv threshold test quasi false compute ->
  (forall k d a t, robot_services solve axis B (Sv k d a t) /\ safe_robot B (Sv k d a t) /\
     (forall x, x ∈ limbs -> groupOf (Sv k d a t) x = [x]) /\ limbNames (Sv k d a t) = limbs) ->
  keeps_valid B compute (on_limbs limbs).
Proof.
  intros LR SS Hg Hs k prev c d a t [Hc Ho] Hv.
  destruct (Hg k prev c d a t) as (prev' & fuel & cr & h & Hal & Hcc & _ & _ & _ & _ & Hrep & Hr).
  destruct (Hs k d a t) as (H1 & H2 & H3 & H4).
  pose proof (alike_consistent _ _ Hal Hc) as Hc'. assert (Ho' : order prev' = order prev) by apply Hal.
  pose proof (next_step_valid (Sv k d a t) moved3 _ (robot_safe solve axis B LR SS (Sv k d a t) H1 H2
     ltac:(rewrite H4; intros x l ls Hx E; rewrite H3 in E by done; by injection E as <- _))
     fuel prev' c threshold test quasi cr h Hc' ltac:(rewrite H4, Ho'; exact Ho) Hcc) as H.
  destruct Hr as (E & _). rewrite <- E. rewrite !(sr_valid _ _ H2) in H. apply H.
  intros _. destruct Hal as (E0 & _). by rewrite E0.
Qed.

(** ** The sequence *)
Section seq.
Variable solve : projector -> list R -> bool * list R.
Variable axis : vec3 -> vec3 -> vec3.
Variable B : fullbody.
Hypothesis LR : lawful_robot (dev B).
Hypothesis SS : sound_solver (dev B) solve.
Definition valid_state (s : PSt) : Prop := wholeValid B (configuration s) = true.

Lemma reliable_valid compute good : reliable compute good -> keeps_valid B compute good -> reliable compute (fun s => good s /\ valid_state s).
Proof.
  intros Hrel Hk k prev c d a t [Hg Hv]. destruct (Hrel k prev c d a t Hg) as [H1 H2]. simpl. split; [done|]. intros s Hs. split; [by apply H2|].
  destruct Hs as (E & _). unfold valid_state. rewrite E. by apply Hk.
Qed.
Lemma limbs_moved_valid goal moves s mids s2 : limbs_moved B goal moves s mids s2 -> forall x, x ∈ mids -> valid_state x.
Proof.
  induction 1 as [s|x l s s1 ss s2 Hx Hl IH]; intros y Hy; [by apply elem_of_nil in Hy|].
  apply elem_of_cons in Hy as [->|Hy]; [|by apply IH]. by destruct Hx as (? & ? & ? & ? & ? & _ & _ & _ & _ & _ & Hv & _).
Qed.
Lemma goal_valid goal pathEnd states r : (forall x, x ∈ states -> valid_state (snd x)) -> valid_state goal ->
  fst (addGoalConfig solve B goal pathEnd states) = Ok r -> forall x, x ∈ r -> valid_state (snd x).
Proof.
  intros Hst Hgo Hr. destruct (addGoalConfig solve B goal pathEnd states) as [r0 b] eqn:E. simpl in Hr. subst r0.
  destruct (last states) as [[t s]|] eqn:El; [|unfold addGoalConfig in E; by rewrite El in E].
  destruct (C128_lemma solve B goal pathEnd LR SS states t s r b El E) as (_ & V & moves & mids & s2 & _ & _ & _ & _ & Hm & Hc).
  pose proof (limbs_moved_valid _ _ _ _ _ Hm) as Hmh.
  assert (Hmid : forall x, x ∈ map (pair t) mids -> valid_state (snd x)) by (intros x (y & -> & Hy)%elem_of_list_fmap; by apply Hmh).
  intros x Hx. destruct Hc as [(_ & ->)|(_ & -> & _)].
  - apply elem_of_app in Hx as [Hx|[Hx|Hx]%elem_of_app]; [by apply Hst|by apply Hmid|]. apply elem_of_list_singleton in Hx as ->. done.
  - apply elem_of_app in Hx as [Hx|Hx]; [by apply Hst|by apply Hmid].
Qed.
Lemma replaced_valid (Q : PSt -> PSt -> PSt -> PSt -> PSt -> Prop) later l r : (forall c0 c1 c2 c3 s, Q c0 c1 c2 c3 s -> valid_state s) -> replaced Q later l r ->
  (forall x, x ∈ l -> valid_state (snd x)) -> forall x, x ∈ r -> valid_state (snd x).
Proof.
  intros HQ. induction 1 as [l|c l r _ IH|c0 c1 c2 c3 rest r s Hs _ IH]; intros Hl x Hx; [by apply Hl| |].
  - apply elem_of_cons in Hx as [->|Hx]; [apply Hl; left|]. apply IH; [|done]. intros y Hy. apply Hl. by right.
  - apply elem_of_cons in Hx as [->|Hx]; [apply Hl; left|]. apply elem_of_cons in Hx as [->|Hx]; [simpl; by eapply HQ|].
    apply IH; [|done]. intros y Hy. apply Hl. by do 3 right.
Qed.
Lemma redone_valid limb l s q n p root s' : contact_redone axis B limb l s q n p root s' -> valid_state s'.
Proof. by intros (f & x & r & _ & _ & _ & _ & _ & H). Qed.
Variable useReach : bool.
Variable reachable : PSt -> PSt -> bool.
Lemma FSR_valid l r : FilterStatesRec useReach reachable solve axis B l = Ok r ->
  (forall x, x ∈ l -> valid_state (snd x)) -> forall x, x ∈ r -> valid_state (snd x).
Proof.
  unfold FilterStatesRec. intros H Hl. apply bindo_ok in H as (r1 & H1 & H2).
  assert (Hsub : forall l' f, f ∈ [FilterRepositioning useReach reachable; FilterBreakCreate useReach reachable; FilterObsolete] ->
    (forall x, x ∈ l' -> valid_state (snd x)) -> forall x, x ∈ f l' -> valid_state (snd x)).
  { intros l' f Hf Hl' x Hx. destruct (C129_lemma useReach reachable l') as (_ & H & _). destruct (H f Hf) as (_ & _ & Hs).
    apply Hl'. eapply elem_of_submseteq; [done|by apply sublist_submseteq]. }
  destruct (C130_lemma useReach reachable solve axis B r1 r LR SS) as [_ HS]. destruct (HS H2) as [HS' _].
  destruct (C130_lemma useReach reachable solve axis B (FilterObsolete (FilterBreakCreate useReach reachable (FilterRepositioning useReach reachable l))) r1 LR SS) as [HT _].
  destruct (HT H1) as [HT' _].
  eapply replaced_valid; [|exact HS'|].
  { intros c0 c1 c2 c3 s (S & limb & lb & k & n0 & n1 & x0 & x1 & _ & _ & _ & _ & _ & _ & _ & _ & _ & _ & Hr & _). by eapply redone_valid. }
  eapply replaced_valid; [|exact HT'|].
  { intros c0 c1 c2 c3 s (limb & lb & n & x1 & x3 & _ & _ & _ & _ & _ & _ & Hr & _). by eapply redone_valid. }
  apply Hsub; [set_solver|]. apply Hsub; [set_solver|]. apply Hsub; [set_solver|done].
Qed.
Lemma FS_valid fuel l deep r : FilterStates useReach reachable solve axis B fuel l deep = Some (Ok r) ->
  (forall x, x ∈ l -> valid_state (snd x)) -> forall x, x ∈ r -> valid_state (snd x).
Proof.
  unfold FilterStates. destruct (length l <=? 2)%nat; [by intros [= <-]|]. destruct deep.
  - revert l. induction fuel as [|fuel IH]; intros l; [done|]. cbn [deepLoop].
    destruct (FilterStatesRec useReach reachable solve axis B l) as [r1| |] eqn:E; [|done..].
    pose proof (FSR_valid _ _ E) as HR. destruct (length r1 =? length l)%nat.
    + intros [= <-]. done.
    + intros H Hl. apply (IH r1 H). by apply HR.
  - intros [= <-] Hl x Hx. destruct (C129_lemma useReach reachable l) as (_ & H & _). destruct (H FilterObsolete ltac:(set_solver)) as (_ & _ & Hs).
    apply Hl. eapply elem_of_submseteq; [done|by apply sublist_submseteq].
Qed.
Lemma whole_valid compute confSize extra start goal fuel pathEnd configs step init filt r good :
  reliable compute good -> keeps_valid B compute good -> good start ->
  wholeValid B (configuration start) = true -> wholeValid B (configuration goal) = true ->
  InterpolateConfigs compute confSize extra useReach reachable solve axis B start goal fuel pathEnd configs step init filt = Some (Ok r) ->
  forall x, x ∈ r -> wholeValid B (configuration (snd x)) = true.
Proof.
  intros Hrel Hk Hst Hvs Hgo. unfold InterpolateConfigs. destruct configs as [|c0 cs]; [done|].
  destruct (interpLoop _ _ _ _ _ _ _) as [[[b l]| |]|] eqn:El; try (by destruct b); try done.
  assert (Hl : forall x, x ∈ l -> valid_state (snd x)).
  { intros x Hx. eapply (chain_good compute confSize extra (c0 :: cs) step init start (fun s => good s /\ valid_state s));
      [by apply reliable_valid|by split|exact El|exact Hx]. }
  destruct b.
  - destruct (1 <? length l)%nat; [|by intros [= <-]].
    destruct (fst (addGoalConfig solve B goal pathEnd l)) as [l'| |] eqn:Eg; try done. intros HF.
    eapply FS_valid; [exact HF|]. by eapply goal_valid.
  - intros HF. by eapply FS_valid.
Qed.
End seq.

Lemma whole_safe {Cand} solve axis B (Sv : nat -> vec3 -> vec3 -> R -> services (list R) vec3 mat3 Cand (sample R)) threshold test quasi compute limbs
  confSize extra useReach reachable start goal fuel pathEnd configs step init filt r :
  lawful_robot (dev B) -> sound_solver (dev B) solve ->
  generated Sv threshold test quasi false compute ->
  (forall k d a t, robot_services solve axis B (Sv k d a t) /\ safe_robot B (Sv k d a t) /\
     (forall x, x ∈ limbs -> groupOf (Sv k d a t) x = [x]) /\ limbNames (Sv k d a t) = limbs) ->
  NoDup limbs -> consistent start -> (forall x, x ∈ order start -> x ∈ limbs) ->
  wholeValid B (configuration start) = true -> wholeValid B (configuration goal) = true ->
  InterpolateConfigs compute confSize extra useReach reachable solve axis B start goal fuel pathEnd configs step init filt = Some (Ok r) ->
  forall f, f ∈ r -> wholeValid B (configuration (snd f)) = true.
Proof.
  intros LR SS Hg Hs Hnd Hc Ho Hst Hgo. apply (whole_valid solve axis B LR SS _ _ _ _ _ _ _ _ _ _ _ _ _ _ (on_limbs limbs)); [| |by split|done..].
  - eapply generated_reliable; [exact Hg|by intros ????; edestruct Hs as (_ & _ & _ & ->)|done|].
    intros k d a t. destruct (Hs k d a t) as (_ & _ & H3 & _). intros x Hx. by rewrite H3.
  - eapply generated_safe; [exact LR|exact SS|exact Hg|exact Hs].
Qed.
