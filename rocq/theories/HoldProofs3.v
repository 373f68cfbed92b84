(** Contacts that hold along a whole sequence: proofs. *)
From Coq Require Import Reals ZArith Lra Lia.
From Verif Require Import Maps MapsProofs CombModel GenModel GenSpec GenProofs13 StateModel StateSpec StateReal StateProofs Vec VecProofs SampModel ToolModel ToolSpec
  ProjModel ProjSpec ProjProofs ProjProofs2 SeqModel SeqSpec SeqProofs SeqProofs2 SeqProofs3 SeqProofs4 SeqProofs5 SeqProofs7 SeqProofs8 HoldSpec HoldProofs HoldRobot HoldProofs2.
From Verif Require Import StateModel ToolSpec ProjModel.
Local Open Scope R_scope.

Section seq.
Context {Cand : Type}.
Variable solve : projector -> list R -> bool * list R.
Variable axis : vec3 -> vec3 -> vec3.
Variable B : fullbody.
Hypothesis LR : lawful_robot (dev B).
Hypothesis SS : sound_solver (dev B) solve.
Notation Srv := (services (list R) vec3 mat3 Cand (sample R)).

Lemma holds_same (s s' : PSt) : configuration s' = configuration s -> positions s' = positions s -> rotations s' = rotations s -> holds B s -> holds B s'.
Proof. intros E1 E2 E3 H e l f p. rewrite E1, E2, E3. apply H. Qed.
Lemma holds_held (S : Srv) (s : PSt) (t : State (list R) vec3 mat3 Z) : robot_services solve axis B S -> alike s t -> holds B s -> held S (near_contact B) t.
Proof.
  intros H Hal Hh e He p r Hp Hr l f Hl Hf. destruct Hal as (E0 & _ & _ & E3 & E4 & _). rewrite E3 in Hp. rewrite E4 in Hr.
  destruct (rs_frames _ _ _ _ H e l Hl) as (f' & Hf' & Hfk). rewrite Hf in Hf'. injection Hf' as <-.
  destruct (Hfk (configuration t)) as [-> ->]. rewrite E0. destruct (Hh e l f p Hl Hf Hp) as [H1 H2]. split; [done|].
  intros H6 Hrr. by apply H2.
Qed.
Lemma held_holds (S : Srv) (s : PSt) (t : State (list R) vec3 mat3 Z) : robot_services solve axis B S -> alike s t ->
  (forall e, is_Some (positions s !! e) -> is_Some (rotations s !! e)) -> held S (near_contact B) t -> holds B s.
Proof.
  intros H Hal Htab Hh e l f p Hl Hf Hp. destruct Hal as (E0 & _ & _ & E3 & E4 & _).
  destruct (Htab e) as [r Hr]; [by exists p|].
  assert (He : e ∈ limbNames S) by (apply (rs_limbs _ _ _ _ H); by exists l).
  destruct (Hh e He p r ltac:(by rewrite E3) ltac:(by rewrite E4) l f Hl Hf) as [H1 H2].
  destruct (rs_frames _ _ _ _ H e l Hl) as (f' & Hf' & Hfk). rewrite Hf in Hf'. injection Hf' as <-.
  destruct (Hfk (configuration t)) as [F1 F2]. rewrite F1 in H1. rewrite F2 in H2. rewrite E0 in H1, H2. split; [done|].
  intros H6 r' Hr' Hrr. assert (r' = r) as -> by congruence. by apply H2.
Qed.
Lemma rotations_of (s : PSt) : consistent s -> forall e, is_Some (positions s !! e) -> is_Some (rotations s !! e).
Proof. intros H e Hp. destruct (co_keys _ H e) as (_ & _ & H1 & H2). by apply H2, H1. Qed.

(** ** The generator *)
Definition good (limbs : list string) (s : PSt) : Prop := on_limbs limbs s /\ holds B s.
Lemma generated_holds (Sv : nat -> vec3 -> vec3 -> R -> Srv) threshold test quasi compute limbs : chain_law (dev B) ->
  generated Sv threshold test quasi false compute ->
  (forall k d a t, robot_services solve axis B (Sv k d a t)) ->
  (forall k d a t, separate_limbs (Sv k d a t)) ->
  (forall k d a t, limbNames (Sv k d a t) = limbs) ->
  reliable compute (good limbs).
Proof.
  intros CL Hg Hrs Hsl Hl k prev c d a t [[Hc Ho] Hh].
  assert (Hrel : reliable compute (on_limbs limbs)).
  { eapply generated_reliable; [exact Hg|done| |].
    - rewrite <- (Hl k d a t). apply (sl_nodup _ (Hsl k d a t)).
    - intros k' d' a' t' x Hx. apply (sl_groups _ (Hsl k' d' a' t')). by rewrite Hl. }
  destruct (Hrel k prev c d a t (conj Hc Ho)) as [H1 H2]. simpl. split; [done|]. intros s Hs. pose proof (H2 s Hs) as Hon. split; [done|].
  destruct (Hg k prev c d a t) as (prev' & fuel & cr & h & Hal & Hcc & _ & _ & _ & _ & _ & Hr).
  pose proof (alike_consistent _ _ Hal Hc) as Hc'.
  assert (Ho' : order prev' = order prev) by apply Hal.
  pose proof (next_step_held (Sv k d a t) moved3 (near_contact B) _ (robot_kinematics solve axis B LR SS CL _ (Hrs k d a t)) (Hsl k d a t)
    fuel prev' c threshold test quasi cr h Hc') as Hn.
  assert (Hk : held (Sv k d a t) (near_contact B) (result (cr_rep cr))).
  { apply Hn; [|by eapply holds_held; [apply Hrs|exact Hal|]|done]. intros x Hx. rewrite Hl. apply Ho. by rewrite <- Ho'. }
  pose proof (rotations_of s (proj1 Hon)) as Hrot. destruct Hs as (S1 & S2 & S3 & S4 & S5 & S6 & S7 & S8 & S9).
  apply (holds_same (crResult (compute k prev c d a t))); [done..|].
  eapply held_holds; [apply Hrs|exact Hr| |exact Hk]. rewrite <- S4, <- S5. exact Hrot.
Qed.

(** ** The loop *)
Lemma chain_good compute confSize extra configs step init start P b l fuel :
  reliable compute P -> P start ->
  interpLoop compute confSize extra configs step fuel (initial init start) = Some (Ok (b, l)) ->
  forall x, x ∈ l -> P (snd x).
Proof.
  intros Hrel Hst. enough (Hgen : forall fuel x, inv1 P x -> (forall y, y ∈ older x -> P (snd y)) ->
    interpLoop compute confSize extra configs step fuel x = Some (Ok (b, l)) -> forall y, y ∈ l -> P (snd y)).
  { apply Hgen; [by apply inv1_initial|]. by intros y ?%elem_of_nil. }
  clear fuel. induction fuel as [|fuel IH]; intros x Hi Ho; simpl.
  - destruct (length configs <=? cit x)%nat; [|done]. intros [= <- <-] y. unfold statesOf. intros [Hy|Hy]%elem_of_app; [by apply Ho|].
    apply elem_of_list_singleton in Hy as ->. apply Hi.
  - assert (Hall : forall y, y ∈ statesOf x -> P (snd y)).
    { intros y. unfold statesOf. intros [Hy|Hy]%elem_of_app; [by apply Ho|]. apply elem_of_list_singleton in Hy as ->. apply Hi. }
    destruct (length configs <=? cit x)%nat; [by intros [= <- <-]|].
    pose proof (iteration_cases compute confSize extra configs step P Hrel x (proj1 Hi)) as H.
    destruct (iteration compute confSize extra configs step x) as [y|l'|] eqn:E; [| |done].
    + destruct (inv1_step compute confSize extra configs step P Hrel x y Hi E) as [Hy _]. apply IH; [done|].
      destruct H as (conf & c & a & _ & _ & _ & H). cbv zeta in H. destruct H as (_ & _ & _ & _ & [(_ & -> & _)|(_ & -> & _)]); [done|]. exact Hall.
    + intros [= <- <-]. by subst l'.
Qed.

(** ** The goal *)
Lemma limb_moved_holds goal limb s s' : limb_moved B goal limb s s' -> holds B s'.
Proof.
  intros (l & f & n & p & r & Hl & Hf & _ & _ & _ & _ & Hheld & _ & _ & (_ & _ & E3 & E4 & _)). cbn [positions rotations addContact] in E3, E4.
  intros e l' f' p' Hl' Hf' Hp. rewrite E3 in Hp. rewrite E4. set (c' := configuration s') in *. clearbody c'. destruct (decide (e = limb)) as [->|He].
  - rewrite lookup_insert in Hp. injection Hp as <-. assert (l' = l) as -> by congruence. assert (f' = f) as -> by congruence.
    split; [rewrite dist3_self; lra|]. intros _ r' Hr' Hrr. rewrite lookup_insert in Hr'. injection Hr' as <-. rewrite angle_self by done. lra.
  - rewrite lookup_insert_ne in Hp by done. destruct (Hheld e l' f' p' Hl' Hf' Hp) as [H1 H2]. split; [done|].
    intros H6 r' Hr'. rewrite lookup_insert_ne in Hr' by done. by apply H2.
Qed.
Lemma limbs_moved_holds goal moves s mids s2 : limbs_moved B goal moves s mids s2 -> forall x, x ∈ mids -> holds B x.
Proof.
  induction 1 as [s|x l s s1 ss s2 Hx Hl IH]; intros y Hy; [by apply elem_of_nil in Hy|].
  apply elem_of_cons in Hy as [->|Hy]; [by eapply limb_moved_holds|by apply IH].
Qed.
Lemma goal_holds goal pathEnd states r : (forall x, x ∈ states -> holds B (snd x)) -> holds B goal ->
  fst (addGoalConfig solve B goal pathEnd states) = Ok r -> forall x, x ∈ r -> holds B (snd x).
Proof.
  intros Hst Hgo Hr. destruct (addGoalConfig solve B goal pathEnd states) as [r0 b] eqn:E. simpl in Hr. subst r0.
  destruct (last states) as [[t s]|] eqn:El; [|unfold addGoalConfig in E; by rewrite El in E].
  destruct (C128_lemma solve B goal pathEnd LR SS states t s r b El E) as (_ & V & moves & mids & s2 & _ & _ & _ & _ & Hm & Hc).
  pose proof (limbs_moved_holds _ _ _ _ _ Hm) as Hmh.
  assert (Hmid : forall x, x ∈ map (pair t) mids -> holds B (snd x)) by (intros x (y & -> & Hy)%elem_of_list_fmap; by apply Hmh).
  intros x Hx. destruct Hc as [(_ & ->)|(_ & -> & _)].
  - apply elem_of_app in Hx as [Hx|[Hx|Hx]%elem_of_app]; [by apply Hst|by apply Hmid|]. apply elem_of_list_singleton in Hx as ->. done.
  - apply elem_of_app in Hx as [Hx|Hx]; [by apply Hst|by apply Hmid].
Qed.

(** ** The filters *)
Lemma replaced_holds (Q : PSt -> PSt -> PSt -> PSt -> PSt -> Prop) later l r : (forall c0 c1 c2 c3 s, Q c0 c1 c2 c3 s -> holds B s) -> replaced Q later l r ->
  (forall x, x ∈ l -> holds B (snd x)) -> forall x, x ∈ r -> holds B (snd x).
Proof.
  intros HQ. induction 1 as [l|c l r _ IH|c0 c1 c2 c3 rest r s Hs _ IH]; intros Hl x Hx; [by apply Hl| |].
  - apply elem_of_cons in Hx as [->|Hx]; [apply Hl; left|]. apply IH; [|done]. intros y Hy. apply Hl. by right.
  - apply elem_of_cons in Hx as [->|Hx]; [apply Hl; left|]. apply elem_of_cons in Hx as [->|Hx]; [simpl; by eapply HQ|].
    apply IH; [|done]. intros y Hy. apply Hl. by do 3 right.
Qed.
Lemma redone_holds limb l s q n p root s' : contact_redone axis B limb l s q n p root s' -> holds B s'.
Proof. by intros (f & x & r & _ & _ & _ & H & _) e. Qed.
Variable useReach : bool.
Variable reachable : PSt -> PSt -> bool.
Lemma FSR_holds l r : FilterStatesRec useReach reachable solve axis B l = Ok r ->
  (forall x, x ∈ l -> holds B (snd x)) -> forall x, x ∈ r -> holds B (snd x).
Proof.
  unfold FilterStatesRec. intros H Hl. apply bindo_ok in H as (r1 & H1 & H2).
  assert (Hsub : forall l' f, f ∈ [FilterRepositioning useReach reachable; FilterBreakCreate useReach reachable; FilterObsolete] ->
    (forall x, x ∈ l' -> holds B (snd x)) -> forall x, x ∈ f l' -> holds B (snd x)).
  { intros l' f Hf Hl' x Hx. destruct (C129_lemma useReach reachable l') as (_ & H & _). destruct (H f Hf) as (_ & _ & Hs).
    apply Hl'. eapply elem_of_submseteq; [done|by apply sublist_submseteq]. }
  destruct (C130_lemma useReach reachable solve axis B r1 r LR SS) as [_ HS]. destruct (HS H2) as [HS' _].
  destruct (C130_lemma useReach reachable solve axis B (FilterObsolete (FilterBreakCreate useReach reachable (FilterRepositioning useReach reachable l))) r1 LR SS) as [HT _].
  destruct (HT H1) as [HT' _].
  eapply replaced_holds; [|exact HS'|].
  { intros c0 c1 c2 c3 s (S & limb & lb & k & n0 & n1 & x0 & x1 & _ & _ & _ & _ & _ & _ & _ & _ & _ & _ & Hr & _). by eapply redone_holds. }
  eapply replaced_holds; [|exact HT'|].
  { intros c0 c1 c2 c3 s (limb & lb & n & x1 & x3 & _ & _ & _ & _ & _ & _ & Hr & _). by eapply redone_holds. }
  apply Hsub; [set_solver|]. apply Hsub; [set_solver|]. apply Hsub; [set_solver|done].
Qed.
Lemma FS_holds fuel l deep r : FilterStates useReach reachable solve axis B fuel l deep = Some (Ok r) ->
  (forall x, x ∈ l -> holds B (snd x)) -> forall x, x ∈ r -> holds B (snd x).
Proof.
  unfold FilterStates. destruct (length l <=? 2)%nat; [by intros [= <-]|]. destruct deep.
  - revert l. induction fuel as [|fuel IH]; intros l; [done|]. cbn [deepLoop].
    destruct (FilterStatesRec useReach reachable solve axis B l) as [r1| |] eqn:E; [|done..].
    pose proof (FSR_holds _ _ E) as HR. destruct (length r1 =? length l)%nat.
    + intros [= <-]. done.
    + intros H Hl. apply (IH r1 H). by apply HR.
  - intros [= <-] Hl x Hx. destruct (C129_lemma useReach reachable l) as (_ & H & _). destruct (H FilterObsolete ltac:(set_solver)) as (_ & _ & Hs).
    apply Hl. eapply elem_of_submseteq; [done|by apply sublist_submseteq].
Qed.

(** ** The whole function *)
Lemma whole_holds compute confSize extra start goal fuel pathEnd configs step init filt r P :
  reliable compute P -> (forall s, P s -> holds B s) -> P start -> holds B goal ->
  InterpolateConfigs compute confSize extra useReach reachable solve axis B start goal fuel pathEnd configs step init filt = Some (Ok r) ->
  forall x, x ∈ r -> holds B (snd x).
Proof.
  intros Hrel HP Hst Hgo. unfold InterpolateConfigs. destruct configs as [|c0 cs]; [done|].
  destruct (interpLoop _ _ _ _ _ _ _) as [[[[] l]| |]|] eqn:El; try done.
  - assert (Hl : forall x, x ∈ l -> holds B (snd x)) by (intros x Hx; eapply HP, chain_good; [exact Hrel|exact Hst|exact El|done]).
    destruct (1 <? length l)%nat; [|by intros [= <-]].
    destruct (fst (addGoalConfig solve B goal pathEnd l)) as [l'| |] eqn:Eg; try done. intros HF.
    eapply FS_holds; [exact HF|]. by eapply goal_holds.
  - assert (Hl : forall x, x ∈ l -> holds B (snd x)) by (intros x Hx; eapply HP, chain_good; [exact Hrel|exact Hst|exact El|done]).
    intros HF. by eapply FS_holds.
Qed.
End seq.

Lemma whole_generated {Cand} solve axis B (Sv : nat -> vec3 -> vec3 -> R -> services (list R) vec3 mat3 Cand (sample R)) threshold test quasi compute limbs
  confSize extra useReach reachable start goal fuel pathEnd configs step init filt r :
  lawful_robot (dev B) -> sound_solver (dev B) solve -> chain_law (dev B) ->
  generated Sv threshold test quasi false compute ->
  (forall k d a t, robot_services solve axis B (Sv k d a t) /\ separate_limbs (Sv k d a t) /\ limbNames (Sv k d a t) = limbs) ->
  consistent start -> (forall x, x ∈ order start -> x ∈ limbs) -> holds B start -> holds B goal ->
  InterpolateConfigs compute confSize extra useReach reachable solve axis B start goal fuel pathEnd configs step init filt = Some (Ok r) ->
  forall f, f ∈ r -> holds B (snd f).
Proof.
  intros LR SS CL Hg Hs Hc Ho Hst Hgo. apply (whole_holds solve axis B LR SS _ _ _ _ _ _ _ _ _ _ _ _ _ _ (good B limbs)).
  - eapply generated_holds; [exact LR|exact SS|exact CL|exact Hg|intros; apply Hs..].
  - by intros s [_ H].
  - done.
  - done.
Qed.
