(** Generated configurations stay valid: proofs. *)
From Coq Require Import Reals ZArith Lra Lia.
From Verif Require Import Maps MapsProofs CombModel CombSpec GenModel GenSpec GenProofs GenProofs2 GenProofs3 GenProofs4 GenProofs5 GenProofs6 GenProofs7 GenProofs8 GenProofs10
  GenProofs12 GenProofs13 StateModel StateSpec StateReal StateProofs Vec VecProofs SampModel ToolModel ToolSpec
  ProjModel ProjSpec ProjProofs ProjProofs2 SeqModel SeqSpec SeqProofs SeqProofs2 SeqProofs3 SeqProofs4 SeqProofs5 SeqProofs6 SeqProofs7 SeqProofs8 SeqProofs9 HoldSpec HoldProofs HoldRobot HoldProofs2 HoldProofs3
  StepSpec StepProofs StepRobot SafeSpec.
From Verif Require Import StateModel ToolSpec ProjModel.

(** ** One step *)
Section step.
Context {Cfg Pos Rot Cand Smp : Type}.
Notation St := (State Cfg Pos Rot Z).
Variable S : services Cfg Pos Rot Cand Smp.
Variable moved : Pos -> Pos -> bool.
Variable only : string -> Cfg -> Cfg -> Prop.
Hypothesis K : safe_services S only.
Notation ok s := (validate S (configuration s) = true).

Lemma load_all_only limb l c : limb ∈ limbNames S -> l ⊆ GenModel.samples S limb -> only limb c (load_all S l c).
Proof.
  intros Hlimb. revert c. induction l as [|x l IH]; intros c Hl; [apply (sv_refl _ _ K)|].
  eapply (sv_trans _ _ K); [apply (sv_sample _ _ K limb x); [exact Hlimb|apply Hl; left]|]. apply IH. set_solver.
Qed.
Lemma freed_valid limb c c' : limb ∈ limbNames S -> freed S limb c c' -> validate S c = true -> validate S c' = true.
Proof.
  intros Hlimb [[_ ->]|(_ & l1 & s & l2 & E & -> & V & _)] H; [done|].
  eapply (sv_valid _ _ K limb c); [exact Hlimb| |exact H|exact V]. apply load_all_only; [done|]. rewrite E. set_solver.
Qed.
Lemma maintained_valid test qs (w c s : St) : maintained S test qs w c s -> ok s.
Proof.
  intros (c1 & c2 & s0 & H1 & H2 & H3 & H4 & _ & _ & H5 & _). by rewrite (sb_configuration _ _ H5), (mt_configuration _ _ _ H4).
Qed.
Lemma projects_valid limb (cur : St) a x p : limb ∈ limbNames S -> projects S false limb cur a x p -> ok cur -> ok p.
Proof.
  intros Hlimb (cfg & E & Hv & ->) H. simpl. eapply (sv_valid _ _ K limb (configuration cur)); [exact Hlimb| |exact H|exact Hv].
  assert (Ha : only limb (configuration cur) (cfg_after S false limb cur a (configuration cur))).
  { clear E. induction a as [|y l IH] using rev_ind; [apply (sv_refl _ _ K)|]. unfold cfg_after in *. rewrite fold_left_app. simpl.
    by apply (sv_create _ _ K). }
  pose proof (sv_create _ _ K limb x _ cur Hlimb Ha) as Hc. by rewrite E in Hc.
Qed.
Lemma completed_valid prev t test qs (s : St) st r : completed S prev t test qs false s st r -> ok s -> ok r.
Proof.
  intros [l1 limb l2 p r' Hl _ (mode & Hm & a & x & b & _ & Hp & _) Hca|r' _ _ _ Hr] Hs.
  - assert (mode = false) as -> by (destruct Hm as [->|[-> _]]; done).
    apply projects_valid in Hp; [|apply (free_known S s (order s)); unfold to_try in Hl; rewrite Hl; set_solver|done].
    destruct Hca as (-> & _). exact Hp.
  - by rewrite (sb_configuration _ _ Hr).
Qed.
Lemma generate_valid h limb ps rep post' :
  generate_contact S h limb ps = (rep, post') -> limb ∈ limbNames S -> GenModel.postural h = false -> ok (working h) -> ok (result rep).
Proof.
  intros Hg Hlimb Hp Hw.
  assert (Hd : rstatus rep = NO_CONTACT \/ rstatus rep <> NO_CONTACT) by (destruct (rstatus rep); by (left + right)).
  destruct Hd as [Hno|Hno].
  - destruct (C19_lemma S _ _ _ _ _ Hg) as (_ & _ & _ & H19). destruct (H19 Hno) as (_ & c & [] & Hc). simpl in *. rewrite mt_configuration.
    destruct Hc as [Hc|[_ ->]]; [by eapply freed_valid|done].
  - destruct (HoldProofs.created_projection S _ _ _ _ _ Hg Hp Hno) as (a & x & p & b & Hpr & Hca).
    apply projects_valid in Hpr; [|done..]. destruct Hca as (-> & _). exact Hpr.
Qed.
Lemma reposition_loop_valid old res popped name h res' popped' name' rest h' :
  reposition_loop S old res popped name h = (res', popped', name', rest, h') -> GenModel.postural h = false ->
  (forall x, x ∈ old -> x ∈ limbNames S) -> ok (previous h) -> ok res -> ok res'.
Proof.
  revert res popped name h. induction old as [|x old IH]; intros res popped name h; simpl.
  { by intros [= <- <- <- <- <-]. }
  destruct (stable res). { by intros [= <- <- <- <- <-]. }
  intros Hr Hp Hold Hh Hok. assert (Hold' : forall y, y ∈ old -> y ∈ limbNames S) by (intros y Hy; apply Hold; by right).
  destruct (groupOf S x) as [|l ls] eqn:Eg.
  - eapply IH; [exact Hr|done..].
  - set (res1 := snd (RemoveContact l res)) in *. set (h1 := set_working (state_assign (working h) res1) h) in *.
    destruct (generate_contact S h1 l _) as [r post1] eqn:Egc.
    pose proof Egc as Egc'. apply generate_contact_grown in Egc' as (-> & _). change (GenModel.postural h1) with (GenModel.postural h) in *. rewrite Hp in *.
    assert (Ec : configuration res1 = configuration res) by (unfold res1, RemoveContact; by destruct (has l (contacts res))).
    apply generate_valid in Egc; [|eapply (sv_groups _ _ K); [apply Hold; left|exact Eg]|done|simpl; by rewrite Ec].
    eapply IH in Hr; [exact Hr|done|done|done|]. simpl. exact Egc.
Qed.
Lemma next_step_valid fuel prev cfg t test qs cr h' : consistent prev -> (forall x, x ∈ order prev -> x ∈ limbNames S) ->
  ComputeContacts_next S moved fuel prev cfg t test qs false = Some (cr, h') ->
  (repositionedInPlace cr = true -> ok prev) -> ok (result (cr_rep cr)).
Proof.
  intros Hc Hlimbs Hcc Hok. pose proof (next_step_exact S moved fuel prev cfg t test qs false cr h' Hc Hcc) as [(Hr & _ & r & Hs & Hm)|[Hr _]].
  - destruct Hs as (w1 & l1 & c & l2 & s & _ & _ & Hma & Hco).
    apply maintained_valid in Hma. apply completed_valid in Hco; [|done]. by rewrite (mt_configuration _ _ _ Hm), (sv_extra _ _ K).
  - specialize (Hok Hr). unfold ComputeContacts_next in Hcc. set (h := with_reach test qs _) in Hcc.
    destruct (oneStep S moved fuel h) as [[cr0 h0]|] eqn:E; [|done]. injection Hcc as <- <-. cbn [repositionedInPlace cr_rep] in *.
    unfold oneStep in E. destruct (step_loop S fuel (fresh_report S) h) as [[rep h1]|] eqn:Es; [|done].
    destruct (to_keep_queue prev cfg h Hc eq_refl eq_refl eq_refl) as [Hq Hst].
    apply (step_exact S prev t test qs false (request prev cfg) (to_keep (request prev cfg))) in Es as [Ha _]; [| |done|done|done|].
    2:{ by repeat (split; [done|]). } 2:{ rewrite Hq. constructor. }
    destruct (success rep); [by injection E as <- <-|]. destruct Ha as (E1 & _ & _ & _ & E5 & _).
    unfold handleFailure in E. destruct (repositionContacts S _) as [rep1 h2] eqn:Erp. injection E as <- <-. cbn [generateContactReport cr_rep].
    assert (Hb : ok (result rep1)).
    { unfold repositionContacts in Erp. destruct (reposition_loop S _ _ _ _ _) as [[[[res popped] name] rest] h3] eqn:El.
      apply reposition_loop_valid in El; [|exact E5|simpl; rewrite E1; exact Hlimbs|simpl; by rewrite E1|simpl; by rewrite E1].
      destruct (stable res); injection Erp as <- <-; exact El. }
    destruct (success rep1); [|exact Hb]. cbn [result configuration with_configuration]. by rewrite (sv_extra _ _ K).
Qed.

(** ** The initial state *)
Lemma compute_limbs_valid t limbs cur r post' : (forall x, x ∈ limbs -> x ∈ limbNames S) ->
  compute_limbs S t limbs cur false = (r, post') -> ok cur -> ok r.
Proof.
  revert cur. induction limbs as [|l limbs IH]; intros cur Hl; cbn [compute_limbs]; [by intros [= <- <-]|].
  assert (Hl' : forall x, x ∈ limbs -> x ∈ limbNames S) by (intros x Hx; apply Hl; by right).
  destruct (ContactExistsWithinGroup S l cur); [intros Hr Hok; eapply IH; [exact Hl'|exact Hr|exact Hok]|].
  unfold ComputeStableContact. set (h := with_reach false false _).
  destruct (generate_contact S h l cur) as [rep post] eqn:Eg. pose proof Eg as Eg'. apply generate_contact_grown in Eg' as (-> & _).
  change (GenModel.postural h) with false in *. intros Hr Hok.
  apply generate_valid in Eg; [|apply Hl; left|done|exact Hok]. eapply IH; [exact Hl'|exact Hr|exact Eg].
Qed.
Lemma initial_valid cfg t r post' : ComputeContacts_initial S cfg t false = (r, post') -> validate S cfg = true -> ok r.
Proof. intros H Hok. eapply compute_limbs_valid; [|exact H|exact Hok]. done. Qed.
End step.
