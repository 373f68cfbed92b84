(** The root of the robot during one step of the generator: the projections of the robot. *)
From Coq Require Import Reals ZArith Lra Lia.
From Verif Require Import Maps MapsProofs CombModel GenModel GenSpec GenProofs13 StateModel StateSpec StateReal StateProofs Vec VecProofs SampModel ToolModel ToolSpec
  ProjModel ProjSpec ProjProofs ProjProofs2 SeqModel SeqSpec SeqProofs8 HoldSpec HoldProofs HoldRobot HoldProofs2 HoldExamples StepSpec StepProofs.
From Verif Require Import StateModel ToolSpec ProjModel.
Local Open Scope R_scope.

(** the joints met from the root of the robot before the joints of [cut]: [q] and [q'] give them the same values *)
Definition same_base (B : fullbody) (cut : jnt -> Prop) (q q' : list R) : Prop :=
  forall j, reaches cut (tree (dev B)) j -> lockOf q' j = lockOf q j.
(** the samples of the limbs do not describe these joints *)
Definition samples_of_limbs {Cand} (B : fullbody) (cut : jnt -> Prop) (S : services (list R) vec3 mat3 Cand (sample R)) : Prop :=
  forall limb x j i, limb ∈ limbNames S \/ limb ∈ nonContacting S -> x ∈ GenModel.samples S limb ->
    reaches cut (tree (dev B)) j -> entry_of j i -> ~ sets x i.

Lemma reaches_less (c1 c2 : jnt -> Prop) j j' : (forall x, c1 x -> c2 x) -> reaches c2 j j' -> reaches c1 j j'.
Proof. intros H R. induction R; [apply reach_here; auto|]. eapply reach_down; eauto. Qed.

Section robot.
Context {Cand : Type}.
Variable solve : projector -> list R -> bool * list R.
Variable axis : vec3 -> vec3 -> vec3.
Variable B : fullbody.
Hypothesis LR : lawful_robot (dev B).
Hypothesis SS : sound_solver (dev B) solve.
Variable cut : jnt -> Prop.
Hypothesis Hcut : forall j, limb_root B j -> cut j.

Lemma robot_root (S : services (list R) vec3 mat3 Cand (sample R)) :
  robot_services solve axis B S -> samples_of_limbs B cut S ->
  (forall x l ls, x ∈ limbNames S -> groupOf S x = l :: ls -> l ∈ limbNames S) ->
  root_services S (same_base B cut) (fun x q q' => forall l, limbsOf B !! x = Some l -> elsewhere B l q q').
Proof.
  intros H Hsm Hgr. split.
  - by intros c j _.
  - intros a b c H1 H2 j Hj. by rewrite (H2 j Hj), (H1 j Hj).
  - intros conf cur c Hpr j Hj.
    destruct (rs_root _ _ _ _ H conf cur c Hpr) as (s & rep & Hal & Hrep & Hs & <-).
    apply (root_configuration solve B LR SS) in Hrep as [_ Hrep]. destruct (Hrep Hs) as (_ & Hrep' & _).
    apply Hrep'; [done|]. eapply reaches_less; [exact Hcut|exact Hj].
  - intros limb x c cur Hlimb Hso l Hl. specialize (Hso l Hl). destruct (ik S false limb x c cur) as [ok c'] eqn:Eik. simpl.
    destruct (rs_create _ _ _ _ H limb l x c cur ok c' Hl Hso Eik) as [H1 H2]. destruct ok; [|by apply H2].
    destruct (H1 eq_refl) as (devq & smp & n & v1 & v2 & v3 & s & rep & Hdev & _ & Hpr & Hs & <-).
    eapply sample_to_obstacle in Hpr; [|exact LR|exact SS]; destruct Hpr as [_ Hpr]. destruct (Hpr Hs) as (_ & Hl' & _).
    intros j Hj. rewrite (Hl' j Hj). by apply Hdev.
  - by intros limb c l _ j _.
  - intros limb c c' Hlimb Hso j Hj. apply (rs_limbs _ _ _ _ H) in Hlimb as [l Hl]. apply (Hso l Hl).
    eapply reaches_less; [|exact Hj]. intros x Hx. apply Hcut. by exists limb, l.
  - intros limb x c Hlimb Hx j Hj. rewrite (rs_load _ _ _ _ H). apply lock_entries. intros i Hi. apply load_entries. by eapply Hsm.
  - intros c c' j Hj. apply (rs_extra _ _ _ _ H). by eapply reaches_in_tree.
  - exact Hgr.
Qed.
End robot.

(** the robot with a leg and an arm: its root joint only *)
Lemma hbase j : reaches (limb_root hbody) (tree (dev hbody)) j -> j = htree.
Proof.
  intros R. apply (reaches_less (fun j => jname j = "hip" \/ jname j = "shoulder")%string) in R.
  - change (tree (dev hbody)) with htree in R. inversion R as [|? k ? Hc Hk R']; subst; [done|]. exfalso. simpl in Hk.
    rewrite !elem_of_cons, elem_of_nil in Hk. destruct Hk as [->|[->|[]]]; inversion R' as [? Hn|? ? ? Hn]; subst; simpl in Hn; naive_solver.
  - intros x [E|E]; [exists "leg"%string, hleg|exists "arm"%string, harm]; by rewrite E.
Qed.
Lemma hbase_samples oct stab : samples_of_limbs hbody (limb_root hbody) (made hcheck (fun a _ => a) hbody oct stab hsamples).
Proof.
  intros limb x j i _ Hx Hj%hbase Hi Hs. subst j. simpl in Hx, Hi. unfold hsamples in Hx.
  destruct (bool_decide (limb = "leg"%string)); rewrite ?elem_of_cons, elem_of_nil in Hx.
  - destruct Hx as [->|[->|[]]]; unfold sets in Hs; cbn in Hs; lia.
  - destruct Hx as [->|[]]; unfold sets in Hs; cbn in Hs; lia.
Qed.
Lemma hbase_here : reaches (limb_root hbody) (tree (dev hbody)) htree.
Proof. constructor. intros (n & l & [[_ ->]|[_ ->]]%hlimbs & E); done. Qed.
Lemma hbase_root oct stab : root_services (made hcheck (fun a _ => a) hbody oct stab hsamples) (same_base hbody (limb_root hbody))
  (fun x q q' => forall l, limbsOf hbody !! x = Some l -> elsewhere hbody l q q').
Proof.
  eapply robot_root.
  - exact hrobot_lawful.
  - exact hcheck_sound.
  - done.
  - apply hservices.
  - apply hbase_samples.
  - intros x l ls Hx [= -> _]. done.
Qed.
