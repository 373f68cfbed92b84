(** The root of the robot along a generated sequence: proofs. *)
From Coq Require Import Reals ZArith Lra Lia.
From Verif Require Import Maps MapsProofs CombModel GenModel GenSpec GenProofs13 StateModel StateSpec StateReal StateProofs Vec VecProofs SampModel ToolModel ToolSpec
  ProjModel ProjSpec ProjProofs ProjProofs2 SeqModel SeqSpec SeqProofs SeqProofs2 SeqProofs3 SeqProofs4 SeqProofs5 SeqProofs6 SeqProofs7 SeqProofs8 SeqProofs9 HoldSpec HoldProofs HoldRobot HoldProofs2 HoldProofs3
  StepSpec StepProofs StepRobot RootSpec.
From Verif Require Import StateModel ToolSpec ProjModel.
Local Open Scope R_scope.

Section root.
Variable B : fullbody.
Variable cut : jnt -> Prop.
Notation sb := (same_base B cut).
Lemma sb_refl q : sb q q.
Proof. by intros j _. Qed.
Lemma sb_trans a b c : sb a b -> sb b c -> sb a c.
Proof. intros H1 H2 j Hj. by rewrite (H2 j Hj), (H1 j Hj). Qed.
Lemma sb_entries a b : root_joints B cut -> (forall i, (i < 7)%nat -> b !! i = a !! i) -> sb a b.
Proof. intros Hr H j Hj. apply lock_entries. intros i Hi. apply H. by eapply Hr. Qed.
Lemma mixed_root n extra prev conf c i : mixed n extra prev conf c -> (i < n)%nat -> length conf = length prev -> c !! i = conf !! i.
Proof.
  intros [Hl Hc] Hi El. destruct (decide (i < length prev)%nat) as [H|H].
  - rewrite Hc by done. destruct (Nat.leb_spec (length prev - extra) i).
    + f_equal. lia.
    + by rewrite (proj2 (Nat.ltb_lt i n)).
  - rewrite !lookup_ge_None_2 by lia. done.
Qed.

(** ** The loop *)
Section loop.
Variable compute : nat -> PSt -> list R -> vec3 -> vec3 -> R -> creport.
Variables (confSize extra : nat).
Variable configs : list (list R).
Variables (step init : R).
Variable start : PSt.
Variable good known : PSt -> Prop.
Hypothesis Hsz : sized_by compute confSize extra configs start known.
Hypothesis Hrel : reliable compute good.
Hypothesis Hroot : rooted B cut compute good.
Hypothesis Hj : root_joints B cut.
Notation it := (iteration compute confSize extra configs step).
Notation at0 := (at_start B cut start init).
Notation atc := (at_config B cut configs step init).
Definition placed (o : nat) (x : ist) : Prop :=
  (lastIterator x = 0%nat -> forall f, f ∈ statesOf x -> at0 f) /\
  (forall f, f ∈ statesOf x -> at0 f \/ atc o f) /\
  (lastIterator x = 0%nat \/ exists conf, configs !! lastIterator x = Some conf /\ sb conf (configuration (snd (back x)))) /\
  length (lastConfig x) = confSize /\ known (snd (back x)) /\ ((extra <= 3)%nat -> acc x = vzero).

Lemma placed_step o x y : inv1 good x -> (1 <= cit x)%nat -> (cit x < length configs)%nat -> timed step init o x -> placed o x -> it x = Continue y ->
  exists o', timed step init o' y /\ placed o' y /\ (1 <= cit y)%nat /\ (lastIterator x <> 0%nat -> o' = o).
Proof.
  intros (Hg & Hl & Hr) Hc1 Hlt (Ho & Ht & Hb) (P1 & P2 & P3 & P4) E.
  pose proof (iteration_sized compute confSize extra configs step start known Hsz x P4 Hlt) as [_ Hsy].
  specialize (Hsy y E). pose proof (iteration_cases compute confSize extra configs step good Hrel x Hg) as H. rewrite E in H.
  destruct H as (conf & c & a & Hc & Hm & Ha & Hrest). cbv zeta in Hrest.
  pose proof (Hroot (calls x) (snd (back x)) c (V3 0 0 1) a (currentVal x) Hg) as Hro. cbv zeta in Hro.
  set (r := compute _ _ _ _ _ _) in *. destruct Hrest as (_ & _ & _ & Hcit & Hpush).
  assert (Hcc : sb conf c).
  { apply sb_entries; [done|]. intros i Hi. eapply mixed_root; [exact Hm|done|]. destruct P4 as [-> _].
    destruct Hsz as (_ & _ & _ & _ & Hall & _). apply Hall. by eapply elem_of_list_lookup_2. }
  assert (Hback : back x ∈ statesOf x) by (unfold statesOf; set_solver).
  destruct (crRepos r) eqn:Er.
  - destruct Hcit as (E1 & E2 & _).
    assert (El : lastIterator y = lastIterator x /\ fst (back y) = fst (back x) /\ sb (configuration (snd (back x))) (configuration (snd (back y))) /\
      forall f, f ∈ statesOf y -> f ∈ statesOf x \/ f = back y).
    { destruct Hpush as [(_ & E3 & E4 & ->)|(_ & E3 & E4 & ->)].
      - unfold statesOf. rewrite E3, E4. split_and!; [done..|apply sb_refl|]. set_solver.
      - unfold statesOf at 1. rewrite E3. split_and!; [done|by rewrite E4|rewrite E4; exact Hro|]. unfold statesOf. set_solver. }
    destruct El as (El1 & El2 & El3 & El4).
    assert (Hnew : forall o', (at0 (back x) -> at0 (back y)) /\ (atc o' (back x) -> atc o' (back y))).
    { intros o'. split.
      - intros [Q1 Q2]. split; [congruence|]. eapply sb_trans; [exact Q2|exact El3].
      - intros (i & cf & Q1 & Q2 & Q3 & Q4). exists i, cf. split_and!; [done|done|congruence|]. eapply sb_trans; [exact Q4|exact El3]. }
    exists (if decide (lastIterator x = 0)%nat then 1 else o)%nat. destruct (decide (lastIterator x = 0%nat)) as [Hz|Hz].
    + assert (Hall0 : forall f, f ∈ statesOf y -> at0 f).
      { intros f [Hf| ->]%El4; [by apply P1|]. apply (Hnew 0%nat). by apply P1. }
      destruct Hb as [[Hb1 Hb2]|[Hb1 _]]; [|lia].
      split; [split_and!|split; [split_and!|split]]; try done; try lia; try exact (proj1 Hsy); try exact (proj1 (proj2 Hsy)); try exact (proj2 (proj2 Hsy)).
      * rewrite E1, E2, Hz, Hb2. simpl. ring.
      * left. split; congruence.
      * intros f Hf. left. by apply Hall0.
    + destruct Hb as [[Hb1 Hb2]|[Hb1 Hb2]]; [lia|].
      split; [split_and!|split; [split_and!|split]]; try done; try lia; try exact (proj1 Hsy); try exact (proj1 (proj2 Hsy)); try exact (proj2 (proj2 Hsy)).
      * rewrite E1, E2, Hb2, S_INR. ring.
      * right. split; [lia|]. by rewrite El1, El2.
      * intros f [Hf| ->]%El4; [by apply P2|]. destruct (P2 _ Hback) as [Q|Q]; [left|right]; by apply (Hnew o).
      * destruct P3 as [?|(cf & Q1 & Q2)]; [lia|]. right. exists cf. rewrite El1. split; [done|]. eapply sb_trans; [exact Q2|exact El3].
  - destruct Hcit as (E1 & E2 & _). exists o.
    destruct Hpush as [(_ & E3 & E4 & E5)|(_ & E3 & E4 & E5)].
    + split; [split_and!|split; [split_and!|split]]; try done; try lia; try exact (proj1 Hsy); try exact (proj1 (proj2 Hsy)); try exact (proj2 (proj2 Hsy)).
      * rewrite E1, E2, Ht, S_INR. ring.
      * by rewrite E4, E5.
      * unfold statesOf. rewrite E3, E4, E5. exact P1.
      * unfold statesOf. rewrite E3, E4. exact P2.
      * rewrite E4, E5. exact P3.
    + assert (Hsb : sb conf (configuration (snd (back y)))).
      { rewrite E4. eapply sb_trans; [exact Hcc|exact Hro]. }
      split; [split_and!|split; [split_and!|split]]; try done; try lia; try exact (proj1 Hsy); try exact (proj1 (proj2 Hsy)); try exact (proj2 (proj2 Hsy)).
      * rewrite E1, E2, Ht, S_INR. ring.
      * right. rewrite E4, E5. simpl. split; [done|]. done.
      * intros f Hf. assert (f ∈ statesOf x \/ f = back y) as [Hf'| ->] by (unfold statesOf in Hf |- *; rewrite E3 in Hf; set_solver); [by apply P2|].
        right. exists (cit x), conf. split_and!; [done|done| |done]. rewrite E4. simpl. exact Ht.
      * right. exists conf. by rewrite E5.
Qed.
Lemma loop_placed fuel x o b l : inv1 good x -> (1 <= cit x)%nat -> timed step init o x -> placed o x ->
  interpLoop compute confSize extra configs step fuel x = Some (Ok (b, l)) ->
  exists o', (o' <= 1)%nat /\ forall f, f ∈ l -> at0 f \/ atc o' f.
Proof.
  revert x o. induction fuel as [|fuel IH]; intros x o Hi Hc Ht Hp; simpl.
  - destruct (length configs <=? cit x)%nat; [|done]. intros [= <- <-]. exists o. split; [apply Ht|apply Hp].
  - destruct (Nat.leb_spec (length configs) (cit x)) as [|Hlt]; [intros [= <- <-]; exists o; split; [apply Ht|apply Hp]|].
    destruct (it x) as [y|l'|] eqn:E; [| |done].
    + destruct (inv1_step compute confSize extra configs step good Hrel x y Hi E) as [Hy _].
      destruct (placed_step o x y Hi Hc Hlt Ht Hp E) as (o' & Ht' & Hp' & Hc' & _). by apply (IH y o').
    + intros [= <- <-]. pose proof (iteration_cases compute confSize extra configs step good Hrel x (proj1 Hi)) as H. rewrite E in H. subst l'.
      exists o. split; [apply Ht|apply Hp].
Qed.
Lemma loop_root fuel b l : good start ->
  interpLoop compute confSize extra configs step fuel (initial init start) = Some (Ok (b, l)) ->
  exists o, (o <= 1)%nat /\ forall f, f ∈ l -> at0 f \/ atc o f.
Proof.
  intros Hst. apply (loop_placed fuel _ 0); [by apply inv1_initial|simpl; lia| |].
  - split; [lia|]. simpl. split; [ring|by left].
  - assert (H0 : forall f, f ∈ statesOf (initial init start) -> at0 f).
    { intros f Hf. apply elem_of_list_singleton in Hf as ->. split; [done|]. apply sb_refl. }
    destruct Hsz as (_ & _ & _ & Hkn & _ & Hlen & _).
    split_and!; [done|by left; apply H0|by left|exact (Hlen _ Hkn)|exact Hkn|done].
Qed.
End loop.

(** ** The filters *)
Section filters.
Variable solve : projector -> list R -> bool * list R.
Variable axis : vec3 -> vec3 -> vec3.
Hypothesis LR : lawful_robot (dev B).
Hypothesis SS : sound_solver (dev B) solve.
Hypothesis Hcut : forall j, limb_root B j -> cut j.
Variable useReach : bool.
Variable reachable : PSt -> PSt -> bool.
Variable Q : sframe -> Prop.
Hypothesis HQ : forall t s s', sb (configuration s) (configuration s') -> Q (t, s) -> Q (t, s').
Lemma redone_root limb l s q n p root s' : contact_redone axis B limb l s q n p root s' -> sb root (configuration s').
Proof. intros (f & x & r & _ & _ & _ & _ & H & _) j Hj. apply H. eapply reaches_less; [exact Hcut|exact Hj]. Qed.
Lemma replaced_root (P : PSt -> PSt -> PSt -> PSt -> PSt -> Prop) (later : bool) l r :
  (forall c0 c1 c2 c3 s, P c0 c1 c2 c3 s -> sb (configuration (if later then c2 else c1)) (configuration s)) -> replaced P later l r ->
  (forall x, x ∈ l -> Q x) -> forall x, x ∈ r -> Q x.
Proof.
  intros HP. induction 1 as [l|c l r _ IH|c0 c1 c2 c3 rest r s Hs _ IH]; intros Hl x Hx; [by apply Hl| |].
  - apply elem_of_cons in Hx as [->|Hx]; [apply Hl; left|]. apply IH; [|done]. intros y Hy. apply Hl. by right.
  - apply elem_of_cons in Hx as [->|Hx]; [apply Hl; left|]. apply elem_of_cons in Hx as [->|Hx].
    + apply HP in Hs. destruct later.
      * eapply HQ; [exact Hs|]. destruct c2 as [t2 s2]. apply Hl. set_solver.
      * eapply HQ; [exact Hs|]. destruct c1 as [t1 s1]. apply Hl. set_solver.
    + apply IH; [|done]. intros y Hy. apply Hl. by do 3 right.
Qed.
Lemma FSR_root l r : FilterStatesRec useReach reachable solve axis B l = Ok r -> (forall x, x ∈ l -> Q x) -> forall x, x ∈ r -> Q x.
Proof.
  unfold FilterStatesRec. intros H Hl. apply bindo_ok in H as (r1 & H1 & H2).
  assert (Hsub : forall l' f, f ∈ [FilterRepositioning useReach reachable; FilterBreakCreate useReach reachable; FilterObsolete] ->
    (forall x, x ∈ l' -> Q x) -> forall x, x ∈ f l' -> Q x).
  { intros l' f Hf Hl' x Hx. destruct (C129_lemma useReach reachable l') as (_ & H & _). destruct (H f Hf) as (_ & _ & Hs).
    apply Hl'. eapply elem_of_submseteq; [done|by apply sublist_submseteq]. }
  destruct (C130_lemma useReach reachable solve axis B r1 r LR SS) as [_ HS]. destruct (HS H2) as [HS' _].
  destruct (C130_lemma useReach reachable solve axis B (FilterObsolete (FilterBreakCreate useReach reachable (FilterRepositioning useReach reachable l))) r1 LR SS) as [HT _].
  destruct (HT H1) as [HT' _].
  eapply replaced_root; [|exact HS'|].
  { intros c0 c1 c2 c3 s (S & limb & lb & k & n0 & n1 & x0 & x1 & _ & _ & _ & _ & _ & _ & _ & _ & _ & _ & Hr & _). by eapply redone_root. }
  eapply replaced_root; [|exact HT'|].
  { intros c0 c1 c2 c3 s (limb & lb & n & x1 & x3 & _ & _ & _ & _ & _ & _ & Hr & _). by eapply redone_root. }
  apply Hsub; [set_solver|]. apply Hsub; [set_solver|]. apply Hsub; [set_solver|done].
Qed.
Lemma FS_root fuel l deep r : FilterStates useReach reachable solve axis B fuel l deep = Some (Ok r) ->
  (forall x, x ∈ l -> Q x) -> forall x, x ∈ r -> Q x.
Proof.
  unfold FilterStates. destruct (length l <=? 2)%nat; [by intros [= <-]|]. destruct deep.
  - revert l. induction fuel as [|fuel IH]; intros l; [done|]. cbn [deepLoop].
    destruct (FilterStatesRec useReach reachable solve axis B l) as [r1| |] eqn:E; [|done..].
    pose proof (FSR_root _ _ E) as HR. destruct (length r1 =? length l)%nat.
    + intros [= <-]. done.
    + intros H Hl. apply (IH r1 H). by apply HR.
  - intros [= <-] Hl x Hx. destruct (C129_lemma useReach reachable l) as (_ & H & _). destruct (H FilterObsolete ltac:(set_solver)) as (_ & _ & Hs).
    apply Hl. eapply elem_of_submseteq; [done|by apply sublist_submseteq].
Qed.
End filters.

(** ** The whole function *)
Lemma whole_root solve axis compute confSize extra useReach reachable start goal fuel pathEnd configs step init filt r good :
  lawful_robot (dev B) -> sound_solver (dev B) solve -> (forall j, limb_root B j -> cut j) -> root_joints B cut ->
  sized compute confSize extra configs start -> reliable compute good -> rooted B cut compute good -> good start ->
  InterpolateConfigs compute confSize extra useReach reachable solve axis B start goal fuel pathEnd configs step init filt = Some (Ok r) ->
  exists o, (o <= 1)%nat /\
    ((forall f, f ∈ r -> at_start B cut start init f \/ at_config B cut configs step init o f) \/
     exists t s moves mids s2, (at_start B cut start init (t, s) \/ at_config B cut configs step init o (t, s)) /\
       limbs_moved B goal moves s mids s2 /\
       forall f, f ∈ r -> at_start B cut start init f \/ at_config B cut configs step init o f \/
         exists g, (g ∈ mids \/ g = goal) /\ sb (configuration g) (configuration (snd f)) /\ (fst f = t \/ Some (fst f) = pathEnd)).
Proof.
  intros LR SS Hcut Hj [known Hsz] Hrel Hro Hst. unfold InterpolateConfigs. destruct configs as [|c0 cs] eqn:Econf; [done|]. rewrite <- Econf in *. clear Econf.
  set (A := fun o f => at_start B cut start init f \/ at_config B cut configs step init o f).
  assert (HA : forall o t s s', sb (configuration s) (configuration s') -> A o (t, s) -> A o (t, s')).
  { intros o t s s' Hs [[H1 H2]|(i & cf & H1 & H2 & H3 & H4)]; [left|right].
    - split; [done|]. eapply sb_trans; [exact H2|exact Hs].
    - exists i, cf. split_and!; [done..|]. eapply sb_trans; [exact H4|exact Hs]. }
  destruct (interpLoop _ _ _ _ _ _ _) as [[[b l]| |]|] eqn:El; try done.
  destruct (loop_root compute confSize extra configs step init start good known Hsz Hrel Hro Hj fuel b l Hst El) as (o & Ho & Hl).
  intros Hr. exists o. split; [done|]. destruct b.
  - destruct (1 <? length l)%nat; [|left; by injection Hr as <-].
    destruct (fst (addGoalConfig solve B goal pathEnd l)) as [l'| |] eqn:Eg; try done. right.
    destruct (addGoalConfig solve B goal pathEnd l) as [r0 b0] eqn:E. simpl in Eg. subst r0.
    destruct (last l) as [[t s]|] eqn:Ela; [|unfold addGoalConfig in E; by rewrite Ela in E].
    destruct (C128_lemma solve B goal pathEnd LR SS l t s l' b0 Ela E) as (_ & V & moves & mids & s2 & _ & _ & _ & _ & Hm & Hc).
    exists t, s, moves, mids, s2. split; [apply Hl; by apply last_Some_elem_of in Ela|]. split; [done|].
    apply (FS_root solve axis LR SS Hcut useReach reachable (fun f => at_start B cut start init f \/ at_config B cut configs step init o f \/
         exists g, (g ∈ mids \/ g = goal) /\ sb (configuration g) (configuration (snd f)) /\ (fst f = t \/ Some (fst f) = pathEnd)) ) with (fuel := fuel) (l := l') (deep := filt); [|done|].
    + intros u s3 s4 Hs [H|[H|(g & H1 & H2 & H3)]].
      * destruct (HA o u s3 s4 Hs (or_introl H)); auto.
      * destruct (HA o u s3 s4 Hs (or_intror H)); auto.
      * right. right. exists g. split_and!; [done| |done]. eapply sb_trans; [exact H2|exact Hs].
    + intros x Hx.
      assert (x ∈ l \/ (exists g, g ∈ mids /\ x = (t, g)) \/ exists u, x = (u, goal) /\ (u = t \/ Some u = pathEnd)) as [H|[(g & Hg & ->)|(u & -> & Hu)]].
      { destruct Hc as [(_ & ->)|(_ & -> & _)]; apply elem_of_app in Hx as [Hx|Hx]; [by left| |by left|].
        - apply elem_of_app in Hx as [(y & -> & Hy)%elem_of_list_fmap|Hx%elem_of_list_singleton]; [right; left; by exists y|]. subst x. right; right.
          eexists. split; [done|]. destruct (length V <=? 1)%nat; [by left|]. destruct pathEnd; [by right|by left].
        - apply elem_of_list_fmap in Hx as (y & -> & Hy). right; left. by exists y. }
      * destruct (Hl x H); auto.
      * right; right. exists g. split; [by left|]. split; [apply sb_refl|by left].
      * right; right. exists goal. split; [by right|]. split; [apply sb_refl|done].
  - left. eapply (FS_root solve axis LR SS Hcut useReach reachable (A o)); [intros; by eapply HA|exact Hr|exact Hl].
Qed.

(** ** Along a path *)
Lemma config_path extra (p : R -> list R) n start t0 t1 step K configs o f : (7 + extra <= n)%nat -> (n <= length start)%nat -> (forall t, length (p t) = n) ->
  root_joints B cut -> path_sampled extra p n start t0 t1 step K configs -> at_config B cut configs step t0 o f -> on_path B cut p t0 t1 step o f.
Proof.
  intros Hn Hle Hp Hj (HK & Hlt & Hge & Hlen & _ & Hk & Hlast) (i & conf & Hi & Hc & Ht & Hs).
  exists i. split; [done|]. split; [done|]. eapply sb_trans; [|exact Hs]. apply sb_entries; [done|]. intros j Hj7.
  assert (HiK : (i <= K)%nat) by (apply lookup_lt_Some in Hc; lia).
  assert (exists q, conf = q /\ mixed (n - extra) extra start (p (Rmin (t0 + INR i * step) t1)) q) as (q & -> & _ & Hm).
  { destruct (decide (i = K)) as [->|Hne].
    - rewrite Rmin_right by lra. destruct Hlast as (c & Hc' & Hm). exists c. split; [congruence|done].
    - destruct (Hk i ltac:(lia)) as (c & Hc' & Hm). rewrite Rmin_left by (specialize (Hlt i ltac:(lia)); lra). exists c. split; [congruence|done]. }
  rewrite Hm by lia. rewrite (proj2 (Nat.leb_gt _ _)) by lia. by rewrite (proj2 (Nat.ltb_lt _ _)) by lia.
Qed.
End root.

(** ** The generator of the library *)
Lemma generated_rooted {Cand} solve axis B (cut : jnt -> Prop) (Sv : nat -> vec3 -> vec3 -> R -> services (list R) vec3 mat3 Cand (sample R)) threshold test quasi compute limbs :
  lawful_robot (dev B) -> sound_solver (dev B) solve -> (forall j, limb_root B j -> cut j) ->
  generated Sv threshold test quasi false compute ->
  (forall k d a t, robot_services solve axis B (Sv k d a t) /\ samples_of_limbs B cut (Sv k d a t) /\
     (forall x, x ∈ limbs -> groupOf (Sv k d a t) x = [x]) /\ limbNames (Sv k d a t) = limbs) ->
  rooted B cut compute (on_limbs limbs).
Proof.
  intros LR SS Hcut Hg Hs k prev c d a t [Hc Ho]. cbv zeta.
  destruct (Hg k prev c d a t) as (prev' & fuel & cr & h & Hal & Hcc & _ & _ & _ & _ & Hrep & Hr).
  destruct (Hs k d a t) as (H1 & H2 & H3 & H4).
  pose proof (alike_consistent _ _ Hal Hc) as Hc'. assert (Ho' : order prev' = order prev) by apply Hal.
  pose proof (next_step_root (Sv k d a t) moved3 _ _ (robot_root solve axis B LR SS cut Hcut (Sv k d a t) H1 H2
     ltac:(rewrite H4; intros x l ls Hx E; rewrite H3 in E by done; by injection E as <- _))
     fuel prev' c threshold test quasi cr h Hc' ltac:(rewrite H4, Ho'; exact Ho) Hcc) as H.
  rewrite Hrep. destruct Hr as (E & _). rewrite <- E. destruct Hal as (E0 & _). by rewrite <- E0.
Qed.

(** ** From a path *)
Lemma sampleFrom_mono extra (path : R -> list R) t1 step f f' i back r : sampleFrom f extra path t1 step i back = Some r -> (f <= f')%nat ->
  sampleFrom f' extra path t1 step i back = Some r.
Proof.
  revert f' i back r. induction f as [|f IH]; intros f' i back r; [done|]. destruct f' as [|f']; [lia|]. intros H Hf. cbn [sampleFrom] in *.
  destruct (Rltb i t1); [|done]. destruct (configPosition extra back (path (Rmin i t1))) as [c| |]; [|done..].
  destruct (sampleFrom f extra path t1 step (i + step) c) as [o|] eqn:E; [|done]. by rewrite (IH f' _ _ _ E) by lia.
Qed.
Lemma pathConfigs_mono extra (path : R -> list R) t0 t1 step start f f' r : pathConfigs f extra path t0 t1 step start = Some r -> (f <= f')%nat ->
  pathConfigs f' extra path t0 t1 step start = Some r.
Proof.
  unfold pathConfigs. intros H Hf. destruct (sampleFrom f extra path t1 step (t0 + step) start) as [o|] eqn:E; [|done].
  by rewrite (sampleFrom_mono _ _ _ _ _ _ _ _ _ E Hf).
Qed.
Lemma path_root solve axis B (cut : jnt -> Prop) compute confSize extra useReach reachable start goal fuel (p : R -> list R) n t0 t1 step filt r good :
  lawful_robot (dev B) -> sound_solver (dev B) solve -> (forall j, limb_root B j -> cut j) -> root_joints B cut ->
  0 < step -> (forall t, length (p t) = n) -> (7 + extra <= n)%nat /\ (n <= confSize)%nat ->
  sized compute confSize extra [] start -> reliable compute good -> rooted B cut compute good -> good start ->
  InterpolatePath compute confSize extra useReach reachable solve axis B start goal fuel (Some (p, t0, t1)) step filt = Some (Ok r) ->
  exists o, (o <= 1)%nat /\
    ((forall f, f ∈ r -> at_start B cut start t0 f \/ on_path B cut p t0 t1 step o f) \/
     exists t s moves mids s2, (at_start B cut start t0 (t, s) \/ on_path B cut p t0 t1 step o (t, s)) /\
       limbs_moved B goal moves s mids s2 /\
       forall f, f ∈ r -> at_start B cut start t0 f \/ on_path B cut p t0 t1 step o f \/
         exists g, (g ∈ mids \/ g = goal) /\ same_base B cut (configuration g) (configuration (snd f)) /\ (fst f = t \/ fst f = t1)).
Proof.
  intros LR SS Hcut Hj Hstep Hlen [Hn1 Hn2] Hsz Hrel Hro Hst HI. unfold InterpolatePath in HI.
  destruct (pathConfigs fuel extra p t0 t1 step (configuration start)) as [[configs| |]|] eqn:Ec; try done.
  destruct Hsz as (known & S1 & S2 & S3 & S4 & _ & S6 & S7). pose proof (S6 _ S4) as S4'.
  destruct (C125_lemma extra p n (configuration start) t0 t1 step Hstep Hlen ltac:(lia) ltac:(lia)) as (K & configs' & H1 & H2 & H3 & H4 & H5 & H6 & H7 & H8).
  assert (configs' = configs) as ->.
  { pose proof (pathConfigs_mono _ _ _ _ _ _ _ (fuel + K) _ Ec ltac:(lia)) as Ha. rewrite (H4 (fuel + K)%nat ltac:(lia)) in Ha. by injection Ha. }
  assert (Hps : path_sampled extra p n (configuration start) t0 t1 step K configs) by (repeat split; assumption).
  assert (Hsz : sized compute confSize extra configs start).
  { exists known. split; [exact S1|]. split; [exact S2|]. split; [exact S3|]. split; [exact S4|]. split; [|split; [exact S6|exact S7]].
    intros c Hc. apply elem_of_list_lookup in Hc as [i Hi]. assert (Hlt := lookup_lt_Some _ _ _ Hi).
    destruct (decide (i = 0%nat)) as [->|]; [congruence|]. destruct (decide (i = K)) as [->|].
    + destruct H8 as (c' & Hc' & [Hm _]). rewrite Hi in Hc'. injection Hc' as <-. lia.
    + destruct (H7 i ltac:(lia)) as (c' & Hc' & [Hm _]). rewrite Hi in Hc'. injection Hc' as <-. lia. }
  assert (Hon : forall o f, at_config B cut configs step t0 o f -> on_path B cut p t0 t1 step o f).
  { intros o f. eapply config_path; [exact Hn1| |exact Hlen|exact Hj|exact Hps]. lia. }
  destruct (whole_root B cut solve axis compute confSize extra useReach reachable start goal fuel (Some t1) configs step t0 filt r good LR SS Hcut Hj Hsz Hrel Hro Hst HI)
    as (o & Ho & [Hr|(t & s & moves & mids & s2 & Hts & Hm & Hr)]); exists o; (split; [done|]).
  - left. intros f Hf. destruct (Hr f Hf); auto.
  - right. exists t, s, moves, mids, s2. split; [destruct Hts; auto|]. split; [done|]. intros f Hf.
    destruct (Hr f Hf) as [?|[?|(g & G1 & G2 & G3)]]; [by left|right; left; by apply Hon|]. right; right. exists g. split_and!; [done..|].
    destruct G3 as [?|G3]; [by left|right]. by injection G3.
Qed.
Lemma filtered_root solve axis B (cut : jnt -> Prop) useReach reachable fuel l deep r :
  lawful_robot (dev B) -> sound_solver (dev B) solve -> (forall j, limb_root B j -> cut j) ->
  FilterStates useReach reachable solve axis B fuel l deep = Some (Ok r) ->
  forall f, f ∈ r -> exists g, g ∈ l /\ fst g = fst f /\ same_base B cut (configuration (snd g)) (configuration (snd f)).
Proof.
  intros LR SS Hcut H.
  apply (FS_root B cut solve axis LR SS Hcut useReach reachable
    (fun f => exists g, g ∈ l /\ fst g = fst f /\ same_base B cut (configuration (snd g)) (configuration (snd f)))) with (fuel := fuel) (l := l) (deep := deep); [|exact H|].
  - intros t s s' Hs (g & G1 & G2 & G3). exists g. split_and!; [done..|]. eapply sb_trans; [exact G3|exact Hs].
  - intros x Hx. exists x. split_and!; [done..|]. apply sb_refl.
Qed.

(** ** Sizes *)
Lemma keeps_size_services {Cand} (S : services (list R) vec3 mat3 Cand (sample R)) n : keeps_size S n ->
  (forall x, x ∈ limbNames S -> groupOf S x = [x]) ->
  root_services S (fun a b => length a = n -> length b = n) (fun x a b => length a = n -> length b = n).
Proof.
  intros [K1 K2 K3 K4] Hgr. split; try done.
  - intros a b c H1 H2 H. by apply H2, H1.
  - intros conf cur c H Hn. by eapply K1.
  - intros limb x c cur _ H Hn. apply K2; [done|by apply H].
  - intros limb smp c _ Hs Hn. by eapply K3.
  - intros x l ls Hx E. rewrite Hgr in E by done. by injection E as <- _.
Qed.
Lemma generated_sized {Cand} (Sv : nat -> vec3 -> vec3 -> R -> services (list R) vec3 mat3 Cand (sample R)) threshold test quasi compute limbs n extra configs start :
  generated Sv threshold test quasi false compute -> NoDup limbs ->
  (forall k d a t, keeps_size (Sv k d a t) n /\ (forall x, x ∈ limbs -> groupOf (Sv k d a t) x = [x]) /\ limbNames (Sv k d a t) = limbs) ->
  (7 <= n)%nat -> (extra <= n)%nat -> (extra <= 3)%nat \/ (6 <= extra)%nat ->
  consistent start -> (forall x, x ∈ order start -> x ∈ limbs) -> length (configuration start) = n -> (forall c, c ∈ configs -> length c = n) ->
  sized compute n extra configs start.
Proof.
  intros Hg Hnd Hs H1 H2 H3 Hc Ho Hst Hcs.
  exists (fun s => on_limbs limbs s /\ length (configuration s) = n). split; [done|]. split; [done|]. split; [done|]. split; [by split|]. split; [done|].
  split; [by intros s [_ ?]|].
  intros k prev c d a t [Hprev Hlp] Hlc s Hcs'. split.
  - eapply generated_reliable; [exact Hg|apply Hs|exact Hnd| |exact Hprev|exact Hcs'].
    intros k' d' a' t' x Hx. by apply Hs.
  - destruct (Hg k prev c d a t) as (prev' & fuel & cr & h & Hal & Hcc & _ & _ & _ & _ & _ & Hr).
    destruct (Hs k d a t) as (K1 & K2 & K3). destruct Hprev as [Hpc Hpo].
    pose proof (alike_consistent _ _ Hal Hpc) as Hc'. assert (Ho' : order prev' = order prev) by apply Hal.
    pose proof (next_step_root (Sv k d a t) moved3 _ _ (keeps_size_services (Sv k d a t) n K1 ltac:(rewrite K3; exact K2))
       fuel prev' c threshold test quasi cr h Hc' ltac:(rewrite K3, Ho'; exact Hpo) Hcc) as H.
    destruct Hcs' as (-> & _). destruct Hr as (<- & _). apply H. destruct (repositionedInPlace cr); [|done]. by destruct Hal as (-> & _).
Qed.
(** ** Everything together *)
Lemma library_path {Cand} solve axis B (cut : jnt -> Prop) (Sv : nat -> vec3 -> vec3 -> R -> services (list R) vec3 mat3 Cand (sample R)) threshold test quasi compute limbs
  confSize extra useReach reachable start goal (p : R -> list R) n t0 t1 step filt :
  lawful_robot (dev B) -> sound_solver (dev B) solve -> (forall j, limb_root B j -> cut j) -> root_joints B cut ->
  generated Sv threshold test quasi false compute -> NoDup limbs ->
  (forall k d a t, robot_services solve axis B (Sv k d a t) /\ samples_of_limbs B cut (Sv k d a t) /\ keeps_size (Sv k d a t) confSize /\
     (forall x, x ∈ limbs -> groupOf (Sv k d a t) x = [x]) /\ limbNames (Sv k d a t) = limbs) ->
  consistent start -> (forall x, x ∈ order start -> x ∈ limbs) -> length (configuration start) = confSize ->
  0 < step -> (forall t, length (p t) = n) -> (7 + extra <= n)%nat /\ (n <= confSize)%nat -> (extra <= 3)%nat \/ (6 <= extra)%nat ->
  exists m o, (forall fuel, (m <= fuel)%nat ->
    InterpolatePath compute confSize extra useReach reachable solve axis B start goal fuel (Some (p, t0, t1)) step filt = Some o) /\
  forall r, o = Ok r -> r !! 0%nat = Some (t0, start) /\ exists k, (k <= 1)%nat /\
    ((forall f, f ∈ r -> at_start B cut start t0 f \/ on_path B cut p t0 t1 step k f) \/
     exists t s moves mids s2, (at_start B cut start t0 (t, s) \/ on_path B cut p t0 t1 step k (t, s)) /\
       limbs_moved B goal moves s mids s2 /\
       forall f, f ∈ r -> at_start B cut start t0 f \/ on_path B cut p t0 t1 step k f \/
         exists g, (g ∈ mids \/ g = goal) /\ same_base B cut (configuration g) (configuration (snd f)) /\ (fst f = t \/ fst f = t1)).
Proof.
  intros LR SS Hcut Hj Hg Hnd Hs Hc Ho Hl Hstep Hp [Hn1 Hn2] Hex.
  assert (Hrel : reliable compute (on_limbs limbs)).
  { eapply generated_reliable; [exact Hg|apply Hs|exact Hnd|]. intros k d a t x Hx. by apply Hs. }
  assert (Hsz : sized compute confSize extra [] start).
  { eapply generated_sized; [exact Hg|exact Hnd| |lia|lia|exact Hex|exact Hc|exact Ho|exact Hl|by intros c ?%elem_of_nil].
    intros k d a t. destruct (Hs k d a t) as (_ & _ & ? & ? & ?). done. }
  assert (Hro : rooted B cut compute (on_limbs limbs)).
  { eapply generated_rooted; [exact LR|exact SS|exact Hcut|exact Hg|]. intros k d a t. destruct (Hs k d a t) as (? & ? & _ & ? & ?). done. }
  assert (Hst : on_limbs limbs start) by (by split).
  destruct (path_ends compute confSize extra useReach reachable solve axis B start goal p n t0 t1 step Hstep Hp ltac:(lia) (on_limbs limbs) filt Hsz Hrel Hst)
    as (m & o & Hm & Hfirst).
  exists m, o. split; [exact Hm|]. intros r Hr. split; [by apply Hfirst|].
  eapply path_root; [exact LR|exact SS|exact Hcut|exact Hj|exact Hstep|exact Hp|by split|exact Hsz|exact Hrel|exact Hro|exact Hst|].
  rewrite <- Hr. apply (Hm m). lia.
Qed.
