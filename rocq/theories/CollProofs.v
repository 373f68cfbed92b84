(** Proofs of C164. *)
From Verif Require Import Maps MapsProofs Vec StateModel StateSpec StateReal StateRealProofs.
From Verif Require Import ToolModel ToolSpec ToolProofs2 ToolProofs3 CollModel.
From Coq Require Import Lia.

(** * Trees with unique names *)
Lemma tree_trans a b c : in_tree a b -> in_tree b c -> in_tree a c.
Proof. induction 1 as [|a k b Hk H IH]; [done|]. intros Hc. eapply in_down; [exact Hk|exact (IH Hc)]. Qed.
Lemma tree_kids a b : in_tree a b <-> b = a \/ exists k, k ∈ jkids a /\ in_tree k b.
Proof. split; [intros [|? k ? Hk H]; eauto|intros [->|(k & Hk & H)]; [apply in_here|by eapply in_down]]. Qed.
Lemma NoDup_concat_kid (kids : list jnt) k : NoDup (concat (map names kids)) -> k ∈ kids -> NoDup (names k).
Proof.
  intros H Hk. induction kids as [|x kids IH]; [by apply elem_of_nil in Hk|]. cbn in H. apply NoDup_app in H as (H1 & _ & H2).
  apply elem_of_cons in Hk as [->|Hk]; [done|by apply IH].
Qed.
Lemma NoDup_concat_same (kids : list jnt) k k' n : NoDup (concat (map names kids)) -> k ∈ kids -> k' ∈ kids -> n ∈ names k -> n ∈ names k' -> k = k'.
Proof.
  intros H Hk Hk' Hn Hn'. induction kids as [|x kids IH]; [by apply elem_of_nil in Hk|]. cbn in H. apply NoDup_app in H as (H1 & Hd & H2).
  assert (Hin : forall y, y ∈ kids -> n ∈ names y -> n ∈ concat (map names kids)). { intros y Hy Hny. apply elem_of_concat_map. eauto. }
  apply elem_of_cons in Hk as [->|Hk], Hk' as [->|Hk']; [done| | |by apply IH]; exfalso; eapply Hd; eauto.
Qed.
Lemma tree_NoDup a b : NoDup (names a) -> in_tree a b -> NoDup (names b).
Proof.
  intros H Ht. induction Ht as [a|a k b Hk Ht IH]; [done|]. apply IH. destruct a as [m r s bd kids]. cbn in H, Hk.
  apply NoDup_cons in H as [_ H]. by eapply NoDup_concat_kid.
Qed.
Lemma tree_unique r a b : NoDup (names r) -> in_tree r a -> in_tree r b -> jname a = jname b -> a = b.
Proof.
  revert a b. induction r as [m rk s bd kids IH] using jnt_ind'. intros a b Hnd Ha Hb Hn. pose proof Hnd as Hnd'. cbn in Hnd. apply NoDup_cons in Hnd as [Hm Hnd].
  apply tree_kids in Ha as [->|(k & Hk & Ha)], Hb as [->|(k' & Hk' & Hb)]; [done| | |].
  - exfalso. apply Hm. apply elem_of_concat_map. exists k'. split; [done|]. cbn in Hn. rewrite Hn. by apply in_tree_name.
  - exfalso. apply Hm. apply elem_of_concat_map. exists k. split; [done|]. cbn in Hn. rewrite <- Hn. by apply in_tree_name.
  - cbn in Hk, Hk'. assert (k = k') as <-. { eapply NoDup_concat_same; [exact Hnd|done|done|by apply in_tree_name|rewrite Hn; by apply in_tree_name]. }
    apply (IH k Hk); [by eapply NoDup_concat_kid|done|done|done].
Qed.
(** two joints above a third one: the one is above the other *)
Lemma tree_root_above r f : NoDup (names r) -> in_tree r f -> in_tree f r -> f = r.
Proof.
  intros Hnd H1 H2. destruct r as [m rk s bd kids]. apply tree_kids in H1 as [->|(k & Hk & H1)]; [done|]. exfalso. cbn in Hnd, Hk. apply NoDup_cons in Hnd as [Hm _].
  apply Hm. apply elem_of_concat_map. exists k. split; [done|]. exact (in_tree_name _ _ (tree_trans _ _ _ H1 H2)).
Qed.
Lemma reaches_iff (cut : jnt -> Prop) r j : NoDup (names r) ->
  reaches cut r j <-> in_tree r j /\ forall f, in_tree r f -> in_tree f j -> ~ cut f.
Proof.
  intros Hnd. split.
  - intros H. split; [by eapply reaches_in_tree|]. revert Hnd. induction H as [j Hc|j k j' Hc Hk H IH]; intros Hnd f H1 H2.
    + by rewrite (tree_root_above j f Hnd H1 H2).
    + apply tree_kids in H1 as [->|(k' & Hk' & H1)]; [done|]. destruct j as [m rk s bd kids]. cbn in Hnd, Hk, Hk'. apply NoDup_cons in Hnd as [_ Hnd].
      assert (k = k') as <-. { eapply NoDup_concat_same; [exact Hnd|done|done|apply in_tree_name; by eapply reaches_in_tree|exact (in_tree_name _ _ (tree_trans _ _ _ H1 H2))]. }
      apply IH; [by eapply NoDup_concat_kid|done|done].
  - intros [H Hf]. induction H as [j|j k j' Hk H IH].
    + apply reach_here. apply Hf; apply in_here.
    + apply reach_down with k; [apply Hf; [apply in_here|by eapply in_down]|done|].
      apply IH; [destruct j as [m rk s bd kids]; cbn in Hnd, Hk; apply NoDup_cons in Hnd as [_ Hnd]; by eapply NoDup_concat_kid|].
      intros f H1 H2. apply Hf; [by eapply in_down|done].
Qed.

Lemma reaches_walks cut stop a j : reaches cut a j -> (forall f, reaches cut a f -> ~ stop f) -> walks cut stop a j.
Proof.
  intros H Hs. induction H as [j Hc|j k j' Hc Hk H IH]; [by apply walk_here|].
  apply walk_down with k; [done|apply Hs; by apply reach_here|done|]. apply IH. intros f Hf. apply Hs. by apply reach_down with k.
Qed.

(** * getJointByName *)
Lemma joint_by_name n r : match jointByName n r with Some j => in_tree r j /\ jname j = n | None => forall j, in_tree r j -> jname j <> n end.
Proof.
  induction r as [m rk s bd kids IH] using jnt_ind'. cbn [jointByName]. case_bool_decide as Hm.
  - split; [apply in_here|exact Hm].
  - enough (H : match fold_right (fun k r => match jointByName n k with Some x => Some x | None => r end) None kids with
      | Some j => exists k, k ∈ kids /\ in_tree k j /\ jname j = n | None => forall k j, k ∈ kids -> in_tree k j -> jname j <> n end).
    { destruct (fold_right _ _ _) as [j|].
      - destruct H as (k & Hk & Hj & Hn). split; [by eapply in_down|done].
      - intros j Hj. apply tree_kids in Hj as [->|(k & Hk & Hj)]; [done|]. by apply (H k). }
    clear Hm. induction kids as [|k kids IHk]; cbn [fold_right]; [intros k j Hk; by apply elem_of_nil in Hk|].
    pose proof (IH k (elem_of_list_here _ _)) as Hk. destruct (jointByName n k) as [j|].
    + exists k. split; [apply elem_of_list_here|done].
    + specialize (IHk (fun k' Hk' => IH k' (elem_of_list_further _ _ _ Hk'))). destruct (fold_right _ _ _) as [j|].
      * destruct IHk as (k' & Hk' & H). exists k'. split; [by apply elem_of_list_further|done].
      * intros k' j Hk'. apply elem_of_cons in Hk' as [->|Hk']; [apply Hk|by apply IHk].
Qed.

Section coll.
Context (root : jnt) (os : list string) (limbs : gmap string climb) (Hnd : NoDup (names root)) (Hos : NoDup os).

(** nothing is tested below what is not tested *)
Definition closed (S : pairs) : Prop := forall y y' o, in_tree root y -> in_tree y y' -> o ∈ os -> (jname y, o) ∉ S -> (jname y', o) ∉ S.
Lemma remove_subtree e S p : closed S -> in_tree root e ->
  p ∈ RemoveEffectorCollision os e S <-> p ∈ S /\ ~ (p.2 ∈ os /\ exists j, in_tree e j /\ jname j = p.1).
Proof.
  intros Hc He. rewrite remove_effector by (by eapply tree_NoDup). split; intros [Hp H]; (split; [done|]); intros [Ho (j & Hj & Hn)]; apply H; (split; [done|]); exists j; (split; [|done]).
  - apply reaches_iff; [by eapply tree_NoDup|]. split; [done|]. intros f Hf Hfj Hcut. apply (Hc f j p.2); [by eauto using tree_trans|done|done|done|].
    rewrite Hn. by destruct p.
  - by eapply reaches_in_tree.
Qed.
Lemma closed_subtree e S : closed S -> in_tree root e -> closed (RemoveEffectorCollision os e S).
Proof.
  intros Hc He y y' o Hy Hy' Ho H H'. apply (remove_subtree e S _ Hc He) in H' as [H1 H2]. apply H. apply (remove_subtree e S _ Hc He). split.
  - destruct (decide ((jname y, o) ∈ S)) as [|Hn]; [done|]. exfalso. exact (Hc y y' o Hy Hy' Ho Hn H1).
  - intros [_ (j & Hj & Hn)]. apply H2. split; [done|]. exists y'. split; [|done]. cbn in Hn.
    assert (j = y) as <-. { apply (tree_unique root); [done|by eauto using tree_trans|done|done]. }
    by eauto using tree_trans.
Qed.
Definition below_effector (vs : list string) (j : jnt) : Prop :=
  exists v l e, v ∈ vs /\ limbs !! v = Some l /\ cl_disable l = true /\ in_tree root e /\ jname e = cl_eff l /\ in_tree e j.
Lemma free_effectors vs : (forall v, v ∈ vs -> exists l, limbs !! v = Some l /\ (cl_disable l = true -> exists e, in_tree root e /\ jname e = cl_eff l)) ->
  forall S, closed S -> exists ks S', freeEffectorsOf root os limbs vs S = Ok (ks, S') /\ closed S' /\
    (forall n, n ∈ ks <-> exists v l, v ∈ vs /\ limbs !! v = Some l /\ cl_joint l = n) /\
    forall p, p ∈ S' <-> p ∈ S /\ ~ (p.2 ∈ os /\ exists j, below_effector vs j /\ jname j = p.1).
Proof.
  induction vs as [|v vs IH]; intros Hvs S Hc; cbn [freeEffectorsOf].
  - exists [], S. split; [done|]. split; [done|]. split.
    + intros n. split; [intros H; by apply elem_of_nil in H|intros (v & l & H & _); by apply elem_of_nil in H].
    + intros p. split; [intros H; split; [done|]; intros (_ & j & (v & l & e & H' & _) & _); by apply elem_of_nil in H'|tauto].
  - destruct (Hvs v (elem_of_list_here _ _)) as (l & Hl & He). rewrite Hl.
    assert (HI : forall S1, closed S1 -> (forall p, p ∈ S1 <-> p ∈ S /\ ~ (cl_disable l = true /\ p.2 ∈ os /\ exists e j, in_tree root e /\ jname e = cl_eff l /\ in_tree e j /\ jname j = p.1)) ->
      exists ks S', match freeEffectorsOf root os limbs vs S1 with Ok (ks, S'') => Ok (cl_joint l :: ks, S'') | Throw => Throw | Ub => Ub end = Ok (ks, S') /\ closed S' /\
      (forall n, n ∈ ks <-> exists v0 l0, v0 ∈ v :: vs /\ limbs !! v0 = Some l0 /\ cl_joint l0 = n) /\
      forall p, p ∈ S' <-> p ∈ S /\ ~ (p.2 ∈ os /\ exists j, below_effector (v :: vs) j /\ jname j = p.1)).
    { intros S1 Hc1 H1. destruct (IH (fun w Hw => Hvs w (elem_of_list_further _ _ _ Hw)) S1 Hc1) as (ks & S' & -> & Hc' & Hks & Hp).
      exists (cl_joint l :: ks), S'. split; [done|]. split; [done|]. split.
      - intros n. rewrite elem_of_cons, Hks. split.
        + intros [->|(w & l' & Hw & H)]; [exists v, l; split; [apply elem_of_list_here|done]|exists w, l'; split; [by apply elem_of_list_further|done]].
        + intros (w & l' & Hw & Hl' & Hn). apply elem_of_cons in Hw as [->|Hw]; [left; congruence|right; eauto].
      - intros p. rewrite Hp, H1. split.
        + intros [[Hs Hn1] Hn2]. split; [done|]. intros (Ho & j & (w & l' & e & Hw & Hl' & Hd & Het & Hen & Hej) & Hj).
          apply elem_of_cons in Hw as [->|Hw].
          * apply Hn1. assert (l' = l) as -> by congruence. split; [done|]. split; [done|]. by exists e, j.
          * apply Hn2. split; [done|]. exists j. split; [by exists w, l', e|done].
        + intros [Hs Hn]. split; [split; [done|]|].
          * intros (Hd & Ho & e & j & Het & Hen & Hej & Hj). apply Hn. split; [done|]. exists j. split; [|done]. exists v, l, e. split; [apply elem_of_list_here|done].
          * intros (Ho & j & (w & l' & e & Hw & H) & Hj). apply Hn. split; [done|]. exists j. split; [|done]. exists w, l', e. split; [by apply elem_of_list_further|done]. }
    destruct (cl_disable l) eqn:Hd.
    + destruct (He eq_refl) as (e & Het & Hen). pose proof (joint_by_name (cl_eff l) root) as Hj. destruct (jointByName (cl_eff l) root) as [e'|]; [|by destruct (Hj e Het)].
      destruct Hj as [He't He'n]. assert (e' = e) as -> by (apply (tree_unique root); [done|done|done|congruence]).
      apply HI; [by apply closed_subtree|]. intros p. rewrite (remove_subtree e S p Hc Het). split; intros [Hs Hn]; (split; [done|]).
      * intros (_ & Ho & e1 & j & He1t & He1n & Hej & Hjn). apply Hn. split; [done|]. exists j. split; [|done].
        assert (e1 = e) as <- by (apply (tree_unique root); [done|done|done|congruence]). done.
      * intros (Ho & j & Hej & Hjn). apply Hn. split; [done|]. split; [done|]. by exists e, j.
    + apply HI; [done|]. intros p. split; [intros Hs; split; [done|]; by intros [? _]|tauto].
Qed.

(** a joint that no limb of [vs] contains *)
Definition outside_of (vs : list string) (j : jnt) : Prop :=
  ~ exists v l f, v ∈ vs /\ limbs !! v = Some l /\ in_tree root f /\ jname f = cl_joint l /\ in_tree f j.
Lemma disable_spec vs S :
  (forall j o, in_tree root j -> o ∈ os -> (jname j, o) ∈ S) ->
  (forall v, v ∈ vs -> exists l, limbs !! v = Some l /\
     (cl_disable l = true -> exists f e, in_tree root f /\ jname f = cl_joint l /\ in_tree f e /\ jname e = cl_eff l)) ->
  exists S', disableUnnecessary root os limbs vs S = Ok S' /\
    forall p, p ∈ S' <-> p ∈ S /\ ~ (p.2 ∈ os /\ exists j, in_tree root j /\ jname j = p.1 /\ (outside_of vs j \/ below_effector vs j)).
Proof.
  intros Hall Hvs. unfold disableUnnecessary.
  destruct (free_effectors vs) with (S := S) as (ks & S' & -> & Hc & Hks & Hp).
  { intros v Hv. destruct (Hvs v Hv) as (l & Hl & He). exists l. split; [done|]. intros Hd. destruct (He Hd) as (f & e & Hf & _ & Hfe & Hen). exists e. split; [by eauto using tree_trans|done]. }
  { intros y y' o Hy _ Ho H. by destruct (H (Hall y o Hy Ho)). }
  eexists. split; [done|]. intros p. rewrite remove_non_limb by done.
  assert (Hout : forall j, in_tree root j -> reaches (fun j => jname j ∈ ks) root j <-> outside_of vs j).
  { intros j Hj. rewrite reaches_iff by done. split.
    - intros [_ H] (v & l & f & Hv & Hl & Hf & Hn & Hfj). apply (H f Hf Hfj). apply Hks. by exists v, l.
    - intros H. split; [done|]. intros f Hf Hfj Hk. apply Hks in Hk as (v & l & Hv & Hl & Hn). apply H. by exists v, l, f. }
  assert (Hpres : forall j o, in_tree root j -> reaches (fun j => jname j ∈ ks) root j -> o ∈ os -> (jname j, o) ∈ S').
  { intros j o Hj Hr Ho. apply Hp. split; [by apply Hall|]. intros (_ & j' & (v & l & e & Hv & Hl & Hd & He & Hen & Hej) & Hn). cbn in Hn.
    assert (j' = j) as -> by (apply (tree_unique root); [done|by eauto using tree_trans|done|done]).
    apply (proj1 (Hout j Hj) Hr). destruct (Hvs v Hv) as (l' & Hl' & Hf). assert (l' = l) as -> by congruence.
    destruct (Hf Hd) as (f & e' & Hft & Hfn & Hfe & He'n). exists v, l, f. split; [done|]. split; [done|]. split; [done|]. split; [done|].
    assert (e' = e) as -> by (apply (tree_unique root); [done|by eauto using tree_trans|done|congruence]). by eauto using tree_trans. }
  rewrite Hp. split.
  - intros [[Hs Hn1] Hn2]. split; [done|]. intros (Ho & j & Hj & Hn & [Hout'|Hbel]); [|apply Hn1; split; [done|]; by exists j].
    apply Hn2. apply Hout in Hout'; [|done]. exists j. split; [|split; [done|]].
    + apply reaches_walks; [done|]. intros f Hf H. apply H. intros o Ho'. apply Hpres; [by eapply reaches_in_tree|done|done].
    + apply elem_of_list_split in Ho as (l1 & l2 & Heq). exists l1, l2. split; [done|]. intros x Hx. apply Hpres; [done|done|]. rewrite Heq. set_solver.
  - intros [Hs Hn]. split; [split; [done|]|].
    + intros (Ho & j & Hb & Hj). apply Hn. split; [done|]. exists j. split; [|by split; [|right]].
      destruct Hb as (v & l & e & _ & _ & _ & He & _ & Hej). by eauto using tree_trans.
    + intros (j & Hw & Hj & l1 & l2 & Heq & _). apply Hn. split; [rewrite Heq; set_solver|]. exists j.
      pose proof (walks_in_tree _ _ _ _ Hw) as Ht. split; [done|]. split; [done|]. left. apply Hout; [done|]. clear -Hw. induction Hw; [by apply reach_here|by eapply reach_down].
Qed.
(** if a pair of the root is missing, nothing else than the effectors is left out *)
Lemma free_keeps vs : forall S ks S', freeEffectorsOf root os limbs vs S = Ok (ks, S') ->
  (forall p, p ∈ S' -> p ∈ S) /\ forall p, p ∈ S -> ~ (exists j, below_effector vs j /\ jname j = p.1) -> p ∈ S'.
Proof.
  induction vs as [|v vs IH]; intros S ks S' E; cbn [freeEffectorsOf] in E; [injection E as <- <-; done|].
  destruct (limbs !! v) as [l|] eqn:Hl; [|done].
  assert (Hsub : forall p, (exists j, below_effector vs j /\ jname j = p.1) -> exists j : jnt, below_effector (v :: vs) j /\ jname j = (p : string * string).1).
  { intros p (j & (w & l' & e & Hw & H) & Hj). exists j. split; [|done]. exists w, l', e. split; [by apply elem_of_list_further|done]. }
  destruct (cl_disable l) eqn:Hd.
  - pose proof (joint_by_name (cl_eff l) root) as Hj. destruct (jointByName (cl_eff l) root) as [e|]; [|done]. destruct Hj as [Het Hen].
    destruct (freeEffectorsOf root os limbs vs _) as [[ks' S2]| |] eqn:E'; [|done|done]. injection E as <- <-.
    destruct (IH _ _ _ E') as [H1 H2]. assert (Hne := tree_NoDup _ _ Hnd Het). split.
    + intros p Hp. apply H1 in Hp. by apply remove_effector in Hp as [Hp _].
    + intros p Hp Hb. apply H2; [|by intros H; apply Hb, Hsub]. apply remove_effector; [done|]. split; [done|]. intros (_ & j & Hj & Hn).
      apply Hb. exists j. split; [|done]. exists v, l, e. split; [apply elem_of_list_here|]. apply reaches_in_tree in Hj. done.
  - destruct (freeEffectorsOf root os limbs vs _) as [[ks' S2]| |] eqn:E'; [|done|done]. injection E as <- <-.
    destruct (IH _ _ _ E') as [H1 H2]. split; [done|]. intros p Hp Hb. apply H2; [done|]. intros H. by apply Hb, Hsub.
Qed.
Lemma disable_stuck vs S S' o p : disableUnnecessary root os limbs vs S = Ok S' -> o ∈ os -> (jname root, o) ∉ S -> p ∈ S -> p.1 <> jname root ->
  ~ (exists j, below_effector vs j /\ jname j = p.1) -> p ∈ S'.
Proof.
  unfold disableUnnecessary. intros H Ho Hmiss Hp Hn Hb.
  destruct (freeEffectorsOf root os limbs vs S) as [[ks S1]| |] eqn:E; [|done|done]. injection H as <-. destruct (free_keeps _ _ _ _ E) as [H1 H2].
  apply (remove_non_limb_stuck ks os root S1 o); [done|done|done|by intros H; apply Hmiss, H1|by apply H2|done].
Qed.
Lemma disable_throws vs S : disableUnnecessary root os limbs vs S = Throw <->
  exists v, v ∈ vs /\ forall l, limbs !! v = Some l -> cl_disable l = true /\ forall e, in_tree root e -> jname e <> cl_eff l.
Proof.
  assert (H : forall S, match freeEffectorsOf root os limbs vs S with
    | Ok _ => forall v, v ∈ vs -> exists l, limbs !! v = Some l /\ (cl_disable l = true -> exists e, in_tree root e /\ jname e = cl_eff l)
    | Throw => exists v, v ∈ vs /\ forall l, limbs !! v = Some l -> cl_disable l = true /\ forall e, in_tree root e -> jname e <> cl_eff l
    | Ub => False end).
  { clear S. induction vs as [|v vs' IH]; intros S; cbn [freeEffectorsOf]; [intros v H; by apply elem_of_nil in H|].
    destruct (limbs !! v) as [l|] eqn:Hl.
    - assert (HI : (cl_disable l = true -> exists e, in_tree root e /\ jname e = cl_eff l) -> forall S1,
        match match freeEffectorsOf root os limbs vs' S1 with Ok (ks, S'') => Ok (cl_joint l :: ks, S'') | Throw => Throw | Ub => Ub end with
        | Ok _ => forall v0, v0 ∈ v :: vs' -> exists l, limbs !! v0 = Some l /\ (cl_disable l = true -> exists e, in_tree root e /\ jname e = cl_eff l)
        | Throw => exists v0, v0 ∈ v :: vs' /\ forall l, limbs !! v0 = Some l -> cl_disable l = true /\ forall e, in_tree root e -> jname e <> cl_eff l
        | Ub => False end).
      { intros Hd S1. specialize (IH S1). destruct (freeEffectorsOf root os limbs vs' S1) as [[ks S2]| |]; [|destruct IH as (w & Hw & H); exists w; split; [by apply elem_of_list_further|done]|done].
        intros w Hw. apply elem_of_cons in Hw as [->|Hw]; [by exists l|by apply IH]. }
      pose proof (joint_by_name (cl_eff l) root) as Hj. destruct (cl_disable l) eqn:Hd.
      + destruct (jointByName (cl_eff l) root) as [e|]; [apply HI; intros _; by exists e|].
        exists v. split; [apply elem_of_list_here|]. intros l' Hl'. assert (l' = l) as -> by congruence. done.
      + by apply HI.
    - exists v. split; [apply elem_of_list_here|]. intros l. congruence. }
  unfold disableUnnecessary. specialize (H S). destruct (freeEffectorsOf root os limbs vs S) as [[ks S1]| |]; [|by split|done].
  split; [done|]. intros (v & Hv & Hl). destruct (H v Hv) as (l & E & He). destruct (Hl l E) as [Hd Hn]. destruct (He Hd) as (e & Het & Hen). by destruct (Hn e Het).
Qed.
End coll.

(** * Between two states *)
From Verif Require Import CollSpec.
Section between.
Context {Cfg Rot Rob : Type} (root : jnt) (os : list string) (limbs : gmap string climb) (Hnd : NoDup (names root)) (Hos : NoDup os).
Context (from to : State Cfg vec3 Rot Rob).
Lemma variations_moving v : v ∈ allVariations moved3 to from (skeys limbs) <-> exists l, moving limbs from to v l.
Proof.
  destruct (fixed_real from to (skeys limbs)) as (Hf & _ & _ & -> & _). rewrite elem_of_list_filter, Hf, elem_of_skeys. unfold moving.
  split; [intros [H [l Hl]]; by exists l|intros (l & Hl & H); split; [done|by exists l]].
Qed.
Lemma outside_still j : outside_of root limbs (allVariations moved3 to from (skeys limbs)) j <-> still_joint root limbs from to j.
Proof.
  unfold outside_of, still_joint. split; intros H (v & l & f & Hv & H'); apply H; exists v, l, f.
  - split; [apply variations_moving; by exists l|]. destruct Hv as [Hl _]. done.
  - destruct H' as [Hl H']. split; [|done]. apply variations_moving in Hv as (l' & Hl' & Hk). split; [done|done].
Qed.
Lemma below_touching j : below_effector root limbs (allVariations moved3 to from (skeys limbs)) j <-> touching_joint root limbs from to j.
Proof.
  unfold below_effector, touching_joint. split; intros (v & l & f & Hv & H'); exists v, l, f.
  - destruct H' as [Hl H']. split; [|done]. apply variations_moving in Hv as (l' & Hl' & Hk). split; [done|done].
  - split; [apply variations_moving; by exists l|]. destruct Hv as [Hl _]. done.
Qed.
Lemma tested_spec S : (forall j o, in_tree root j -> o ∈ os -> (jname j, o) ∈ S) -> effectors_in_limbs root limbs from to -> (exists v l, moving limbs from to v l) ->
  exists S', testedBetween root os limbs from to S = Ok S' /\
    forall j o, in_tree root j -> (jname j, o) ∈ S' <-> (jname j, o) ∈ S /\ (o ∈ os -> ~ still_joint root limbs from to j /\ ~ touching_joint root limbs from to j).
Proof.
  intros Hall Heff (v & l & Hv). unfold testedBetween.
  destruct (disable_spec root os limbs Hnd Hos (allVariations moved3 to from (skeys limbs)) S Hall) as (S' & E & HS').
  { intros w Hw. apply variations_moving in Hw as (l' & Hl'). exists l'. split; [by destruct Hl'|]. by apply (Heff w). }
  exists S'. split.
  - destruct (allVariations moved3 to from (skeys limbs)) as [|x vs] eqn:Ev; [|done]. exfalso.
    assert (Hin : v ∈ @nil string); [|by apply elem_of_nil in Hin]. rewrite <- Ev. apply variations_moving. by exists l.
  - intros j o Hj. rewrite HS'. cbn. split; intros [Hs H]; (split; [done|]).
    + intros Ho. split; intros Hx; apply H; (split; [done|]); exists j; (split; [done|]); (split; [done|]); [left; by apply outside_still|right; by apply below_touching].
    + intros (Ho & j' & Hj' & Hn & Hx). assert (j' = j) as -> by (apply (tree_unique root); done).
      destruct (H Ho) as [H1 H2]. destruct Hx as [Hx|Hx]; [apply H1; by apply outside_still|apply H2; by apply below_touching].
Qed.
Lemma tested_still S : (forall v l, ~ moving limbs from to v l) -> testedBetween root os limbs from to S = Ok S.
Proof.
  intros H. unfold testedBetween. destruct (allVariations moved3 to from (skeys limbs)) as [|v vs] eqn:Ev; [done|]. exfalso.
  assert (Hin : v ∈ allVariations moved3 to from (skeys limbs)) by (rewrite Ev; apply elem_of_list_here). apply variations_moving in Hin as (l & Hl). by apply (H v l).
Qed.
Lemma tested_throws S : testedBetween root os limbs from to S = Throw <->
  exists v l, moving limbs from to v l /\ cl_disable l = true /\ forall e, in_tree root e -> jname e <> cl_eff l.
Proof.
  assert (H : disableUnnecessary root os limbs (allVariations moved3 to from (skeys limbs)) S = Throw <->
    exists v l, moving limbs from to v l /\ cl_disable l = true /\ forall e, in_tree root e -> jname e <> cl_eff l).
  { rewrite disable_throws. split.
    - intros (v & Hv & H). apply variations_moving in Hv as (l & Hl). exists v, l. split; [done|]. apply H. by destruct Hl.
    - intros (v & l & Hl & H). exists v. split; [apply variations_moving; by exists l|]. intros l' Hl'. destruct Hl as [Hl _]. assert (l' = l) as -> by congruence. done. }
  rewrite <- H. unfold testedBetween. destruct (allVariations moved3 to from (skeys limbs)) as [|v vs] eqn:Ev; [|done].
  unfold disableUnnecessary. cbn. split; done.
Qed.
Lemma tested_stuck S S' o j o' : testedBetween root os limbs from to S = Ok S' -> o ∈ os -> (jname root, o) ∉ S ->
  in_tree root j -> j <> root -> ~ touching_joint root limbs from to j -> (jname j, o') ∈ S -> (jname j, o') ∈ S'.
Proof.
  unfold testedBetween. intros E Ho Hmiss Hj Hne Ht Hp.
  assert (E' : (allVariations moved3 to from (skeys limbs) = [] /\ S' = S) \/ disableUnnecessary root os limbs (allVariations moved3 to from (skeys limbs)) S = Ok S').
  { destruct (allVariations _ _ _ _) as [|v vs]; [left; by injection E as <-|by right]. }
  destruct E' as [[_ ->]|E']; [done|]. apply (disable_stuck root os limbs Hnd Hos _ S S' o (jname j, o') E' Ho Hmiss Hp).
  - cbn. intros H. apply Hne. apply (tree_unique root); [done|done|apply in_here|done].
  - intros (j' & Hb & Hn). apply Ht. cbn in Hn. assert (j' = j) as -> by (apply (tree_unique root); [done| |done|done];
      destruct Hb as (v & l & e & _ & _ & _ & He & _ & Hej); by eauto using tree_trans). by apply below_touching.
Qed.
End between.
