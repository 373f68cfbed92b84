(** Proofs: reaching the goal state. *)
From Coq Require Import Reals ZArith Lia Lra.
From Verif Require Import Maps Vec VecProofs StateModel StateSpec StateProofs StateReal StateRealProofs ProjModel ProjSpec ProjProofs ProjProofs2
  CombModel GenModel SeqModel SeqSpec.
Local Open Scope R_scope.

Lemma new_or_moved_ext (s t s' t' : PSt) k : positions s' !! k = positions s !! k -> positions t' !! k = positions t !! k ->
  new_or_moved s t k -> new_or_moved s' t' k.
Proof.
  intros E1 E2 [(p & Hp) H]. split; [exists p; congruence|]. destruct H as [H|(d & (a & b & Ha & Hb & ->) & Hd)].
  - left. congruence.
  - right. eexists. split; [exists a, b; split_and!; [congruence..|done]|done].
Qed.

Section goal.
Variable solve : projector -> list R -> bool * list R.
Variable B : fullbody.
Variable goal : PSt.
Variable pathEnd : option R.
Hypothesis LR : lawful_robot (dev B).
Hypothesis SS : sound_solver (dev B) solve.
Notation vars s := (contactVariations moved3 s goal).

Lemma vars_iff (s : PSt) k : k ∈ vars s <-> differs goal s k.
Proof. unfold differs. destruct (variations_real goal s) as (_ & H & _). rewrite H. tauto. Qed.

Lemma replace_moved (s : PSt) limb rep : replaceLimbContactForState solve B goal s limb = Ok rep -> psuccess rep = true ->
  limb_moved B goal limb s (presult rep).
Proof.
  unfold replaceLimbContactForState, bindo, at_. set (st := snd (RemoveContact limb s)).
  change (addContactConstraints B st (fixedContacts moved3 st st)) with (CreateContactConstraints B st).
  destruct (CreateContactConstraints B st) as [cl| |] eqn:Ecl; try done.
  destruct (limbsOf B !! limb) as [l|] eqn:El; [|done].
  destruct (rotations goal !! limb) as [r|] eqn:Er; [|done].
  destruct (positions goal !! limb) as [p|] eqn:Ep; [|done].
  destruct (normals goal !! limb) as [n|] eqn:En; [|done].
  destruct (frames (dev B) !! effName l) as [f|] eqn:Ef; [|done].
  intros [= E] Hok.
  eapply (effector solve (setPostural B false)) in E as [_ H1]; [|exact LR|exact SS|done|by exists (effName l)].
  specialize (H1 Hok). cbn zeta in H1. destruct H1 as (Hv & Hc & Hd & Ho & Hs).
  exists l, f, n, p, r. split_and!; try done.
  - intros e. eapply (held_of_constraints B st LR _ _ cl Ecl). intros k Hk. by apply Hc.
  - intros H6 Hr. by apply Ho.
Qed.

Lemma moved_positions limb (s s' : PSt) : limb_moved B goal limb s s' ->
  (forall k, k <> limb -> positions s' !! k = positions s !! k) /\
  exists a b, positions s' !! limb = Some a /\ positions goal !! limb = Some b /\ dist3 a b <= 1 / 10000.
Proof.
  intros (l & f & n & p & r & _ & _ & _ & Hp & _ & _ & _ & Hd & _ & (_ & _ & E & _)). simpl in E. rewrite E. split.
  - intros k Hk. rewrite lookup_insert_ne by done. unfold RemoveContact. destruct (has limb (contacts s)); simpl; [|done].
    by rewrite lookup_delete_ne.
  - eexists _, p. rewrite lookup_insert. split_and!; done.
Qed.
Lemma moved_differs limb (s s' : PSt) k : limb_moved B goal limb s s' -> (differs goal s' k <-> differs goal s k /\ k <> limb).
Proof.
  intros Hm. apply moved_positions in Hm as [H1 (a & b & Ha & Hb & Hd)].
  destruct (decide (k = limb)) as [->|Hk].
  - split; [|by intros [_ ?]]. intros Hdf. exfalso. destruct Hdf as [(_ & [H|(d & (x & y & Hx & Hy & ->) & Hgt)])|(_ & [H|(d & (x & y & Hx & Hy & ->) & Hgt)])].
    + congruence.
    + assert (x = a) as -> by congruence. assert (y = b) as -> by congruence. lra.
    + congruence.
    + assert (x = b) as -> by congruence. assert (y = a) as -> by congruence. rewrite dist3_sym in Hgt. lra.
  - assert (E := H1 k Hk). unfold differs. split.
    + intros [H|H]; (split; [|done]); [left|right]; (eapply new_or_moved_ext; [..|exact H]; done).
    + intros [[H|H] _]; [left|right]; (eapply new_or_moved_ext; [..|exact H]; done).
Qed.
Lemma moved_vars moves s mids s2 : limbs_moved B goal moves s mids s2 -> forall k, k ∈ vars s2 <-> k ∈ vars s /\ k ∉ moves.
Proof.
  intros H k. rewrite !vars_iff. induction H as [s|x l s s1 ss s2 Hx Hl IH].
  - split; [intros ?; split; [done|apply not_elem_of_nil]|tauto].
  - rewrite IH, (moved_differs _ _ _ _ Hx), not_elem_of_cons. tauto.
Qed.
(** two states separated by one move differ by at most that limb *)
Lemma moved_one limb (s s' : PSt) k : limb_moved B goal limb s s' -> new_or_moved s s' k \/ new_or_moved s' s k -> k = limb.
Proof.
  intros Hm Hk. apply moved_positions in Hm as [H1 _]. destruct (decide (k = limb)) as [|Hne]; [done|exfalso].
  pose proof (H1 k Hne) as E.
  assert (Hss : forall s0 : PSt, ~ new_or_moved s0 s0 k).
  { intros s0 [(p & Hp) [H|(d & (a & b & Ha & Hb & ->) & Hd)]]; [congruence|].
    assert (a = b) as -> by congruence. pose proof (moved3_refl b) as M. apply moved3_false in M. lra. }
  destruct Hk as [H|H]; apply (Hss s); (eapply new_or_moved_ext; [..|exact H]; done).
Qed.

Notation replace := (replaceLimbContactForState solve B goal).
Definition cannot (s : PSt) (x : string) : Prop := exists rep, replace s x = Ok rep /\ psuccess rep = false.
Lemma firstMovable_spec (s : PSt) before after o : firstMovable solve B goal s before after = Ok o ->
  match o with
  | Some (s', rest) => exists a1 x a2, after = a1 ++ x :: a2 /\ rest = before ++ a1 ++ a2 /\ limb_moved B goal x s s'
  | None => forall x, x ∈ after -> cannot s x
  end.
Proof.
  revert before. induction after as [|x after IH]; intros before; simpl.
  { intros [= <-] y Hy. by apply elem_of_nil in Hy. }
  destruct (replace s x) as [rep| |] eqn:Er; [|done..]. destruct (psuccess rep) eqn:Es.
  - intros [= <-]. exists [], x, after. split_and!; [done..|]. by eapply replace_moved.
  - intros H. apply IH in H. destruct o as [[s' rest]|].
    + destruct H as (a1 & y & a2 & -> & -> & Hm). exists (x :: a1), y, a2. split_and!; [done| |done].
      rewrite <- app_assoc. done.
    + intros y [->|Hy]%elem_of_cons; [by exists rep|by apply H].
Qed.
Lemma rec_spec n states vs t s r : addGoalConfigRec solve B goal n states vs = Ok r -> (length vs <= n)%nat -> (1 <= length vs)%nat ->
  last states = Some (t, s) ->
  exists moves mids s2 rest, r = states ++ map (pair t) mids /\ limbs_moved B goal moves s mids s2 /\
    vs ≡ₚ moves ++ rest /\ last r = Some (t, s2) /\
    (length rest = 1%nat \/ ((2 <= length rest)%nat /\ forall x, x ∈ rest -> cannot s2 x)).
Proof.
  revert states vs s. induction n as [|n IH]; intros states vs s; simpl; [lia|].
  intros H Hn H1 Hl. destruct (length vs =? 1)%nat eqn:E1.
  { injection H as <-. apply Nat.eqb_eq in E1. exists [], [], s, vs. rewrite app_nil_r.
    split; [done|]. split; [constructor|]. split; [done|]. split; [done|by left]. }
  apply Nat.eqb_neq in E1. rewrite Hl in H.
  destruct (firstMovable solve B goal s [] vs) as [[[s' rest]|]| |] eqn:Ef; [| |done..].
  - apply firstMovable_spec in Ef as (a1 & x & a2 & -> & -> & Hm). simpl in H.
    apply (IH (states ++ [(t, s')]) (a1 ++ a2) s') in H as (moves & mids & s2 & rest & -> & Hms & Hp & Hla & Hc).
    + exists (x :: moves), (s' :: mids), s2, rest. split_and!; [by rewrite <- app_assoc|by econstructor| | |done].
      * simpl. rewrite <- Hp. symmetry. apply Permutation_middle.
      * done.
    + rewrite app_length in *. simpl in *. lia.
    + rewrite app_length in *. simpl in *. lia.
    + by rewrite last_snoc.
  - injection H as <-. pose proof (firstMovable_spec _ _ _ _ Ef) as Hc. simpl in Hc.
    exists [], [], s, vs. rewrite app_nil_r. split; [done|]. split; [constructor|]. split; [done|]. split; [done|].
    right. split; [lia|done].
Qed.

(** C128 *)
Lemma C128_lemma states t s r b : last states = Some (t, s) -> addGoalConfig solve B goal pathEnd states = (Ok r, b) ->
  b = postural B /\
  exists V moves mids s2, NoDup V /\ (forall k, k ∈ V <-> differs goal s k) /\ NoDup moves /\ moves ⊆ V /\
    limbs_moved B goal moves s mids s2 /\
    ((length moves + 1 = length V)%nat /\
       r = states ++ map (pair t) mids ++ [(if (length V <=? 1)%nat then t else default t pathEnd, goal)] \/
     (length moves + 1 <> length V)%nat /\ r = states ++ map (pair t) mids /\
       forall x, x ∈ V -> x ∉ moves -> cannot s2 x).
Proof.
  intros Hl. unfold addGoalConfig. rewrite Hl.
  assert (Hnd : NoDup (vars s)) by apply variations_NoDup.
  pose proof (vars_iff s) as Hv. destruct (vars s) as [|v1 [|v2 vs]] eqn:EV.
  - intros [= <- <-]. split; [done|]. exists [], [], [], s. split; [done|]. split; [done|]. split; [constructor|]. split; [apply list_subseteq_nil|]. split; [constructor|].
    right. simpl. split; [lia|]. rewrite app_nil_r. split; [done|]. intros x Hx. by apply elem_of_nil in Hx.
  - intros [= <- <-]. split; [done|]. exists [v1], [], [], s.
    split; [done|]. split; [done|]. split; [constructor|]. split; [apply list_subseteq_nil|]. split; [constructor|].
    left. split; [done|]. done.
  - destruct (addGoalConfigRec _ _ _ _ _ _) as [r0| |] eqn:Er; [|done..].
    apply (rec_spec _ _ _ t s) in Er as (moves & mids & s2 & rest & -> & Hm & Hp & Hla & Hc); [|done|simpl; lia|done].
    rewrite Hla. intros [= <- <-]. split; [done|]. exists (v1 :: v2 :: vs), moves, mids, s2.
    assert (Hnd2 : NoDup (moves ++ rest)) by (by rewrite <- Hp). apply NoDup_app in Hnd2 as (N1 & N2 & N3).
    assert (Hlen : length (vars s2) = length rest).
    { apply Permutation_length, NoDup_Permutation; [apply variations_NoDup|done|]. intros k.
      rewrite (moved_vars _ _ _ _ Hm), EV, Hp, elem_of_app. split; [tauto|].
      intros Hk. split; [by right|]. intros Hk'. by apply (N2 k). }
    assert (Hlv : length (v1 :: v2 :: vs) = (length moves + length rest)%nat) by (by rewrite Hp, app_length).
    split_and!; try done; [intros x Hx; rewrite Hp; set_solver|]. rewrite Hlen.
    destruct (Nat.eqb_spec (length rest) 1) as [E|E].
    + left. split; [lia|]. rewrite <- app_assoc. do 3 f_equal.
    + destruct Hc as [?|[_ Hc]]; [done|]. right. split; [lia|]. split; [done|]. intros x Hx Hnm. apply Hc.
      rewrite Hp in Hx. apply elem_of_app in Hx as [?|?]; done.
Qed.
(** a contact that the goal does not have *)
Lemma C128_throw states t s : last states = Some (t, s) ->
  forall k1 k2 ks, vars s = k1 :: k2 :: ks -> positions goal !! k1 = None -> rotations goal !! k1 = None -> 
  addGoalConfig solve B goal pathEnd states = (Throw, false).
Proof.
  intros Hl k1 k2 ks EV Hp Hr. unfold addGoalConfig. rewrite Hl, EV. simpl. rewrite Hl.
  assert (Hrep : replace s k1 = Throw); [|by rewrite Hrep].
  unfold replaceLimbContactForState, bindo, at_. set (st := snd (RemoveContact k1 s)).
  change (addContactConstraints B st (fixedContacts moved3 st st)) with (CreateContactConstraints B st).
  destruct (CreateContactConstraints B st) eqn:Ecl; [|done|].
  - destruct (limbsOf B !! k1); [|done]. by rewrite Hr.
  - exfalso. clear -Ecl. unfold CreateContactConstraints in Ecl. revert Ecl.
    generalize (fixedContacts moved3 st st). intros l. induction l as [|e l IH]; simpl; [done|].
    destruct (contactConstraint B st e) eqn:E; [|done|].
    + destruct (contactConstraintsOf B st l); [done..|]. intros _. by apply IH.
    + intros _. revert E. unfold contactConstraint. repeat case_match; done.
Qed.
End goal.
