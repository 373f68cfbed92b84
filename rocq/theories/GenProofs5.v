From Coq Require Import ZArith.
From Verif Require Import Maps MapsProofs StateModel StateSpec StateProofs CombModel CombSpec CombProofs CombProofs2
  GenModel GenSpec GenProofs GenProofs2 GenProofs3 GenProofs4.

Section proofs.
Context {Cfg Pos Rot Cand Smp : Type}.
Notation St := (State Cfg Pos Rot Z).
Notation Rep := (report Cfg Pos Rot).
Notation Hlp := (helper Cfg Pos Rot).
Variable S : services Cfg Pos Rot Cand Smp.

Lemma grown_refl A (s : St) : grown A s s.
Proof. split; [done| |done]. exists []. rewrite app_nil_r. split; [done|constructor]. Qed.
Lemma grown_trans A (s t u : St) : grown A s t -> grown A t u -> grown A s u.
Proof.
  intros [m1 (e1 & o1 & s1) n1] [m2 (e2 & o2 & s2) n2]. split.
  - intros k Hk. destruct (m1 k Hk) as (->&->&->&->)||idtac.
    destruct (m2 k Hk) as (->&->&->&->). by apply m1.
  - exists (e1 ++ e2). rewrite o2, o1, app_assoc. split; [done|by apply Forall_app].
  - congruence.
Qed.
Lemma grown_mono (A B : string -> Prop) (s t : St) : (forall x, A x -> B x) -> grown A s t -> grown B s t.
Proof.
  intros HAB [m1 (e1 & o1 & s1) n1]. split; [|exists e1|done].
  - intros k Hk. apply m1. naive_solver.
  - split; [done|]. by eapply Forall_impl.
Qed.
(** fields other than the tables, order and count do not matter *)
Lemma grown_assign A (a s t : St) : grown A s t -> grown A s (state_assign a t).
Proof. by intros [m1 o1 n1]; split. Qed.
Lemma grown_stable_l A b (s t : St) : grown A s t -> grown A (with_stable b s) t.
Proof. by intros [m1 o1 n1]; split. Qed.
Lemma grown_stable_r A b (s t : St) : grown A s t -> grown A s (with_stable b t).
Proof. by intros [m1 o1 n1]; split. Qed.

Lemma grown_record limb pl (s : St) : grown (eq limb) s (record_contact limb pl s).
Proof.
  destruct pl as [[p n] r]. split; simpl; [|exists [limb]; by repeat constructor|done].
  intros k Hk. by rewrite !lookup_insert_ne by done.
Qed.

Lemma pass_grown h post limb ps fl fl' out :
  candidate_pass S h post limb ps fl = (fl', out) ->
  grown (eq limb) (working h) out /\ (fl' <> (false, false, false) -> order out = order (working h) ++ [limb]).
Proof.
  unfold candidate_pass. destruct fl as [[? ?] ?]. set (s := fold_left _ _ _). intros [= <- <-].
  pose proof (grown_record limb (place s) (with_stable false (state_copy (working h)))) as Hr.
  destruct (place s) as [[p n] r]. simpl in Hr. destruct Hr as [H1 H2 H3].
  destruct (found_sample s), (found_stable s), (unstableContact s); simpl;
    (split; [first [split; assumption|apply (grown_stable_r (eq limb) false _ (working h)), grown_refl]|try done]).
Qed.

Lemma generate_contact_grown h limb ps rep post :
  generate_contact S h limb ps = (rep, post) ->
  post = postural h /\ grown (eq limb) (working h) (result rep) /\
  (success rep = true -> order (result rep) = order (working h) ++ [limb]).
Proof.
  intros Hg. pose proof (C19_lemma S h limb ps rep post Hg) as (_ & _ & _ & Hno).
  unfold generate_contact in Hg.
  destruct (findValidCandidate S h limb ps) as [[[[g1 g2] g3] st] post'] eqn:Ef.
  apply findValidCandidate_cases in Ef as (-> & fl1 & out1 & E1 & Hc).
  assert (Hst : grown (eq limb) (working h) (state_assign (fresh_state S) st) /\
     ((g1, g2, g3) <> (false, false, false) -> order st = order (working h) ++ [limb])).
  { destruct Hc as [(<- & -> & _)|(_ & _ & out2 & E2 & ->)].
    - apply pass_grown in E1 as [H1 H2]. split; [by apply grown_assign|done].
    - apply pass_grown in E2 as [H1 H2]. split; [by do 2 apply grown_assign|done]. }
  destruct Hst as [H1 H2].
  destruct g1; [injection Hg as <- <-; by split_and!; try done; intros _; apply H2|].
  destruct g2; [injection Hg as <- <-; by split_and!; try done; intros _; apply H2|].
  destruct g3; [injection Hg as <- <-; by split_and!; try done; intros _; apply H2|].
  injection Hg as <- <-. split; [done|]. split; [|done].
  destruct (Hno eq_refl) as (_ & c & [] & _). simpl in *.
  split; simpl.
  - intros k _. rewrite mt_contacts, mt_normals, mt_positions, mt_rotations. done.
  - exists []. rewrite app_nil_r. split; [done|constructor].
  - done.
Qed.

Definition same_params (h h' : Hlp) : Prop := exists w b, h' = set_working w (set_checkGen b h).
Lemma same_params_refl h : same_params h h.
Proof. exists (working h), (checkGen h). by destruct h. Qed.
Lemma same_params_trans h1 h2 h3 : same_params h1 h2 -> same_params h2 h3 -> same_params h1 h3.
Proof. intros (w & b & ->) (w' & b' & ->). by exists w', b'. Qed.
Lemma same_params_working h w : same_params h (set_working w h).
Proof. exists w, (checkGen h). by destruct h. Qed.
Lemma same_params_checkGen h b : same_params h (set_checkGen b h).
Proof. exists (working h), b. by destruct h. Qed.
Lemma set_postural_same (h : Hlp) : set_postural (postural h) h = h.
Proof. by destruct h. Qed.

Lemma try_limbs_spec chk first limbs h rep h' rep' :
  try_limbs S chk first limbs h rep = (h', rep') ->
  same_params h h' /\ grown (fun x => x ∈ limbs) (working h) (working h') /\
  (limbs = [] -> h' = h /\ rep' = rep) /\
  (limbs <> [] -> checkGen h' = chk /\ grown (fun x => x ∈ limbs) (working h) (result rep')).
Proof.
  revert h rep. induction limbs as [|l limbs IH]; intros h rep; simpl.
  { intros [= <- <-]. split_and!; [apply same_params_refl|apply grown_refl|done|done]. }
  set (h1 := match limbs with [] => set_checkGen chk h | _ => h end).
  destruct (generate_contact S h1 l first) as [r post] eqn:Eg.
  apply generate_contact_grown in Eg as (-> & Hg & Hs). rewrite set_postural_same.
  assert (Hp1 : same_params h h1) by (subst h1; destruct limbs; [apply same_params_checkGen|apply same_params_refl]).
  assert (Hw1 : working h1 = working h) by (subst h1; by destruct limbs).
  rewrite Hw1 in *.
  set (rep1 := assign_report rep r). set (h2 := if success rep1 then set_working (state_assign (working h) (result rep1)) h1 else h1).
  assert (Hp2 : same_params h1 h2) by (subst h2; destruct (success rep1); [apply same_params_working|apply same_params_refl]).
  assert (Hr1 : grown (eq l) (working h) (result rep1)).
  { by apply grown_assign. }
  assert (Hw2 : grown (eq l) (working h) (working h2)).
  { subst h2. destruct (success rep1); [exact (grown_assign _ _ _ _ Hr1)|]. rewrite Hw1. apply grown_refl. }
  intros Ht. change (try_limbs S chk first limbs h2 rep1 = (h', rep')) in Ht. apply IH in Ht as (Hp3 & Hg3 & Hnil & Hcons). split_and!.
  - eapply same_params_trans; [exact Hp1|]. eapply same_params_trans; [exact Hp2|exact Hp3].
  - eapply grown_trans; [eapply grown_mono; [|exact Hw2]|eapply grown_mono; [|exact Hg3]]; intros y Hy; subst; set_solver.
  - done.
  - intros _. destruct limbs as [|l' limbs].
    + destruct (Hnil eq_refl) as [-> ->]. split.
      * subst h2 h1. by destruct (success rep1).
      * eapply grown_mono; [|exact Hr1]. intros y Hy; subst; set_solver.
    + destruct (Hcons ltac:(done)) as [Hck Hgr]. split; [done|].
      eapply grown_trans; [eapply grown_mono; [|exact Hw2]|eapply grown_mono; [|exact Hgr]]; intros y Hy; subst; set_solver.
Qed.

Definition at_most_one_empty (q : list (St * list string)) : Prop :=
  forall q1 c q2, q = q1 ++ (c, []) :: q2 -> forall c', (c', []) ∉ q2.

Lemma gen_loop_spec chk q h rep rep' h' (A : string -> Prop) (w0 : St) :
  gen_loop S chk q h rep = (rep', h') ->
  ((checkGen h = chk /\ at_most_one_empty q) \/ (forall c, (c, []) ∉ q)) ->
  (forall c limbs, (c, limbs) ∈ q -> forall x, x ∈ limbs -> A x) ->
  grown A w0 (working h) -> (success rep = true -> grown A w0 (result rep)) ->
  same_params h h' /\ checkGen h' = chk /\ grown A w0 (working h') /\
  (success rep' = true -> grown A w0 (result rep')).
Proof.
  revert h rep. induction q as [|[first limbs] q IH]; intros h rep; simpl; intros Hg He HA Hw Hrep.
  { injection Hg as <- <-. split_and!; [apply same_params_checkGen|done|done|done]. }
  destruct (success rep) eqn:Es.
  { injection Hg as <- <-. split_and!; [apply same_params_checkGen|done|done|]. intros _. by apply Hrep. }
  set (b0 := (bool_decide (limbs = []) && chk && ((2 <=? nbContacts (working h))%Z || stableForOne h) && (thr h <=? isStable S (working h))%Z)) in Hg.
  set (h1 := if b0 then set_working (with_stable true (working h)) h else h) in Hg.
  assert (Hp1 : same_params h h1) by (subst h1; destruct b0; [apply same_params_working|apply same_params_refl]).
  assert (Hck1 : checkGen h1 = checkGen h) by (subst h1; by destruct b0).
  assert (Hw1 : grown A w0 (working h1)).
  { subst h1. destruct b0; [|done]. simpl. by apply grown_stable_r. }
  clearbody h1. clear b0.
  destruct (bool_decide (limbs = []) && _ && _) eqn:Ee.
  { injection Hg as <- <-. rewrite !andb_true_iff in Ee. destruct Ee as [[Ee _] _].
    apply bool_decide_eq_true in Ee as ->.
    destruct He as [[He _]|He]; [|by destruct (He first); left].
    split_and!; [done|congruence|done|]. intros _. simpl. by apply grown_assign. }
  destruct (try_limbs S chk first limbs (set_checkGen false h1) rep) as [h2 rep2] eqn:Et.
  apply try_limbs_spec in Et as (Hp2 & Hw2 & Hnil & Hcons). simpl in Hw2, Hcons.
  assert (HlA : forall x, x ∈ limbs -> A x) by (apply (HA first); left).
  assert (Hgr2 : success rep2 = true -> grown A w0 (result rep2)).
  { intros H2. destruct limbs as [|l limbs].
    - destruct (Hnil eq_refl) as [_ ->]. congruence.
    - destruct Hcons as [_ Hc]; [done|]. eapply grown_trans; [exact Hw1|]. eapply grown_mono; [exact HlA|exact Hc]. }
  assert (Hgw2 : grown A w0 (working h2)).
  { eapply grown_trans; [exact Hw1|]. eapply grown_mono; [exact HlA|exact Hw2]. }
  apply IH in Hg as (Hp3 & Hck3 & Hw3 & Hr3); [| | |done|done].
  - split_and!; [|done..]. eapply same_params_trans; [exact Hp1|].
    eapply same_params_trans; [apply same_params_checkGen|]. eapply same_params_trans; [exact Hp2|exact Hp3].
  - destruct limbs as [|l limbs].
    + right. intros c Hc. destruct He as [[_ He]|He].
      * by apply (He [] first q eq_refl c).
      * apply (He first). left.
    + destruct Hcons as [Hc _]; [done|]. destruct He as [[_ He]|He].
      * left. split; [done|]. intros q1 c q2 ->. apply (He ((first, l :: limbs) :: q1) c q2 eq_refl).
      * right. intros c Hc'. apply (He c). by right.
  - intros c ls Hc. apply (HA c). by right.
Qed.

Lemma gen_queue_props (s : St) m mx :
  NoDup (limbNames S) ->
  let free := sortLimbs (order s) (freeEffectors s (limbNames S)) in
  let q := gen_contacts_combinatorial free s m mx in
  at_most_one_empty q /\
  (forall c limbs, (c, limbs) ∈ q -> c = s /\ limbs ⊆ free /\ NoDup limbs /\ length limbs <= m) /\
  (forall l, l ∈ free <-> free_limb S s l).
Proof.
  intros Hnd. simpl. set (fl := freeEffectors s (limbNames S)).
  assert (Hndf : NoDup fl) by (apply NoDup_filter; done).
  destruct (sortLimbs_correct (order s) fl Hndf) as [Hperm _].
  set (free := sortLimbs (order s) fl) in *.
  assert (Hfree : NoDup free) by (by rewrite Hperm).
  split_and!.
  - unfold gen_contacts_combinatorial. intros q1 c q2 Hq c' Hc'.
    destruct (stringCombinatorial_correct free m mx Hfree) as (HND & _).
    apply elem_of_list_split in Hc' as (q3 & q4 & ->).
    assert (Hm : map snd (map (fun seq => (s, seq)) (stringCombinatorial free m mx)) =
       map snd q1 ++ [] :: map snd q3 ++ [] :: map snd q4).
    { rewrite Hq, map_app. simpl. by rewrite map_app. }
    rewrite map_map, map_id in Hm. rewrite Hm in HND.
    apply NoDup_app in HND as (_ & _ & HND). apply NoDup_cons in HND as [HND _]. set_solver.
  - intros c limbs Hin. apply gen_contacts_combinatorial_correct in Hin as [H1 (H2 & H3 & H4)]; [|done].
    done.
  - intros l. rewrite Hperm. subst fl. unfold freeEffectors, free_limb. rewrite elem_of_list_filter.
    destruct (contacts s !! l) as [[]|]; naive_solver.
Qed.

End proofs.
