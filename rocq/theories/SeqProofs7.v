(** The whole function. *)
From Coq Require Import Reals ZArith.
From Verif Require Import Maps MapsProofs Vec VecProofs StateModel StateSpec StateReal StateRealProofs StateProofs ProjModel ProjSpec CombModel GenModel SeqModel SeqSpec
  SeqProofs SeqProofs3 SeqProofs4 SeqProofs5 SeqProofs6.
Local Open Scope R_scope.

Section whole.
Variable compute : nat -> PSt -> list R -> vec3 -> vec3 -> R -> creport.
Variables (confSize extra : nat).
Variable useReach : bool.
Variable reachable : PSt -> PSt -> bool.
Variable solve : projector -> list R -> bool * list R.
Variable axis : vec3 -> vec3 -> vec3.
Variable B : fullbody.
Variables (start goal : PSt).
Notation IC := (InterpolateConfigs compute confSize extra useReach reachable solve axis B start goal).
Notation FS := (FilterStates useReach reachable solve axis B).

Lemma deepLoop_mono f f' l r : deepLoop useReach reachable solve axis B f l = Some r -> (f <= f')%nat ->
  deepLoop useReach reachable solve axis B f' l = Some r.
Proof.
  revert f' l. induction f as [|f IH]; intros f' l H Hf; [done|]. destruct f' as [|f']; [lia|]. cbn [deepLoop] in *.
  destruct (FilterStatesRec useReach reachable solve axis B l) as [x| |]; try done.
  destruct (length x =? length l)%nat; [done|]. apply IH; [done|lia].
Qed.
Lemma FS_ends l deep : exists o, (forall fuel, (length l < fuel)%nat -> FS fuel l deep = Some o) /\
  forall r, o = Ok r -> r !! 0%nat = l !! 0%nat /\ last r = last l.
Proof.
  destruct deep.
  - destruct (C131_lemma useReach reachable solve axis B l (S (length l))) as (o & Ho & H); [lia|]. exists o. split.
    + intros fuel Hf. revert Ho. unfold FilterStates. destruct (length l <=? 2)%nat; [done|]. intros E. eapply deepLoop_mono; [done|lia].
    + intros r Hr. destruct (H r Hr) as (? & ? & _). done.
  - destruct (obsolete_filter l) as (_ & H1 & H2 & _). unfold FilterStates. destruct (length l <=? 2)%nat.
    + exists (Ok l). split; [done|]. by intros r [= <-].
    + exists (Ok (FilterObsolete l)). split; [done|]. by intros r [= <-].
Qed.

Lemma goal_prefix pathEnd states r : fst (addGoalConfig solve B goal pathEnd states) = Ok r -> exists more, r = states ++ more.
Proof.
  assert (Hrec : forall n st vs r, addGoalConfigRec solve B goal n st vs = Ok r -> exists more, r = st ++ more).
  { induction n as [|n IH]; intros st vs r0; simpl; [intros [= <-]; exists []; by rewrite app_nil_r|].
    destruct (length vs =? 1)%nat; [intros [= <-]; exists []; by rewrite app_nil_r|]. destruct (last st) as [[t s]|]; [|done].
    destruct (firstMovable solve B goal s [] vs) as [[[s' rest]|]| |]; try done.
    - intros H. apply IH in H as [more ->]. exists ((t, s') :: more). by rewrite <- app_assoc.
    - intros [= <-]. exists []. by rewrite app_nil_r. }
  unfold addGoalConfig. destruct (last states) as [[t s]|]; [|done].
  destruct (contactVariations moved3 s goal) as [|v [|v' vs]]; cbn [fst].
  - intros [= <-]. exists []. by rewrite app_nil_r.
  - intros [= <-]. eauto.
  - destruct (addGoalConfigRec solve B goal (length (v :: v' :: vs)) states (v :: v' :: vs)) as [r0| |] eqn:E; [|cbn [fst]; intros; discriminate..].
    apply Hrec in E as [more ->]. destruct (last (states ++ more)) as [[t' s']|]; [|cbn [fst]; intros; discriminate]. cbn [fst].
    destruct (length _ =? 1)%nat; intros [= <-]; [|by eexists]. rewrite <- app_assoc. by eexists.
Qed.
(** one contact differs *)
Lemma goal_one pathEnd states t s k : last states = Some (t, s) -> (forall e, differs goal s e <-> e = k) ->
  addGoalConfig solve B goal pathEnd states = (Ok (states ++ [(t, goal)]), postural B).
Proof.
  intros Hl Hk. unfold addGoalConfig. rewrite Hl.
  assert (Hv : contactVariations moved3 s goal ≡ₚ [k]).
  { apply NoDup_Permutation; [apply variations_NoDup|apply NoDup_singleton|]. intros e. rewrite vars_iff, Hk, elem_of_list_singleton. reflexivity. }
  apply Permutation_singleton_r in Hv. by rewrite Hv.
Qed.

Section runs.
Variable configs : list (list R).
Variables (step init : R).
Hypothesis Hsz : sized compute confSize extra configs start.
Hypothesis Hne : configs <> [].

Lemma whole_reliable good pathEnd filt : reliable compute good -> good start -> exists n o,
  (forall fuel, (n <= fuel)%nat -> IC fuel pathEnd configs step init filt = Some o) /\
  forall r, o = Ok r -> r !! 0%nat = Some (init, start).
Proof.
  intros Hrel Hst. destruct (C126_lemma compute confSize extra configs step init start good Hrel Hst) as [o Ho].
  destruct Hsz as [known Hsz']. destruct (interpLoop_sized compute confSize extra configs step start known Hsz' _ _ o (inv2_initial compute confSize extra configs init start known Hsz') Ho) as (b & l & ->).
  assert (Hhd : l !! 0%nat = Some (init, start)).
  { assert (Hg : forall f x b l, interpLoop compute confSize extra configs step f x = Some (Ok (b, l)) -> statesOf x !! 0%nat = Some (init, start) ->
      l !! 0%nat = Some (init, start)).
    { clear. induction f as [|f IH]; intros x b l; simpl; destruct (length configs <=? cit x)%nat; try done; try (by intros [= <- <-]).
      destruct (iteration compute confSize extra configs step x) as [y|l'|] eqn:E; [| |done].
      - intros H Hx. eapply IH; [exact H|]. revert E. unfold iteration.
        repeat case_match; try done; intros [= <-]; unfold statesOf in *; cbn [older back]; try done.
        all: destruct (older x); simpl in *; done.
      - intros [= <- <-] Hx. revert E. unfold iteration. repeat case_match; try done; by intros [= <-]. }
    eapply Hg; [exact Ho|done]. }
  set (n0 := (21 * length configs)%nat) in *.
  assert (Hm : forall fuel, (n0 <= fuel)%nat -> interpLoop compute confSize extra configs step fuel (initial init start) = Some (Ok (b, l))).
  { intros fuel Hf. eapply interpLoop_mono; [exact Ho|done]. }
  unfold InterpolateConfigs. destruct configs as [|c0 cs] eqn:Ecs; [done|]. rewrite <- Ecs in *. clear Hne.
  destruct b.
  - destruct (1 <? length l)%nat eqn:E1.
    + destruct (fst (addGoalConfig solve B goal pathEnd l)) as [l'| |] eqn:Eg.
      * pose proof Eg as Eg'. apply goal_prefix in Eg as [more ->]. destruct (FS_ends (l ++ more) filt) as (o & Ho' & Hr).
        exists (max n0 (S (length (l ++ more)))), o. split.
        -- intros fuel Hf. rewrite Hm by lia. rewrite E1, Eg'. rewrite Ho' by lia. done.
        -- intros r Er. destruct (Hr r Er) as [-> _]. destruct l; done.
      * exists n0, Throw. split; [|done]. intros fuel Hf. rewrite Hm by lia. by rewrite E1, Eg.
      * exists n0, Ub. split; [|done]. intros fuel Hf. rewrite Hm by lia. by rewrite E1, Eg.
    + exists n0, (Ok l). split; [|by intros r [= <-]]. intros fuel Hf. rewrite Hm by lia. by rewrite E1.
  - destruct (FS_ends l filt) as (o & Ho' & Hr). exists (max n0 (S (length l))), o. split.
    + intros fuel Hf. rewrite Hm by lia. rewrite Ho' by lia. done.
    + intros r Er. destruct (Hr r Er) as [-> _]. done.
Qed.
Lemma whole_goal pathEnd filt : smooth compute confSize extra step 0 init (init, start) (configuration start) (tail configs) -> exists n o out,
  (forall fuel, (n <= fuel)%nat -> IC fuel pathEnd configs step init filt = Some o) /\
  followed compute confSize extra step 0 init (init, start) (configuration start) (tail configs) out /\
  forall r, o = Ok r -> r !! 0%nat = Some (init, start) /\
    forall t s k, last out = Some (t, s) -> (forall e, differs goal s e <-> e = k) -> last r = Some (t, goal).
Proof.
  intros Hsm. destruct Hsz as [known Hsz'].
  destruct (smooth_lemma compute confSize extra configs step init start known Hsz' (length configs) Hsm) as (out & E & F); [lia|].
  assert (Hm : forall fuel, (length configs <= fuel)%nat -> interpLoop compute confSize extra configs step fuel (initial init start) = Some (Ok (true, (init, start) :: out))).
  { intros fuel Hf. eapply interpLoop_mono; [exact E|done]. }
  unfold InterpolateConfigs. destruct configs as [|c0 cs] eqn:Ecs; [done|]. rewrite <- Ecs in *. clear Hne.
  destruct (1 <? length ((init, start) :: out))%nat eqn:E1.
  - assert (Hout : out <> []) by (intros ->; done).
    destruct (fst (addGoalConfig solve B goal pathEnd ((init, start) :: out))) as [l'| |] eqn:Eg.
    + pose proof Eg as Eg'. apply goal_prefix in Eg as [more ->]. destruct (FS_ends (((init, start) :: out) ++ more) filt) as (o & Ho' & Hr).
      exists (max (length configs) (S (length (((init, start) :: out) ++ more)))), o, out. split; [|split; [done|]].
      * intros fuel Hf. rewrite Hm by lia. rewrite E1, Eg'. rewrite Ho' by lia. done.
      * intros r Er. destruct (Hr r Er) as [-> Hla]. split; [done|]. intros t s k Hl Hk. rewrite Hla.
        rewrite (goal_one pathEnd _ t s k) in Eg'; [|by destruct out|done]. cbn [fst] in Eg'. injection Eg' as E2.
        assert (Em : more = [(t, goal)]) by (by apply app_inv_head in E2). rewrite Em. apply last_snoc.
    + exists (length configs), Throw, out. split; [|split; done]. intros fuel Hf. rewrite Hm by lia. rewrite E1, Eg. done.
    + exists (length configs), Ub, out. split; [|split; done]. intros fuel Hf. rewrite Hm by lia. rewrite E1, Eg. done.
  - assert (Hout : out = []) by (destruct out; done). exists (length configs), (Ok ((init, start) :: out)), out. split; [|split; [done|]].
    + intros fuel Hf. rewrite Hm by lia. rewrite E1. done.
    + intros r [= <-]. split; [done|]. intros t s k. by rewrite Hout.
Qed.
End runs.
End whole.
