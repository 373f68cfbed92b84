(** Runs of the loop. *)
From Coq Require Import Reals ZArith.
From Verif Require Import Maps MapsProofs Vec VecProofs StateModel StateSpec StateReal ProjModel ProjSpec CombModel GenModel SeqModel SeqSpec SeqProofs.
Local Open Scope R_scope.

Section runs.
Variable compute : nat -> PSt -> list R -> vec3 -> vec3 -> R -> creport.
Variables (confSize extra : nat).
Variable configs : list (list R).
Variables (step init : R).
Variable start : PSt.
Variable known : PSt -> Prop.
Hypothesis Hsz : sized_by compute confSize extra configs start known.
Notation it := (iteration compute confSize extra configs step).
Notation "'inv2' x" := (length (lastConfig x) = confSize /\ known (snd (back x)) /\ ((extra <= 3)%nat -> acc x = vzero))
  (at level 10).

Lemma loadPrevious_sized prev conf : length prev = confSize -> length conf = confSize -> exists c,
  loadPreviousConfiguration extra prev conf = Ok c /\ mixed 7 extra prev conf c /\ length c = confSize.
Proof.
  intros Hp Hc. destruct Hsz as (H7 & He & _). unfold loadPreviousConfiguration.
  rewrite (proj2 (Nat.leb_le 7 (length prev))), (proj2 (Nat.leb_le 7 (length conf))), (proj2 (Nat.leb_le extra (length prev))),
    (proj2 (Nat.leb_le extra (length conf))) by lia. cbn [andb]. eexists. split; [done|].
  match goal with |- mixed _ _ _ _ ?c /\ _ => assert (Hm : mixed 7 extra prev conf c) end.
  { apply loadPrevious_ok. unfold loadPreviousConfiguration.
    rewrite (proj2 (Nat.leb_le 7 (length prev))), (proj2 (Nat.leb_le 7 (length conf))), (proj2 (Nat.leb_le extra (length prev))),
      (proj2 (Nat.leb_le extra (length conf))) by lia. done. }
  split; [done|]. destruct Hm as [-> _]. done.
Qed.
Lemma readAcc_sized x c : inv2 x -> length c = confSize -> exists a, readAcc confSize extra x c = Ok a /\ acceleration_of confSize extra c a.
Proof.
  intros (_ & Hb & Ha) Hc. destruct Hsz as (H7 & He & Hx & _ & _ & Hlen & _). apply Hlen in Hb. unfold readAcc, acceleration_of.
  destruct (Nat.ltb_spec (confSize - extra + 3) (length c)).
  - destruct Hx as [Hx|Hx]; [lia|]. rewrite (proj2 (Nat.leb_le _ _)) by lia. eexists. split; [done|]. split; [|lia].
    intros _ j Hj. assert (Hn : forall k, (k < length c)%nat -> c !! k = Some (nth k c 0)).
    { intros k Hk. destruct (nth_lookup_or_length c k 0) as [?|?]; [done|lia]. }
    destruct j as [|[|[|j]]]; [| | |lia]; cbn; rewrite Hn by lia; f_equal; f_equal; lia.
  - rewrite (proj2 (Nat.leb_le _ _)) by lia. eexists. split; [done|]. split; [lia|]. done.
Qed.
Lemma iteration_sized x : inv2 x -> (cit x < length configs)%nat -> it x <> Undefined /\ forall y, it x = Continue y -> inv2 y.
Proof.
  intros Hi Hlt. destruct (lookup_lt_is_Some_2 configs (cit x) Hlt) as [conf Hc].
  pose proof Hsz as (H7 & He & Hx & _ & Hall & Hks & Hres).
  destruct (loadPrevious_sized (lastConfig x) conf) as (c & Hl & _ & Hlen); [apply Hi|apply Hall; by eapply elem_of_list_lookup_2|].
  destruct (readAcc_sized x c Hi Hlen) as (a & Ha & Haa).
  unfold iteration. rewrite Hc, Hl, Ha. cbv zeta.
  set (r := compute _ _ _ _ _ _).
  assert (Hk : known (recount (crResult r))) by (eapply Hres; [apply Hi|exact Hlen|apply counted_recount]).
  assert (Hr : length (configuration (crResult r)) = confSize) by exact (Hks _ Hk).
  destruct (allowFailure x && (negb (crOk r) || crMulti r)); cbn [andb].
  - destruct (1 <? S (nbFailures x))%nat; [by split; [done|]|]. destruct (crRepos r && _); [by split; [done|]|]. split; [done|].
    intros y [= <-]. cbn [lastConfig back acc]. split; [done|]. split; [destruct (_ && _); [apply Hi|done]|]. intros; by apply Haa.
  - destruct (crRepos r && _); [by split; [done|]|]. split; [done|].
    intros y [= <-]. cbn [lastConfig back acc]. split; [done|]. split; [destruct (_ && _); [apply Hi|done]|]. intros; by apply Haa.
Qed.
Lemma interpLoop_sized fuel x o : inv2 x -> interpLoop compute confSize extra configs step fuel x = Some o -> exists b l, o = Ok (b, l).
Proof.
  revert x. induction fuel as [|fuel IH]; intros x Hi; simpl; destruct (Nat.leb_spec (length configs) (cit x)) as [|Hlt]; try done.
  1-2: intros [= <-]; eauto.
  destruct (iteration_sized x Hi Hlt) as [Hu Hy]. destruct (it x) as [y|l|] eqn:E; [|intros [= <-]; eauto|done].
  intros H1. eapply IH; [|exact H1]. by apply Hy.
Qed.
Lemma inv2_initial : inv2 (initial init start).
Proof. destruct Hsz as (_ & _ & _ & H & _ & Hks & _). simpl. split; [by apply Hks|done]. Qed.

Section smooth.
Notation smooth_at x := (smooth compute confSize extra step (calls x) (currentVal x) (back x) (lastConfig x) (drop (cit x) configs)).
Lemma smooth_step x : inv2 x -> smooth_at x -> (cit x < length configs)%nat -> exists conf c a y,
  configs !! cit x = Some conf /\ mixed 7 extra (lastConfig x) conf c /\ acceleration_of confSize extra c a /\
  it x = Continue y /\ cit y = S (cit x) /\ calls y = S (calls x) /\ currentVal y = currentVal x + step /\
  let r := compute (calls x) (snd (back x)) c (V3 0 0 1) a (currentVal x) in
  lastConfig y = configuration (crResult r) /\
  ((unchanged r /\ older y = older x /\ back y = back x) \/
   (~ unchanged r /\ older y = older x ++ [back x] /\ back y = (currentVal x, recount (crResult r)))).
Proof.
  intros Hi Hsm Hlt. destruct (lookup_lt_is_Some_2 configs (cit x) Hlt) as [conf Hc].
  pose proof Hsz as (H7 & He & Hx & _ & Hall & Hks & Hres).
  destruct (loadPrevious_sized (lastConfig x) conf) as (c & Hl & Hm & Hlen); [apply Hi|apply Hall; by eapply elem_of_list_lookup_2|].
  destruct (readAcc_sized x c Hi Hlen) as (a & Ha & Haa). exists conf, c, a.
  unfold iteration. rewrite Hc, Hl, Ha. cbv zeta.
  rewrite (drop_S configs conf (cit x)) in Hsm by done. inversion Hsm as [|? ? ? ? ? ? Hcall]; subst. clear Hsm.
  destruct (Hcall c a Hm Haa) as ((H1 & H2 & H3) & _). clear Hcall.
  set (r := compute _ _ _ _ _ _) in *. rewrite H1, H2, H3. cbn [negb orb andb]. rewrite andb_false_r. cbn [andb].
  eexists. do 4 (split; [done|]). cbn. do 4 (split; [done|]).
  destruct (crMaintained r) eqn:Em, (crCreated r) eqn:Ec; cbn.
  all: try (right; split; [|done]; unfold unchanged; rewrite ?Em, ?Ec; intros (? & ? & ?); done).
  left. split; [|done]. done.
Qed.
Lemma smooth_run n x : inv2 x -> smooth_at x -> (length configs - cit x = n)%nat -> exists out,
  interpLoop compute confSize extra configs step n x = Some (Ok (true, statesOf x ++ out)) /\
  followed compute confSize extra step (calls x) (currentVal x) (back x) (lastConfig x) (drop (cit x) configs) out.
Proof.
  revert x. induction n as [|n IH]; intros x Hi Hsm Hn.
  - exists []. simpl. rewrite (proj2 (Nat.leb_le _ _)) by lia. rewrite app_nil_r. split; [done|].
    rewrite drop_ge by lia. constructor.
  - destruct (smooth_step x Hi Hsm) as (conf & c & a & y & Hc & Hm & Ha & Hit & Hcit & Hk & Ht & Hrest); [lia|]. cbv zeta in Hrest.
    simpl. rewrite (proj2 (Nat.leb_gt _ _)) by lia. rewrite Hit.
    rewrite (drop_S configs conf (cit x)) in Hsm by done. inversion Hsm as [|? ? ? ? ? ? Hcall]; subst. clear Hsm.
    destruct (Hcall c a Hm Ha) as (_ & Hsame & Hnew). clear Hcall. cbv zeta in Hsame, Hnew.
    destruct (IH y) as (out & E & F); [| |lia|].
    { destruct (iteration_sized x Hi) as [_ Hy]; [lia|]. by apply Hy. }
    { rewrite Hcit, Hk, Ht. destruct Hrest as (HL & [(U & Ho & Hb)|(U & Ho & Hb)]); rewrite HL, Hb.
      - by apply Hsame.
      - exact (Hnew U _ (counted_recount _)). }
    rewrite E. rewrite (drop_S configs conf (cit x)) by done. rewrite Hcit, Hk, Ht in F. set (r := compute _ _ _ _ _ _) in *.
    destruct Hrest as (HL & [(U & Ho & Hb)|(U & Ho & Hb)]); rewrite HL, Hb in F; unfold statesOf; rewrite Ho, Hb.
    + exists out. split; [done|]. eapply fo_same; eauto.
    + exists ((currentVal x, recount (crResult r)) :: out). split; [by rewrite <- app_assoc|].
      eapply fo_new; eauto. apply counted_recount.
Qed.
Lemma smooth_lemma fuel : smooth compute confSize extra step 0 init (init, start) (configuration start) (tail configs) -> (length configs <= fuel)%nat -> exists out,
  interpLoop compute confSize extra configs step fuel (initial init start) = Some (Ok (true, (init, start) :: out)) /\
  followed compute confSize extra step 0 init (init, start) (configuration start) (tail configs) out.
Proof.
  intros Hsm Hf. assert (Ht : forall l : list (list R), drop 1 l = tail l) by (intros [|? ?]; [done|apply drop_0]).
  destruct (smooth_run (length configs - 1) (initial init start) inv2_initial ltac:(cbn [calls currentVal back lastConfig cit initial]; rewrite Ht; exact Hsm) eq_refl) as (out & E & F).
  exists out. split.
  - eapply interpLoop_mono; [exact E|]. lia.
  - simpl in F. rewrite <- Ht. exact F.
Qed.
End smooth.
End runs.
