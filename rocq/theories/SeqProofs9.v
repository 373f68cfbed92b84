(** The sequence along a path, and when it is cut short. *)
From Coq Require Import Reals Lra Lia.
From Verif Require Import Maps MapsProofs Vec VecProofs StateModel StateSpec StateReal ProjModel ProjSpec CombModel GenModel SeqModel SeqSpec
  SeqProofs SeqProofs2 SeqProofs6 SeqProofs7.
Local Open Scope R_scope.

Section path.
Variable compute : nat -> PSt -> list R -> vec3 -> vec3 -> R -> creport.
Variables (confSize extra : nat).
Variable useReach : bool.
Variable reachable : PSt -> PSt -> bool.
Variable solve : projector -> list R -> bool * list R.
Variable axis : vec3 -> vec3 -> vec3.
Variable B : fullbody.
Variables (start goal : PSt).
Notation IP := (InterpolatePath compute confSize extra useReach reachable solve axis B start goal).
Notation IC := (InterpolateConfigs compute confSize extra useReach reachable solve axis B start goal).
Variables (p : R -> list R) (n : nat) (t0 t1 step : R).
Hypothesis Hstep : 0 < step.
Hypothesis Hlen : forall t, length (p t) = n.
Hypothesis Hn : (extra <= n)%nat /\ (n <= confSize)%nat.

Lemma path_sampled_ok : sized compute confSize extra [] start ->
  exists K configs, path_sampled extra p n (configuration start) t0 t1 step K configs /\
    sized compute confSize extra configs start /\ configs <> [] /\
    forall fuel filt, (K <= fuel)%nat -> IP fuel (Some (p, t0, t1)) step filt = IC fuel (Some t1) configs step t0 filt.
Proof.
  intros (known & S1 & S2 & S3 & S4 & _ & S6 & S7). destruct Hn as [Hn1 Hn2]. pose proof (S6 _ S4) as S4'.
  destruct (C125_lemma extra p n (configuration start) t0 t1 step Hstep Hlen Hn1 ltac:(lia)) as (K & configs & H1 & H2 & H3 & H4 & H5 & H6 & H7 & H8).
  exists K, configs. split; [repeat split; assumption|]. split; [|split].
  - exists known. split; [exact S1|]. split; [exact S2|]. split; [exact S3|]. split; [exact S4|]. split; [|split; [exact S6|exact S7]].
    intros c Hc. apply elem_of_list_lookup in Hc as [i Hi]. assert (Hlt := lookup_lt_Some _ _ _ Hi).
    destruct (decide (i = 0%nat)) as [->|]; [congruence|]. destruct (decide (i = K)) as [->|].
    + destruct H8 as (c' & Hc' & [Hm _]). rewrite Hi in Hc'. injection Hc' as <-. lia.
    + destruct (H7 i ltac:(lia)) as (c' & Hc' & [Hm _]). rewrite Hi in Hc'. injection Hc' as <-. lia.
  - destruct configs; [discriminate|congruence].
  - intros fuel filt Hf. unfold InterpolatePath. rewrite H4 by exact Hf. reflexivity.
Qed.
Theorem path_ends good filt : sized compute confSize extra [] start -> reliable compute good -> good start -> exists m o,
  (forall fuel, (m <= fuel)%nat -> IP fuel (Some (p, t0, t1)) step filt = Some o) /\
  forall r, o = Ok r -> r !! 0%nat = Some (t0, start).
Proof.
  intros Hs Hr Hg. destruct (path_sampled_ok Hs) as (K & configs & _ & Hsz & Hne & HI).
  destruct (whole_reliable compute confSize extra useReach reachable solve axis B start goal configs step t0 Hsz Hne good (Some t1) filt Hr Hg) as (m & o & Ho & Hfirst).
  exists (max m K), o. split; [|exact Hfirst]. intros fuel Hf. rewrite HI by lia. apply Ho. lia.
Qed.
Theorem path_smooth filt : sized compute confSize extra [] start ->
  (forall K configs, path_sampled extra p n (configuration start) t0 t1 step K configs ->
     smooth compute confSize extra step 0 t0 (t0, start) (configuration start) (tail configs)) -> exists m o K configs out,
  path_sampled extra p n (configuration start) t0 t1 step K configs /\
  (forall fuel, (m <= fuel)%nat -> IP fuel (Some (p, t0, t1)) step filt = Some o) /\
  followed compute confSize extra step 0 t0 (t0, start) (configuration start) (tail configs) out /\
  forall r, o = Ok r -> r !! 0%nat = Some (t0, start) /\
    forall t s k, last out = Some (t, s) -> (forall e, differs goal s e <-> e = k) -> last r = Some (t, goal).
Proof.
  intros Hs Hsm. destruct (path_sampled_ok Hs) as (K & configs & Hp & Hsz & Hne & HI).
  destruct (whole_goal compute confSize extra useReach reachable solve axis B start goal configs step t0 Hsz Hne (Some t1) filt (Hsm _ _ Hp)) as (m & o & out & Ho & Hfo & Hr).
  exists (max m K), o, K, configs, out. split; [exact Hp|]. split; [|split; [exact Hfo|exact Hr]]. intros fuel Hf. rewrite HI by lia. apply Ho. lia.
Qed.
End path.
Lemma no_path compute confSize extra useReach reachable solve axis B start goal fuel step filt :
  InterpolatePath compute confSize extra useReach reachable solve axis B start goal fuel None step filt = Some Throw.
Proof. reflexivity. Qed.

(** ** when the loop is cut short *)
Section cut.
Variable compute : nat -> PSt -> list R -> vec3 -> vec3 -> R -> creport.
Variables (confSize extra : nat).
Variable configs : list (list R).
Variable step : R.
Definition counts (x : ist) : Prop :=
  (exists fs, NoDup fs /\ length fs = nbFailures x /\ forall k, k ∈ fs -> (k < calls x)%nat /\ refused compute k) /\
  (exists rs, NoDup rs /\ length rs = repos x /\ forall k, k ∈ rs -> (k < calls x)%nat /\ repositions compute k).
Lemma more_calls (P : nat -> Prop) (b : bool) n c : P c \/ b = false ->
  (exists fs, NoDup fs /\ length fs = n /\ forall k, k ∈ fs -> (k < c)%nat /\ P k) ->
  exists fs, NoDup fs /\ length fs = (if b then S n else n) /\ forall k, k ∈ fs -> (k < S c)%nat /\ P k.
Proof.
  intros HP (fs & Hd & Hl & Hk). destruct b.
  - destruct HP as [HP|]; [|discriminate]. exists (c :: fs). split.
    + constructor; [|exact Hd]. intros Hin. apply Hk in Hin as [Hlt _]. lia.
    + split; [cbn; lia|]. intros k Hin. apply elem_of_cons in Hin as [->|Hin]; [auto|]. apply Hk in Hin as [Hlt Hp]. auto with lia.
  - exists fs. split; [exact Hd|]. split; [exact Hl|]. intros k Hin. apply Hk in Hin as [Hlt Hp]. auto with lia.
Qed.
Theorem cut_counts fuel : forall x l, counts x ->
  interpLoop compute confSize extra configs step fuel x = Some (Ok (false, l)) ->
  (exists fs, NoDup fs /\ (2 <= length fs)%nat /\ forall k, k ∈ fs -> refused compute k) \/
  (exists rs, NoDup rs /\ length rs = 21%nat /\ forall k, k ∈ rs -> repositions compute k).
Proof.
  induction fuel as [|fuel IH]; intros x l (HF & HR); cbn [interpLoop].
  { destruct (length configs <=? cit x)%nat; discriminate. }
  destruct (length configs <=? cit x)%nat; [discriminate|]. unfold iteration.
  destruct (configs !! cit x) as [conf|]; [|discriminate]. destruct (loadPreviousConfiguration extra (lastConfig x) conf) as [c| |]; [|discriminate..].
  destruct (readAcc confSize extra x c) as [a| |]; [|discriminate..]. cbv zeta.
  remember (compute (calls x) (snd (back x)) c (V3 0 0 1) a (currentVal x)) as rep eqn:Erep.
  remember (allowFailure x && (negb (crOk rep) || crMulti rep)) as failed eqn:Ef.
  assert (HF' : exists fs, NoDup fs /\ length fs = (if failed then S (nbFailures x) else nbFailures x) /\ forall k, k ∈ fs -> (k < S (calls x))%nat /\ refused compute k).
  { apply more_calls; [|exact HF]. destruct failed; [left|right; reflexivity]. symmetry in Ef. apply andb_true_iff in Ef as [_ Ef].
    exists (snd (back x)), c, (V3 0 0 1), a, (currentVal x). rewrite <- Erep. apply orb_true_iff in Ef as [Ef|Ef]; [left; by apply negb_true_iff|right; exact Ef]. }
  destruct (failed && (1 <? (if failed then S (nbFailures x) else nbFailures x))%nat) eqn:Ec.
  { intros _. left. apply andb_true_iff in Ec as [_ Ec]. apply Nat.ltb_lt in Ec. destruct HF' as (fs & Hd & Hl & Hk).
    exists fs. split; [exact Hd|]. split; [lia|]. intros k Hin. apply Hk in Hin as [_ H]. exact H. }
  assert (HR' : exists rs, NoDup rs /\ length rs = (if crRepos rep then S (repos x) else repos x) /\ forall k, k ∈ rs -> (k < S (calls x))%nat /\ repositions compute k).
  { apply more_calls; [|exact HR]. destruct (crRepos rep) eqn:Er; [left|right; reflexivity].
    exists (snd (back x)), c, (V3 0 0 1), a, (currentVal x). rewrite <- Erep. exact Er. }
  destruct (crRepos rep && (20 <? (if crRepos rep then S (repos x) else repos x))%nat) eqn:Er.
  { intros _. right. apply andb_true_iff in Er as [_ Er]. apply Nat.ltb_lt in Er. destruct HR' as (rs & Hd & Hl & Hk).
    exists (take 21 rs). split; [rewrite <- (take_drop 21 rs) in Hd; apply NoDup_app in Hd as [Hd _]; exact Hd|]. split; [rewrite take_length; lia|].
    intros k Hin. apply elem_of_take in Hin as (i & Hi & _). apply elem_of_list_lookup_2, Hk in Hi as [_ H]. exact H. }
  intros H. eapply IH; [|exact H]. split; [exact HF'|exact HR'].
Qed.
Theorem cut_short fuel init start l : interpLoop compute confSize extra configs step fuel (initial init start) = Some (Ok (false, l)) ->
  (exists fs, NoDup fs /\ (2 <= length fs)%nat /\ forall k, k ∈ fs -> refused compute k) \/
  (exists rs, NoDup rs /\ length rs = 21%nat /\ forall k, k ∈ rs -> repositions compute k).
Proof.
  apply cut_counts. split; exists []; (split; [constructor|]); (split; [reflexivity|]); intros k Hin; inversion Hin.
Qed.
End cut.
