(** The interpolation loop: what an attempt gives, when it ends, the order does not matter. *)
From Coq Require Import Reals Lia.
From Verif Require Import SampModel TrajModel MapsProofs.
From Verif Require Export InterSpec.
From Verif Require Import StateModel.
Local Open Scope nat_scope.

Section S.
Variables P E : Type.
Variables (einit eend : E -> list R).
Variable on : E -> list R -> Prop.
Variable B : fullbody.
Variable cur : list R.
Variable solve : nat -> nat -> rrtProblem P -> solveResult E.
Variables randomShortcut partialShortcut : nat -> nat -> nat -> rrtProblem P -> list E -> outcome (list E).
Variables (sf : shooterFactory P) (cf : constraintFactory P) (th : R) (maxIter numOpt : nat).
Variable X : Type.
Variable get : X -> PSt.
Variable getPath : X -> X -> outcome P.
Notation Body := (body P E B cur solve randomShortcut partialShortcut sf cf th maxIter numOpt X get getPath).
Notation Par := (parallel P E B cur solve randomShortcut partialShortcut sf cf th maxIter numOpt X get getPath).
Notation Att := (attempts P E B cur solve randomShortcut partialShortcut sf cf th maxIter numOpt X get getPath).
Notation SolvedAs := (solved_as P E B cur solve randomShortcut partialShortcut sf cf th maxIter numOpt X get getPath).
Notation Unsolved := (unsolved P E B cur solve sf cf th maxIter X get getPath).
Notation AllSolved := (all_solved P E B cur solve randomShortcut partialShortcut sf cf th maxIter numOpt X get getPath).
Notation NoFailure := (no_failure P E B cur solve randomShortcut partialShortcut sf cf th maxIter numOpt X get getPath).

Lemma repeat_opt f : forall n j l l', repeatOpt E f n j l = Ok l' <-> optimised E f n j l l'.
Proof.
  induction n as [|n IH]; intros j l l'; cbn [repeatOpt].
  - split; [intros [= <-]; constructor|inversion 1; reflexivity].
  - split.
    + destruct (f j l) as [l1| |] eqn:Ef; cbn [ibind]; try discriminate. intros H. econstructor; [exact Ef|]. apply IH, H.
    + intros H. inversion H as [|? ? ? l1 ? Ef H2]; subst. rewrite Ef. cbn [ibind]. apply IH, H2.
Qed.

Lemma body_solved k i a b l : Body k i (a, b) = Ok (Some l) <-> SolvedAs k i a b l.
Proof.
  unfold body, solved_as, asked. split.
  - destruct (getPath a b) as [ref| |] eqn:Eg; cbn [ibind]; try discriminate.
    destruct (problemBetween _ _ _ _ _ _ _ _ _ _) as [pb| |] eqn:Ep; cbn [ibind]; try discriminate.
    destruct (solve k i pb) as [[l0|]| | |] eqn:Es; cbn [catchSolve ibind]; try discriminate.
    unfold optimizeBoth. destruct (repeatOpt _ _ _ _ l0) as [l1| |] eqn:E1; cbn [ibind]; try discriminate.
    destruct (repeatOpt E _ _ _ l1) as [l2| |] eqn:E2; cbn [ibind]; try discriminate. intros [= <-].
    exists pb, l0, l1. split; [exists ref; auto|]. split; [exact Es|]. split; apply repeat_opt; assumption.
  - intros (pb & l0 & l1 & (ref & Hg & Hp) & Hs & H1 & H2). rewrite Hg. cbn [ibind]. rewrite Hp. cbn [ibind]. rewrite Hs. cbn [catchSolve ibind].
    unfold optimizeBoth. apply repeat_opt in H1. apply repeat_opt in H2. rewrite H1. cbn [ibind]. rewrite H2. reflexivity.
Qed.
Lemma body_unsolved k i a b : Body k i (a, b) = Ok None <-> Unsolved k i a b.
Proof.
  unfold body, unsolved, asked. split.
  - destruct (getPath a b) as [ref| |] eqn:Eg; cbn [ibind]; try discriminate.
    destruct (problemBetween _ _ _ _ _ _ _ _ _ _) as [pb| |] eqn:Ep; cbn [ibind]; try discriminate.
    intros H. exists pb. split; [exists ref; auto|].
    destruct (solve k i pb) as [[l0|]| | |] eqn:Es; cbn [catchSolve ibind] in H; auto; try discriminate.
    destruct (optimizeBoth _ _ _ _ _ _ _ _ _) as [l2| |]; cbn [ibind] in H; discriminate.
  - intros (pb & (ref & Hg & Hp) & Hs). rewrite Hg. cbn [ibind]. rewrite Hp. cbn [ibind].
    destruct Hs as [Hs|[Hs|Hs]]; rewrite Hs; reflexivity.
Qed.

Lemma pairs_length (l : list X) : length (pairsOf X l) = pred (length l).
Proof. induction l as [|a [|b l] IH]; cbn [pairsOf length] in *; [reflexivity..|]. rewrite IH. reflexivity. Qed.
Lemma pairs_lookup (l : list X) i a b : pairsOf X l !! i = Some (a, b) <-> pair_at X l i a b.
Proof.
  unfold pair_at. revert i. induction l as [|x [|y l] IH]; intros i.
  - cbn. split; [discriminate|intros [H _]; discriminate].
  - cbn. split; [discriminate|]. intros [_ H]. discriminate.
  - change (pairsOf X (x :: y :: l)) with ((x, y) :: pairsOf X (y :: l)). destruct i as [|i].
    + cbn. split; [intros [= <- <-]; auto|intros [[= <-] [= <-]]; reflexivity].
    + change (((x, y) :: pairsOf X (y :: l)) !! S i) with (pairsOf X (y :: l) !! i). rewrite IH. reflexivity.
Qed.
Lemma pair_exists (l : list X) i : i < length (pairsOf X l) -> exists a b, pair_at X l i a b.
Proof.
  intros H. apply lookup_lt_is_Some_2 in H as [[a b] H]. exists a, b. apply pairs_lookup, H.
Qed.

(** ** one attempt *)
Lemma par_ok k ps : forall order tbl tbl', NoDup order -> Par k ps order tbl = Ok tbl' -> length tbl = length ps ->
  length tbl' = length ps /\
  (forall i, i ∉ order -> tbl' !! i = tbl !! i) /\
  (forall i, i ∈ order -> exists ab r, ps !! i = Some ab /\ Body k i ab = Ok r /\ tbl' !! i = Some r).
Proof.
  induction order as [|i order IH]; intros tbl tbl' Hn Hp Hl; cbn [parallel] in Hp.
  - injection Hp as <-. split; [exact Hl|]. split; [auto|]. intros i Hi. inversion Hi.
  - destruct (ps !! i) as [ab|] eqn:Ei; [|discriminate].
    destruct (Body k i ab) as [r| |] eqn:Eb; cbn [ibind] in Hp; try discriminate.
    apply NoDup_cons in Hn as [Hni Hn].
    destruct (IH _ _ Hn Hp) as (H1 & H2 & H3); [rewrite insert_length; exact Hl|].
    split; [exact H1|]. split.
    + intros j Hj. rewrite not_elem_of_cons in Hj. destruct Hj as [Hji Hj]. rewrite H2 by exact Hj. apply list_lookup_insert_ne. congruence.
    + intros j Hj. apply elem_of_cons in Hj as [->|Hj]; [|apply H3, Hj].
      exists ab, r. split; [exact Ei|]. split; [exact Eb|]. rewrite H2 by exact Hni. apply list_lookup_insert.
      rewrite Hl. apply lookup_lt_Some in Ei. exact Ei.
Qed.
Lemma par_runs k ps : forall order tbl, (forall i, i ∈ order -> exists ab r, ps !! i = Some ab /\ Body k i ab = Ok r) ->
  exists tbl', Par k ps order tbl = Ok tbl'.
Proof.
  induction order as [|i order IH]; intros tbl H; cbn [parallel]; [eauto|].
  destruct (H i) as (ab & r & -> & ->); [left|]. cbn [ibind]. apply IH. intros j Hj. apply H. right. exact Hj.
Qed.
Lemma par_throw k ps : forall order tbl, (forall i ab, i ∈ order -> ps !! i = Some ab -> Body k i ab <> Ub) ->
  (forall i, i ∈ order -> i < length ps) ->
  (Par k ps order tbl = Throw <-> exists i ab, i ∈ order /\ ps !! i = Some ab /\ Body k i ab = Throw).
Proof.
  induction order as [|i order IH]; intros tbl Hu Hl; cbn [parallel].
  - split; [discriminate|]. intros (i & ab & Hi & _). inversion Hi.
  - destruct (lookup_lt_is_Some_2 ps i) as [ab Ei]; [apply Hl; left|]. rewrite Ei.
    assert (Hi := Hu i ab ltac:(left) Ei).
    destruct (Body k i ab) as [r| |] eqn:Eb; cbn [ibind]; [| |congruence].
    + rewrite IH; [|intros; eapply Hu; [right; eassumption|eassumption]|intros; apply Hl; right; assumption].
      split.
      * intros (j & ab' & Hj & H). exists j, ab'. split; [right; exact Hj|exact H].
      * intros (j & ab' & Hj & H1 & H2). apply elem_of_cons in Hj as [->|Hj]; [congruence|]. exists j, ab'. auto.
    + split; [|reflexivity]. intros _. exists i, ab. split; [left|]. auto.
Qed.

Lemma check_all (tbl : list (option (list E))) : checkPath E tbl <= length tbl /\ (checkPath E tbl = length tbl <-> Forall is_Some tbl).
Proof.
  induction tbl as [|[x|] tbl IH]; cbn [checkPath length].
  - split; [lia|]. split; constructor.
  - destruct IH as [H1 H2]. split; [lia|]. rewrite Forall_cons, <- H2. split; [intros H; split; [eauto|lia]|intros [_ H]; lia].
  - split; [lia|]. split; [lia|]. intros H. inversion H as [|? ? [y Hy]]. discriminate.
Qed.
Lemma omap_all (tbl : list (option (list E))) segs : tbl = map Some segs -> omap (fun x => x) tbl = segs.
Proof. intros ->. induction segs as [|s segs IH]; cbn; [reflexivity|]. f_equal. exact IH. Qed.
Lemma all_some (tbl : list (option (list E))) : Forall is_Some tbl -> exists segs, tbl = map Some segs.
Proof.
  induction 1 as [|x tbl [y ->] _ [segs ->]]; [exists []; reflexivity|]. exists (y :: segs). reflexivity.
Qed.

(** the cells after the [k]-th attempt *)
Definition after (states : list X) (k : nat) (tbl : list (option (list E))) : Prop :=
  length tbl = length (pairsOf X states) /\
  forall i a b, pair_at X states i a b -> exists r, Body k i (a, b) = Ok r /\ tbl !! i = Some r.
Lemma after_unique states k tbl1 tbl2 : after states k tbl1 -> after states k tbl2 -> tbl1 = tbl2.
Proof.
  intros [L1 H1] [L2 H2]. apply list_eq. intros i. destruct (decide (i < length (pairsOf X states))) as [Hi|Hi].
  - destruct (pair_exists _ _ Hi) as (a & b & Hab). destruct (H1 _ _ _ Hab) as (r1 & E1 & ->). destruct (H2 _ _ _ Hab) as (r2 & E2 & ->). congruence.
  - rewrite !lookup_ge_None_2 by lia. reflexivity.
Qed.
Lemma fair_elem n sched k i : fair n sched -> (i ∈ sched k <-> i < n).
Proof. intros H. rewrite (H k), elem_of_seq. lia. Qed.
Lemma fair_nodup n sched k : fair n sched -> NoDup (sched k).
Proof. intros H. rewrite (H k). apply NoDup_seq. Qed.

Lemma par_after states sched k tbl tbl' : fair (length (pairsOf X states)) sched -> length tbl = length (pairsOf X states) ->
  Par k (pairsOf X states) (sched k) tbl = Ok tbl' -> after states k tbl'.
Proof.
  intros Hf Hl Hp. destruct (par_ok _ _ _ _ _ (fair_nodup _ _ k Hf) Hp Hl) as (H1 & _ & H3). split; [exact H1|].
  intros i a b Hab. apply pairs_lookup in Hab as Hp'. destruct (H3 i) as (ab & r & Hi & Hb & Ht).
  { apply (fair_elem _ _ _ _ Hf). eapply lookup_lt_Some. exact Hp'. }
  rewrite Hp' in Hi. injection Hi as <-. eauto.
Qed.
Lemma par_after_inv states sched k tbl tbl' : fair (length (pairsOf X states)) sched -> length tbl = length (pairsOf X states) ->
  after states k tbl' -> Par k (pairsOf X states) (sched k) tbl = Ok tbl'.
Proof.
  intros Hf Hl Ha. destruct (par_runs k (pairsOf X states) (sched k) tbl) as [t Ht].
  - intros i Hi. apply (fair_elem _ _ _ _ Hf) in Hi. destruct (pair_exists _ _ Hi) as (a & b & Hab).
    destruct (proj2 Ha _ _ _ Hab) as (r & Hr & _). exists (a, b), r. split; [apply pairs_lookup, Hab|exact Hr].
  - rewrite Ht. f_equal. eapply after_unique; [|exact Ha]. eapply par_after; eassumption.
Qed.
Lemma after_all states k tbl : after states k tbl ->
  (length (pairsOf X states) <= checkPath E tbl <-> AllSolved states k).
Proof.
  intros [Hl Ha]. destruct (check_all tbl) as [H1 H2]. rewrite Hl in *.
  assert (Hle : length (pairsOf X states) <= checkPath E tbl <-> Forall is_Some tbl) by (rewrite <- H2; lia). rewrite Hle, Forall_lookup. split.
  - intros H i a b Hab. destruct (Ha _ _ _ Hab) as (r & Hb & Ht). destruct (H _ _ Ht) as [l ->]. exists l. apply body_solved, Hb.
  - intros H i r Ht. destruct (pair_exists states i) as (a & b & Hab); [rewrite <- Hl; eapply lookup_lt_Some, Ht|].
    destruct (Ha _ _ _ Hab) as (r' & Hb & Ht'). assert (r' = r) by congruence. subst r'.
    destruct (H _ _ _ Hab) as [l Hs]. apply body_solved in Hs. assert (Some l = r) by congruence. subst r. eauto.
Qed.
Lemma after_no_failure states k : (exists tbl, after states k tbl) <-> NoFailure states k.
Proof.
  split.
  - intros [tbl [_ Ha]] i a b Hab. destruct (Ha _ _ _ Hab) as ([l|] & Hb & _).
    + left. exists l. apply body_solved, Hb.
    + right. apply body_unsolved, Hb.
  - intros H. assert (Hsched : fair (length (pairsOf X states)) (fun _ => seq 0 (length (pairsOf X states)))) by (intros ?; reflexivity).
    destruct (par_runs k (pairsOf X states) (seq 0 (length (pairsOf X states))) (replicate (length (pairsOf X states)) None)) as [t Ht].
    + intros i Hi. rewrite elem_of_seq in Hi. destruct (pair_exists states i) as (a & b & Hab); [lia|].
      exists (a, b). destruct (H _ _ _ Hab) as [[l Hl]|Hu].
      * exists (Some l). split; [apply pairs_lookup, Hab|apply body_solved, Hl].
      * exists None. split; [apply pairs_lookup, Hab|apply body_unsolved, Hu].
    + exists t. refine (par_after states (fun _ => seq 0 (length (pairsOf X states))) k _ _ Hsched _ Ht). apply replicate_length.
Qed.

(** ** the attempts *)
Lemma att_ok states sched : fair (length (pairsOf X states)) sched ->
  forall fuel k tbl tbl', length tbl = length (pairsOf X states) ->
  (Att fuel k (pairsOf X states) sched tbl = Some (Ok tbl') <->
   exists n, n < fuel /\ after states (k + n) tbl' /\ AllSolved states (k + n) /\
     forall m, m < n -> NoFailure states (k + m) /\ ~ AllSolved states (k + m)).
Proof.
  intros Hf. induction fuel as [|fuel IH]; intros k tbl tbl' Hl; cbn [attempts].
  { split; [discriminate|]. intros (n & Hn & _). lia. }
  destruct (Par k (pairsOf X states) (sched k) tbl) as [t| |] eqn:Ep.
  - assert (Ha := par_after _ _ _ _ _ Hf Hl Ep). assert (Hs := after_all _ _ _ Ha).
    destruct (checkPath E t <? length (pairsOf X states)) eqn:Ec.
    + apply Nat.ltb_lt in Ec. assert (Hn : ~ AllSolved states k) by (intros H; apply Hs in H; lia).
      rewrite IH by (apply Ha). split.
      * intros (n & Hlt & H1 & H2 & H3). exists (S n). replace (k + S n) with (S k + n) by lia. split; [lia|]. split; [exact H1|]. split; [exact H2|].
        intros [|m] Hm; [rewrite Nat.add_0_r; split; [apply after_no_failure; eauto|exact Hn]|]. replace (k + S m) with (S k + m) by lia. apply H3. lia.
      * intros (n & Hlt & H1 & H2 & H3). destruct n as [|n]; [rewrite Nat.add_0_r in H2; contradiction|].
        exists n. replace (S k + n) with (k + S n) by lia. split; [lia|]. split; [exact H1|]. split; [exact H2|].
        intros m Hm. replace (S k + m) with (k + S m) by lia. apply H3. lia.
    + apply Nat.ltb_ge in Ec. apply Hs in Ec. split.
      * intros [= <-]. exists 0. rewrite Nat.add_0_r. split; [lia|]. split; [exact Ha|]. split; [exact Ec|]. lia.
      * intros (n & Hlt & H1 & H2 & H3). destruct n as [|n].
        -- rewrite Nat.add_0_r in H1. do 2 f_equal. eapply after_unique; eassumption.
        -- destruct (H3 0) as [_ H]; [lia|]. rewrite Nat.add_0_r in H. contradiction.
  - split; [discriminate|]. intros (n & Hlt & H1 & H2 & H3). exfalso.
    assert (Hn : exists t, after states k t).
    { destruct n as [|n]; [rewrite Nat.add_0_r in H1; eauto|]. destruct (H3 0) as [H _]; [lia|]. rewrite Nat.add_0_r in H. apply after_no_failure, H. }
    destruct Hn as [t Ht]. apply (par_after_inv _ sched _ tbl _ Hf Hl) in Ht. congruence.
  - split; [discriminate|]. intros (n & Hlt & H1 & H2 & H3). exfalso.
    assert (Hn : exists t, after states k t).
    { destruct n as [|n]; [rewrite Nat.add_0_r in H1; eauto|]. destruct (H3 0) as [H _]; [lia|]. rewrite Nat.add_0_r in H. apply after_no_failure, H. }
    destruct Hn as [t Ht]. apply (par_after_inv _ sched _ tbl _ Hf Hl) in Ht. congruence.
Qed.
Lemma att_none states sched : fair (length (pairsOf X states)) sched ->
  forall fuel k tbl, length tbl = length (pairsOf X states) ->
  (Att fuel k (pairsOf X states) sched tbl = None <->
   forall m, m < fuel -> NoFailure states (k + m) /\ ~ AllSolved states (k + m)).
Proof.
  intros Hf. induction fuel as [|fuel IH]; intros k tbl Hl; cbn [attempts].
  { split; [lia|reflexivity]. }
  assert (Hfail : forall o, Par k (pairsOf X states) (sched k) tbl = o -> (forall t, o <> Ok t) -> ~ NoFailure states (k + 0)).
  { intros o Ho Hno H. rewrite Nat.add_0_r in H. apply after_no_failure in H as [t Ht].
    apply (par_after_inv _ sched _ tbl _ Hf Hl) in Ht. eapply Hno. rewrite <- Ho. exact Ht. }
  destruct (Par k (pairsOf X states) (sched k) tbl) as [t| |] eqn:Ep.
  - assert (Ha := par_after _ _ _ _ _ Hf Hl Ep). assert (Hs := after_all _ _ _ Ha).
    destruct (checkPath E t <? length (pairsOf X states)) eqn:Ec.
    + apply Nat.ltb_lt in Ec. assert (Hn : ~ AllSolved states k) by (intros H; apply Hs in H; lia).
      rewrite IH by (apply Ha). split.
      * intros H [|m] Hm; [rewrite Nat.add_0_r; split; [apply after_no_failure; eauto|exact Hn]|]. replace (k + S m) with (S k + m) by lia. apply H. lia.
      * intros H m Hm. replace (S k + m) with (k + S m) by lia. apply H. lia.
    + apply Nat.ltb_ge in Ec. apply Hs in Ec. split; [discriminate|]. intros H. destruct (H 0) as [_ H0]; [lia|]. rewrite Nat.add_0_r in H0. contradiction.
  - split; [discriminate|]. intros H. exfalso. refine (Hfail _ eq_refl _ _); [discriminate|]. apply H. lia.
  - split; [discriminate|]. intros H. exfalso. refine (Hfail _ eq_refl _ _); [discriminate|]. apply H. lia.
Qed.
Lemma att_throw states sched : fair (length (pairsOf X states)) sched ->
  (forall k i ab, pairsOf X states !! i = Some ab -> Body k i ab <> Ub) ->
  forall fuel k tbl, length tbl = length (pairsOf X states) ->
  (Att fuel k (pairsOf X states) sched tbl = Some Throw <->
   exists n, n < fuel /\ ~ NoFailure states (k + n) /\ forall m, m < n -> NoFailure states (k + m) /\ ~ AllSolved states (k + m)).
Proof.
  intros Hf Hu. induction fuel as [|fuel IH]; intros k tbl Hl; cbn [attempts].
  { split; [discriminate|]. intros (n & Hn & _). lia. }
  destruct (Par k (pairsOf X states) (sched k) tbl) as [t| |] eqn:Ep.
  - assert (Ha := par_after _ _ _ _ _ Hf Hl Ep). assert (Hs := after_all _ _ _ Ha).
    assert (HN : NoFailure states k) by (apply after_no_failure; eauto).
    destruct (checkPath E t <? length (pairsOf X states)) eqn:Ec.
    + apply Nat.ltb_lt in Ec. assert (Hn : ~ AllSolved states k) by (intros H; apply Hs in H; lia).
      rewrite IH by (apply Ha). split.
      * intros (n & Hlt & H2 & H3). exists (S n). replace (k + S n) with (S k + n) by lia. split; [lia|]. split; [exact H2|].
        intros [|m] Hm; [rewrite Nat.add_0_r; auto|]. replace (k + S m) with (S k + m) by lia. apply H3. lia.
      * intros (n & Hlt & H2 & H3). destruct n as [|n]; [rewrite Nat.add_0_r in H2; contradiction|].
        exists n. replace (S k + n) with (k + S n) by lia. split; [lia|]. split; [exact H2|].
        intros m Hm. replace (S k + m) with (k + S m) by lia. apply H3. lia.
    + apply Nat.ltb_ge in Ec. apply Hs in Ec. split; [discriminate|]. intros (n & Hlt & H2 & H3). exfalso.
      destruct n as [|n]; [rewrite Nat.add_0_r in H2; contradiction|]. destruct (H3 0) as [_ H]; [lia|]. rewrite Nat.add_0_r in H. contradiction.
  - split; [|reflexivity]. intros _. exists 0. rewrite Nat.add_0_r. split; [lia|]. split; [|lia].
    intros H. apply after_no_failure in H as [t Ht]. apply (par_after_inv _ sched _ tbl _ Hf Hl) in Ht. congruence.
  - exfalso. revert Ep. clear -Hu Hf. assert (Hin : forall i, i ∈ sched k -> i < length (pairsOf X states)) by (intros i; apply (fair_elem _ _ _ _ Hf)).
    revert Hin tbl. generalize (sched k). intros order Hin. induction order as [|i order IHo]; intros tbl; cbn [parallel]; [discriminate|].
    destruct (lookup_lt_is_Some_2 (pairsOf X states) i) as [ab Ei]; [apply Hin; left|]. rewrite Ei.
    destruct (Body k i ab) as [r| |] eqn:Eb; cbn [ibind]; [|discriminate|exact (fun _ => Hu _ _ _ Ei Eb)].
    apply IHo. intros j Hj. apply Hin. right. exact Hj.
Qed.
End S.
