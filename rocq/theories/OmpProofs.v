(** Every interleaving of the parallel loop gives what the loop in order gives. *)
From Coq Require Import Reals Lia.
From Verif Require Import SampModel TrajModel MapsProofs.
From Verif Require Export InterSpec InterProofs InterProofs2 OmpModel.
From Verif Require Import StateModel.
Local Open Scope nat_scope.

Section region.
Variable L : Type.
Variable ans : nat -> nat -> outcome (option L).
Variable n : nat.
Notation region := (region L ans).
Notation tick := (tick L ans).
Notation begun := (begun L ans).

(** what the cells of an iteration contain, according to where it is *)
Definition cell (k : nat) (m0 m : mem L) (i : nat) (p : phase L) : Prop :=
  match p with
  | Todo => m_res m !! i = m_res m0 !! i
  | Got r => m_res m !! i = m_res m0 !! i /\ ans k i = Ok r
  | Stored => exists l, ans k i = Ok (Some l) /\ m_res m !! i = Some (Some l)
  | Done => (exists l, ans k i = Ok (Some l) /\ m_res m !! i = Some (Some l) /\ m_valid m !! i = Some true) \/
            (ans k i = Ok None /\ m_res m !! i = m_res m0 !! i /\ m_valid m !! i = Some false)
  end.
Definition sizes (m : mem L) : Prop := length (m_res m) = 100 /\ length (m_valid m) = 100.
Definition inv (k : nat) (m0 : mem L) (c : par L) : Prop :=
  length c.1 = n /\ sizes c.2 /\ (forall i p, c.1 !! i = Some p -> cell k m0 c.2 i p) /\
  (forall i, n <= i -> m_res c.2 !! i = m_res m0 !! i).

Lemma inv_start k m : n <= 100 -> sizes m -> inv k m (replicate n Todo, m).
Proof.
  intros Hn Hs. split; [apply replicate_length|]. split; [exact Hs|]. split; [|reflexivity].
  cbn [fst snd]. intros i p H. apply lookup_replicate in H as [-> _]. reflexivity.
Qed.

Lemma cell_frame k m0 m m' i p : m_res m' !! i = m_res m !! i -> m_valid m' !! i = m_valid m !! i ->
  cell k m0 m i p -> cell k m0 m' i p.
Proof. intros H1 H2. destruct p; cbn; rewrite H1, ?H2; auto. Qed.

Lemma inv_tick k m0 c i c' : n <= 100 -> inv k m0 c -> tick k i c = Some (Ok c') -> inv k m0 c'.
Proof.
  intros Hn (Hl & (Hr & Hv) & Hc & Ho). destruct c as [ph m]. cbn [fst snd] in *. unfold OmpModel.tick.
  destruct (ph !! i) as [p|] eqn:Ep; [|discriminate]. assert (Hi : i < n) by (rewrite <- Hl; eapply lookup_lt_Some; eauto).
  assert (Hp := Hc i p Ep).
  assert (K : forall q m', cell k m0 m' i q -> length (m_res m') = 100 -> length (m_valid m') = 100 ->
     (forall j, j <> i -> m_res m' !! j = m_res m !! j /\ m_valid m' !! j = m_valid m !! j) -> inv k m0 (<[i := q]> ph, m')).
  { intros q m' Hq L1 L2 Hj. split; [cbn; rewrite insert_length; exact Hl|]. split; [split; assumption|]. split.
    - cbn [fst snd]. intros j p' H. destruct (decide (j = i)) as [->|Hji].
      + rewrite list_lookup_insert in H by lia. injection H as <-. exact Hq.
      + rewrite list_lookup_insert_ne in H by auto. destruct (Hj j Hji). eapply cell_frame; eauto.
    - cbn [snd]. intros j Hjn. destruct (Hj j ltac:(lia)) as [-> _]. auto. }
  destruct p as [|[l|]| |]; try discriminate.
  - destruct (ans k i) as [r| |] eqn:Ea; try discriminate. intros [= <-]. apply K; auto. split; [exact Hp|exact Ea].
  - intros [= <-]. destruct Hp as [Hp Ha]. apply K; cbn; rewrite ?insert_length; auto.
    + exists l. split; [exact Ha|]. cbn. apply list_lookup_insert. lia.
    + intros j Hj. rewrite list_lookup_insert_ne by auto. auto.
  - intros [= <-]. destruct Hp as [Hp Ha]. apply K; cbn; rewrite ?insert_length; auto.
    + right. split; [exact Ha|]. split; [exact Hp|]. cbn. apply list_lookup_insert. lia.
    + intros j Hj. rewrite list_lookup_insert_ne by auto. auto.
  - intros [= <-]. destruct Hp as (l & Ha & Hp). apply K; cbn; rewrite ?insert_length; auto.
    + left. exists l. split; [exact Ha|]. split; [exact Hp|]. cbn. apply list_lookup_insert. lia.
    + intros j Hj. rewrite list_lookup_insert_ne by auto. auto.
Qed.

(** the end of the loop *)
Definition answered (k : nat) (m0 m : mem L) : Prop :=
  sizes m /\ (forall i, n <= i -> m_res m !! i = m_res m0 !! i) /\
  forall i, i < n ->
    (exists l, ans k i = Ok (Some l) /\ m_res m !! i = Some (Some l) /\ m_valid m !! i = Some true) \/
    (ans k i = Ok None /\ m_res m !! i = m_res m0 !! i /\ m_valid m !! i = Some false).

Lemma region_ok k m0 c o : n <= 100 -> inv k m0 c -> region k c o ->
  match o with
  | Ok m => answered k m0 m
  | Throw => exists i, i < n /\ ans k i = Throw
  | Ub => exists i, i < n /\ ans k i = Ub
  end.
Proof.
  intros Hn Hi H. induction H as [ph m Hd|c i c' o Ht Hr IH|c i Ht|c i Ht].
  - destruct Hi as (Hl & Hs & Hc & Ho). cbn [fst snd] in *. split; [exact Hs|]. split; [exact Ho|]. intros i Hi.
    destruct (lookup_lt_is_Some_2 ph i ltac:(lia)) as [p Hp]. rewrite Forall_lookup in Hd. assert (Ep := Hd i p Hp). subst p.
    exact (Hc i _ Hp).
  - apply IH. eapply inv_tick; eauto.
  - destruct c as [ph m]. unfold OmpModel.tick in Ht. destruct Hi as (Hl & _). cbn in Hl.
    destruct (ph !! i) as [[|[?|]| |]|] eqn:Ep; try discriminate. destruct (ans k i) eqn:Ea; try discriminate.
    exists i. split; [|exact Ea]. rewrite <- Hl. eapply lookup_lt_Some; eauto.
  - destruct c as [ph m]. unfold OmpModel.tick in Ht. destruct Hi as (Hl & _). cbn in Hl.
    destruct (ph !! i) as [[|[?|]| |]|] eqn:Ep; try discriminate. destruct (ans k i) eqn:Ea; try discriminate.
    exists i. split; [|exact Ea]. rewrite <- Hl. eapply lookup_lt_Some; eauto.
Qed.

(** ** the loop makes progress and ends *)
Definition left (p : phase L) : nat := match p with Todo => 3 | Got _ => 2 | Stored => 1 | Done => 0 end.
Definition work (ph : list (phase L)) : nat := sum_list_with left ph.
Lemma work_insert ph i p q : ph !! i = Some p -> work (<[i := q]> ph) + left p = work ph + left q.
Proof.
  revert i. induction ph as [|x ph IH]; intros i H; [discriminate|]. destruct i as [|i].
  - injection H as ->. unfold work. change (<[0 := q]> (p :: ph)) with (q :: ph). cbn [sum_list_with]. lia.
  - apply IH in H. unfold work in *. change (<[S i := q]> (x :: ph)) with (x :: <[i := q]> ph). cbn [sum_list_with]. lia.
Qed.
Lemma tick_work k i c c' : tick k i c = Some (Ok c') -> work c'.1 < work c.1.
Proof.
  destruct c as [ph m]. unfold OmpModel.tick. destruct (ph !! i) as [p|] eqn:Ep; [|discriminate].
  destruct p as [|[l|]| |]; try discriminate.
  - destruct (ans k i) as [r| |]; try discriminate. intros [= <-]. cbn [fst]. assert (H := work_insert ph i _ (Got r) Ep). cbn [left] in H. lia.
  - intros [= <-]. cbn [fst]. assert (H := work_insert ph i _ Stored Ep). cbn [left] in H. lia.
  - intros [= <-]. cbn [fst]. assert (H := work_insert ph i _ Done Ep). cbn [left] in H. lia.
  - intros [= <-]. cbn [fst]. assert (H := work_insert ph i _ Done Ep). cbn [left] in H. lia.
Qed.
Lemma begun_bound k c tr c' : begun k c tr c' -> length tr + work c'.1 <= work c.1.
Proof. induction 1 as [|c i c' tr c'' Ht Hb IH]; [cbn; lia|]. apply tick_work in Ht. cbn. lia. Qed.
Lemma work_start : work (replicate n Todo) = 3 * n.
Proof. induction n as [|m IH]; [reflexivity|]. unfold work in *. cbn [replicate sum_list_with left]. rewrite IH. lia. Qed.
Lemma not_done ph : ~ Forall (eq (@Done L)) ph -> exists i p, ph !! i = Some p /\ p <> Done.
Proof.
  induction ph as [|p ph IH]; intros H; [contradict H; constructor|].
  assert (Hd : p = Done \/ p <> Done) by (destruct p; auto; right; discriminate). destruct Hd as [->|Hp].
  - destruct IH as (i & q & Hi & Hq). { contradict H. constructor; auto. } exists (S i), q. auto.
  - exists 0, p. auto.
Qed.
(** from anywhere the loop can go on to an end *)
Lemma region_exists k c : exists o, region k c o.
Proof.
  remember (work c.1) as w eqn:Ew. revert c Ew. induction w as [w IH] using lt_wf_ind. intros [ph m] Ew. cbn in Ew.
  assert (D : Forall (eq (@Done L)) ph \/ ~ Forall (eq (@Done L)) ph).
  { clear. induction ph as [|p ph [H|H]]; [left; constructor| |right; inversion 1; auto].
    destruct p; try (right; inversion 1; discriminate). left. constructor; auto. }
  destruct D as [D|D]; [exists (Ok m); constructor; exact D|]. apply not_done in D as (i & p & Hi & Hp).
  destruct (tick k i (ph, m)) as [[c'| |]|] eqn:Et.
  - destruct (IH (work c'.1)) with (c := c') as [o Ho]; [apply tick_work in Et; cbn in Et; lia|reflexivity|]. exists o. econstructor; eauto.
  - exists Throw. eapply region_throw; eauto.
  - exists Ub. eapply region_ub; eauto.
  - exfalso. unfold OmpModel.tick in Et. rewrite Hi in Et. destruct p as [|[l|]| |]; try discriminate. congruence.
Qed.

Lemma check_valid_le d : forall v, checkValid d v <= d.
Proof. induction d as [|d IH]; intros v; [cbn; lia|]. destruct v as [|[|] v]; cbn; [lia| |lia]. specialize (IH v). lia. Qed.
Lemma check_valid d : forall v, d <= length v -> (checkValid d v = d <-> forall i, i < d -> v !! i = Some true).
Proof.
  induction d as [|d IH]; intros v H; [cbn; split; [intros _ i Hi; lia|reflexivity]|].
  destruct v as [|b v]; [cbn in H; lia|]. cbn in H. split.
  - destruct b; cbn; [|discriminate]. intros [= E] [|i] Hi; [reflexivity|]. cbn. apply IH; [lia|exact E|lia].
  - intros Hv. assert (E := Hv 0 ltac:(lia)). cbn in E. injection E as ->. cbn. f_equal. apply IH; [lia|]. intros i Hi. apply (Hv (S i)). lia.
Qed.
End region.

Section call.
Variables P E : Type.
Variable B : fullbody.
Variable cur : list R.
Variable solve : nat -> nat -> rrtProblem P -> solveResult E.
Variables randomShortcut partialShortcut : nat -> nat -> nat -> rrtProblem P -> list E -> outcome (list E).
Variables (sf : shooterFactory P) (cf : constraintFactory P) (th : R) (maxIter numOpt : nat).
Variable X : Type.
Variable get : X -> PSt.
Variable getPath : X -> X -> outcome P.
Notation Inter := (@interpolate P E B cur solve randomShortcut partialShortcut X sf cf th maxIter numOpt get getPath).
Notation Interleaved := (interleaved P E B cur solve randomShortcut partialShortcut sf cf th maxIter numOpt X get getPath).
Notation Iter := (iteration P E B cur solve randomShortcut partialShortcut sf cf th maxIter numOpt X get getPath).
Notation SolvedAs := (solved_as P E B cur solve randomShortcut partialShortcut sf cf th maxIter numOpt X get getPath).
Notation Unsolved := (unsolved P E B cur solve sf cf th maxIter X get getPath).
Notation AllSolved := (all_solved P E B cur solve randomShortcut partialShortcut sf cf th maxIter numOpt X get getPath).
Notation NoFailure := (no_failure P E B cur solve randomShortcut partialShortcut sf cf th maxIter numOpt X get getPath).
Context (states : list X).
Let n := length (pairsOf X states).

Lemma iter_at k i a b : pair_at X states i a b ->
  Iter states k i = body P E B cur solve randomShortcut partialShortcut sf cf th maxIter numOpt X get getPath k i (a, b).
Proof. intros H. unfold iteration. apply pairs_lookup in H. rewrite H. reflexivity. Qed.
Lemma iter_solved k i a b l : pair_at X states i a b -> (Iter states k i = Ok (Some l) <-> SolvedAs k i a b l).
Proof. intros H. rewrite (iter_at k i a b H). apply body_solved. Qed.
Lemma iter_unsolved k i a b : pair_at X states i a b -> (Iter states k i = Ok None <-> Unsolved k i a b).
Proof. intros H. rewrite (iter_at k i a b H). apply body_unsolved. Qed.
Lemma iter_lt i a b : pair_at X states i a b -> i < n.
Proof. intros H. apply pairs_lookup in H. eapply lookup_lt_Some; eauto. Qed.

Lemma answered_no_failure k m0 m : answered (list E) (Iter states) n k m0 m -> NoFailure states k.
Proof.
  intros (_ & _ & H) i a b Hab. assert (Hi := iter_lt i a b Hab). destruct (H i Hi) as [(l & Ha & _)|(Ha & _)].
  - left. exists l. apply (iter_solved k i a b l Hab), Ha.
  - right. apply (iter_unsolved k i a b Hab), Ha.
Qed.
Lemma answered_all k m0 m : n < 100 -> answered (list E) (Iter states) n k m0 m ->
  (checkValid n (m_valid m) = n <-> AllSolved states k).
Proof.
  intros Hn (Hs & _ & H). rewrite check_valid by (destruct Hs; lia). split.
  - intros Hv i a b Hab. assert (Hi := iter_lt i a b Hab). destruct (H i Hi) as [(l & Ha & _)|(_ & _ & Hf)].
    + exists l. apply (iter_solved k i a b l Hab), Ha.
    + rewrite Hv in Hf by assumption. discriminate.
  - intros Ha i Hi. destruct (pair_exists X states i Hi) as (a & b & Hab). destruct (H i Hi) as [(l & _ & _ & Hv)|(He & _)]; [exact Hv|].
    destruct (Ha i a b Hab) as [l Hl]. apply (iter_solved k i a b l Hab) in Hl. congruence.
Qed.

(** the attempts *)
Lemma rounds_spec k m f o : n < 100 -> sizes (list E) m -> rounds (list E) (Iter states) n k m f o ->
  exists k', k' + 1 = k + f /\ k <= k' /\ (forall j, k <= j < k' -> NoFailure states j /\ ~ AllSolved states j) /\
  match o with
  | Ok m' => AllSolved states k' /\ exists m0, answered (list E) (Iter states) n k' m0 m'
  | Throw => exists i, i < n /\ Iter states k' i = Throw
  | Ub => exists i, i < n /\ Iter states k' i = Ub
  end.
Proof.
  intros Hn Hs H. induction H as [k m m' Hr Hc|k m m' f o Hr Hc Hrest IH|k m Hr|k m Hr].
  - apply (region_ok _ _ n k m) in Hr; [|lia|apply inv_start; [lia|exact Hs]]. exists k. split; [lia|]. split; [lia|]. split; [intros; lia|].
    split; [|eauto]. eapply answered_all; eauto.
  - apply (region_ok _ _ n k m) in Hr; [|lia|apply inv_start; [lia|exact Hs]].
    destruct IH as (k' & E1 & E2 & Hj & Ho); [destruct Hr; assumption|]. exists k'. split; [lia|]. split; [lia|]. split; [|exact Ho].
    intros j Hjk. destruct (decide (j = k)) as [->|Hne]; [|apply Hj; lia].
    split; [eapply answered_no_failure; eauto|]. intros Ha. apply (answered_all _ _ _ Hn Hr) in Ha. lia.
  - apply (region_ok _ _ n k m) in Hr; [|lia|apply inv_start; [lia|exact Hs]]. exists k. split; [lia|]. split; [lia|]. split; [intros; lia|exact Hr].
  - apply (region_ok _ _ n k m) in Hr; [|lia|apply inv_start; [lia|exact Hs]]. exists k. split; [lia|]. split; [lia|]. split; [intros; lia|exact Hr].
Qed.

Lemma answered_segs k m0 m : n < 100 -> answered (list E) (Iter states) n k m0 m -> AllSolved states k ->
  exists segs, mapM (fun x => x) (take n (m_res m)) = Some segs /\ length segs = n /\
    forall i a b, pair_at X states i a b -> exists seg, segs !! i = Some seg /\ SolvedAs k i a b seg.
Proof.
  intros Hn (Hs & _ & H) Ha.
  assert (HA : forall i, i < n -> exists l, Iter states k i = Ok (Some l) /\ m_res m !! i = Some (Some l)).
  { intros i Hi. destruct (pair_exists X states i Hi) as (a & b & Hab). destruct (H i Hi) as [(l & Hl & Hr & _)|(He & _)]; [eauto|].
    destruct (Ha i a b Hab) as [l Hl]. apply (iter_solved k i a b l Hab) in Hl. congruence. }
  assert (HF : Forall is_Some (take n (m_res m))).
  { apply Forall_lookup. intros i x Hx. apply lookup_take_Some in Hx as [Hx Hi]. destruct (HA i Hi) as (l & _ & Hl). rewrite Hl in Hx. injection Hx as <-. eauto. }
  assert (HM : exists segs, take n (m_res m) = map Some segs) by (apply all_some; exact HF).
  destruct HM as [segs Es]. exists segs. split.
  { rewrite Es. clear. induction segs as [|x l IH]; [reflexivity|]. cbn. cbn in IH. rewrite IH. reflexivity. }
  assert (Ln : length segs = n).
  { transitivity (length (take n (m_res m))); [rewrite Es, map_length; reflexivity|]. rewrite take_length. destruct Hs. lia. }
  split; [exact Ln|]. intros i a b Hab. assert (Hi := iter_lt i a b Hab). destruct (HA i Hi) as (l & Hl & Hr).
  exists l. split; [|apply (iter_solved k i a b l Hab), Hl].
  assert (Hm : map Some segs !! i = Some (Some l)) by (rewrite <- Es; apply lookup_take_Some; auto).
  change (map Some segs) with (Some <$> segs) in Hm. rewrite list_lookup_fmap in Hm. destruct (segs !! i); cbn in Hm; congruence.
Qed.

Theorem interleaved_same keep sched f o : fair (length states - 1) sched ->
  defined_calls P E cur randomShortcut partialShortcut cf X get getPath states ->
  Interleaved keep states f o -> forall fuel, f <= fuel -> Inter keep states fuel sched = Some o.
Proof.
  intros Hf D H fuel Hfuel. assert (HL := pairs_length X states). fold n in HL.
  assert (Hnub : forall k i, i < n -> Iter states k i <> Ub).
  { intros k i Hi. destruct (lookup_lt_is_Some_2 (pairsOf X states) i Hi) as [ab Hab]. unfold iteration. rewrite Hab.
    eapply body_defined; eauto. }
  assert (Hsz : forall v0, length v0 = 100 -> sizes (list E) (Mem (replicate 100 None) v0)).
  { intros v0 Hv. split; [apply replicate_length|exact Hv]. }
  destruct H as [f Hm|v0 f m Hn Hv Hr|v0 f Hn Hv Hr|v0 f Hn Hv Hr].
  - fold n in Hm. apply too_many. lia.
  - fold n in Hn, Hr |- *. destruct (rounds_spec _ _ _ _ Hn (Hsz v0 Hv) Hr) as (k & Ek & _ & Hj & Ha & m0 & Hans).
    destruct (decide (n = 0)) as [E0|E0].
    { rewrite E0. cbn [concatenated]. destruct fuel as [|fuel]; [lia|]. apply too_few; [lia|]. replace 0 with (length states - 1) by lia. exact Hf. }
    destruct (answered_segs k m0 m Hn Hans Ha) as (segs & Em & Ls & Hp).
    unfold concatenated. destruct n as [|n'] eqn:En; [congruence|]. rewrite Em.
    apply result; [exact Hf|]. split; [lia|]. exists k, segs. split; [lia|]. split; [lia|]. split; [exact Hp|]. split; [|reflexivity].
    intros j Hjk. apply Hj. lia.
  - fold n in Hn, Hr. destruct (rounds_spec _ _ _ _ Hn (Hsz v0 Hv) Hr) as (k & Ek & _ & Hj & i & Hi & Ht).
    apply terminates; [exact Hf|exact D|]. split; [lia|]. exists k. split; [lia|]. split; [|intros j Hjk; apply Hj; lia].
    intros HN. destruct (pair_exists X states i Hi) as (a & b & Hab). destruct (HN i a b Hab) as [[l Hl]|Hu].
    + apply (iter_solved k i a b l Hab) in Hl. congruence.
    + apply (iter_unsolved k i a b Hab) in Hu. congruence.
  - fold n in Hn, Hr. destruct (rounds_spec _ _ _ _ Hn (Hsz v0 Hv) Hr) as (k & _ & _ & _ & i & Hi & Ht).
    exfalso. exact (Hnub k i Hi Ht).
Qed.

Lemma rounds_progress : n < 100 -> forall fuel k m, sizes (list E) m ->
  (exists f o, f <= fuel /\ rounds (list E) (Iter states) n k m f o) \/
  (forall j, k <= j < k + fuel -> NoFailure states j /\ ~ AllSolved states j).
Proof.
  intros Hn fuel. induction fuel as [|fuel IH]; intros k m Hs; [right; intros; lia|].
  destruct (region_exists (list E) (Iter states) k (replicate n Todo, m)) as [[m'| |] Hr].
  - assert (Hans := region_ok _ _ n k m _ _ ltac:(lia) (inv_start _ _ n k m ltac:(lia) Hs) Hr). cbn in Hans.
    assert (Hle := check_valid_le n (m_valid m')).
    destruct (decide (checkValid n (m_valid m') = n)) as [Ec|Ec].
    + left. exists 1, (Ok m'). split; [lia|]. apply rounds_end; assumption.
    + destruct (IH (S k) m') as [(f & o & Hf & Ho)|Hj]; [destruct Hans; assumption| |].
      * left. exists (S f), o. split; [lia|]. eapply rounds_again; eauto. lia.
      * right. intros j Hjk. destruct (decide (j = k)) as [->|Hne]; [|apply Hj; lia].
        split; [eapply answered_no_failure; eauto|]. intros Ha. apply (answered_all _ _ _ Hn Hans) in Ha. congruence.
  - left. exists 1, Throw. split; [lia|]. apply rounds_throw. exact Hr.
  - left. exists 1, Ub. split; [lia|]. apply rounds_ub. exact Hr.
Qed.

Theorem interleaved_exists keep sched fuel o : fair (length states - 1) sched ->
  defined_calls P E cur randomShortcut partialShortcut cf X get getPath states ->
  Inter keep states fuel sched = Some o -> exists f, f <= fuel /\ Interleaved keep states f o.
Proof.
  intros Hf D Ho. assert (HL := pairs_length X states). fold n in HL.
  assert (U : exists f o', f <= fuel /\ Interleaved keep states f o').
  { destruct (decide (100 <= n)) as [Hn|Hn].
    { exists 0, (IUndef E). split; [lia|]. apply inter_too_many. exact Hn. }
    assert (Hs : sizes (list E) (Mem (replicate 100 None) (replicate 100 false))) by (split; apply replicate_length).
    destruct (rounds_progress ltac:(lia) fuel 0 _ Hs) as [(f & [m| |] & Hle & Hr)|Hj].
    - exists f, (concatenated E keep n m). split; [exact Hle|]. eapply inter_path; [unfold n in Hn; lia|apply replicate_length|exact Hr].
    - exists f, (ITerminate E). split; [exact Hle|]. eapply inter_throw; [unfold n in Hn; lia|apply replicate_length|exact Hr].
    - exists f, (IUndef E). split; [exact Hle|]. eapply inter_ub; [unfold n in Hn; lia|apply replicate_length|exact Hr].
    - assert (EN : Inter keep states fuel sched = None).
      { apply running; [exact Hf|]. split; [lia|]. intros j Hjf. apply Hj. lia. }
      congruence. }
  destruct U as (f & o' & Hle & Hi). exists f. split; [exact Hle|].
  assert (E1 := interleaved_same keep sched f o' Hf D Hi fuel Hle). congruence.
Qed.
Lemma interleaved_unique keep f1 o1 f2 o2 :
  defined_calls P E cur randomShortcut partialShortcut cf X get getPath states ->
  Interleaved keep states f1 o1 -> Interleaved keep states f2 o2 -> o1 = o2.
Proof.
  intros D H1 H2. assert (F : fair (length states - 1) (fun _ => seq 0 (length states - 1))) by (intros k; reflexivity).
  assert (E1 := interleaved_same keep _ f1 o1 F D H1 (f1 + f2) ltac:(lia)).
  assert (E2 := interleaved_same keep _ f2 o2 F D H2 (f1 + f2) ltac:(lia)). congruence.
Qed.
End call.

(** every beginning of an execution of the loop is short, and goes on to an end *)
Theorem loop_ends L ans n k m tr c : begun L ans k (replicate n Todo, m) tr c ->
  length tr <= 3 * n /\ exists o, region L ans k c o.
Proof.
  intros H. split; [|apply region_exists]. apply begun_bound in H. cbn [fst] in H. rewrite work_start in H. lia.
Qed.

(** two iterations, the writes of the second one between those of the first one *)
Definition twoAns (k i : nat) : outcome (option nat) := Ok (Some (10 + i)).
Lemma two_mixed v0 v1 : exists o, region nat twoAns 0 (replicate 2 Todo, Mem [None; None] [v0; v1]) o /\
  o = Ok (Mem [Some 10; Some 11] [true; true]) /\
  exists c, begun nat twoAns 0 (replicate 2 Todo, Mem [None; None] [v0; v1]) [1; 0; 0; 1] c /\ fst c = [Stored; Stored].
Proof.
  exists (Ok (Mem [Some 10; Some 11] [true; true])). split; [|split; [reflexivity|]].
  - eapply region_tick with (i := 1); [reflexivity|]. eapply region_tick with (i := 0); [reflexivity|].
    eapply region_tick with (i := 0); [reflexivity|]. eapply region_tick with (i := 1); [reflexivity|].
    eapply region_tick with (i := 0); [reflexivity|]. eapply region_tick with (i := 1); [reflexivity|].
    cbn. apply region_end. repeat constructor.
  - eexists. split.
    + eapply begun_tick; [reflexivity|]. eapply begun_tick; [reflexivity|]. eapply begun_tick; [reflexivity|]. eapply begun_tick; [reflexivity|]. apply begun_none.
    + reflexivity.
Qed.
