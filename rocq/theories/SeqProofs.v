(** Proofs: sampling of the path, termination of the loop, shape of the sequence. *)
From Coq Require Import Reals ZArith Lia Lra.
From Verif Require Import Maps Vec VecProofs StateModel StateSpec StateReal ProjModel CombModel GenModel SeqModel SeqSpec.
Local Open Scope R_scope.

(** ** Configurations along the path *)
Lemma mixed_eq n extra (prev conf : list R) :
  (n <= length prev)%nat -> (n <= length conf)%nat -> (extra <= length prev)%nat -> (extra <= length conf)%nat ->
  mixed n extra prev conf
    (take (length prev - extra) (take n conf ++ drop n prev) ++ drop (length conf - extra) conf).
Proof.
  intros H1 H2 H3 H4.
  assert (Hl : length (take n conf ++ drop n prev) = length prev).
  { rewrite app_length, take_length, drop_length. lia. }
  split.
  - rewrite app_length, take_length, Hl, drop_length. lia.
  - intros i Hi. destruct (Nat.leb_spec (length prev - extra) i).
    + rewrite lookup_app_r; rewrite take_length, Hl; [|lia]. rewrite lookup_drop. f_equal. lia.
    + rewrite lookup_app_l by (rewrite take_length, Hl; lia). rewrite lookup_take by lia.
      destruct (Nat.ltb_spec i n).
      * rewrite lookup_app_l by (rewrite take_length; lia). by rewrite lookup_take.
      * rewrite lookup_app_r by (rewrite take_length; lia). rewrite take_length, lookup_drop. f_equal. lia.
Qed.
Lemma mixed_det n extra prev conf c c' : mixed n extra prev conf c -> mixed n extra prev conf c' -> c = c'.
Proof.
  intros [L H] [L' H']. apply list_eq. intros i. destruct (decide (i < length prev)%nat) as [Hi|Hi].
  - by rewrite H, H'.
  - rewrite !lookup_ge_None_2; [done|lia..].
Qed.
Lemma mixed_base n extra prev prev' conf conf' c :
  (n <= length prev)%nat -> length conf' = length conf -> mixed n extra prev' conf' prev -> mixed n extra prev conf c ->
  mixed n extra prev' conf c.
Proof.
  intros Hn Hl [L H] [L' H']. split; [lia|]. intros i Hi. rewrite <- L in Hi. rewrite (H' i Hi), L.
  destruct (Nat.leb_spec (length prev' - extra) i) as [|Hlt]; [done|]. destruct (Nat.ltb_spec i n) as [|Hge]; [done|].
  rewrite H by lia. destruct (Nat.leb_spec (length prev' - extra) i); [lia|]. destruct (Nat.ltb_spec i n); [lia|done].
Qed.
Lemma configPosition_ok extra (prev pq : list R) : (extra <= length pq)%nat -> (length pq <= length prev)%nat ->
  exists c, configPosition extra prev pq = Ok c /\ mixed (length pq - extra) extra prev pq c.
Proof.
  intros H1 H2. unfold configPosition.
  rewrite !(proj2 (Nat.leb_le _ _)) by lia. simpl. eexists. split; [done|]. apply mixed_eq; lia.
Qed.

Lemma sampleFrom_spec extra (path : R -> list R) n len t1 step K :
  0 < step -> (forall t, length (path t) = n) -> (extra <= n)%nat -> (n <= len)%nat ->
  forall i start back fuel, length start = len -> (back = start \/ exists q, length q = n /\ mixed (n - extra) extra start q back) ->
  (forall k, (k < K)%nat -> i + INR k * step < t1) -> t1 <= i + INR K * step -> (K < fuel)%nat ->
  exists l, sampleFrom fuel extra path t1 step i back = Some (Ok l) /\ length l = S K /\
    (forall k, (k < K)%nat -> exists c, l !! k = Some c /\ mixed (n - extra) extra start (path (i + INR k * step)) c) /\
    exists c, l !! K = Some c /\ mixed (n - extra) extra start (path t1) c.
Proof.
  intros Hs Hp He Hn. induction K as [|K IH]; intros i start back fuel Hls Hb Hlt Hge Hf;
    (destruct fuel as [|fuel]; [lia|]); simpl.
  - simpl in Hge. unfold Rltb. destruct (Rlt_dec i t1); [lra|].
    assert (Hlb : length back = len) by (destruct Hb as [->|(q & _ & [L _])]; congruence).
    destruct (configPosition_ok extra back (path (Rmin t1 t1))) as (c & -> & Hc); [rewrite Hp; lia..|].
    exists [c]. split; [done|]. split; [done|]. split; [lia|]. exists c. split; [done|].
    rewrite Rmin_left in Hc by lra. rewrite Hp in Hc.
    destruct Hb as [->|(q & Hq & Hb)]; [done|]. eapply mixed_base; [| |exact Hb|exact Hc]; [lia|]. by rewrite Hp.
  - assert (Hi : i < t1). { specialize (Hlt 0%nat ltac:(lia)). simpl in Hlt. lra. }
    unfold Rltb. destruct (Rlt_dec i t1); [|lra].
    assert (Hlb : length back = len) by (destruct Hb as [->|(q & _ & [L _])]; congruence).
    destruct (configPosition_ok extra back (path (Rmin i t1))) as (c & -> & Hc); [rewrite Hp; lia..|].
    rewrite Rmin_left in Hc by lra. rewrite Hp in Hc.
    assert (Hc' : mixed (n - extra) extra start (path i) c).
    { destruct Hb as [->|(q & Hq & Hb)]; [done|]. eapply mixed_base; [| |exact Hb|exact Hc]; [lia|]. by rewrite Hp. }
    edestruct (IH (i + step) start c fuel) as (l & -> & Hl & Hk & (z & Hz & Hzm)).
    + done.
    + right. exists (path i). by rewrite Hp.
    + intros k Hk. specialize (Hlt (S k) ltac:(lia)). rewrite S_INR in Hlt. lra.
    + rewrite S_INR in Hge. lra.
    + lia.
    + exists (c :: l). split; [done|]. split; [simpl; lia|]. split.
      * intros [|k] Hk'; [exists c; split; [done|]; simpl; by replace (i + 0 * step) with i by ring|].
        destruct (Hk k ltac:(lia)) as (c' & Hc1 & Hc2). exists c'. split; [done|].
        rewrite S_INR. by replace (i + (INR k + 1) * step) with (i + step + INR k * step) by ring.
      * exists z. by split.
Qed.

Lemma least_above (step d : R) : 0 < step -> exists K, (forall k, (k < K)%nat -> INR k * step < d) /\ d <= INR K * step.
Proof.
  intros Hs. assert (HN : exists N, INR N > d / step).
  { destruct (archimed (d / step)) as [A1 _]. exists (Z.to_nat (up (d / step))).
    rewrite INR_IZR_INZ. destruct (Z_le_gt_dec 0 (up (d / step))) as [Hz|Hz].
    - by rewrite Z2Nat.id.
    - assert (IZR (up (d / step)) <= 0) by (apply (IZR_le _ 0); lia).
      assert (0 <= IZR (Z.of_nat (Z.to_nat (up (d / step))))) by (apply (IZR_le 0); lia). lra. }
  destruct HN as [N HN].
  assert (HN' : d <= INR N * step).
  { apply Rmult_gt_compat_r with (r := step) in HN; [|lra]. unfold Rdiv in HN. rewrite Rmult_assoc, Rinv_l in HN by lra. lra. }
  clear HN. induction N as [|N IH].
  - exists 0%nat. split; [lia|done].
  - destruct (Rle_dec d (INR N * step)) as [H|H]; [by apply IH|].
    exists (S N). split; [|done]. intros k Hk.
    assert (INR k <= INR N) by (apply le_INR; lia). nra.
Qed.

(** C125 *)
Lemma C125_lemma extra (path : R -> list R) n (start : list R) t0 t1 step :
  0 < step -> (forall t, length (path t) = n) -> (extra <= n)%nat -> (n <= length start)%nat ->
  exists K configs, (1 <= K)%nat /\ (forall k, (1 <= k < K)%nat -> t0 + INR k * step < t1) /\ t1 <= t0 + INR K * step /\
    (forall fuel, (K <= fuel)%nat -> pathConfigs fuel extra path t0 t1 step start = Some (Ok configs)) /\
    length configs = S K /\ configs !! 0%nat = Some start /\
    (forall k, (1 <= k < K)%nat -> exists c, configs !! k = Some c /\ mixed (n - extra) extra start (path (t0 + INR k * step)) c) /\
    exists c, configs !! K = Some c /\ mixed (n - extra) extra start (path t1) c.
Proof.
  intros Hs Hp He Hn. destruct (least_above step (t1 - (t0 + step)) Hs) as (K & HK1 & HK2).
  assert (Hsamp : forall fuel, (K < fuel)%nat -> exists l, sampleFrom fuel extra path t1 step (t0 + step) start = Some (Ok l) /\ length l = S K /\
    (forall k, (k < K)%nat -> exists c, l !! k = Some c /\ mixed (n - extra) extra start (path (t0 + step + INR k * step)) c) /\
    exists c, l !! K = Some c /\ mixed (n - extra) extra start (path t1) c).
  { intros fuel Hf. apply (sampleFrom_spec extra path n (length start)); try done.
    - by left.
    - intros k Hk. specialize (HK1 k Hk). lra.
    - lra. }
  destruct (Hsamp (S K) ltac:(lia)) as (l & El & Hl & Hk & z & Hz & Hzm).
  exists (S K), (start :: l). split_and!.
  - lia.
  - intros [|k] Hk'; [lia|]. specialize (HK1 k ltac:(lia)). rewrite S_INR. lra.
  - rewrite S_INR. lra.
  - intros fuel Hf. unfold pathConfigs. destruct (Hsamp fuel ltac:(lia)) as (l' & -> & Hl' & Hk' & z' & Hz' & Hzm').
    do 3 f_equal. apply list_eq. intros i. destruct (decide (i < K)%nat) as [Hi|Hi].
    + destruct (Hk i Hi) as (c & -> & Hc). destruct (Hk' i Hi) as (c' & -> & Hc'). f_equal. by eapply mixed_det.
    + destruct (decide (i = K)) as [->|Hne]; [rewrite Hz, Hz'; f_equal; by eapply mixed_det|].
      rewrite !lookup_ge_None_2; [done|lia..].
  - simpl. lia.
  - done.
  - intros [|k] Hk'; [lia|]. destruct (Hk k ltac:(lia)) as (c & Hc & Hm). exists c. split; [done|].
    rewrite S_INR. by replace (t0 + (INR k + 1) * step) with (t0 + step + INR k * step) by ring.
  - exists z. done.
Qed.

(** ** The loop *)
Lemma counted_recount (r : PSt) : counted r (recount r).
Proof. by split_and!. Qed.
Lemma loadPrevious_ok extra prev conf c : loadPreviousConfiguration extra prev conf = Ok c -> mixed 7 extra prev conf c.
Proof.
  unfold loadPreviousConfiguration. destruct (_ && _) eqn:E; [|done]. rewrite !andb_true_iff, !Nat.leb_le in E.
  intros [= <-]. apply mixed_eq; lia.
Qed.

Section loop.
Variable compute : nat -> PSt -> list R -> vec3 -> vec3 -> R -> creport.
Variables (confSize extra : nat).
Variable configs : list (list R).
Variables (step init : R).
Variable start : PSt.
Variable good : PSt -> Prop.
Hypothesis Hrel : reliable compute good.
Hypothesis Hstart : good start.
Notation it := (iteration compute confSize extra configs step).

Lemma iteration_cases x : good (snd (back x)) ->
  match it x with
  | Undefined => True
  | Abort l => l = statesOf x
  | Continue y => exists conf c a,
      configs !! cit x = Some conf /\ mixed 7 extra (lastConfig x) conf c /\ readAcc confSize extra x c = Ok a /\
      let r := compute (calls x) (snd (back x)) c (V3 0 0 1) a (currentVal x) in
      calls y = S (calls x) /\ acc y = a /\ lastConfig y = configuration (crResult r) /\
      (if crRepos r then cit y = S (lastIterator x) /\ currentVal y = fst (back x) + step /\ repos y = S (repos x) /\ (repos y <= 20)%nat
       else cit y = S (cit x) /\ currentVal y = currentVal x + step /\ repos y = repos x) /\
      ((unchanged r /\ older y = older x /\ back y = back x /\ lastIterator y = lastIterator x) \/
       (~ unchanged r /\ older y = older x ++ [back x] /\
        back y = (if crRepos r then fst (back x) else currentVal x, recount (crResult r)) /\
        lastIterator y = if crRepos r then lastIterator x else cit x))
  end.
Proof.
  intros Hg. unfold iteration. destruct (configs !! cit x) as [conf|] eqn:Ec; [|done].
  destruct (loadPreviousConfiguration extra (lastConfig x) conf) as [c| |] eqn:El; [|done..].
  destruct (readAcc confSize extra x c) as [a| |] eqn:Ea; [|done..].
  set (r := compute (calls x) (snd (back x)) c (V3 0 0 1) a (currentVal x)).
  destruct (Hrel (calls x) (snd (back x)) c (V3 0 0 1) a (currentVal x) Hg) as [Hw _]. fold r in Hw.
  set (failed := allowFailure x && (negb (crOk r) || crMulti r)).
  set (fails := if failed then S (nbFailures x) else nbFailures x).
  destruct (failed && (1 <? fails)%nat) eqn:Ef; [done|].
  destruct (crRepos r) eqn:Er.
  - destruct (true && (20 <? S (repos x))%nat) eqn:E20; [done|].
    apply Nat.ltb_ge in E20. simpl.
    exists conf, c, a. split; [done|]. split; [by apply loadPrevious_ok|]. split; [done|].
    cbv zeta. fold r. rewrite Er. simpl.
    split_and!; [done..|lia|].
    destruct (crOk r && crMaintained r && negb (crCreated r)) eqn:Eu.
    + left. rewrite !andb_true_iff, negb_true_iff in Eu. destruct Eu as [[U1 U2] U3]. split; [by split_and!|done].
    + right. split; [|done]. intros (U1 & U2 & U3). rewrite U1, U2, U3 in Eu. done.
  - assert (Hok : crOk r = true). { destruct (crOk r) eqn:E1; [done|]. specialize (Hw (or_introl eq_refl)). congruence. }
    assert (Hmu : crMulti r = false). { destruct (crMulti r) eqn:E1; [|done]. specialize (Hw (or_intror eq_refl)). congruence. }
    assert (failed = false) as -> by (subst failed; by rewrite Hok, Hmu, andb_false_r).
    rewrite Hmu. simpl. exists conf, c, a. split; [done|]. split; [by apply loadPrevious_ok|]. split; [done|].
    cbv zeta. fold r. rewrite Er. simpl. split_and!; [done..|].
    destruct (crOk r && crMaintained r && negb (crCreated r)) eqn:Eu.
    + left. rewrite !andb_true_iff, negb_true_iff in Eu. destruct Eu as [[U1 U2] U3]. split; [by split_and!|done].
    + right. split; [|done]. intros (U1 & U2 & U3). rewrite U1, U2, U3 in Eu. done.
Qed.

(** a variant of the loop: repositionings left, then configurations left *)
Definition left (x : ist) : nat := (20 - repos x) * length configs + (length configs - cit x).
Definition inv1 (x : ist) : Prop := good (snd (back x)) /\ (lastIterator x < cit x)%nat /\ (repos x <= 20)%nat.
Lemma inv1_initial : inv1 (initial init start).
Proof. split_and!; simpl; [done|lia..]. Qed.
Lemma inv1_step x y : inv1 x -> it x = Continue y -> inv1 y /\ (cit x < length configs -> left y < left x)%nat.
Proof.
  intros (Hg & Hl & Hr) E. pose proof (iteration_cases x Hg) as H. rewrite E in H.
  destruct H as (conf & c & a & Hc & Hm & Ha & Hrest). cbv zeta in Hrest.
  destruct (Hrel (calls x) (snd (back x)) c (V3 0 0 1) a (currentVal x) Hg) as [_ Hgood].
  set (r := compute _ _ _ _ _ _) in *. destruct Hrest as (_ & _ & _ & Hcit & Hpush).
  split.
  - split.
    + destruct Hpush as [(_ & _ & -> & _)|(_ & _ & -> & _)]; [done|]. apply Hgood, counted_recount.
    + destruct (crRepos r).
      * destruct Hcit as (-> & _ & -> & H20). destruct Hpush as [(_ & _ & _ & ->)|(_ & _ & _ & ->)]; lia.
      * destruct Hcit as (-> & _ & ->). destruct Hpush as [(_ & _ & _ & ->)|(_ & _ & _ & ->)]; lia.
  - intros Hlt. unfold left. destruct (crRepos r).
    + destruct Hcit as (-> & _ & -> & H20).
      assert (20 - repos x = S (20 - S (repos x)))%nat as -> by lia. simpl. lia.
    + destruct Hcit as (-> & _ & ->). lia.
Qed.

Lemma interpLoop_ends x fuel : inv1 x -> (left x <= fuel)%nat ->
  interpLoop compute confSize extra configs step fuel x <> None.
Proof.
  revert x. induction fuel as [|fuel IH]; intros x Hi Hf; simpl.
  - destruct (Nat.leb_spec (length configs) (cit x)); [done|]. unfold left in Hf. generalize dependent ((20 - repos x) * length configs)%nat. intros; lia.
  - destruct (Nat.leb_spec (length configs) (cit x)) as [|Hlt]; [done|].
    destruct (it x) as [y|l|] eqn:E; [|done..]. destruct (inv1_step x y Hi E) as [Hy Hd].
    apply IH; [done|]. specialize (Hd Hlt). lia.
Qed.
(** C126 *)
Lemma C126_lemma : exists r,
  interpLoop compute confSize extra configs step (21 * length configs) (initial init start) = Some r.
Proof.
  pose proof (interpLoop_ends (initial init start) (21 * length configs) inv1_initial) as H.
  destruct (interpLoop _ _ _ _ _ _ _); [by eexists|]. destruct H; [|done].
  unfold left. simpl. lia.
Qed.
Lemma interpLoop_mono f f' x r : interpLoop compute confSize extra configs step f x = Some r -> (f <= f')%nat ->
  interpLoop compute confSize extra configs step f' x = Some r.
Proof.
  revert f' x. induction f as [|f IH]; intros f' x; simpl.
  - destruct (Nat.leb_spec (length configs) (cit x)) as [Hle|]; [|done]. intros [= <-] _.
    destruct f'; simpl; destruct (Nat.leb_spec (length configs) (cit x)); done || lia.
  - intros H Hf. destruct f' as [|f']; [lia|]. simpl. destruct (length configs <=? cit x)%nat; [done|].
    destruct (it x); [|done..]. apply IH; [done|lia].
Qed.

(** ** The sequence *)
Hypothesis Hstep : 0 <= step.
Definition timed (o : nat) (x : ist) : Prop :=
  (o <= 1)%nat /\ currentVal x = init + (INR (cit x) - 1 + INR o) * step /\
  ((lastIterator x = 0%nat /\ fst (back x) = init) \/
   ((1 <= lastIterator x)%nat /\ fst (back x) = init + (INR (lastIterator x) - 1 + INR o) * step)).
Definition chain (l : list sframe) : Prop :=
  head l = Some (init, start) /\
  consecutive (fun x y => fst x <= fst y /\ (exists o, (o <= 1)%nat /\ computed_from compute confSize extra configs step init o x y)) l.

Lemma consecutive_snoc {A} (Rel : A -> A -> Prop) l x y :
  consecutive Rel (l ++ [x]) -> Rel x y -> consecutive Rel ((l ++ [x]) ++ [y]).
Proof.
  intros Hc Hr i a b Ha Hb.
  assert (Hi : (S i < length ((l ++ [x]) ++ [y]))%nat) by (by apply lookup_lt_is_Some; eexists).
  rewrite !app_length in Hi. simpl in Hi.
  destruct (decide (S i < length (l ++ [x]))%nat) as [H|H].
  - rewrite lookup_app_l in Ha by lia. rewrite lookup_app_l in Hb by lia. by eapply Hc.
  - rewrite app_length in H. simpl in H. assert (i = length l) as -> by lia.
    rewrite lookup_app_l, lookup_app_r in Ha by (rewrite ?app_length; simpl; lia). rewrite Nat.sub_diag in Ha.
    rewrite lookup_app_r in Hb by (rewrite ?app_length; simpl; lia). rewrite app_length in Hb. simpl in Hb.
    replace (S (length l) - (length l + 1))%nat with 0%nat in Hb by lia. by injection Ha as ->; injection Hb as ->.
Qed.

Lemma chain_step o x y : inv1 x -> (1 <= cit x)%nat -> timed o x -> chain (statesOf x) -> it x = Continue y ->
  (exists o', timed o' y) /\ chain (statesOf y) /\ (1 <= cit y)%nat.
Proof.
  intros (Hg & Hl & Hr) Hc1 (Ho & Ht & Hb) [Hh Hch] E. pose proof (iteration_cases x Hg) as H. rewrite E in H.
  destruct H as (conf & c & a & Hc & Hm & Ha & Hrest). cbv zeta in Hrest.
  set (r := compute _ _ _ _ _ _) in *. destruct Hrest as (_ & _ & _ & Hcit & Hpush).
  assert (Hc1' : (1 <= cit y)%nat). { destruct (crRepos r); destruct Hcit as (-> & _); lia. }
  split; [|split; [|done]].
  - destruct (crRepos r).
    + destruct Hcit as (E1 & E2 & _).
      assert (El : lastIterator y = lastIterator x /\ fst (back y) = fst (back x)).
      { destruct Hpush as [(_ & _ & -> & ->)|(_ & _ & -> & ->)]; done. }
      destruct El as [El1 El2]. unfold timed. rewrite E1, E2, El1, El2.
      destruct Hb as [[Hb1 Hb2]|[Hb1 Hb2]].
      * exists 1%nat. rewrite Hb1, Hb2. simpl. split; [lia|]. split; [ring|by left].
      * exists o. rewrite Hb2, S_INR. split; [done|]. split; [ring|by right].
    + destruct Hcit as (E1 & E2 & _). exists o. split; [done|]. rewrite E1, E2, Ht, S_INR. split; [ring|].
      destruct Hpush as [(_ & _ & -> & ->)|(_ & _ & -> & ->)]; [done|]. right. simpl. split; [done|done].
  - destruct Hpush as [(_ & E1 & E2 & _)|(Hu & E1 & E2 & _)]; unfold statesOf; rewrite E1, E2; [done|].
    split; [unfold statesOf in Hh; by destruct (older x)|].
    apply consecutive_snoc; [done|]. simpl. split.
    + destruct (crRepos r); [lra|]. rewrite Ht. assert (0 <= INR o) by apply pos_INR.
      assert (1 <= INR (cit x)) by (apply (le_INR 1); lia).
      destruct Hb as [[Hb1 ->]|[Hb1 ->]]; [nra|].
      assert (INR (lastIterator x) <= INR (cit x)) by (apply le_INR; lia). nra.
    + exists o. split; [done|]. exists (calls x), (cit x), conf, (lastConfig x), c, a, (currentVal x).
      fold r. split_and!; try done; [|apply counted_recount..].
      intros j Hj Hlen. unfold readAcc in Ha. rewrite (proj2 (Nat.ltb_lt _ _)) in Ha by lia.
      rewrite (proj2 (Nat.leb_le _ _)) in Ha by lia. injection Ha as <-. simpl.
      destruct j as [|[|[|j]]]; [..|lia]; simpl.
      all: match goal with |- _ = _ !! ?k => destruct (nth_lookup_or_length c k 0) as [Hn|Hn]; [|lia] end;
        rewrite Hn; do 2 f_equal; lia.
Qed.

Lemma interpLoop_chain fuel x o b l :
  inv1 x -> (1 <= cit x)%nat -> timed o x -> chain (statesOf x) ->
  interpLoop compute confSize extra configs step fuel x = Some (Ok (b, l)) -> chain l.
Proof.
  revert x o. induction fuel as [|fuel IH]; intros x o Hi Hc Ht Hch; simpl.
  - destruct (length configs <=? cit x)%nat; [by intros [= <- <-]|done].
  - destruct (length configs <=? cit x)%nat; [by intros [= <- <-]|].
    destruct (it x) as [y|l'|] eqn:E; [| |done].
    + destruct (inv1_step x y Hi E) as [Hy _]. destruct (chain_step o x y Hi Hc Ht Hch E) as ((o' & Ht') & Hch' & Hc').
      by apply (IH y o').
    + intros [= <- <-]. pose proof (iteration_cases x (proj1 Hi)) as H. rewrite E in H. by subst l'.
Qed.
(** C127 *)
Lemma C127_lemma fuel b l :
  interpLoop compute confSize extra configs step fuel (initial init start) = Some (Ok (b, l)) -> chain l.
Proof.
  apply (interpLoop_chain fuel _ 0); [apply inv1_initial|simpl; lia| |].
  - split; [lia|]. simpl. split; [ring|by left].
  - split; [done|]. intros [|i] x y; simpl; [done|]. by rewrite lookup_nil.
Qed.
End loop.
