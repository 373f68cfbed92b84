(** The exact order of the arrangements of stringCombinatorial. *)
From Coq Require Import ZArith Lia Sorting.
From Verif Require Import Maps MapsProofs StateModel CombModel CombSpec CombProofs CombProofs2.

Section order.
Variable cands : list string.
Hypothesis Hnd : NoDup cands.
Notation before := (arranged_before cands).

Lemma before_extend a b c d : length a = length b -> before a b -> before (a ++ [c]) (b ++ [d]).
Proof.
  intros Hl [H|(_ & pre & x & y & a' & b' & i & j & -> & -> & Hx & Hy & Hij)]; [lia|].
  right. split; [rewrite !app_length; simpl in *; rewrite !app_length in Hl; simpl in Hl; lia|].
  exists pre, x, y, (a' ++ [c]), (b' ++ [d]), i, j. rewrite <- !app_assoc. done.
Qed.
Lemma before_last seq i j x y : cands !! i = Some x -> cands !! j = Some y -> i < j -> before (seq ++ [x]) (seq ++ [y]).
Proof. intros Hx Hy Hij. right. split; [by rewrite !app_length|]. by exists seq, x, y, [], [], i, j. Qed.

Definition ext (seq : list string) (l : list string) : list (list string) :=
  omap (fun c => let '(isnew, seq') := insertIfNew seq c in if isnew then Some seq' else None) l.
Lemma ext_in seq l s : s ∈ ext seq l -> exists c, c ∈ l /\ s = seq ++ [c].
Proof.
  unfold ext. intros H. apply elem_of_list_omap in H as (c & Hc & H). exists c. split; [done|].
  unfold insertIfNew in H. destruct (inb c seq); [done|]. by injection H as <-.
Qed.
Lemma ext_sorted seq l : forall k, (forall i x, l !! i = Some x -> cands !! (k + i) = Some x) -> StronglySorted before (ext seq l).
Proof.
  induction l as [|c l IH]; intros k Hk; [constructor|].
  assert (Hl : StronglySorted before (ext seq l)).
  { apply (IH (S k)). intros i x Hi. specialize (Hk (S i) x Hi). by replace (S k + i) with (k + S i) by lia. }
  assert (E : ext seq (c :: l) = (if inb c seq then ext seq l else (seq ++ [c]) :: ext seq l)).
  { unfold ext. cbn [omap list_omap]. unfold insertIfNew. by destruct (inb c seq). }
  rewrite E. destruct (inb c seq); [done|]. constructor; [done|].
  apply Forall_forall. intros s Hs. apply ext_in in Hs as (d & Hd & ->). apply elem_of_list_lookup in Hd as [i Hi].
  apply (before_last seq k (k + S i)); [specialize (Hk 0 c eq_refl); by rewrite Nat.add_0_r in Hk|by apply Hk|lia].
Qed.
Lemma sorted_app (l1 l2 : list (list string)) : StronglySorted before l1 -> StronglySorted before l2 ->
  (forall a b, a ∈ l1 -> b ∈ l2 -> before a b) -> StronglySorted before (l1 ++ l2).
Proof.
  intros H1 H2 H. induction H1 as [|a l1 H1 IH Ha]; [done|]. cbn. constructor.
  - apply IH. intros x y Hx Hy. apply H; [apply elem_of_cons; by right|done].
  - apply Forall_app. split; [done|]. apply Forall_forall. intros b Hb. apply H; [apply elem_of_cons; by left|done].
Qed.
Lemma extend_sorted k res : (forall a, a ∈ res -> length a = k) -> StronglySorted before res -> StronglySorted before (extend_all res cands).
Proof.
  intros Hk H. induction H as [|a res H IH Ha]; [constructor|]. unfold extend_all. cbn [map concat].
  apply sorted_app.
  - apply (ext_sorted a cands 0). done.
  - apply IH. intros x Hx. apply Hk, elem_of_cons. by right.
  - intros s t Hs Ht. apply ext_in in Hs as (c & Hc & ->). fold (extend_all res cands) in Ht.
    apply elem_of_extend in Ht as (b & d & Hb & _ & _ & ->). rewrite Forall_forall in Ha.
    apply before_extend; [rewrite (Hk a), (Hk b); [done|apply elem_of_cons; by right|apply elem_of_cons; by left]|by apply Ha].
Qed.
Lemma extend_length k res : (forall a, a ∈ res -> length a = k) -> forall a, a ∈ extend_all res cands -> length a = S k.
Proof. intros Hk a Ha. apply elem_of_extend in Ha as (b & d & Hb & _ & _ & ->). rewrite app_length, (Hk b Hb). simpl. lia. Qed.
Lemma rec_sorted depth : forall k res, (forall a, a ∈ res -> length a = k) -> StronglySorted before res ->
  StronglySorted before (stringCombinatorialRec res cands depth) /\ forall a, a ∈ stringCombinatorialRec res cands depth -> k <= length a.
Proof.
  induction depth as [|d IH]; intros k res Hk H; cbn [stringCombinatorialRec].
  - split; [done|]. intros a Ha. by rewrite (Hk a Ha).
  - destruct (IH (S k) (extend_all res cands)) as [H1 H2]; [by apply extend_length|by eapply extend_sorted|]. split.
    + apply sorted_app; [done|done|]. intros a b Ha Hb. left. specialize (H2 b Hb). rewrite (Hk a Ha). lia.
    + intros a Ha. apply elem_of_app in Ha as [Ha|Ha]; [by rewrite (Hk a Ha)|]. specialize (H2 a Ha). lia.
Qed.
Theorem stringCombinatorial_order m maximise : exists L', StronglySorted before ([] :: L') /\
  stringCombinatorial cands m maximise = (if maximise then L' ++ [[]] else [] :: L').
Proof.
  destruct (rec_sorted m 0 [[]]) as [H _].
  { intros a Ha. by apply elem_of_list_singleton in Ha as ->. }
  { repeat constructor. }
  assert (Hh : exists L', stringCombinatorialRec [[]] cands m = [] :: L') by (destruct m; cbn; eauto).
  destruct Hh as [L' E]. rewrite E in H. exists L'. split; [done|]. unfold stringCombinatorial. rewrite E. by destruct maximise.
Qed.
End order.

Lemma arranged_before_asym (cands : list string) a b : NoDup cands -> arranged_before cands a b -> ~ arranged_before cands b a.
Proof.
  intros Hn [H|(Hl & pre & x & y & a' & b' & i & j & Ea & Eb & Hx & Hy & Hij)] [H'|(Hl' & pre' & x' & y' & b'' & a'' & i' & j' & Eb' & Ea' & Hx' & Hy' & Hij')]; try lia.
  assert (Hxy : x <> y).
  { intros ->. assert (i = j) by (eapply NoDup_lookup; eauto). lia. }
  assert (Hxy' : x' <> y').
  { intros ->. assert (i' = j') by (eapply NoDup_lookup; eauto). lia. }
  assert (Hgen : forall pre pre' : list string, pre ++ x :: a' = pre' ++ y' :: a'' -> pre ++ y :: b' = pre' ++ x' :: b'' -> x = y' /\ y = x').
  { clear - Hxy Hxy'. induction pre as [|p pre IH]; intros [|p' pre'] E1 E2; simpl in *.
    - injection E1 as -> _. by injection E2 as -> _.
    - injection E1 as -> _. injection E2 as -> _. done.
    - injection E1 as -> _. injection E2 as -> _. done.
    - injection E1 as _ E1. injection E2 as _ E2. by apply (IH pre'). }
  destruct (Hgen pre pre') as [-> ->]; [congruence|congruence|].
  assert (i = j') by (eapply NoDup_lookup; eauto). assert (j = i') by (eapply NoDup_lookup; eauto). lia.
Qed.
