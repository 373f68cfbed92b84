(** Sorting moves the samples and not the values; what this leaves attached. *)
From Verif Require Import Maps MapsProofs Vec SampModel SampSpec SampProofs SampProofs2.
From Coq Require Import ZArith Lia Lra.
Local Open Scope nat_scope.

Section sort.
Variable sort : list (sample R) -> list (sample R).
Variable voxel : R * R * R -> Z.
Variable dmax : R.

Lemma sortDB_moves db : sorts sort -> values_complete db ->
  exists db' p, sortDB sort voxel db = Ok db' /\ rearranged p (with_samples (sort (samples db)) db) db'.
Proof.
  intros Hs Hvc. destruct (Hs (samples db)) as [Hp _].
  destruct (align_ok voxel (with_samples (sort (samples db)) db)) as (db' & p & Heq & Hre & _ & _).
  { intros n l Hl. simpl. rewrite (Permutation_length Hp). by apply (Hvc n). }
  exists db', p. done.
Qed.

Lemma addValue_other name eval isStatic db db' :
  addValue sort voxel dmax name eval isStatic false db = Ok db' ->
  (isStatic = false \/ is_Some (values db !! name)) -> samples db' = samples db.
Proof.
  unfold addValue. destruct (values db !! name) eqn:E; intros H Hi; [congruence|].
  injection H as <-. simpl. destruct Hi as [->|[? Hi]]; done.
Qed.

Lemma statics_content (f : scontent R -> R) ss ss' lo hi : map content ss' ≡ₚ map content ss -> extremes (fun s => f (content s)) ss lo hi ->
  extremes (fun s => f (content s)) ss' lo hi.
Proof.
  intros Hp (H1 & H2 & H3).
  assert (Hin : forall s, s ∈ ss -> exists s', s' ∈ ss' /\ content s' = content s).
  { intros s Hs. assert (H : content s ∈ map content ss') by (rewrite Hp; by apply elem_of_list_fmap_1).
    apply elem_of_list_fmap in H as (s' & E & H). eauto. }
  assert (Hin' : forall s, s ∈ ss' -> exists s', s' ∈ ss /\ content s' = content s).
  { intros s Hs. assert (H : content s ∈ map content ss) by (rewrite <- Hp; by apply elem_of_list_fmap_1).
    apply elem_of_list_fmap in H as (s' & E & H). eauto. }
  split_and!.
  - destruct H1 as (a & Ha & E). destruct (Hin _ Ha) as (b & Hb & E'). exists b. rewrite E'. done.
  - destruct H2 as (a & Ha & E). destruct (Hin _ Ha) as (b & Hb & E'). exists b. rewrite E'. done.
  - intros a Ha. destruct (Hin' _ Ha) as (b & Hb & E). rewrite <- E. by apply H3.
Qed.

Lemma newDB_statics res generated data static f : sorts sort ->
  NoDup data.*1 ->
  (static, fun _ s => f (content s)) ∈ data ->
  (forall s, s ∈ generated -> (- dmax <= f (content s) <= dmax)%R) ->
  exists db lo hi, newDB sort voxel dmax res generated data static = Ok db /\
    (generated <> [] -> extremes (fun s => f (content s)) (samples db) lo hi /\
       valueBounds db !! static = Some (lo, hi)) /\
    forall s, s ∈ samples db -> normalised lo hi (f (content s)) (sstatic s).
Proof.
  intros Hs Hnd Hin Hb. unfold newDB.
  (* the values *)
  assert (Hadd : forall data db, values_complete db -> NoDup data.*1 ->
     (forall n, n ∈ data.*1 -> values db !! n = None /\ valueBounds db !! n = None) ->
     map content (samples db) = map content generated ->
     ((static, fun _ s => f (content s)) ∈ data \/ (static ∉ data.*1 /\ exists lo hi,
        valueBounds db !! static = Some (lo, hi) /\
        (samples db <> [] -> extremes (fun s => f (content s)) (samples db) lo hi) /\
        forall s, s ∈ samples db -> normalised lo hi (f (content s)) (sstatic s))) ->
     exists db' lo hi, addValues sort voxel dmax data static db = Ok db' /\ values_complete db' /\
        map content (samples db') = map content generated /\
        valueBounds db' !! static = Some (lo, hi) /\
        (samples db' <> [] -> extremes (fun s => f (content s)) (samples db') lo hi) /\
        forall s, s ∈ samples db' -> normalised lo hi (f (content s)) (sstatic s)).
  { clear data Hnd Hin. intros data. induction data as [|[n e] data IH]; intros db Hvc Hnd Hnew Hc Hst.
    - destruct Hst as [H|(_ & lo & hi & H1 & H2 & H3)]; [by apply elem_of_nil in H|].
      exists db, lo, hi. cbn [addValues]. done.
    - cbn [addValues]. inversion Hnd as [|? ? Hn0 Hnd']; subst.
      destruct (Hnew n) as [Hvn Hbn]; [left|].
      assert (Hother : exists db1, addValue sort voxel dmax n e (bool_decide (static = n)) false db = Ok db1 /\
        (forall m, m <> n -> values db1 !! m = values db !! m /\ valueBounds db1 !! m = valueBounds db !! m)).
      { unfold addValue. rewrite Hvn, Hbn. eexists. split; [reflexivity|]. simpl.
        intros m Hm. rewrite !lookup_insert_ne by done. done. }
      destruct Hother as (db1 & Hdb1 & Hfr).
      destruct (addValue_complete sort voxel dmax n e (bool_decide (static = n)) db Hvc) as (db1' & E & H1 & H2 & H3).
      rewrite Hdb1 in E. injection E as <-. rewrite Hdb1.
      destruct (IH db1 H1 Hnd') as (db' & lo & hi & R); [| | |exists db', lo, hi; exact R].
      + intros m Hm. destruct (Hfr m) as [-> ->]; [intros ->; done|]. apply Hnew. by right.
      + by rewrite H2.
      + destruct Hst as [H|(H & lo & hi & Hlo)].
        * apply elem_of_cons in H as [H|H]; [|by left]. injection H as <- <-. right. split; [done|].
          destruct (addValue_unsorted sort voxel dmax static (fun _ s => f (content s)) true db Hvn) as
            (db2 & l & lo & hi & E2 & A1 & A2 & A3 & A4 & _ & _ & _ & A5 & A6).
          { intros s Hsm. assert (Hg : content s ∈ map content generated)
              by (rewrite <- Hc; by apply elem_of_list_fmap_1).
            apply elem_of_list_fmap in Hg as (s' & -> & Hg). by apply Hb. }
          rewrite (bool_decide_eq_true_2 _ eq_refl) in Hdb1. rewrite Hdb1 in E2. injection E2 as <-.
          exists lo, hi. split_and!; [by apply A4| |].
          -- intros Hne. apply (statics_content f (samples db)); [by rewrite H2|]. apply A3.
             intros Hnil. rewrite Hnil in A5. apply Hne. by destruct (samples db1).
          -- intros s Hsm. apply elem_of_list_lookup in Hsm as [i Hi].
             assert (Hlt : i < length (samples db)) by (apply lookup_lt_Some in Hi; lia).
             apply lookup_lt_is_Some in Hlt as [s0 Hs0].
             destruct (A6 _ _ Hs0) as (v & _ & Hv & E). rewrite Hi in E. injection E as ->. done.
        * right. simpl in H. apply not_elem_of_cons in H as [Hne Hni].
          assert (Hsame : samples db1 = samples db).
          { eapply addValue_other; [exact Hdb1|]. left. by apply bool_decide_eq_false_2. }
          split; [done|]. exists lo, hi. rewrite Hsame. destruct (Hfr static Hne) as [_ ->]. done. }
  destruct (Hadd data (mkDB res generated ∅ ∅ ∅)) as (db1 & lo & hi & -> & H1 & H2 & H3 & H4 & H5).
  { intros n l. simpl. by rewrite lookup_empty. }
  { done. }
  { intros n _. simpl. by rewrite !lookup_empty. }
  { done. }
  { by left. }
  destruct (sortDB_moves db1 Hs H1) as (db & p & Heq & Hre). exists db, lo, hi. split_and!; [done| |].
  - intros Hg. split.
    + destruct (sortDB_ok sort voxel db1 Hs H1) as (db2 & E2 & _ & _ & Hp2 & _). rewrite Heq in E2. injection E2 as <-.
      apply (statics_content f (samples db1)); [done|]. apply H4. intros Hnil. rewrite Hnil in H2. simpl in H2.
      destruct generated; done.
    + rewrite (re_bounds _ _ _ Hre). done.
  - intros s Hsm. apply elem_of_list_lookup in Hsm as [i Hi].
    assert (Hlt : i < length p).
    { rewrite (Permutation_length (re_perm _ _ _ Hre)), seq_length, <- (re_length _ _ _ Hre).
      by eapply lookup_lt_Some. }
    apply lookup_lt_is_Some in Hlt as [j Hj].
    destruct (re_sample _ _ _ Hre _ _ Hj) as (s0 & Hs0 & E). rewrite Hi in E. injection E as ->. simpl.
    apply H5. destruct (Hs (samples db1)) as [Hp _]. rewrite <- Hp. by eapply elem_of_list_lookup_2.
Qed.
End sort.
