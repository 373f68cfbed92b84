(** Proofs about values, sorting, candidate queries and loading of samples. *)
From Verif Require Import Maps MapsProofs Vec VecProofs SampModel SampSpec SampProofs.
From Coq Require Import ZArith Lia Lra.
Local Open Scope nat_scope.

(** * Sorting *)
Section sorting.
Variable sort : list (sample R) -> list (sample R).
Variable voxel : R * R * R -> Z.

Lemma sortDB_ok db : sorts sort -> values_complete db ->
  exists db', sortDB sort voxel db = Ok db' /\ voxels_exact voxel db' /\
    length (samples db') = length (samples db) /\
    map content (samples db') ≡ₚ map content (samples db) /\
    (forall i s, samples db' !! i = Some s -> sid s = i) /\
    (forall v first count, samplesInVoxels db' !! v = Some (first, count) ->
     forall i j s t, first <= i -> i < j -> j < first + count ->
       samples db' !! i = Some s -> samples db' !! j = Some t -> (sstatic t <= sstatic s)%R).
Proof.
  intros Hsort Hvc. destruct (Hsort (samples db)) as [Hp Hs].
  set (db1 := mkDB (resolution db) (sort (samples db)) (values db) (valueBounds db) (samplesInVoxels db)).
  assert (Hl1 : length (samples db1) = length (samples db)).
  { simpl. apply Permutation_length. exact Hp. }
  destruct (align_ok voxel db1) as (db' & p & Heq & Hre & Hve & Hord).
  { intros n l Hl. rewrite Hl1. by apply (Hvc n). }
  exists db'. destruct Hre as [Rp Rl Rs Rn Rv Rr Rb].
  assert (Hplen : length p = length (samples db')).
  { rewrite Rl. rewrite (Permutation_length Rp). apply seq_length. }
  assert (Hat : forall i s, samples db' !! i = Some s -> exists j s0, p !! i = Some j /\
     samples db1 !! j = Some s0 /\ s = mkSample i (sstatic s0) (content s0)).
  { intros i s Hi. assert (Hlt : i < length p) by (apply lookup_lt_Some in Hi; lia).
    apply lookup_lt_is_Some in Hlt as [j Hj].
    destruct (Rs _ _ Hj) as (s0 & H0 & H1). rewrite Hi in H1. injection H1 as ->. eauto. }
  split_and!; [exact Heq|exact Hve|lia| | |].
  - transitivity (map content (samples db1)); [|simpl; by rewrite Hp].
    assert (Hm : map content (samples db') = omap (fun j => content <$> samples db1 !! j) p).
    { apply list_eq. intros i. rewrite list_lookup_fmap.
      assert (Homap : forall (ss : list (sample R)) q, Forall (fun j => is_Some (ss !! j)) q ->
         forall i, omap (fun j => content <$> ss !! j) q !! i =
           match q !! i with Some j => content <$> ss !! j | None => None end).
      { clear. intros ss q Hq. induction Hq as [|j q [s Hj] Hq IH]; intros i; [done|].
        cbn [omap list_omap]. rewrite Hj. simpl. destruct i as [|i]; simpl; [by rewrite Hj|]. apply IH. }
      rewrite Homap.
      - destruct (p !! i) as [j|] eqn:Ej.
        + destruct (Rs _ _ Ej) as (s0 & -> & ->). done.
        + apply lookup_ge_None in Ej. rewrite lookup_ge_None_2 by lia. done.
      - apply Forall_forall. intros j Hj. apply elem_of_list_lookup in Hj as [k Hk].
        destruct (Rs _ _ Hk) as (s0 & -> & _). eauto. }
    rewrite Hm. rewrite Rp. clear.
    assert (Hseq : forall (l : list (sample R)), omap (fun j => content <$> l !! j) (seq 0 (length l)) = map content l).
    { intros l. apply (rev_ind (fun l => omap (fun j => content <$> l !! j) (seq 0 (length l)) = map content l)); [done|].
      intros x l' IH. rewrite app_length. simpl. rewrite Nat.add_1_r, seq_S, omap_app, map_app. f_equal.
      - rewrite <- IH. apply list_omap_ext. apply Forall2_same_length_lookup_2; [done|].
        intros i a b Ha Hb. assert (a = b) as -> by congruence.
        apply lookup_seq in Hb as [-> Hlt]. simpl. rewrite lookup_app_l by lia. done.
      - simpl. rewrite list_lookup_middle by done. done. }
    rewrite Hseq. done.
  - intros i s Hi. destruct (Hat _ _ Hi) as (j & s0 & _ & _ & ->). done.
  - intros v first count Hv i j s t H1 H2 H3 Hi Hj.
    destruct (Hat _ _ Hi) as (a & s0 & Ha & Hs0 & ->).
    destruct (Hat _ _ Hj) as (b & t0 & Hb & Ht0 & ->). simpl.
    eapply (Hs a b); [|exact Hs0|exact Ht0]. eapply Hord; eauto.
Qed.
End sorting.

(** * Values *)
Lemma fold_Rmin_le l : forall d, (forall x, x ∈ l -> (fold_left Rmin l d <= x)%R) /\ (fold_left Rmin l d <= d)%R.
Proof.
  induction l as [|y l IH]; intros d; simpl.
  - split; [intros x H; inversion H|lra].
  - destruct (IH (Rmin d y)) as [H1 H2]. pose proof (Rmin_l d y). pose proof (Rmin_r d y). split; [|lra].
    intros x [->|Hx]%elem_of_cons; [lra|]. by apply H1.
Qed.
Lemma fold_Rmin_in l : forall d, fold_left Rmin l d = d \/ fold_left Rmin l d ∈ l.
Proof.
  induction l as [|y l IH]; intros d; simpl; [by left|].
  destruct (IH (Rmin d y)) as [H|H].
  - rewrite H. destruct (Rle_dec d y) as [Hle|Hle].
    + left. by apply Rmin_left.
    + right. rewrite Rmin_right by lra. apply elem_of_cons. by left.
  - right. apply elem_of_cons. by right.
Qed.
Lemma fold_Rmax_ge l : forall d, (forall x, x ∈ l -> (x <= fold_left Rmax l d)%R) /\ (d <= fold_left Rmax l d)%R.
Proof.
  induction l as [|y l IH]; intros d; simpl.
  - split; [intros x H; inversion H|lra].
  - destruct (IH (Rmax d y)) as [H1 H2]. pose proof (Rmax_l d y). pose proof (Rmax_r d y). split; [|lra].
    intros x [->|Hx]%elem_of_cons; [lra|]. by apply H1.
Qed.
Lemma fold_Rmax_in l : forall d, fold_left Rmax l d = d \/ fold_left Rmax l d ∈ l.
Proof.
  induction l as [|y l IH]; intros d; simpl; [by left|].
  destruct (IH (Rmax d y)) as [H|H].
  - rewrite H. destruct (Rle_dec y d) as [Hle|Hle].
    + left. by apply Rmax_left.
    + right. rewrite Rmax_right by lra. apply elem_of_cons. by left.
  - right. apply elem_of_cons. by right.
Qed.

Lemma extremes_found {A} dmax (f : A -> R) l : l <> [] ->
  (forall a, a ∈ l -> (- dmax <= f a <= dmax)%R) ->
  extremes f l (minOf dmax (map f l)) (maxOf dmax (map f l)).
Proof.
  intros Hne Hb. unfold minOf, maxOf.
  destruct (fold_Rmin_le (map f l) dmax) as [Hmin _].
  destruct (fold_Rmax_ge (map f l) (- dmax)%R) as [Hmax _].
  assert (Hin : forall a, a ∈ l -> f a ∈ map f l).
  { intros a Ha. apply elem_of_list_fmap. eauto. }
  split_and!.
  - destruct (fold_Rmin_in (map f l) dmax) as [H|H].
    + destruct l as [|a l]; [done|]. exists a.
      assert (Ha : a ∈ a :: l) by (apply elem_of_cons; by left). split; [done|].
      pose proof (Hb a Ha). pose proof (Hmin _ (Hin _ Ha)). lra.
    + apply elem_of_list_fmap in H as (a & H & Ha). exists a. done.
  - destruct (fold_Rmax_in (map f l) (- dmax)%R) as [H|H].
    + destruct l as [|a l]; [done|]. exists a.
      assert (Ha : a ∈ a :: l) by (apply elem_of_cons; by left). split; [done|].
      pose proof (Hb a Ha). pose proof (Hmax _ (Hin _ Ha)). lra.
    + apply elem_of_list_fmap in H as (a & H & Ha). exists a. done.
  - intros a Ha. split; [by apply Hmin, Hin|by apply Hmax, Hin].
Qed.

Lemma normalise_ok lo hi x : (lo <= x <= hi)%R ->
  normalised lo hi x (if Req_EM_T (hi - lo) 0 then 0%R else ((x - lo) / (hi - lo))%R).
Proof.
  intros Hx. unfold normalised. destruct (Req_EM_T (hi - lo) 0) as [H|H].
  - split_and!; lra.
  - assert (Hpos : (0 < hi - lo)%R) by lra. split_and!.
    + field. lra.
    + apply Rmult_le_pos; [lra|]. left. by apply Rinv_0_lt_compat.
    + apply (Rmult_le_reg_r (hi - lo)); [done|]. unfold Rdiv. rewrite Rmult_assoc, Rinv_l by lra. lra.
    + intros ->. lra.
Qed.

Section values.
Variable sort : list (sample R) -> list (sample R).
Variable voxel : R * R * R -> Z.
Variable dmax : R.

(** adding an existing name changes nothing *)
Lemma addValue_existing name eval isStatic sorted db :
  is_Some (values db !! name) -> addValue sort voxel dmax name eval isStatic sorted db = Ok db.
Proof. intros [l Hl]. unfold addValue. by rewrite Hl. Qed.

Lemma setStatic_length vals ss : length vals = length ss -> length (setStatic vals ss) = length ss.
Proof. intros H. unfold setStatic. rewrite zip_with_length. lia. Qed.

Lemma addValue_unsorted name eval isStatic db :
  values db !! name = None ->
  (forall s, s ∈ samples db -> (- dmax <= eval db s <= dmax)%R) ->
  exists db' l lo hi, addValue sort voxel dmax name eval isStatic false db = Ok db' /\
    values db' !! name = Some l /\ length l = length (samples db) /\
    (samples db <> [] -> extremes (eval db) (samples db) lo hi) /\
    (valueBounds db !! name = None -> valueBounds db' !! name = Some (lo, hi)) /\
    (forall n, n <> name -> values db' !! n = values db !! n /\ valueBounds db' !! n = valueBounds db !! n) /\
    samplesInVoxels db' = samplesInVoxels db /\ resolution db' = resolution db /\
    length (samples db') = length (samples db) /\
    (forall i s, samples db !! i = Some s -> exists v, l !! i = Some v /\ normalised lo hi (eval db s) v /\
       samples db' !! i = Some (mkSample (sid s) (if isStatic then v else sstatic s) (content s))).
Proof.
  intros Hn Hb. unfold addValue. rewrite Hn.
  set (raw := map (eval db) (samples db)).
  set (lo := minOf dmax raw). set (hi := maxOf dmax raw).
  assert (Hlen : length (normalise lo hi raw) = length (samples db)).
  { unfold normalise, raw. by rewrite !map_length. }
  eexists _, (normalise lo hi raw), lo, hi. split; [reflexivity|]. simpl. split_and!.
  - by rewrite lookup_insert.
  - done.
  - intros Hne. apply extremes_found; done.
  - intros H. rewrite H. by rewrite lookup_insert.
  - intros n Hne. split; [by rewrite lookup_insert_ne|].
    destruct (valueBounds db !! name); [done|]. by rewrite lookup_insert_ne.
  - done.
  - done.
  - destruct isStatic; [by apply setStatic_length|done].
  - intros i s Hs. eexists. split_and!.
    + unfold normalise, raw. rewrite !list_lookup_fmap, Hs. simpl. reflexivity.
    + apply normalise_ok.
      assert (Hin : s ∈ samples db) by (by eapply elem_of_list_lookup_2).
      destruct (extremes_found dmax (eval db) (samples db)) as (_ & _ & H).
      * intros Hnil. rewrite Hnil, lookup_nil in Hs. done.
      * done.
      * apply (H _ Hin).
    + destruct isStatic.
      * unfold setStatic. rewrite lookup_zip_with. unfold normalise, raw.
        rewrite !list_lookup_fmap, Hs. simpl. done.
      * rewrite Hs. by destruct s.
Qed.

Lemma addValue_complete name eval isStatic db : values_complete db ->
  exists db', addValue sort voxel dmax name eval isStatic false db = Ok db' /\ values_complete db' /\
    map content (samples db') = map content (samples db) /\
    length (samples db') = length (samples db).
Proof.
  intros Hvc. unfold addValue. destruct (values db !! name) as [l|] eqn:E; [exists db; done|].
  eexists. split; [reflexivity|]. cbn [samples values].
  set (vals := normalise _ _ _).
  assert (Hlen : length vals = length (samples db)) by (unfold vals, normalise; by rewrite !map_length).
  assert (Hls : length (if isStatic then setStatic vals (samples db) else samples db) = length (samples db)).
  { destruct isStatic; [by apply setStatic_length|done]. }
  split_and!; [| |done].
  - intros n l. cbn [samples values]. rewrite Hls. intros [[<- <-]|[Hne H]]%lookup_insert_Some; [done|].
    by apply (Hvc n).
  - destruct isStatic; [|done]. unfold setStatic. clear -Hlen. revert Hlen.
    generalize (samples db) as ss. induction vals as [|v vals IH]; intros [|s ss] H; try done.
    simpl. f_equal. apply IH. simpl in H. lia.
Qed.
Lemma addValues_complete data static : forall db, values_complete db ->
  exists db', addValues sort voxel dmax data static db = Ok db' /\ values_complete db' /\
    map content (samples db') = map content (samples db) /\
    length (samples db') = length (samples db).
Proof.
  induction data as [|[n e] data IH]; intros db Hvc; cbn [addValues]; [exists db; done|].
  destruct (addValue_complete n e (bool_decide (static = n)) db Hvc) as (db1 & -> & H1 & H2 & H3).
  destruct (IH db1 H1) as (db2 & -> & H4 & H5 & H6). exists db2. split_and!; [done|done|congruence|lia].
Qed.
Lemma newDB_ok res generated data static : sorts sort ->
  exists db, newDB sort voxel dmax res generated data static = Ok db /\ voxels_exact voxel db /\
    map content (samples db) ≡ₚ map content generated /\
    (forall i s, samples db !! i = Some s -> sid s = i) /\
    (forall v first count, samplesInVoxels db !! v = Some (first, count) ->
     forall i j s t, first <= i -> i < j -> j < first + count ->
       samples db !! i = Some s -> samples db !! j = Some t -> (sstatic t <= sstatic s)%R).
Proof.
  intros Hs. unfold newDB.
  destruct (addValues_complete data static (mkDB res generated ∅ ∅ ∅)) as (db1 & -> & H1 & H2 & H3).
  { intros n l. simpl. by rewrite lookup_empty. }
  destruct (sortDB_ok sort voxel db1 Hs H1) as (db & -> & Hve & Hl & Hp & Hid & Ho).
  exists db. split_and!; try done. rewrite Hp, H2. done.
Qed.

(** with the default arguments the samples are sorted, but the values are not moved
    with them *)
Definition smp (id : nat) (static : R) : sample R :=
  mkSample id static (mkContent 0 0 [] (0%R, 0%R, 0%R) (0%R, 0%R, INR id) (mkMat 0 0 []) (mkMat 0 0 [])).

Lemma sort_two (s t : sample R) : sorts sort -> (sstatic s < sstatic t)%R -> sort [s; t] = [t; s].
Proof.
  intros Hs Hlt. destruct (Hs [s; t]) as [Hp Ho].
  apply Permutation_sym in Hp. apply Permutation_length_2_inv in Hp as [H|H].
  - exfalso. rewrite H in Ho. specialize (Ho 0 1 s t). simpl in Ho.
    specialize (Ho ltac:(lia) eq_refl eq_refl). lra.
  - done.
Qed.

(** the constructor: sample 0 has the least and sample 1 the greatest evaluation *)
Lemma constructor_mixes : sorts sort -> (1 <= dmax)%R ->
  exists generated eval db l s0,
    newDB sort voxel dmax 1 generated [("e"%string, eval)] "e" = Ok db /\
    values db !! "e"%string = Some l /\ samples db !! 0 = Some s0 /\
    (forall d d' s s', content s = content s' -> eval d s = eval d' s') /\
    (exists lo hi, valueBounds db !! "e"%string = Some (lo, hi) /\ extremes (eval db) (samples db) lo hi /\
       forall v, l !! 0 = Some v -> ~ normalised lo hi (eval db s0) v).
Proof.
  intros Hs Hd.
  set (ev := fun (_ : sampleDB R) (s : sample R) => let '(_, _, z) := effectorPositionInLimbFrame (content s) in z).
  exists [smp 0 0; smp 1 0], ev.
  assert (Hlo : minOf dmax [0%R; 1%R] = 0%R).
  { unfold minOf. simpl. rewrite (Rmin_right dmax 0) by lra. apply Rmin_left. lra. }
  assert (Hhi : maxOf dmax [0%R; 1%R] = 1%R).
  { unfold maxOf. simpl. rewrite (Rmax_right (- dmax) 0) by lra. apply Rmax_right. lra. }
  set (db0 := mkDB 1%R [smp 0 0; smp 1 0] ∅ ∅ ∅ : sampleDB R).
  assert (Hadd : exists sv0 sv1 : R, sv0 = 0%R /\ sv1 = 1%R /\
    addValue sort voxel dmax "e" ev true false db0 =
    Ok (mkDB 1%R [mkSample 0 sv0 (content (smp 0 0)); mkSample 1 sv1 (content (smp 1 0))]
          (<["e"%string := [sv0; sv1]]> ∅) (<["e"%string := (0%R, 1%R)]> ∅) ∅)).
  { exists (if Req_EM_T (1 - 0) 0 then 0%R else ((0 - 0) / (1 - 0))%R),
      (if Req_EM_T (1 - 0) 0 then 0%R else ((1 - 0) / (1 - 0))%R).
    destruct (Req_EM_T (1 - 0) 0) as [H|H]; [lra|]. split_and!; [field; lra|field; lra|].
    unfold addValue. change (values db0) with (∅ : gmap string (list R)). rewrite lookup_empty.
    assert (Hraw : map (ev db0) (samples db0) = [0%R; 1%R]) by reflexivity.
    rewrite Hraw, Hlo, Hhi.
    change (valueBounds db0) with (∅ : gmap string (R * R)). rewrite lookup_empty.
    unfold normalise. cbn [map].
    destruct (Req_EM_T (1 - 0) 0) as [H'|H']; [lra|]. reflexivity. }
  destruct Hadd as (sv0 & sv1 & H0 & H1 & Hadd).
  unfold newDB. cbn [addValues]. fold db0.
  rewrite bool_decide_eq_true_2 by done. rewrite Hadd.
  unfold sortDB. simpl samples. rewrite sort_two; [|done|simpl; lra].
  simpl resolution. simpl values. simpl valueBounds. simpl samplesInVoxels.
  match goal with |- context [alignSampleOrderWithOctree voxel ?d] => set (db1 := d) end.
  assert (Hvc : values_complete db1).
  { intros n l. unfold db1. simpl. intros [[_ <-]|[_ H]]%lookup_insert_Some; [done|].
    by rewrite lookup_empty in H. }
  destruct (align_ok voxel db1 Hvc) as (db & p & Heq & Hre & Hve & Hord).
  destruct Hre as [Rp Rl Rs Rn Rv Rr Rb].
  assert (Hp : p = [0; 1]).
  { simpl in Rp. apply Permutation_sym in Rp. apply Permutation_length_2_inv in Rp as [H|H]; [done|].
    exfalso. subst p.
    destruct (Rs 0 1 eq_refl) as (sa & Ha & Ha'). destruct (Rs 1 0 eq_refl) as (sb & Hb & Hb').
    simpl in Ha, Hb. injection Ha as <-. injection Hb as <-. simpl in Ha', Hb'.
    destruct (ve_covered _ _ Hve _ _ Ha') as (f & c & Hfc & Hr). simpl in Hfc.
    destruct (ve_range _ _ Hve _ _ _ Hfc) as (_ & _ & Hiff).
    pose proof (proj2 (Hiff _ _ Hb') eq_refl) as Hr1.
    pose proof (Hord _ _ _ Hfc 0 1 1 0 ltac:(lia) ltac:(lia) ltac:(lia) eq_refl eq_refl). lia. }
  subst p.
  destruct (Rs 0 0 eq_refl) as (sa & Ha & Ha'). destruct (Rs 1 1 eq_refl) as (sb & Hb & Hb').
  simpl in Ha, Hb. injection Ha as <-. injection Hb as <-. simpl in Ha', Hb'.
  assert (Hve1 : values db1 !! "e"%string = Some [sv0; sv1]) by (unfold db1; simpl; by rewrite lookup_insert).
  destruct (proj2 (Rn "e"%string)) as [l Hl]; [by rewrite Hve1|].
  destruct (Rv _ _ _ Hve1 Hl) as [_ Hlk].
  exists db, l, (mkSample 0 sv1 (content (smp 1 0))). split_and!; try done.
  - intros d d' s s' Hc. unfold ev. by rewrite Hc.
  - exists 0%R, 1%R. split_and!.
    + rewrite Rb. unfold db1. simpl. by rewrite lookup_insert.
    + assert (Hin0 : mkSample 1 sv0 (content (smp 0 0)) ∈ samples db) by (by eapply elem_of_list_lookup_2).
      assert (Hin1 : mkSample 0 sv1 (content (smp 1 0)) ∈ samples db) by (by eapply elem_of_list_lookup_2).
      split_and!; [eexists; split; [exact Hin0|done]|eexists; split; [exact Hin1|done]|].
      intros s Hs0. apply elem_of_list_lookup in Hs0 as [[|[|i]] Hi].
      * rewrite Ha' in Hi. injection Hi as <-. unfold ev. simpl. lra.
      * rewrite Hb' in Hi. injection Hi as <-. unfold ev. simpl. lra.
      * simpl in Rl. apply lookup_lt_Some in Hi. lia.
    + intros v Hv. rewrite (Hlk 0 0 eq_refl) in Hv. simpl in Hv. injection Hv as <-.
      unfold normalised, ev. simpl. intros (H & _ & _). lra.
Qed.
End values.

(** * Candidates *)
Lemma insertReport_perm r l : insertReport r l ≡ₚ r :: l.
Proof.
  induction l as [|x l IH]; simpl; [done|]. destruct (Rltb (rvalue x) (rvalue r)); [done|].
  rewrite IH. apply Permutation_swap.
Qed.

Lemma bdv_cons x l : by_decreasing_value (x :: l) <->
  (forall y, y ∈ l -> (rvalue y <= rvalue x)%R) /\ by_decreasing_value l.
Proof.
  split.
  - intros H. split.
    + intros y Hy. apply elem_of_list_lookup in Hy as [i Hi]. apply (H 0 (S i)); [lia|done|done].
    + intros i j r r' Hlt Hi Hj. apply (H (S i) (S j)); [lia|done|done].
  - intros [H1 H2] i j r r' Hlt Hi Hj. destruct j as [|j]; [lia|]. destruct i as [|i]; simpl in *.
    + injection Hi as <-. apply H1. by eapply elem_of_list_lookup_2.
    + apply (H2 i j); [lia|done|done].
Qed.

Lemma insertReport_sorted r l : by_decreasing_value l -> by_decreasing_value (insertReport r l).
Proof.
  induction l as [|x l IH]; intros Hs; simpl.
  - apply bdv_cons. split; [intros y Hy; inversion Hy|done].
  - apply bdv_cons in Hs as [Hx Hs]. unfold Rltb. destruct (Rlt_dec (rvalue x) (rvalue r)) as [H|H].
    + apply bdv_cons. split; [|by apply bdv_cons].
      intros y [->|Hy]%elem_of_cons; [lra|]. specialize (Hx _ Hy). lra.
    + apply bdv_cons. split; [|by apply IH].
      intros y Hy. rewrite insertReport_perm in Hy. apply elem_of_cons in Hy as [->|Hy]; [lra|by apply Hx].
Qed.

Lemma unit_of_eq a : unit_of a = vnormalize a.
Proof.
  unfold unit_of, vnormalize. destruct (Rlt_dec 0 (vnorm2 a)) as [|H]; [done|].
  assert (Ha : a = vzero). { apply vnorm2_zero. pose proof (vnorm2_nonneg a). lra. }
  subst a. unfold vscale, vzero; simpl. f_equal; ring.
Qed.
Lemma face_normal_eq c : face_normal (tri1 c) (tri2 c) (tri3 c) = triNormal c.
Proof. unfold face_normal, triNormal. apply unit_of_eq. Qed.

Section candidates.
Variable e : option (sample R -> vec3 -> vec3 -> R).
Variable dir : vec3.

Lemma voxelReports_ok ss c i count acc : i + count <= length ss ->
  exists acc', voxelReports ss e dir c i count acc = Ok acc' /\
    acc' ≡ₚ acc ++ omap (fun k => mkReportFor e dir c k <$> ss !! k) (seq i count) /\
    (by_decreasing_value acc -> by_decreasing_value acc').
Proof.
  revert i acc. induction count as [|count IH]; intros i acc Hle; cbn [voxelReports seq omap list_omap].
  - exists acc. rewrite app_nil_r. done.
  - destruct (lookup_lt_is_Some_2 ss i) as [s Hs]; [lia|]. rewrite Hs. simpl.
    destruct (IH (S i) (insertReport (mkReportFor e dir c i s) acc)) as (acc' & H1 & H2 & H3); [lia|].
    exists acc'. split_and!; [done| |].
    + rewrite H2, insertReport_perm. simpl. by rewrite Permutation_middle.
    + intros H. by apply H3, insertReport_sorted.
Qed.

Variable voxel : R * R * R -> Z.

Lemma omap_none {A B} (f : A -> option B) (l : list A) : (forall x, x ∈ l -> f x = None) -> omap f l = [].
Proof.
  induction l as [|x l IH]; intros H; [done|]. cbn [omap list_omap].
  rewrite (H x) by (apply elem_of_cons; by left). apply IH. intros y Hy. apply H. apply elem_of_cons. by right.
Qed.
Lemma omap_ext_in {A B} (f g : A -> option B) (l : list A) : (forall x, x ∈ l -> f x = g x) -> omap f l = omap g l.
Proof.
  intros H. apply list_omap_ext. apply Forall2_same_length_lookup_2; [done|].
  intros i a b Ha Hb. assert (a = b) as -> by congruence. apply H. by eapply elem_of_list_lookup_2.
Qed.

Lemma expected_one db c : voxels_exact voxel db ->
  omap (fun i => match samples db !! i with
     | Some s => if bool_decide (voxel (effectorPosition (content s)) = b1 c)
                 then Some (mkReport i c
                        (match e with Some h => h s (unit_of dir) (face_normal (tri1 c) (tri2 c) (tri3 c)) | None => 0%R end)
                        (face_normal (tri1 c) (tri2 c) (tri3 c)))
                 else None
     | None => None end) (seq 0 (length (samples db)))
  = match samplesInVoxels db !! b1 c with
    | Some (first, count) => omap (fun k => mkReportFor e dir c k <$> samples db !! k) (seq first count)
    | None => [] end.
Proof.
  intros Hve. rewrite face_normal_eq, unit_of_eq. destruct (samplesInVoxels db !! b1 c) as [[first count]|] eqn:Hv.
  - destruct (ve_range _ _ Hve _ _ _ Hv) as (Hpos & Hle & Hiff).
    replace (length (samples db)) with (first + (count + (length (samples db) - (first + count)))) by lia.
    rewrite seq_app, seq_app, !omap_app. simpl.
    assert (Hnone : forall i, i < length (samples db) -> ~ (first <= i < first + count) ->
      match samples db !! i with
     | Some s => if bool_decide (voxel (effectorPosition (content s)) = b1 c)
                 then Some (mkReport i c
                        (match e with Some h => h s (vnormalize dir) (triNormal c) | None => 0%R end)
                        (triNormal c))
                 else None
     | None => None end = None).
    { intros i _ Hi. destruct (samples db !! i) as [s|] eqn:Hs; [|done].
      rewrite bool_decide_eq_false_2; [done|]. intros Hc. by apply Hi, (Hiff _ _ Hs). }
    rewrite (omap_none _ (seq 0 first)).
    2:{ intros i Hi%elem_of_seq. apply Hnone; lia. }
    rewrite (omap_none _ (seq (first + count) _)).
    2:{ intros i Hi%elem_of_seq. apply Hnone; lia. }
    rewrite app_nil_r. simpl. apply omap_ext_in. intros i Hi%elem_of_seq.
    destruct (lookup_lt_is_Some_2 (samples db) i) as [s Hs]; [lia|]. rewrite Hs. simpl.
    rewrite bool_decide_eq_true_2; [done|]. apply (Hiff _ _ Hs). lia.
  - apply omap_none. intros i _. destruct (samples db !! i) as [s|] eqn:Hs; [|done].
    rewrite bool_decide_eq_false_2; [done|]. intros Hc.
    destruct (ve_covered _ _ Hve _ _ Hs) as (f & k & Hf & _). rewrite Hc, Hv in Hf. done.
Qed.

Lemma contactReports_ok db cs acc : voxels_exact voxel db ->
  exists acc', contactReports db e dir cs acc = Ok acc' /\
    acc' ≡ₚ acc ++ expected_reports voxel db e dir cs /\
    (by_decreasing_value acc -> by_decreasing_value acc').
Proof.
  intros Hve. revert acc. induction cs as [|c cs IH]; intros acc; cbn [contactReports].
  - exists acc. unfold expected_reports. simpl. rewrite app_nil_r. done.
  - unfold expected_reports. cbn [mbind list_bind]. rewrite (expected_one db c Hve).
    fold (expected_reports voxel db e dir cs).
    destruct (samplesInVoxels db !! b1 c) as [[first count]|] eqn:Hv.
    + destruct (ve_range _ _ Hve _ _ _ Hv) as (Hpos & Hle & Hiff).
      destruct (voxelReports_ok (samples db) c first count acc Hle) as (acc1 & -> & Hp1 & Hs1).
      destruct (IH acc1) as (acc' & -> & Hp & Hs). exists acc'. split_and!; [done| |auto].
      rewrite Hp, Hp1, <- app_assoc. done.
    + destruct (IH acc) as (acc' & -> & Hp & Hs). exists acc'. split_and!; [done|exact Hp|auto].
Qed.

Theorem GetCandidates_ok db cs acc : voxels_exact voxel db -> by_decreasing_value acc ->
  exists l b, GetCandidates db e dir cs acc = Ok (l, b) /\
    l ≡ₚ acc ++ expected_reports voxel db e dir cs /\ by_decreasing_value l /\
    (b = true <-> l <> []).
Proof.
  intros Hve Hs. destruct (contactReports_ok db cs acc Hve) as (l & Heq & Hp & Hsl).
  unfold GetCandidates. rewrite Heq. eexists l, _. split_and!; [reflexivity|done|auto|by destruct l].
Qed.
End candidates.

(** * Loading *)
Section load.
Context {T : Type}.
Lemma Load_ok (s : scontent T) q : startRank s + slength s <= length q -> length (configuration s) = slength s ->
  exists q', Load s q = Ok q' /\ length q' = length q /\
    forall i, q' !! i = if bool_decide (startRank s <= i < startRank s + slength s)
                        then configuration s !! (i - startRank s) else q !! i.
Proof.
  intros H1 H2. unfold Load.
  rewrite (proj2 (Nat.leb_le _ _) H1), (proj2 (Nat.eqb_eq _ _) H2). simpl.
  eexists. split; [reflexivity|]. split.
  - rewrite !app_length, take_length, drop_length. lia.
  - intros i. case_bool_decide as Hi.
    + rewrite lookup_app_r by (rewrite take_length; lia).
      rewrite take_length, Nat.min_l by lia. rewrite lookup_app_l by lia. done.
    + destruct (decide (i < startRank s)) as [Hlt|Hge].
      * rewrite lookup_app_l by (rewrite take_length; lia). by rewrite lookup_take.
      * rewrite lookup_app_r by (rewrite take_length; lia).
        rewrite take_length, Nat.min_l by lia. rewrite lookup_app_r by lia.
        rewrite lookup_drop. f_equal. lia.
Qed.
Lemma Load_ub (s : scontent T) q :
  (startRank s + slength s > length q \/ length (configuration s) <> slength s) <-> Load s q = Ub.
Proof.
  unfold Load. destruct (startRank s + slength s <=? length q) eqn:E1; simpl.
  - apply Nat.leb_le in E1. destruct (length (configuration s) =? slength s) eqn:E2; simpl.
    + apply Nat.eqb_eq in E2. split; [lia|done].
    + apply Nat.eqb_neq in E2. split; [done|]. intros _. by right.
  - apply Nat.leb_gt in E1. split; [done|]. intros _. left. lia.
Qed.

Lemma Load_twice (s t : scontent T) q q1 : startRank s = startRank t -> slength s = slength t ->
  Load s q = Ok q1 -> Load t q1 = Load t q.
Proof.
  intros Hs Hl H. unfold Load in *.
  destruct ((startRank s + slength s <=? length q) && (length (configuration s) =? slength s)) eqn:E; [|done].
  apply andb_true_iff in E as [E1%Nat.leb_le E2%Nat.eqb_eq]. injection H as <-.
  rewrite !app_length, take_length, drop_length.
  replace (startRank s `min` length q + (length (configuration s) + (length q - (startRank s + slength s))))
    with (length q) by lia.
  rewrite <- Hs, <- Hl. destruct ((startRank s + slength s <=? length q) && (length (configuration t) =? slength s)); [|done].
  f_equal. f_equal.
  - rewrite take_app_le by (rewrite take_length; lia). by rewrite take_take, Nat.min_id.
  - f_equal. rewrite drop_app_ge by (rewrite take_length; lia). rewrite take_length, Nat.min_l by lia.
    rewrite drop_app_ge by lia. replace (startRank s + slength s - startRank s - length (configuration s)) with 0 by lia.
    done.
Qed.

Lemma tryAll_ok (valid : list T -> bool) ss q0 q start len : same_segment start len (length q) ss ->
  exists b q', tryAll valid ss q0 q = Ok (b, q') /\
   ((b = true /\ exists i s, ss !! i = Some s /\ Load (content s) q = Ok q' /\ valid q' = true /\
       forall j t qj, j < i -> ss !! j = Some t -> Load (content t) q = Ok qj -> valid qj = false)
    \/ (b = false /\ q' = q0 /\ forall j t qj, ss !! j = Some t -> Load (content t) q = Ok qj -> valid qj = false)).
Proof.
  revert q. induction ss as [|s ss IH]; intros q [Hn Hss]; cbn [tryAll].
  - exists false, q0. split; [done|]. right. split_and!; done.
  - destruct (Hss s) as (E1 & E2 & E3); [apply elem_of_cons; by left|].
    destruct (Load_ok (content s) q) as (q1 & HL & Hlen & _); [lia|lia|]. rewrite HL.
    destruct (valid q1) eqn:Hv.
    + exists true, q1. split; [done|]. left. split; [done|]. exists 0, s. split_and!; try done.
      intros j t qj Hj. lia.
    + destruct (IH q1) as (b & q' & Heq & Hcase).
      { split; [lia|]. intros t Ht. apply Hss. apply elem_of_cons. by right. }
      exists b, q'. split; [done|].
      assert (Hsame : forall t, t ∈ ss -> Load (content t) q1 = Load (content t) q).
      { intros t Ht. destruct (Hss t) as (F1 & F2 & F3); [apply elem_of_cons; by right|].
        eapply Load_twice; [| |exact HL]; lia. }
      destruct Hcase as [(-> & i & t & Hi & Ht & Hvt & Hbefore)|(-> & -> & Hall)].
      * left. split; [done|]. exists (S i), t. split_and!; try done.
        -- rewrite <- Hsame; [done|]. by eapply elem_of_list_lookup_2.
        -- intros [|j] t' qj Hlt Hj HLj; simpl in Hj; [injection Hj as <-; congruence|].
           eapply (Hbefore j t'); [lia|done|]. rewrite Hsame; [done|]. by eapply elem_of_list_lookup_2.
      * right. split_and!; [done|done|]. intros [|j] t' qj Hj HLj; simpl in Hj; [injection Hj as <-; congruence|].
        eapply (Hall j t'); [done|]. rewrite Hsame; [done|]. by eapply elem_of_list_lookup_2.
Qed.

Lemma setCollisionFree_ok (valid : list T -> bool) ss q start len : same_segment start len (length q) ss ->
  exists b q', setCollisionFree valid ss q = Ok (b, q') /\
   ((valid q = true /\ b = true /\ q' = q)
    \/ (valid q = false /\ b = true /\ exists i s, ss !! i = Some s /\ Load (content s) q = Ok q' /\ valid q' = true /\
       forall j t qj, j < i -> ss !! j = Some t -> Load (content t) q = Ok qj -> valid qj = false)
    \/ (valid q = false /\ b = false /\ q' = q /\
        forall j t qj, ss !! j = Some t -> Load (content t) q = Ok qj -> valid qj = false)) /\
   (forall i, ~ (start <= i < start + len) -> q' !! i = q !! i) /\ length q' = length q.
Proof.
  intros Hseg. unfold setCollisionFree. destruct (valid q) eqn:Hv.
  - exists true, q. split_and!; try done. by left.
  - destruct (tryAll_ok valid ss q q start len Hseg) as (b & q' & Heq & Hcase).
    exists b, q'. split; [done|].
    destruct Hcase as [(-> & i & s & Hi & HL & Hvq & Hb)|(-> & -> & Hall)].
    + destruct Hseg as [Hn Hss]. destruct (Hss s) as (E1 & E2 & E3); [by eapply elem_of_list_lookup_2|].
      destruct (Load_ok (content s) q) as (q1 & HL1 & Hlen & Hlk); [lia|lia|].
      rewrite HL in HL1. injection HL1 as <-. split_and!; [|intros k Hk|done].
      * right; left. split_and!; try done. exists i, s. done.
      * rewrite Hlk, E1, E2. by rewrite bool_decide_eq_false_2.
    + split_and!; [|done|done]. right; right. done.
Qed.
End load.
