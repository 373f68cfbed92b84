(** Proofs about the reordering of samples by voxel. *)
From Verif Require Import Maps MapsProofs Vec SampModel SampSpec.
From Coq Require Import ZArith Lia.

Section align.
Context {T : Type}.
Variable voxel : T * T * T -> Z.
Notation voxelOf := (voxelOf voxel).

(** indices (from [k] on) of the samples of voxel [v] *)
Fixpoint idx (v : Z) (k : nat) (ss : list (sample T)) : list nat :=
  match ss with
  | [] => []
  | s :: ss' => if bool_decide (voxelOf s = v) then k :: idx v (S k) ss' else idx v (S k) ss'
  end.

Lemma idx_elem v k ss i : i ∈ idx v k ss <-> exists s, ss !! (i - k) = Some s /\ k <= i /\ voxelOf s = v.
Proof.
  revert k. induction ss as [|s ss IH]; intros k; simpl.
  - split; [intros H; inversion H|]. intros (s & Hs & _). by rewrite lookup_nil in Hs.
  - assert (Hrec : i ∈ idx v (S k) ss <-> exists s0, (s :: ss) !! (i - k) = Some s0 /\ k < i /\ voxelOf s0 = v).
    { rewrite IH. split; intros (s0 & H0 & Hk & Hv); exists s0; split_and!; try done; try lia.
      - replace (i - k) with (S (i - S k)) by lia. done.
      - replace (i - k) with (S (i - S k)) in H0 by lia. done. }
    case_bool_decide as Hc.
    + rewrite elem_of_cons, Hrec. split.
      * intros [->|(s0 & H0 & Hk & Hv)].
        -- exists s. rewrite Nat.sub_diag. split_and!; [done|lia|done].
        -- exists s0. split_and!; [done|lia|done].
      * intros (s0 & H0 & Hk & Hv). destruct (decide (i = k)) as [->|Hne]; [by left|].
        right. exists s0. split_and!; [done|lia|done].
    + rewrite Hrec. split; intros (s0 & H0 & Hk & Hv).
      * exists s0. split_and!; [done|lia|done].
      * destruct (decide (i = k)) as [->|Hne].
        { rewrite Nat.sub_diag in H0. simpl in H0. by simplify_eq. }
        exists s0. split_and!; [done|lia|done].
Qed.

Lemma idx_lower v k ss : Forall (fun i => k <= i) (idx v k ss).
Proof. apply Forall_forall. intros i Hi. apply idx_elem in Hi as (s & _ & H & _). lia. Qed.

Lemma idx_sorted v k ss i i' j j' :
  i < i' -> idx v k ss !! i = Some j -> idx v k ss !! i' = Some j' -> j < j'.
Proof.
  revert k i i'. induction ss as [|s ss IH]; intros k i i' Hlt; simpl; [by rewrite lookup_nil|].
  case_bool_decide; [|by apply IH].
  destruct i' as [|i']; [lia|]. destruct i as [|i]; simpl.
  - intros [= <-] Hj'. apply elem_of_list_lookup_2 in Hj'.
    pose proof (idx_lower v (S k) ss) as Hl. rewrite Forall_forall in Hl. specialize (Hl _ Hj'). lia.
  - apply IH. lia.
Qed.

Lemma idx_nodup v k ss : NoDup (idx v k ss).
Proof.
  apply NoDup_alt. intros i i' x H1 H2.
  destruct (lt_eq_lt_dec i i') as [[H|H]|H]; [|done|].
  - pose proof (idx_sorted _ _ _ _ _ _ _ H H1 H2). lia.
  - pose proof (idx_sorted _ _ _ _ _ _ _ H H2 H1). lia.
Qed.

Lemma per_lookup ss k res v :
  getSamplesPerVoxel_from voxel k ss res !! v =
  match idx v k ss with
  | [] => res !! v
  | l => Some (default [] (res !! v) ++ l)
  end.
Proof.
  revert k res. induction ss as [|s ss IH]; intros k res; simpl; [done|].
  rewrite IH. case_bool_decide as Hc.
  - subst v. destruct (res !! voxelOf s) as [l|] eqn:Hr; rewrite lookup_insert; simpl;
      destruct (idx (voxelOf s) (S k) ss); simpl; rewrite <- ?app_assoc; done.
  - assert (Hrw : (match res !! voxelOf s with
       | Some l => <[voxelOf s := l ++ [k]]> res | None => <[voxelOf s := [k]]> res end) !! v = res !! v).
    { destruct (res !! voxelOf s); by rewrite lookup_insert_ne. }
    by rewrite Hrw.
Qed.

Lemma per_total ss v : getSamplesPerVoxel voxel ss !! v =
  match idx v 0 ss with [] => None | l => Some l end.
Proof. unfold getSamplesPerVoxel. rewrite per_lookup, lookup_empty. by destruct (idx v 0 ss). Qed.

Lemma per_default ss v : default [] (getSamplesPerVoxel voxel ss !! v) = idx v 0 ss.
Proof. rewrite per_total. by destruct (idx v 0 ss). Qed.

Lemma zkeys_elem {V} (m : gmap Z V) v : v ∈ zkeys m <-> is_Some (m !! v).
Proof.
  unfold zkeys. rewrite merge_sort_Permutation, elem_of_list_fmap. split.
  - intros ([v' x] & -> & H). apply elem_of_map_to_list in H. by exists x.
  - intros [x H]. exists (v, x). split; [done|]. by apply elem_of_map_to_list.
Qed.
Lemma zkeys_nodup {V} (m : gmap Z V) : NoDup (zkeys m).
Proof. unfold zkeys. rewrite merge_sort_Permutation. apply NoDup_fst_map_to_list. Qed.

Lemma elem_of_concat {A} (x : A) ls : x ∈ concat ls <-> exists l, x ∈ l /\ l ∈ ls.
Proof.
  induction ls as [|l ls IH]; simpl.
  - split; [intros H; inversion H|]. intros (l & _ & H). inversion H.
  - rewrite elem_of_app, IH. split.
    + intros [H|(l' & H & H')]; [exists l|exists l']; split; try done; apply elem_of_cons; auto.
    + intros (l' & H & [->|H']%elem_of_cons); [by left|right; eauto].
Qed.

(** what has been built so far *)
Definition built (ss out : list (sample T)) (order : list nat) : Prop :=
  length out = length order /\
  forall k i, order !! k = Some i ->
    exists s, ss !! i = Some s /\ out !! k = Some (mkSample k (sstatic s) (content s)).

Lemma built_snoc ss out order i s : built ss out order -> ss !! i = Some s ->
  built ss (out ++ [mkSample (length out) (sstatic s) (content s)]) (order ++ [i]).
Proof.
  intros [Hl Hb] Hs. split; [rewrite !app_length; simpl; lia|].
  intros k j Hk. apply lookup_app_Some in Hk as [Hk|[Hge Hk]].
  - destruct (Hb _ _ Hk) as (s' & H1 & H2). exists s'. split; [done|]. by apply lookup_app_l_Some.
  - apply list_lookup_singleton_Some in Hk as [Hk0 ->]. exists s. split; [done|].
    assert (k = length out) as -> by lia. by rewrite list_lookup_middle.
Qed.

Lemma alignVoxel_ok ss ids out order :
  built ss out order -> Forall (fun i => i < length ss) ids ->
  exists out', alignVoxel ss ids (length order) out order
     = Ok (out', order ++ ids, length (order ++ ids)) /\ built ss out' (order ++ ids).
Proof.
  revert out order. induction ids as [|i ids IH]; intros out order Hb Hin.
  - exists out. rewrite app_nil_r. done.
  - inversion_clear Hin as [|? ? Hi Hin']. apply lookup_lt_is_Some in Hi as [s Hs].
    cbn [alignVoxel]. rewrite Hs.
    pose proof (built_snoc _ _ _ _ _ Hb Hs) as Hb'.
    destruct Hb as [Hl _].
    rewrite Hl in Hb'.
    destruct (IH _ _ Hb' Hin') as (out' & Heq & Hb'').
    rewrite app_length in Heq. simpl in Heq. rewrite Nat.add_1_r, <- app_assoc in Heq. simpl in Heq.
    exists out'. rewrite <- app_assoc in Hb''. done.
Qed.

Lemma alignVoxels_ok ss vs out order vox :
  built ss out order -> NoDup vs -> (forall v, v ∈ vs -> vox !! v = None) ->
  exists out' vox',
    alignVoxels ss (getSamplesPerVoxel voxel ss) vs (length order) out order vox
      = Ok (out', order ++ concat (map (fun v => idx v 0 ss) vs), vox') /\
    built ss out' (order ++ concat (map (fun v => idx v 0 ss) vs)) /\
    (forall v, v ∉ vs -> vox' !! v = vox !! v) /\
    (forall v, v ∈ vs -> exists pre post,
       order ++ concat (map (fun v => idx v 0 ss) vs) = pre ++ idx v 0 ss ++ post /\
       vox' !! v = Some (length pre, length (idx v 0 ss))).
Proof.
  revert out order vox. induction vs as [|v vs IH]; intros out order vox Hb Hnd Hvox.
  - exists out, vox. simpl. rewrite app_nil_r. split_and!; try done. intros v Hv. inversion Hv.
  - inversion_clear Hnd as [|? ? Hv Hnd']. cbn [alignVoxels map concat].
    rewrite per_default.
    destruct (alignVoxel_ok ss (idx v 0 ss) out order Hb) as (out1 & Heq & Hb1).
    { apply Forall_forall. intros i Hi. apply idx_elem in Hi as (s & Hs & _ & _).
      rewrite Nat.sub_0_r in Hs. by eapply lookup_lt_Some. }
    rewrite Heq. rewrite Hvox by (apply elem_of_cons; by left).
    destruct (IH out1 (order ++ idx v 0 ss)
      (<[v := (length order, length (order ++ idx v 0 ss) - length order)]> vox) Hb1 Hnd')
      as (out' & vox' & Heq' & Hb' & Hother & Hin).
    { intros v' Hv'. rewrite lookup_insert_ne by set_solver. apply Hvox. set_solver. }
    rewrite <- app_assoc in Heq', Hb'.
    exists out', vox'. split_and!; [done|done| |].
    + intros v' Hv'. rewrite Hother by set_solver. apply lookup_insert_ne. set_solver.
    + intros v' [->|Hv']%elem_of_cons.
      * exists order, (concat (map (fun v => idx v 0 ss) vs)). split; [done|].
        rewrite Hother by done. rewrite lookup_insert. do 2 f_equal. rewrite app_length. lia.
      * destruct (Hin _ Hv') as (pre & post & H1 & H2). exists pre, post.
        split; [|done]. rewrite <- H1, <- app_assoc. done.
Qed.

(** the new order *)
Definition newOrder (ss : list (sample T)) : list nat :=
  concat (map (fun v => idx v 0 ss) (zkeys (getSamplesPerVoxel voxel ss))).

Lemma newOrder_perm ss : newOrder ss ≡ₚ seq 0 (length ss).
Proof.
  apply NoDup_Permutation.
  - unfold newOrder. pose proof (zkeys_nodup (getSamplesPerVoxel voxel ss)) as Hnd.
    induction (zkeys (getSamplesPerVoxel voxel ss)) as [|v vs IH]; simpl; [constructor|].
    inversion_clear Hnd as [|? ? Hv Hnd'].
    apply NoDup_app. split_and!; [apply idx_nodup| |by apply IH].
    intros i Hi Hc. apply elem_of_concat in Hc as (l & Hil & Hl).
    apply elem_of_list_fmap in Hl as (v' & -> & Hv').
    apply idx_elem in Hi as (s & Hs & _ & Hsv). apply idx_elem in Hil as (s' & Hs' & _ & Hsv').
    simplify_eq. done.
  - apply NoDup_seq.
  - intros i. rewrite elem_of_seq. unfold newOrder. rewrite elem_of_concat. split.
    + intros (l & Hil & Hl). apply elem_of_list_fmap in Hl as (v' & -> & Hv').
      apply idx_elem in Hil as (s' & Hs' & _ & Hsv'). rewrite Nat.sub_0_r in Hs'.
      apply lookup_lt_Some in Hs'. lia.
    + intros [_ Hi]. simpl in Hi. apply lookup_lt_is_Some in Hi as [s Hs].
      exists (idx (voxelOf s) 0 ss).
      assert (Hin : i ∈ idx (voxelOf s) 0 ss).
      { apply idx_elem. exists s. rewrite Nat.sub_0_r. split_and!; [done|lia|done]. }
      split; [done|]. apply elem_of_list_fmap. exists (voxelOf s). split; [done|].
      apply zkeys_elem. rewrite per_total. destruct (idx (voxelOf s) 0 ss); [inversion Hin|eauto].
Qed.

Lemma permuted_spec (l : list T) order :
  (Forall (fun i => i < length l) order -> exists r, permuted l order = Some r) /\
  forall r, permuted l order = Some r ->
    Forall (fun i => i < length l) order /\ length r = length order /\
    forall i j, order !! i = Some j -> r !! i = l !! j.
Proof.
  induction order as [|k order [IH1 IH2]]; simpl.
  - split; [eauto|]. intros r [= <-]. split_and!; try done.
  - split.
    + intros HF. inversion_clear HF as [|? ? Hk HF']. apply lookup_lt_is_Some in Hk as [x Hx].
      rewrite Hx. destruct (IH1 HF') as [r ->]. eauto.
    + intros r Hr. destruct (l !! k) as [x|] eqn:Hx; [|done].
      destruct (permuted l order) as [r'|] eqn:Hr'; [|done]. simplify_eq.
      destruct (IH2 _ eq_refl) as (HF & Hlen & Hlk). split_and!.
      * constructor; [by eapply lookup_lt_Some|done].
      * simpl. lia.
      * intros [|i] j Hi; simpl in *; [by simplify_eq|]. by apply Hlk.
Qed.

Lemma permutedAll_spec (vals : list (string * list T)) order :
  (Forall (fun nl => Forall (fun i => i < length nl.2) order) vals -> exists m, permutedAll vals order = Some m) /\
  (NoDup vals.*1 -> forall m, permutedAll vals order = Some m ->
    (forall n, is_Some (m !! n) <-> n ∈ vals.*1) /\
    forall n l, (n, l) ∈ vals -> exists l', permuted l order = Some l' /\ m !! n = Some l').
Proof.
  induction vals as [|[n l] vals [IH1 IH2]]; simpl.
  - split; [eauto|]. intros _ m [= <-]. split.
    + intros n. rewrite lookup_empty. split; [by intros [? ?]|intros H; inversion H].
    + intros n l H; inversion H.
  - split.
    + intros HF. inversion_clear HF as [|? ? Hk HF']. simpl in Hk.
      destruct (proj1 (permuted_spec l order) Hk) as [r ->].
      destruct (IH1 HF') as [m ->]. eauto.
    + intros Hnd m Hm. inversion_clear Hnd as [|? ? Hn Hnd'].
      destruct (permuted l order) as [r|] eqn:Hr; [|done].
      destruct (permutedAll vals order) as [m'|] eqn:Hm'; [|done]. simplify_eq.
      destruct (IH2 Hnd' _ eq_refl) as [Hdom Hval]. split.
      * intros n'. rewrite elem_of_cons. destruct (decide (n' = n)) as [->|Hne].
        -- rewrite lookup_insert. split; [by left|eauto].
        -- rewrite lookup_insert_ne by done. rewrite Hdom. intuition.
      * intros n' l' [Heq|Hin]%elem_of_cons.
        -- simplify_eq. exists r. split; [done|]. by rewrite lookup_insert.
        -- destruct (Hval _ _ Hin) as (r' & H1 & H2). exists r'. split; [done|].
           rewrite lookup_insert_ne; [done|]. intros ->. apply Hn.
           apply elem_of_list_fmap. exists (n', l'). done.
Qed.

Lemma sitems_elem {V} (m : gmap string V) n l : (n, l) ∈ sitems m <-> m !! n = Some l.
Proof.
  unfold sitems. rewrite elem_of_list_omap. split.
  - intros (k & _ & H). destruct (m !! k) eqn:E; by simplify_eq.
  - intros H. exists n. split; [|by rewrite H]. unfold skeys. rewrite merge_sort_Permutation.
    apply elem_of_list_fmap. exists (n, l). split; [done|]. by apply elem_of_map_to_list.
Qed.
Lemma sitems_nodup {V} (m : gmap string V) : NoDup (sitems m).*1.
Proof.
  unfold sitems. assert (Hnd : NoDup (skeys m)).
  { unfold skeys. rewrite merge_sort_Permutation. apply NoDup_fst_map_to_list. }
  induction (skeys m) as [|k ks IH]; simpl; [constructor|].
  inversion_clear Hnd as [|? ? Hk Hnd']. destruct (m !! k) eqn:E; simpl; [|by apply IH].
  constructor; [|by apply IH]. intros Hc. apply elem_of_list_fmap in Hc as ([k' x] & Hk' & Hin).
  simpl in Hk'. subst k'. apply elem_of_list_omap in Hin as (k'' & Hin & Heq).
  destruct (m !! k''); by simplify_eq.
Qed.

Lemma align_run db :
  exists out vox,
    alignVoxels (samples db) (getSamplesPerVoxel voxel (samples db))
      (zkeys (getSamplesPerVoxel voxel (samples db))) 0 [] [] ∅ = Ok (out, newOrder (samples db), vox) /\
    built (samples db) out (newOrder (samples db)) /\
    (forall v, vox !! v = None <-> idx v 0 (samples db) = []) /\
    (forall v f c, vox !! v = Some (f, c) -> exists pre post,
       newOrder (samples db) = pre ++ idx v 0 (samples db) ++ post /\
       f = length pre /\ c = length (idx v 0 (samples db)) /\ idx v 0 (samples db) <> []).
Proof.
  destruct (alignVoxels_ok (samples db) (zkeys (getSamplesPerVoxel voxel (samples db))) [] [] ∅)
    as (out & vox & Heq & Hb & Hout & Hin).
  { split; [done|]. intros k i. by rewrite lookup_nil. }
  { apply zkeys_nodup. }
  { intros v _. apply lookup_empty. }
  simpl in Heq, Hb, Hin.
  assert (Hk : forall v, v ∈ zkeys (getSamplesPerVoxel voxel (samples db)) <-> idx v 0 (samples db) <> []).
  { intros v. rewrite zkeys_elem, per_total. destruct (idx v 0 (samples db)); split; try done; eauto.
    by intros [? ?]. }
  exists out, vox. split_and!; [done|done| |].
  - intros v. split.
    + intros Hn. destruct (idx v 0 (samples db)) eqn:E; [done|].
      destruct (Hin v) as (pre & post & _ & Hv); [apply Hk; by rewrite E|]. by rewrite Hn in Hv.
    + intros E. rewrite Hout; [apply lookup_empty|]. intros Hc%Hk. done.
  - intros v f c Hv. destruct (decide (v ∈ zkeys (getSamplesPerVoxel voxel (samples db)))) as [Hz|Hz].
    + destruct (Hin v Hz) as (pre & post & H1 & H2). rewrite Hv in H2. simplify_eq.
      exists pre, post. split_and!; try done. by apply Hk.
    + rewrite Hout in Hv by done. by rewrite lookup_empty in Hv.
Qed.

Theorem align_ok db : values_complete db ->
  exists db' p, alignSampleOrderWithOctree voxel db = Ok db' /\
    rearranged p db db' /\ voxels_exact voxel db' /\ order_kept p db'.
Proof.
  intros Hvc. destruct (align_run db) as (out & vox & Heq & [Hlen Hb] & Hnone & Hsome).
  pose proof (newOrder_perm (samples db)) as Hperm.
  set (p := newOrder (samples db)) in *; clearbody p.
  assert (Hplen : length p = length (samples db)).
  { rewrite Hperm. apply seq_length. }
  assert (Hpall : Forall (fun i => i < length (samples db)) p).
  { apply Forall_forall. intros i Hi. rewrite Hperm in Hi. apply elem_of_seq in Hi. lia. }
  assert (Hpnd : NoDup p) by (rewrite Hperm; apply NoDup_seq).
  destruct (permutedAll_spec (sitems (values db)) p) as [Hex Hspec].
  destruct Hex as [m Hm].
  { apply Forall_forall. intros [n l] Hin. simpl. apply sitems_elem in Hin.
    by rewrite (Hvc _ _ Hin). }
  destruct (Hspec (sitems_nodup _) _ Hm) as [Hdom Hval].
  exists (mkDB (resolution db) out m (valueBounds db) vox), p.
  split_and!.
  - unfold alignSampleOrderWithOctree. rewrite Heq, Hm. done.
  - constructor; simpl; try done.
    + lia.
    + intros n. rewrite Hdom. rewrite elem_of_list_fmap. split.
      * intros ([n' l] & -> & Hin). apply sitems_elem in Hin. eauto.
      * intros [l Hl]. exists (n, l). split; [done|]. by apply sitems_elem.
    + intros n l l' Hl Hl'. destruct (Hval n l) as (r & Hr & Hmr); [by apply sitems_elem|].
      assert (r = l') as -> by congruence.
      destruct (proj2 (permuted_spec l p) _ Hr) as (_ & Hlr & Hlk). split; [lia|done].
  - constructor; simpl.
    + intros i s Hs. assert (Hi : i < length p) by (apply lookup_lt_Some in Hs; lia).
      apply lookup_lt_is_Some in Hi as [j Hj].
      destruct (Hb _ _ Hj) as (s' & Hs' & Ho). rewrite Hs in Ho. injection Ho as Ho. subst s. simpl.
      fold (voxelOf s').
      assert (Hji : j ∈ idx (voxelOf s') 0 (samples db)).
      { apply idx_elem. exists s'. rewrite Nat.sub_0_r. split_and!; [done|lia|done]. }
      destruct (vox !! voxelOf s') as [[f c]|] eqn:Ev.
      * exists f, c. split; [done|]. destruct (Hsome _ _ _ Ev) as (pre & post & Hp & -> & -> & _).
        apply elem_of_list_lookup in Hji as [k Hk].
        assert (Hik : p !! (length pre + k) = Some j).
        { rewrite Hp. rewrite lookup_app_r by lia.
          replace (length pre + k - length pre) with k by lia.
          apply lookup_app_l_Some. done. }
        assert (i = length pre + k) as -> by (eapply NoDup_lookup; eauto).
        apply lookup_lt_Some in Hk. lia.
      * apply Hnone in Ev. rewrite Ev in Hji. inversion Hji.
    + intros v f c Hv. destruct (Hsome _ _ _ Hv) as (pre & post & Hp & -> & -> & Hne).
      assert (Hle : length pre + length (idx v 0 (samples db)) <= length p).
      { rewrite Hp, !app_length. lia. }
      split_and!; [destruct (idx v 0 (samples db)); simpl; [done|lia]|lia|].
      intros i s Hs. assert (Hi : i < length p) by (apply lookup_lt_Some in Hs; lia).
      apply lookup_lt_is_Some in Hi as [j Hj].
      destruct (Hb _ _ Hj) as (s' & Hs' & Ho). rewrite Hs in Ho. injection Ho as Ho. subst s. simpl.
      fold (voxelOf s').
      transitivity (j ∈ idx v 0 (samples db)).
      * split.
        -- intros [H1 H2]. rewrite Hp in Hj. rewrite lookup_app_r in Hj by lia.
           rewrite lookup_app_l in Hj by lia. by eapply elem_of_list_lookup_2.
        -- intros Hin. apply elem_of_list_lookup in Hin as [k Hk].
           assert (Hik : p !! (length pre + k) = Some j).
           { rewrite Hp. rewrite lookup_app_r by lia.
             replace (length pre + k - length pre) with k by lia.
             apply lookup_app_l_Some. done. }
           assert (i = length pre + k) as -> by (eapply NoDup_lookup; eauto).
           apply lookup_lt_Some in Hk. lia.
      * rewrite idx_elem, Nat.sub_0_r. split.
        -- intros (s0 & Hs0 & _ & Hv0). by simplify_eq.
        -- intros Hv0. exists s'. split_and!; [done|lia|done].
  - intros v f c Hv i i' j j' H1 H2 H3 Hj Hj'. simpl in Hv.
    destruct (Hsome _ _ _ Hv) as (pre & post & Hp & -> & -> & Hne).
    rewrite Hp in Hj, Hj'. rewrite lookup_app_r in Hj by lia. rewrite lookup_app_r in Hj' by lia.
    rewrite lookup_app_l in Hj by lia. rewrite lookup_app_l in Hj' by lia.
    eapply idx_sorted; [|exact Hj|exact Hj']. lia.
Qed.

(** a vector of values shorter than the samples is read past its end *)
Theorem align_short db n l : values db !! n = Some l -> length l < length (samples db) ->
  alignSampleOrderWithOctree voxel db = Ub.
Proof.
  intros Hl Hlt. destruct (align_run db) as (out & vox & Heq & _ & _ & _).
  unfold alignSampleOrderWithOctree. rewrite Heq.
  destruct (permutedAll (sitems (values db)) (newOrder (samples db))) as [m|] eqn:Hm; [|done].
  destruct (permutedAll_spec (sitems (values db)) (newOrder (samples db))) as [_ Hspec].
  destruct (Hspec (sitems_nodup _) _ Hm) as [_ Hval].
  destruct (Hval n l) as (r & Hr & _); [by apply sitems_elem|].
  destruct (proj2 (permuted_spec l _) _ Hr) as (HF & _ & _).
  rewrite Forall_forall in HF. exfalso.
  assert (Hin : length l ∈ newOrder (samples db)).
  { rewrite newOrder_perm. apply elem_of_seq. lia. }
  specialize (HF _ Hin). lia.
Qed.
End align.
