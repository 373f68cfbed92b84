(** Concrete cases that meet the hypotheses of the sample database theorems. *)
From Verif Require Import Maps MapsProofs Vec SampModel SampSpec SampProofs SampProofs2 SampProofs3.
From Coq Require Import ZArith Lia Lra Ascii.
Local Open Scope nat_scope.
Local Arguments String.append !_ _ /.

(** three samples, the first and the last of one voxel *)
Definition ex_sample (x id : nat) : sample nat :=
  mkSample id 7 (mkContent 2 1 [10 + id] (x, 0, 0) (x, 0, 0) (mkMat 1 1 [id]) (mkMat 6 6 (replicate 36 id))).
Definition ex_db : sampleDB nat :=
  mkDB 1 [ex_sample 5 0; ex_sample 3 1; ex_sample 5 2] {[ "e"%string := [100; 101; 102] ]} ∅ ∅.
Definition ex_voxel (v : nat * nat * nat) : Z := let '(x, _, _) := v in Z.of_nat x.

Lemma ex_complete : values_complete ex_db.
Proof. intros n l. unfold ex_db. simpl. intros [<- <-]%lookup_singleton_Some. done. Qed.

Lemma ex_align : values_complete ex_db /\ exists db', alignSampleOrderWithOctree ex_voxel ex_db = Ok db' /\
  map configuration (map content (samples db')) = [[11]; [10]; [12]] /\ map sid (samples db') = [0; 1; 2] /\
  values db' !! "e"%string = Some [101; 100; 102] /\
  samplesInVoxels db' !! 3%Z = Some (0, 1) /\ samplesInVoxels db' !! 5%Z = Some (1, 2).
Proof. split; [exact ex_complete|]. eexists. split; [vm_compute; reflexivity|]. split_and!; reflexivity. Qed.

(** the short vector of values: two values for three samples *)
Lemma ex_short : exists (db : sampleDB nat) n l, values db !! n = Some l /\ length l < length (samples db).
Proof.
  exists (mkDB 1 (samples ex_db) {[ "e"%string := [100; 101] ]} ∅ ∅), "e"%string, [100; 101].
  split; [done|simpl; lia].
Qed.

(** merge sort satisfies the contract of std::sort *)
Definition sstatic_ge (s t : sample R) : Prop := (sstatic t <= sstatic s)%R.
Global Instance sstatic_ge_dec : RelDecision sstatic_ge.
Proof. intros s t. unfold sstatic_ge. apply Rle_dec. Defined.
Lemma ex_sorts : sorts (merge_sort sstatic_ge).
Proof.
  intros l. split; [apply merge_sort_Permutation|].
  assert (Htot : Total sstatic_ge).
  { intros s t. unfold sstatic_ge. destruct (Rle_dec (sstatic t) (sstatic s)); [by left|right; lra]. }
  assert (Htr : Transitive sstatic_ge) by (intros a b c; unfold sstatic_ge; lra).
  pose proof (StronglySorted_merge_sort sstatic_ge l) as Hs.
  induction Hs as [|a l' Hs IH HF]; intros i j s t Hlt Hi Hj; [done|].
  destruct j as [|j]; [lia|]. destruct i as [|i]; simpl in Hi, Hj.
  - injection Hi as <-. rewrite Forall_forall in HF. apply HF. by eapply elem_of_list_lookup_2.
  - eapply (IH i j); [lia|done|done].
Qed.

(** a database of two samples of different voxels, and contacts on both *)
Definition r_sample (x : R) (id : nat) : sample R :=
  mkSample id 0%R (mkContent 0 1 [x] (x, 0%R, 0%R) (x, 0%R, 0%R) (mkMat 0 0 []) (mkMat 0 0 [])).
Definition r_voxel (v : R * R * R) : Z := let '(x, _, _) := v in if Rlt_dec x 1 then 3%Z else 8%Z.
Definition r_db : sampleDB R :=
  mkDB 1%R [r_sample 0 0; r_sample 2 1] ∅ ∅ (<[3%Z := (0, 1)]> (<[8%Z := (1, 1)]> ∅)).
Lemma r_exact : voxels_exact r_voxel r_db.
Proof.
  assert (H0 : r_voxel (0%R, 0%R, 0%R) = 3%Z) by (unfold r_voxel; destruct (Rlt_dec 0 1); [done|lra]).
  assert (H2 : r_voxel (2%R, 0%R, 0%R) = 8%Z) by (unfold r_voxel; destruct (Rlt_dec 2 1); [lra|done]).
  constructor; cbn [samples samplesInVoxels r_db].
  - intros [|[|i]] s Hs; simpl in Hs; simplify_eq; unfold r_sample; cbn [content effectorPosition].
    + rewrite H0. exists 0, 1. split; [done|lia].
    + rewrite H2. exists 1, 1. split; [done|lia].
  - intros v f c Hv. rewrite lookup_insert_Some in Hv. destruct Hv as [[<- [= <- <-]]|[Hne Hv]].
    + split_and!; [lia|simpl; lia|]. intros [|[|i]] s Hs; simpl in Hs; simplify_eq; cbn [content effectorPosition r_sample].
      * rewrite H0. split; [done|lia].
      * rewrite H2. split; [lia|done].
    + rewrite lookup_insert_Some in Hv. destruct Hv as [[<- [= <- <-]]|[Hne' Hv]]; [|by rewrite lookup_empty in Hv].
      split_and!; [lia|simpl; lia|]. intros [|[|i]] s Hs; simpl in Hs; simplify_eq; cbn [content effectorPosition r_sample].
      * rewrite H0. split; [lia|done].
      * rewrite H2. split; [done|lia].
Qed.
Lemma ex_candidates : voxels_exact r_voxel r_db /\ by_decreasing_value [] /\
  forall t1 t2 t3, length (expected_reports r_voxel r_db None (V3 0 0 1)
    [mkContact 8 t1 t2 t3; mkContact 3 t1 t2 t3; mkContact 8 t2 t1 t3; mkContact 4 t2 t1 t3]) = 3.
Proof.
  split_and!; [exact r_exact|intros i j r r' _ H; done|].
  assert (H0 : r_voxel (0%R, 0%R, 0%R) = 3%Z) by (unfold r_voxel; destruct (Rlt_dec 0 1); [done|lra]).
  assert (H2 : r_voxel (2%R, 0%R, 0%R) = 8%Z) by (unfold r_voxel; destruct (Rlt_dec 2 1); [lra|done]).
  intros t1 t2 t3. unfold expected_reports, r_db. cbn [samples length seq mbind list_bind omap list_omap].
  cbn [lookup list_lookup r_sample content effectorPosition b1]. rewrite H0, H2. done.
Qed.

(** numbers written in unary, at most five ones *)
Fixpoint ones (n : nat) : string := match n with O => EmptyString | S n' => String "1" (ones n') end.
Fixpoint count1 (s : string) : nat :=
  match s with
  | EmptyString => 0
  | String a s' => if Ascii.eqb a "1" then S (count1 s') else 0
  end.
Definition ex_rnd (n : nat) : nat := Nat.min n 5.
Definition ex_nt : numtext nat :=
  mkNT nat (fun n => ones (S (ex_rnd n))) (fun s => count1 s - 1)
    (fun z => ones (S (Z.to_nat z))) (fun s => Z.of_nat (count1 s) - 1)%Z.

Lemma ones_chars n c : c ∈ String.list_ascii_of_string (ones n) -> c = "1"%char.
Proof. induction n as [|n IH]; simpl; [intros H; inversion H|]. intros [->|H]%elem_of_cons; auto. Qed.
Lemma ones_count n s : count1 s = 0 -> count1 (ones n ++ s) = n.
Proof. intros H. induction n as [|n IH]; [done|]. simpl. by rewrite IH. Qed.
Lemma ones_count' n : count1 (ones n) = n.
Proof. induction n as [|n IH]; [done|]. simpl. by rewrite IH. Qed.
Lemma ones_index p n a : match p with String c _ => c <> "1"%char | _ => False end -> String.index a p (ones n) = None.
Proof.
  destruct p as [|c p]; [done|]. intros Hc.
  assert (Hp : String.prefix (String c p) (ones n) = false).
  { destruct n; [done|]. simpl. destruct (ascii_dec c "1"); [done|done]. }
  revert a Hp. induction n as [|n IH]; intros a Hp.
  - destruct a; done.
  - assert (Hp' : String.prefix (String c p) (ones n) = false).
    { destruct n; [done|]. simpl. destruct (ascii_dec c "1"); [done|done]. }
    cbn [ones] in *. cbn [String.index]. destruct a as [|a]; [|by rewrite (IH a Hp')].
    rewrite Hp. by rewrite (IH 0 Hp').
Qed.
Lemma ex_number_text : number_text ex_nt ex_rnd.
Proof.
  constructor; unfold ex_nt; simpl fmt; simpl StrToD; simpl fmtZ; simpl StrToI.
  - intros x c H. apply (ones_chars (S (ex_rnd x))) in H. subst c. done.
  - done.
  - intros x. unfold contains. change (String "1" (ones (ex_rnd x))) with (ones (S (ex_rnd x))).
    by rewrite (ones_index "sample" (S (ex_rnd x)) 0).
  - intros x. change (String "1" (ones (ex_rnd x))) with (ones (S (ex_rnd x))). rewrite ones_count'. lia.
  - intros x. change (String "1" (ones (ex_rnd x))) with (ones (S (ex_rnd x))). rewrite ones_count by done. lia.
  - intros z Hz c H. apply (ones_chars (S (Z.to_nat z))) in H. subst c. done.
  - done.
  - intros z Hz. change (String "1" (ones (Z.to_nat z))) with (ones (S (Z.to_nat z))). rewrite ones_count'. lia.
Qed.

Lemma ex_storable : number_text ex_nt ex_rnd /\ storable ex_db /\
  (forall n l, values ex_db !! n = Some l -> contains "sample" n = false).
Proof.
  split_and!; [exact ex_number_text| |].
  - split; [simpl; lia|exact ex_complete| |].
    + intros n l. unfold ex_db. simpl. intros [<- <-]%lookup_singleton_Some. simpl. set_solver.
    + intros s Hs. unfold ex_db in Hs. simpl in Hs. repeat (apply elem_of_cons in Hs as [->|Hs]);
        try (by inversion Hs); simpl; split_and!; try lia; intros m [->| ->]; simpl; split_and!; lia.
  - intros n l. unfold ex_db. simpl. intros [<- <-]%lookup_singleton_Some. done.
Qed.

(** one configuration of four joints, samples of joint 2 *)
Lemma ex_segment : same_segment 2 1 (length [0; 1; 2; 3]) (samples ex_db).
Proof.
  split; [simpl; lia|]. intros s Hs. unfold ex_db in Hs. simpl in Hs.
  repeat (apply elem_of_cons in Hs as [->|Hs]); try (by inversion Hs); done.
Qed.
Lemma ex_free : setCollisionFree (fun q => bool_decide (q !! 2 = Some 11)) (samples ex_db) [0; 1; 2; 3]
  = Ok (true, [0; 1; 11; 3]).
Proof. reflexivity. Qed.
Lemma ex_load : Load (content (ex_sample 5 2)) [0; 1; 2; 3] = Ok [0; 1; 12; 3].
Proof. reflexivity. Qed.
