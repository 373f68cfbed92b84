(** Properties C28-C33: the sample database. *)
From Verif Require Import Maps MapsProofs Vec SampModel SampSpec SampProofs SampProofs2 SampProofs3 SampProofs4 SampExamples.
Local Open Scope nat_scope.

(** C28: realignment.  The new database is a rearrangement of the old one, its ranges are
    exactly the voxels, and the order within a voxel is kept *)
Theorem C28_realigned {T} (voxel : T * T * T -> Z) (db : sampleDB T) : values_complete db ->
  exists db' p, alignSampleOrderWithOctree voxel db = Ok db' /\
    rearranged p db db' /\ voxels_exact voxel db' /\ order_kept p db'.
Proof. exact (align_ok voxel db). Qed.
Print Assumptions C28_realigned.
(** every database the constructor makes *)
Theorem C28_constructed (sort : list (sample R) -> list (sample R)) voxel dmax res generated data static :
  sorts sort ->
  exists db, newDB sort voxel dmax res generated data static = Ok db /\ voxels_exact voxel db /\
    map content (samples db) ≡ₚ map content generated /\
    (forall i s, samples db !! i = Some s -> sid s = i) /\
    (forall v first count, samplesInVoxels db !! v = Some (first, count) ->
     forall i j s t, first <= i -> i < j -> j < first + count ->
       samples db !! i = Some s -> samples db !! j = Some t -> (sstatic t <= sstatic s)%R).
Proof. exact (newDB_ok sort voxel dmax res generated data static). Qed.
Print Assumptions C28_constructed.
Theorem C28_resorted (sort : list (sample R) -> list (sample R)) voxel db :
  sorts sort -> values_complete db ->
  exists db', sortDB sort voxel db = Ok db' /\ voxels_exact voxel db' /\
    length (samples db') = length (samples db) /\
    map content (samples db') ≡ₚ map content (samples db) /\
    (forall i s, samples db' !! i = Some s -> sid s = i) /\
    (forall v first count, samplesInVoxels db' !! v = Some (first, count) ->
     forall i j s t, first <= i -> i < j -> j < first + count ->
       samples db' !! i = Some s -> samples db' !! j = Some t -> (sstatic t <= sstatic s)%R).
Proof. exact (sortDB_ok sort voxel db). Qed.
Print Assumptions C28_resorted.
Theorem C28_short_values_undefined {T} (voxel : T * T * T -> Z) (db : sampleDB T) n l :
  values db !! n = Some l -> length l < length (samples db) ->
  alignSampleOrderWithOctree voxel db = Ub.
Proof. exact (align_short voxel db n l). Qed.
Print Assumptions C28_short_values_undefined.
Example C28_example : values_complete ex_db /\ exists db', alignSampleOrderWithOctree ex_voxel ex_db = Ok db' /\
  map configuration (map content (samples db')) = [[11]; [10]; [12]] /\ map sid (samples db') = [0; 1; 2] /\
  values db' !! "e"%string = Some [101; 100; 102] /\
  samplesInVoxels db' !! 3%Z = Some (0, 1) /\ samplesInVoxels db' !! 5%Z = Some (1, 2).
Proof. exact ex_align. Qed.
Example C28_example_sort : sorts (merge_sort sstatic_ge).
Proof. exact ex_sorts. Qed.

(** C29: adding a value without sorting attaches it, realignment moves the values along
    ([C28_realigned]), sorting moves the samples only *)
Theorem C29_existing_name sort voxel dmax name eval isStatic sorted (db : sampleDB R) :
  is_Some (values db !! name) -> addValue sort voxel dmax name eval isStatic sorted db = Ok db.
Proof. exact (addValue_existing sort voxel dmax name eval isStatic sorted db). Qed.
Print Assumptions C29_existing_name.
Theorem C29_unsorted sort voxel dmax name eval isStatic (db : sampleDB R) :
  values db !! name = None ->
  (forall s, s ∈ samples db -> (- dmax <= eval db s <= dmax)%R) ->
  exists db' l lo hi, addValue sort voxel dmax name eval isStatic false db = Ok db' /\
    values db' !! name = Some l /\ length l = length (samples db) /\
    (samples db <> [] -> extremes (eval db) (samples db) lo hi) /\
    (valueBounds db !! name = None -> valueBounds db' !! name = Some (lo, hi)) /\
    (forall n, n <> name -> values db' !! n = values db !! n /\ valueBounds db' !! n = valueBounds db !! n) /\
    samplesInVoxels db' = samplesInVoxels db /\ resolution db' = resolution db /\
    length (samples db') = length (samples db) /\
    (forall i s, samples db !! i = Some s -> exists v, l !! i = Some v /\ normalised lo hi (eval db s) v /\
       samples db' !! i = Some (mkSample (sid s) (if isStatic then v else sstatic s) (content s))).
Proof. exact (addValue_unsorted sort voxel dmax name eval isStatic db). Qed.
Print Assumptions C29_unsorted.
Theorem C29_sort_moves_samples_only (sort : list (sample R) -> list (sample R)) voxel (db : sampleDB R) :
  sorts sort -> values_complete db ->
  exists db' p, sortDB sort voxel db = Ok db' /\ rearranged p (with_samples (sort (samples db)) db) db'.
Proof. exact (sortDB_moves sort voxel db). Qed.
Print Assumptions C29_sort_moves_samples_only.
(** the static value is stored in the sample: it remains the sample's own *)
Theorem C29_static_value_kept (sort : list (sample R) -> list (sample R)) voxel dmax res (generated : list (sample R)) data static (f : scontent R -> R) : sorts sort ->
  NoDup data.*1 -> (static, fun _ s => f (content s)) ∈ data ->
  (forall s, s ∈ generated -> (- dmax <= f (content s) <= dmax)%R) ->
  exists db lo hi, newDB sort voxel dmax res generated data static = Ok db /\ (generated <> [] -> extremes (fun s => f (content s)) (samples db) lo hi /\
       valueBounds db !! static = Some (lo, hi)) /\ forall s, s ∈ samples db -> normalised lo hi (f (content s)) (sstatic s).
Proof. exact (newDB_statics sort voxel dmax res generated data static f). Qed.
Print Assumptions C29_static_value_kept.
(** the constructor sorts the samples but not the values: the value stored for sample 0 is
    not its normalised evaluation *)
Theorem C29_constructor_detaches sort voxel dmax : sorts sort -> (1 <= dmax)%R ->
  exists generated eval db l s0,
    newDB sort voxel dmax 1 generated [("e"%string, eval)] "e" = Ok db /\
    values db !! "e"%string = Some l /\ samples db !! 0 = Some s0 /\
    (forall d d' s s', content s = content s' -> eval d s = eval d' s') /\
    (exists lo hi, valueBounds db !! "e"%string = Some (lo, hi) /\ extremes (eval db) (samples db) lo hi /\
       forall v, l !! 0 = Some v -> ~ normalised lo hi (eval db s0) v).
Proof. exact (constructor_mixes sort voxel dmax). Qed.
Print Assumptions C29_constructor_detaches.
Example C29_example : values r_db !! "e"%string = None /\
  forall s, s ∈ samples r_db -> (- 2 <= (fun (_ : sampleDB R) s => hd 0 (configuration (content s))) r_db s <= 2)%R.
Proof.
  split; [done|]. intros s Hs. unfold r_db in Hs. simpl in Hs.
  repeat (apply elem_of_cons in Hs as [->|Hs]); try (by inversion Hs); simpl; lra.
Qed.

(** C30 *)
Theorem C30_candidates e dir voxel (db : sampleDB R) (cs : list contact) (found : list report) :
  voxels_exact voxel db -> by_decreasing_value found ->
  exists l b, GetCandidates db e dir cs found = Ok (l, b) /\
    l ≡ₚ found ++ expected_reports voxel db e dir cs /\ by_decreasing_value l /\
    (b = true <-> l <> []).
Proof. exact (GetCandidates_ok e dir voxel db cs found). Qed.
Print Assumptions C30_candidates.
Example C30_example : voxels_exact r_voxel r_db /\ by_decreasing_value [] /\
  forall t1 t2 t3, length (expected_reports r_voxel r_db None (V3 0 0 1)
    [mkContact 8 t1 t2 t3; mkContact 3 t1 t2 t3; mkContact 8 t2 t1 t3; mkContact 4 t2 t1 t3]) = 3.
Proof. exact ex_candidates. Qed.

(** C31: what is read is a rearrangement of what was saved, numbers rounded to the digits
    written and the bounds of the values missing *)
Theorem C31_round_trip {T} (nt : numtext T) (rnd : T -> T) (voxel : T * T * T -> Z) (loadValues : bool)
  (db : sampleDB T) :
  number_text nt rnd -> storable db ->
  (loadValues = false -> forall n l, values db !! n = Some l -> contains "sample" n = false) ->
  exists db' p, loadDB nt voxel loadValues (saveLimbDatabase nt db) = Ok db' /\
    rearranged p (rounded rnd loadValues db) db' /\ voxels_exact voxel db'.
Proof. intros Hnt. exact (load_save_full nt rnd Hnt voxel loadValues db). Qed.
Print Assumptions C31_round_trip.
(** two numbers written alike: the file does not determine the configurations *)
Theorem C31_digits_lost {T} (nt : numtext T) (x y : T) : fmt nt x = fmt nt y -> x <> y ->
  exists db1 db2 s1 s2, storable db1 /\ storable db2 /\
    saveLimbDatabase nt db1 = saveLimbDatabase nt db2 /\
    samples db1 = [s1] /\ samples db2 = [s2] /\ configuration (content s1) <> configuration (content s2).
Proof. exact (lossy nt x y). Qed.
Print Assumptions C31_digits_lost.
(** reading ends on every text ([Throw] is running out of turns) *)
Theorem C31_reading_ends {T} (nt : numtext T) voxel loadValues text : loadDB nt voxel loadValues text <> Throw.
Proof. exact (loadDB_ends nt voxel loadValues text). Qed.
Print Assumptions C31_reading_ends.
(** the fields of a line: the pieces between separators, the empty ones dropped, a final
    separator kept in the last field; every non-empty line is of this form *)
Theorem C31_fields (ps : list string) (w q : string) :
  Forall (fun p => semi ∉ String.list_ascii_of_string p) ps -> semi ∉ String.list_ascii_of_string w ->
  (q = w /\ w <> EmptyString) \/ q = (w ++ semis)%string ->
  splitString (foldr (fun p s => p ++ semis ++ s)%string q ps) = filter (fun p => p <> EmptyString) ps ++ [q].
Proof. exact (split_fields ps w q). Qed.
Print Assumptions C31_fields.
Theorem C31_fields_exist (s : string) : s <> EmptyString ->
  exists ps w q, Forall (fun p => semi ∉ String.list_ascii_of_string p) ps /\ semi ∉ String.list_ascii_of_string w /\
    ((q = w /\ w <> EmptyString) \/ q = (w ++ semis)%string) /\ s = foldr (fun p s => p ++ semis ++ s)%string q ps.
Proof. exact (fields_exist s). Qed.
Print Assumptions C31_fields_exist.
Example C31_fields_case : splitString "1;;2;"%string = ["1"; "2;"]%string.
Proof. reflexivity. Qed.
Example C31_example : number_text ex_nt ex_rnd /\ storable ex_db /\
  (forall n l, values ex_db !! n = Some l -> contains "sample" n = false).
Proof. exact ex_storable. Qed.

(** C32 *)
Theorem C32_load {T} (s : scontent T) (q : list T) :
  startRank s + slength s <= length q -> length (configuration s) = slength s ->
  exists q', Load s q = Ok q' /\ length q' = length q /\
    forall i, q' !! i = if bool_decide (startRank s <= i < startRank s + slength s)
                        then configuration s !! (i - startRank s) else q !! i.
Proof. exact (Load_ok s q). Qed.
Print Assumptions C32_load.
Theorem C32_undefined_outside {T} (s : scontent T) (q : list T) :
  (startRank s + slength s > length q \/ length (configuration s) <> slength s) <-> Load s q = Ub.
Proof. exact (Load_ub s q). Qed.
Print Assumptions C32_undefined_outside.
Example C32_example : Load (content (ex_sample 5 2)) [0; 1; 2; 3] = Ok [0; 1; 12; 3].
Proof. exact ex_load. Qed.

(** C33 *)
Theorem C33_set_collision_free {T} (valid : list T -> bool) (ss : list (sample T)) (q : list T) start len :
  same_segment start len (length q) ss ->
  exists b q', setCollisionFree valid ss q = Ok (b, q') /\
   ((valid q = true /\ b = true /\ q' = q)
    \/ (valid q = false /\ b = true /\ exists i s, ss !! i = Some s /\ Load (content s) q = Ok q' /\ valid q' = true /\
       forall j t qj, j < i -> ss !! j = Some t -> Load (content t) q = Ok qj -> valid qj = false)
    \/ (valid q = false /\ b = false /\ q' = q /\
        forall j t qj, ss !! j = Some t -> Load (content t) q = Ok qj -> valid qj = false)) /\
   (forall i, ~ (start <= i < start + len) -> q' !! i = q !! i) /\ length q' = length q.
Proof. exact (setCollisionFree_ok valid ss q start len). Qed.
Print Assumptions C33_set_collision_free.
Example C33_example : same_segment 2 1 (length [0; 1; 2; 3]) (samples ex_db) /\
  setCollisionFree (fun q => bool_decide (q !! 2 = Some 11)) (samples ex_db) [0; 1; 2; 3] = Ok (true, [0; 1; 11; 3]).
Proof. exact (conj ex_segment ex_free). Qed.
