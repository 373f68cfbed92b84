(** Specification vocabulary for the sample database. *)
From Verif Require Import Maps Vec SampModel.

Section spec.
Context {T : Type}.

(** every vector of values has one entry per sample *)
Definition values_complete (db : sampleDB T) : Prop :=
  forall n l, values db !! n = Some l -> length l = length (samples db).

(** [db'] is [db] with its samples rearranged: the sample now at index [i] was at index
    [p(i)]; its id is the new index, everything else of it is as before, and the values
    moved along with it *)
Record rearranged (p : list nat) (db db' : sampleDB T) : Prop := {
  re_perm : p ≡ₚ seq 0 (length (samples db));
  re_length : length (samples db') = length (samples db);
  re_sample : forall i j, p !! i = Some j ->
    exists s, samples db !! j = Some s /\
      samples db' !! i = Some (mkSample i (sstatic s) (content s));
  re_names : forall n, is_Some (values db' !! n) <-> is_Some (values db !! n);
  re_values : forall n l l', values db !! n = Some l -> values db' !! n = Some l' ->
    length l' = length (samples db') /\ forall i j, p !! i = Some j -> l' !! i = l !! j;
  re_resolution : resolution db' = resolution db;
  re_bounds : valueBounds db' = valueBounds db
}.

(** the recorded (first, count) ranges are exactly the samples of the voxels: a sample
    is in a recorded range iff it lies in that voxel, and every sample is in one *)
Record voxels_exact (voxel : T * T * T -> Z) (db : sampleDB T) : Prop := {
  ve_covered : forall i s, samples db !! i = Some s ->
    exists first count, samplesInVoxels db !! voxel (effectorPosition (content s)) = Some (first, count)
      /\ first <= i < first + count;
  ve_range : forall v first count, samplesInVoxels db !! v = Some (first, count) ->
    0 < count /\ first + count <= length (samples db) /\
    forall i s, samples db !! i = Some s ->
      (first <= i < first + count <-> voxel (effectorPosition (content s)) = v)
}.

(** within a voxel the samples keep their relative order *)
Definition order_kept (p : list nat) (db' : sampleDB T) : Prop :=
  forall v first count, samplesInVoxels db' !! v = Some (first, count) ->
  forall i i' j j', first <= i -> i < i' -> i' < first + count ->
    p !! i = Some j -> p !! i' = Some j' -> j < j'.
End spec.

(** all samples are of one limb: they cover the same joints [start], ..., [start+len-1] of
    a configuration of size [n] *)
Definition same_segment {T} (start len n : nat) (ss : list (sample T)) : Prop :=
  start + len <= n /\ forall s, s ∈ ss ->
    startRank (content s) = start /\ slength (content s) = len /\ length (configuration (content s)) = len.

(** contract of std::sort with sample_greater *)
Definition sorts (sort : list (sample R) -> list (sample R)) : Prop :=
  forall l, sort l ≡ₚ l /\
    forall i j s t, i < j -> sort l !! i = Some s -> sort l !! j = Some t -> (sstatic t <= sstatic s)%R.

(** [lo] is the least and [hi] the greatest value of [f] on the list *)
Definition extremes {A} (f : A -> R) (l : list A) (lo hi : R) : Prop :=
  (exists a, a ∈ l /\ f a = lo) /\ (exists a, a ∈ l /\ f a = hi) /\
  forall a, a ∈ l -> (lo <= f a <= hi)%R.

(** value [v] is the evaluation [x] brought to [0,1] *)
Definition normalised (lo hi x v : R) : Prop :=
  (v * (hi - lo) = x - lo)%R /\ (0 <= v <= 1)%R /\ (lo = hi -> v = 0%R).

(** the database with other samples *)
Definition with_samples {T} (ss : list (sample T)) (db : sampleDB T) : sampleDB T :=
  mkDB (resolution db) ss (values db) (valueBounds db) (samplesInVoxels db).

(** sorted by decreasing heuristic value *)
Definition by_decreasing_value (l : list report) : Prop :=
  forall i j r r', i < j -> l !! i = Some r -> l !! j = Some r' -> (rvalue r' <= rvalue r)%R.

(** the unit vector along [a], and the unit normal of a triangle seen counter-clockwise *)
Definition unit_of (a : vec3) : vec3 := vscale (/ vnorm a) a.
Definition face_normal (a b c : vec3) : vec3 := unit_of (vcross (vsub b a) (vsub c a)).

(** what the candidate query must list: for every contact, in order, the samples of the
    touched voxel *)
Definition expected_reports (voxel : R * R * R -> Z) (db : sampleDB R)
  (e : option (sample R -> vec3 -> vec3 -> R)) (dir : vec3) (cs : list contact) : list report :=
  c ← cs;
  omap (fun i => match samples db !! i with
     | Some s => if bool_decide (voxel (effectorPosition (content s)) = b1 c)
                 then Some (mkReport i c
                        (match e with Some h => h s (unit_of dir) (face_normal (tri1 c) (tri2 c) (tri3 c)) | None => 0%R end)
                        (face_normal (tri1 c) (tri2 c) (tri3 c)))
                 else None
     | None => None end)
   (seq 0 (length (samples db))).

(** Text of numbers: what the stream operators of the C++ library guarantee.  [rnd] is
    the number read back from the six significant digits written *)
Record number_text {T} (nt : numtext T) (rnd : T -> T) : Prop := {
  nt_fmt_chars : forall x, forall c, c ∈ String.list_ascii_of_string (fmt nt x) -> c <> nl /\ c <> semi;
  nt_fmt_nonempty : forall x, fmt nt x <> EmptyString;
  nt_fmt_words : forall x, contains "sample" (fmt nt x) = false;
  nt_read : forall x, StrToD nt (fmt nt x) = rnd x;
  nt_read_semi : forall x, StrToD nt (fmt nt x ++ semis) = rnd x;
  nt_int_chars : forall z, (0 <= z < 2 ^ 31)%Z ->
    forall c, c ∈ String.list_ascii_of_string (fmtZ nt z) -> c <> nl /\ c <> semi;
  nt_int_nonempty : forall z, (0 <= z < 2 ^ 31)%Z -> fmtZ nt z <> EmptyString;
  nt_int_read : forall z, (0 <= z < 2 ^ 31)%Z -> StrToI nt (fmtZ nt z) = z
}.

(** sizes fit an int, matrices have as many entries as they say, the jacobian product
    is 6x6; and the names of values are single lines *)
Record storable {T} (db : sampleDB T) : Prop := {
  st_count : (Z.of_nat (length (samples db)) < 2 ^ 31)%Z;
  st_values : values_complete db;
  st_names : forall n l, values db !! n = Some l -> nl ∉ String.list_ascii_of_string n;
  st_sample : forall s, s ∈ samples db ->
    let c := content s in
    (Z.of_nat (sid s) < 2 ^ 31)%Z /\ (Z.of_nat (slength c) < 2 ^ 31)%Z /\
    (Z.of_nat (startRank c) < 2 ^ 31)%Z /\ (Z.of_nat (length (configuration c)) < 2 ^ 31)%Z /\
    (forall m, m = jacobian c \/ m = jacobianProduct c ->
      length (mdata m) = mrows m * mcols m /\ (Z.of_nat (mrows m) < 2 ^ 31)%Z /\ (Z.of_nat (mcols m) < 2 ^ 31)%Z) /\
    mrows (jacobianProduct c) = 6 /\ mcols (jacobianProduct c) = 6
}.

(** the database with every number replaced by [rnd] of it *)
Definition rnd3 {T} (rnd : T -> T) (v : T * T * T) : T * T * T :=
  let '(x, y, z) := v in (rnd x, rnd y, rnd z).
Definition rnd_matrix {T} (rnd : T -> T) (m : matrix T) : matrix T :=
  mkMat (mrows m) (mcols m) (map rnd (mdata m)).
Definition rnd_content {T} (rnd : T -> T) (c : scontent T) : scontent T :=
  mkContent (startRank c) (slength c) (map rnd (configuration c)) (rnd3 rnd (effectorPosition c))
    (rnd3 rnd (effectorPositionInLimbFrame c)) (rnd_matrix rnd (jacobian c)) (rnd_matrix rnd (jacobianProduct c)).
Definition rnd_sample {T} (rnd : T -> T) (s : sample T) : sample T :=
  mkSample (sid s) (rnd (sstatic s)) (rnd_content rnd (content s)).
Definition rounded {T} (rnd : T -> T) (keepValues : bool) (db : sampleDB T) : sampleDB T :=
  mkDB (rnd (resolution db)) (map (rnd_sample rnd) (samples db))
    (if keepValues then map rnd <$> values db else ∅) ∅ ∅.
