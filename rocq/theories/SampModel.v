(** Model of the sample database: src/sampling/sample.cc (Load),
    src/sampling/sample-db.cc and the text functions of src/tools.cc it uses.
    Numbers: a scalar type [T] for what is only stored, the reals for what is
    computed on (exact arithmetic instead of doubles). *)
From Verif Require Export Maps Vec.
From Coq Require Import Ascii.

(** Eigen::MatrixXd, entries in row-major order (jacobian_ of sample.hh:86-101) *)
Record matrix (T : Type) := mkMat { mrows : nat; mcols : nat; mdata : list T }.
Arguments mkMat {T}.
Arguments mrows {T}.
Arguments mcols {T}.
Arguments mdata {T}.

(** include/hpp/rbprm/sampling/sample.hh:86-101 without id_ and staticValue_;
    fcl::Vec3f as a triple *)
Record scontent (T : Type) := mkContent {
  startRank : nat;
  slength : nat;
  configuration : list T;
  effectorPosition : T * T * T;
  effectorPositionInLimbFrame : T * T * T;
  jacobian : matrix T;
  jacobianProduct : matrix T
}.
Arguments mkContent {T}.
Arguments startRank {T}.
Arguments slength {T}.
Arguments configuration {T}.
Arguments effectorPosition {T}.
Arguments effectorPositionInLimbFrame {T}.
Arguments jacobian {T}.
Arguments jacobianProduct {T}.

(** sample.hh:86-101: [sid] is id_, [sstatic] is staticValue_ *)
Record sample (T : Type) := mkSample { sid : nat; sstatic : T; content : scontent T }.
Arguments mkSample {T}.
Arguments sid {T}.
Arguments sstatic {T}.
Arguments content {T}.

(** sample-db.hh:117-134, data members.  Left out: the octree and its boxes,
    which are functions of the samples' effector positions and the resolution *)
Record sampleDB (T : Type) := mkDB {
  resolution : T;
  samples : list (sample T);
  values : gmap string (list T);
  valueBounds : gmap string (T * T);
  samplesInVoxels : gmap Z (nat * nat)
}.
Arguments mkDB {T}.
Arguments resolution {T}.
Arguments samples {T}.
Arguments values {T}.
Arguments valueBounds {T}.
Arguments samplesInVoxels {T}.

(** src/sampling/sample.cc:165-169.  Eigen: a segment outside of the vector, or a
    right-hand side of another size, is an assertion / undefined behaviour *)
Definition Load {T} (s : scontent T) (q : list T) : outcome (list T) :=
  if (startRank s + slength s <=? length q)%nat && (length (configuration s) =? slength s)%nat
  then Ok (take (startRank s) q ++ configuration s ++ drop (startRank s + slength s) q)
  else Ub.

(** src/projection/projection.cc:302-335; [valid] is the collision validation of
    the limb.  Returns success_ and result_.configuration_ *)
Fixpoint tryAll {T} (valid : list T -> bool) (ss : list (sample T)) (q0 q : list T)
  : outcome (bool * list T) :=
  match ss with
  | [] => Ok (false, q0)
  | s :: ss' =>
    match Load (content s) q with
    | Ok q' => if valid q' then Ok (true, q') else tryAll valid ss' q0 q'
    | Throw => Throw
    | Ub => Ub
    end
  end.
Definition setCollisionFree {T} (valid : list T -> bool) (ss : list (sample T)) (q : list T)
  : outcome (bool * list T) :=
  if valid q then Ok (true, q) else tryAll valid ss q q.

(** Iteration order of a std::map<long int, ...> (boxes_ of sample-db.hh:117-134) *)
Global Instance Zle_dec' : RelDecision Z.le := Z_le_dec.
Definition zkeys {V} (m : gmap Z V) : list Z := merge_sort Z.le (map_to_list m).*1.

Section align.
Context {T : Type}.
(** [octTree->search(position) - octTree->getRoot()] (sample-db.cc:43-44): the id of
    the voxel that holds an effector position.  It depends on where the allocator put
    the tree's nodes.  Assumed found (the position was inserted when the tree was
    built); a position that the conversion to float moves over a voxel boundary is not
    modelled *)
Variable voxel : T * T * T -> Z.
Definition voxelOf (s : sample T) : Z := voxel (effectorPosition (content s)).

(** sample-db.cc:35-55; [sid0] is the loop's sid *)
Fixpoint getSamplesPerVoxel_from (sid0 : nat) (ss : list (sample T)) (res : gmap Z (list nat))
  : gmap Z (list nat) :=
  match ss with
  | [] => res
  | s :: ss' =>
    let id := voxelOf s in
    getSamplesPerVoxel_from (S sid0) ss'
      (match res !! id with
       | Some l => <[id := l ++ [sid0]]> res
       | None => <[id := [sid0]]> res
       end)
  end.
Definition getSamplesPerVoxel (ss : list (sample T)) : gmap Z (list nat) :=
  getSamplesPerVoxel_from 0 ss ∅.

(** sample-db.cc:81-92: one voxel; [next] is currentNewIndex *)
Fixpoint alignVoxel (ss : list (sample T)) (ids : list nat) (next : nat)
  (out : list (sample T)) (order : list nat) : outcome (list (sample T) * list nat * nat) :=
  match ids with
  | [] => Ok (out, order, next)
  | i :: ids' =>
    match ss !! i with
    | None => Ub
    | Some s => alignVoxel ss ids' (S next) (out ++ [mkSample next (sstatic s) (content s)]) (order ++ [i])
    end
  end.

(** sample-db.cc:76-93: the loop over the voxels *)
Fixpoint alignVoxels (ss : list (sample T)) (per : gmap Z (list nat)) (vs : list Z) (next : nat)
  (out : list (sample T)) (order : list nat) (vox : gmap Z (nat * nat))
  : outcome (list (sample T) * list nat * gmap Z (nat * nat)) :=
  match vs with
  | [] => Ok (out, order, vox)
  | v :: vs' =>
    match alignVoxel ss (default [] (per !! v)) next out order with
    | Ok (out', order', next') =>
      alignVoxels ss per vs' next' out' order'
        (match vox !! v with Some _ => vox | None => <[v := (next, next' - next)]> vox end)
    | Throw => Throw
    | Ub => Ub
    end
  end.

(** sample-db.cc:98-104: the values of one name *)
Fixpoint permuted (l : list T) (order : list nat) : option (list T) :=
  match order with
  | [] => Some []
  | i :: order' =>
    match l !! i, permuted l order' with
    | Some x, Some r => Some (x :: r)
    | _, _ => None
    end
  end.

(** sample-db.cc:94-105; [None]: a vector of values shorter than the samples *)
Fixpoint permutedAll (vals : list (string * list T)) (order : list nat) : option (gmap string (list T)) :=
  match vals with
  | [] => Some ∅
  | (n, l) :: vals' =>
    match permuted l order, permutedAll vals' order with
    | Some l', Some m => Some (<[n := l']> m)
    | _, _ => None
    end
  end.

(** sample-db.cc:57-109 *)
Definition alignSampleOrderWithOctree (db : sampleDB T) : outcome (sampleDB T) :=
  let per := getSamplesPerVoxel (samples db) in
  match alignVoxels (samples db) per (zkeys per) 0 [] [] ∅ with
  | Ok (out, order, vox) =>
    match permutedAll (sitems (values db)) order with
    | Some vals => Ok (mkDB (resolution db) out vals (valueBounds db) vox)
    | None => Ub
    end
  | Throw => Throw
  | Ub => Ub
  end.
End align.

Section values.
(** the sorting routine: std::sort by decreasing staticValue_ (sample.hh:104-108),
    not stable; its contract is stated with the theorems *)
Variable sort : list (sample R) -> list (sample R).
Variable voxel : R * R * R -> Z.

(** sample-db.cc:111-115 *)
Definition sortDB (db : sampleDB R) : outcome (sampleDB R) :=
  alignSampleOrderWithOctree voxel
    (mkDB (resolution db) (sort (samples db)) (values db) (valueBounds db) (samplesInVoxels db)).

(** sample-db.cc:198-204: minValue and maxValue after the loop; [dmax] is
    std::numeric_limits<double>::max() *)
Definition minOf (dmax : R) (l : list R) : R := fold_left Rmin l dmax.
Definition maxOf (dmax : R) (l : list R) : R := fold_left Rmax l (- dmax)%R.

(** sample-db.cc:208-211 *)
Definition normalise (lo hi : R) (l : list R) : list R :=
  map (fun x => if Req_EM_T (hi - lo) 0 then 0%R else ((x - lo) / (hi - lo))%R) l.

(** sample-db.cc:212-215 *)
Definition setStatic (vals : list R) (ss : list (sample R)) : list (sample R) :=
  zip_with (fun v s => mkSample (sid s) v (content s)) vals ss.

(** sample-db.cc:185-220; the evaluation may look at the whole database *)
Definition addValue (dmax : R) (name : string) (eval : sampleDB R -> sample R -> R)
  (isStatic sorted : bool) (db : sampleDB R) : outcome (sampleDB R) :=
  match values db !! name with
  | Some _ => Ok db
  | None =>
    let raw := map (eval db) (samples db) in
    let lo := minOf dmax raw in
    let hi := maxOf dmax raw in
    let vals := normalise lo hi raw in
    let bounds := match valueBounds db !! name with
                  | Some _ => valueBounds db
                  | None => <[name := (lo, hi)]> (valueBounds db) end in
    let db' := mkDB (resolution db)
                 (if isStatic then setStatic vals (samples db) else samples db)
                 (<[name := vals]> (values db)) bounds (samplesInVoxels db) in
    if sorted then sortDB db' else Ok db'
  end.

(** sample-db.cc:143-161: the constructor, from the generated samples on;
    [data] in the iteration order of the T_evaluate map *)
Fixpoint addValues (dmax : R) (data : list (string * (sampleDB R -> sample R -> R))) (static : string)
  (db : sampleDB R) : outcome (sampleDB R) :=
  match data with
  | [] => Ok db
  | (n, e) :: data' =>
    match addValue dmax n e (bool_decide (static = n)) false db with
    | Ok db' => addValues dmax data' static db'
    | Throw => Throw
    | Ub => Ub
    end
  end.
Definition newDB (dmax : R) (res : R) (generated : list (sample R))
  (data : list (string * (sampleDB R -> sample R -> R))) (static : string) : outcome (sampleDB R) :=
  match addValues dmax data static (mkDB res generated ∅ ∅ ∅) with
  | Ok db => sortDB db
  | Throw => Throw
  | Ub => Ub
  end.
End values.

Section candidates.
Local Open Scope R_scope.

(** Eigen normalize(): divides by the norm if the squared norm is positive (used at sample-db.cc:235, 265) *)
Definition vnormalize (a : vec3) : vec3 :=
  if Rlt_dec 0 (vnorm2 a) then vscale (/ vnorm a) a else a.

(** what is used of a fcl::Contact: the voxel (b1) and the vertices of the triangle
    (tri_indices[b2]) touched (used at sample-db.cc:236-270) *)
Record contact := mkContact { b1 : Z; tri1 : vec3; tri2 : vec3; tri3 : vec3 }.

(** sample-db.hh:48-60, OctreeReport; the sample by its index in samples_ *)
Record report := mkReport { rsample : nat; rcontact : contact; rvalue : R; rnormal : vec3 }.

(** sample-db.cc:260-265 *)
Definition triNormal (c : contact) : vec3 :=
  vnormalize (vcross (vsub (tri2 c) (tri1 c)) (vsub (tri3 c) (tri1 c))).

(** std::multiset::insert with sample_compare (sample-db.hh:65-69): after the last
    element of at least the same value *)
Fixpoint insertReport (r : report) (l : list report) : list report :=
  match l with
  | [] => [r]
  | x :: l' => if Rltb (rvalue x) (rvalue r) then r :: l else x :: insertReport r l'
  end.

(** sample-db.cc:266-270; the heuristic may be null *)
Definition mkReportFor (evaluate : option (sample R -> vec3 -> vec3 -> R)) (dir : vec3)
  (c : contact) (i : nat) (s : sample R) : report :=
  mkReport i c (match evaluate with Some e => e s (vnormalize dir) (triNormal c) | None => 0 end)
    (triNormal c).

(** sample-db.cc:249-273: the samples [i], [i+1] ... of one voxel *)
Fixpoint voxelReports (ss : list (sample R)) (e : option (sample R -> vec3 -> vec3 -> R)) (dir : vec3)
  (c : contact) (i count : nat) (acc : list report) : outcome (list report) :=
  match count with
  | O => Ok acc
  | S count' =>
    match ss !! i with
    | None => Ub
    | Some s => voxelReports ss e dir c (S i) count' (insertReport (mkReportFor e dir c i s) acc)
    end
  end.

(** sample-db.cc:239-277; the contacts are the answer of fcl::collide, at most 1000 of them *)
Fixpoint contactReports (db : sampleDB R) (e : option (sample R -> vec3 -> vec3 -> R)) (dir : vec3)
  (cs : list contact) (acc : list report) : outcome (list report) :=
  match cs with
  | [] => Ok acc
  | c :: cs' =>
    match samplesInVoxels db !! b1 c with
    | None => contactReports db e dir cs' acc
    | Some (first, count) =>
      match voxelReports (samples db) e dir c first count acc with
      | Ok acc' => contactReports db e dir cs' acc'
      | Throw => Throw
      | Ub => Ub
      end
    end
  end.

(** sample-db.cc:223-279: the updated reports and the returned boolean *)
Definition GetCandidates (db : sampleDB R) (e : option (sample R -> vec3 -> vec3 -> R)) (dir : vec3)
  (cs : list contact) (acc : list report) : outcome (list report * bool) :=
  match contactReports db e dir cs acc with
  | Ok l => Ok (l, match l with [] => false | _ => true end)
  | Throw => Throw
  | Ub => Ub
  end.
End candidates.

(** * The text format *)

(** the text of numbers: operator<< and operator>> of the C++ streams *)
Record numtext (T : Type) := mkNT {
  fmt : T -> string;          (* output << double *)
  StrToD : string -> T;       (* src/tools.cc:158-162 *)
  fmtZ : Z -> string;         (* output << std::size_t, Eigen::Index *)
  StrToI : string -> Z        (* src/tools.cc:164-168 *)
}.
Arguments fmt {T}.
Arguments StrToD {T}.
Arguments fmtZ {T}.
Arguments StrToI {T}.

Definition nl : ascii := "010"%char.
Definition semi : ascii := ";"%char.
Definition endl : string := String nl EmptyString.
Definition semis : string := String semi EmptyString.

(** The lines getline yields, in order; the last one is what follows the last
    newline (std::getline reaches the end of the file on it) (used at sample-db.cc:375-392) *)
Fixpoint lines (s : string) : list string :=
  match s with
  | EmptyString => [EmptyString]
  | String a s' =>
    if Ascii.eqb a nl then EmptyString :: lines s'
    else match lines s' with
         | [] => [String a EmptyString]
         | l :: ls => String a l :: ls
         end
  end.

(** std::getline(myfile, line) on the remaining lines: at the end of the file the
    stream is not good and [line] keeps its content (used at sample-db.cc:375-392) *)
Definition getline (st : list string) (line : string) : string * list string :=
  match st with
  | [] => (line, [])
  | l :: st' => (l, st')
  end.

(** src/tools.cc:182-195; [s1] is the token under construction.  The last character
    belongs to the last token even if it is the separator *)
Fixpoint splitFrom (s : string) (s1 : string) : list string :=
  match s with
  | EmptyString => []
  | String a EmptyString => [(s1 ++ String a EmptyString)%string]
  | String a s' =>
    if Ascii.eqb a semi
    then match s1 with EmptyString => splitFrom s' EmptyString | _ => s1 :: splitFrom s' EmptyString end
    else splitFrom s' (s1 ++ String a EmptyString)%string
  end.
Definition splitString (s : string) : list string := splitFrom s EmptyString.

(** line.find(pat) != npos (used at sample-db.cc:383-385) *)
Definition contains (pat line : string) : bool :=
  match String.index 0 pat line with Some _ => true | None => false end.

Section text.
Context {T : Type}.
Variable nt : numtext T.

(** concatenation of pieces written one after the other (used for tools.cc:158-256) *)
Fixpoint cat (l : list string) : string :=
  match l with [] => EmptyString | s :: l' => (s ++ cat l')%string end.

(** "v;" for each entry (tools.cc:158-180) *)
Definition writeEntries (l : list T) : string := cat (map (fun x => (fmt nt x ++ semis)%string) l).

(** src/tools.cc:197-204 *)
Definition writeMatrix (m : matrix T) : string :=
  (fmtZ nt (Z.of_nat (mrows m)) ++ semis ++ fmtZ nt (Z.of_nat (mcols m)) ++ endl
   ++ writeEntries (mdata m))%string.

(** src/tools.cc:229-233 *)
Definition writeVec (v : T * T * T) : string :=
  let '(x, y, z) := v in writeEntries [x; y; z].

(** sample-db.cc:293-309; a VectorXd is a matrix of one column *)
Definition writeSample (s : sample T) : string :=
  let c := content s in
  ("sample" ++ endl ++ fmtZ nt (Z.of_nat (sid s)) ++ endl
   ++ fmtZ nt (Z.of_nat (slength c)) ++ endl
   ++ fmtZ nt (Z.of_nat (startRank c)) ++ endl
   ++ fmt nt (sstatic s) ++ endl
   ++ writeVec (effectorPosition c) ++ endl
   ++ writeVec (effectorPositionInLimbFrame c) ++ endl
   ++ writeMatrix (mkMat (length (configuration c)) 1 (configuration c)) ++ endl
   ++ writeMatrix (jacobian c) ++ endl
   ++ writeMatrix (jacobianProduct c) ++ endl)%string.

(** sample-db.cc:311-316 *)
Definition writeSamples (db : sampleDB T) : string := cat (map writeSample (samples db)).

(** sample-db.cc:318-328 *)
Definition writeValue (nv : string * list T) : string :=
  ("value" ++ endl ++ nv.1 ++ endl ++ cat (map (fun x => (fmt nt x ++ endl)%string) nv.2) ++ endl)%string.
Definition writeValues (db : sampleDB T) : string := cat (map writeValue (sitems (values db))).

(** sample-db.cc:362-369 *)
Definition saveLimbDatabase (db : sampleDB T) : string :=
  (fmtZ nt (Z.of_nat (length (samples db))) ++ endl ++ fmt nt (resolution db) ++ endl
   ++ writeSamples db ++ writeValues db)%string.

(** conversion of an int to std::size_t (tools.cc:229-233) *)
Definition toSize (z : Z) : nat := Z.to_nat (z mod 2 ^ 64).

(** src/tools.cc:176-180 and 170-174: a fresh local line *)
Definition StrToI_in (st : list string) : Z * list string :=
  let '(l, st') := getline st EmptyString in (StrToI nt l, st').
Definition StrToD_in (st : list string) : T * list string :=
  let '(l, st') := getline st EmptyString in (StrToD nt l, st').

(** src/tools.cc:240-248 *)
Definition readVec (st : list string) (line : string) : outcome ((T * T * T) * list string * string) :=
  let '(line', st') := getline st line in
  match splitString line' with
  | a :: b :: c :: _ => Ok ((StrToD nt a, StrToD nt b, StrToD nt c), st', line')
  | _ => Ub
  end.

(** src/tools.cc:211-227.  Negative dimensions and too few entries are undefined *)
Definition readMatrix (st : list string) (line : string) : outcome (matrix T * list string * string) :=
  let '(line1, st1) := getline st line in
  match splitString line1 with
  | a :: b :: _ =>
    let rows := StrToI nt a in
    let cols := StrToI nt b in
    if (rows <? 0)%Z || (cols <? 0)%Z then Ub else
    let '(line2, st2) := getline st1 line1 in
    let n := Z.to_nat (rows * cols) in
    let data := take n (splitString line2) in
    if (length data =? n)%nat
    then Ok (mkMat (Z.to_nat rows) (Z.to_nat cols) (map (StrToD nt) data), st2, line2)
    else Ub
  | _ => Ub
  end.

(** sample-db.cc:330-347.  conf is a vector: more than one column is an Eigen
    assertion; so is a jacobianProduct that is not 6x6 *)
Definition readSample (st : list string) (line : string) : outcome (sample T * list string * string) :=
  let '(id, st1) := StrToI_in st in
  let '(len, st2) := StrToI_in st1 in
  let '(start, st3) := StrToI_in st2 in
  let '(static, st4) := StrToD_in st3 in
  match readVec st4 line with
  | Ok (pos, st5, line5) =>
    match readVec st5 line5 with
    | Ok (posl, st6, line6) =>
      match readMatrix st6 line6 with
      | Ok (conf, st7, line7) =>
        match readMatrix st7 line7 with
        | Ok (jac, st8, line8) =>
          match readMatrix st8 line8 with
          | Ok (prod, st9, line9) =>
            if (mcols conf =? 1)%nat && (mrows prod =? 6)%nat && (mcols prod =? 6)%nat
            then Ok (mkSample (toSize id) static
                       (mkContent (toSize start) (toSize len) (mdata conf) pos posl jac prod), st9, line9)
            else Ub
          | _ => Ub
          end
        | _ => Ub
        end
      | _ => Ub
      end
    | _ => Ub
    end
  | _ => Ub
  end.

(** sample-db.cc:355-358: the next [n] lines as numbers *)
Fixpoint readNumbers (n : nat) (st : list string) (line : string) : list T * list string * string :=
  match n with
  | O => ([], st, line)
  | S n' =>
    let '(l, st1) := getline st line in
    let '(r, st2, line2) := readNumbers n' st1 l in
    (StrToD nt l :: r, st2, line2)
  end.

(** sample-db.cc:349-360; std::map::insert keeps an existing entry *)
Definition readValue (vals : gmap string (list T)) (size : nat) (st : list string) (line : string)
  : gmap string (list T) * list string * string :=
  let '(name, st1) := getline st line in
  let '(l, st2, line2) := readNumbers size st1 name in
  (match vals !! name with Some _ => vals | None => <[name := l]> vals end, st2, line2).

(** sample-db.cc:381-387: while (myfile.good()).  Every turn reads a line, so the
    number of lines bounds the number of turns; running out of [fuel] is [Throw], which
    the loop never yields otherwise *)
Fixpoint loadLoop (fuel : nat) (loadValues : bool) (size : nat) (st : list string) (line : string)
  (ss : list (sample T)) (vals : gmap string (list T))
  : outcome (list (sample T) * gmap string (list T)) :=
  match st with
  | [] => Ok (ss, vals)
  | _ =>
    match fuel with
    | O => Throw
    | S fuel' =>
      let '(l, st1) := getline st line in
      if contains "sample" l then
        match readSample st1 l with
        | Ok (s, st2, l2) => loadLoop fuel' loadValues size st2 l2 (ss ++ [s]) vals
        | Throw => Throw
        | Ub => Ub
        end
      else if contains "value" l && loadValues then
        let '(vals', st2, l2) := readValue vals size st1 l in
        loadLoop fuel' loadValues size st2 l2 ss vals'
      else loadLoop fuel' loadValues size st1 l ss vals
    end
  end.

(** sample-db.cc:371-396 on a readable file; [voxel] is the octree built from the
    samples read *)
Definition loadDB (voxel : T * T * T -> Z) (loadValues : bool) (text : string) : outcome (sampleDB T) :=
  let st := lines text in
  let '(l1, st1) := getline st EmptyString in
  let size := toSize (StrToI nt l1) in
  let '(l2, st2) := getline st1 l1 in
  match loadLoop (length st2) loadValues size st2 l2 [] ∅ with
  | Ok (ss, vals) =>
    alignSampleOrderWithOctree voxel (mkDB (StrToD nt l2) ss vals ∅ ∅)
  | Throw => Throw
  | Ub => Ub
  end.
End text.
