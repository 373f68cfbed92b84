(** Properties C63 to C66: the analyses of samples. *)
From Verif Require Import Maps MapsProofs Vec SampModel AnalModel AnalSpec AnalProofs AnalProofs2 AnalExamples AnalProofs3.
Local Open Scope R_scope.

(** * C63: measures of the jacobian *)
(** translation and rotation: the root of the Gram determinant of the three rows; null exactly
    when the three rows are dependent *)
Theorem C63_manipulability_part mode s : mode <> ALL ->
  let m := jacobian (content s) in let r := match mode with ROTATION => 3%nat | _ => 0%nat end in
  well_formed m -> (r + 3 <= mrows m)%nat ->
  exists v, manipulability mode s = Ok v /\ 0 <= v /\
    v * v = sarrus (fun i k => row_dot m (r + i) (r + k)) /\
    (v = 0 <-> dependent_rows m r).
Proof. exact (manipulability_three mode s). Qed.
Print Assumptions C63_manipulability_part.
Theorem C63_manipulability_short mode s : mode <> ALL ->
  let r := match mode with ROTATION => 3%nat | _ => 0%nat end in
  (mrows (jacobian (content s)) < r + 3)%nat <-> manipulability mode s = Ub.
Proof. exact (manipulability_short mode s). Qed.
Print Assumptions C63_manipulability_short.
(** all: the root of the determinant of the square product, 0 when that is negative *)
Theorem C63_manipulability s : let m := jacobianProduct (content s) in
  well_formed m -> mcols m = mrows m ->
  exists v, manipulability ALL s = Ok v /\ 0 <= v /\ v * v = Rmax 0 (determinant (mrows m) (entry m)).
Proof. exact (manipulability_square s). Qed.
Print Assumptions C63_manipulability.
Theorem C63_least_singular dmax sv : sv <> [] -> (forall x, x ∈ sv -> x <= dmax) -> least (minSing dmax sv) sv.
Proof. exact (minSing_least dmax sv). Qed.
Print Assumptions C63_least_singular.
Theorem C63_greatest_singular dmax sv : sv <> [] -> (forall x, x ∈ sv -> - dmax <= x) -> greatest (maxSing dmax sv) sv.
Proof. exact (maxSing_greatest dmax sv). Qed.
Print Assumptions C63_greatest_singular.
(** isotropy: the greatest singular value cancels out; not a number as soon as all are above 1 *)
Theorem C63_isotropy dmax sv mn mx : (forall x, x ∈ sv -> 0 <= x <= dmax) -> least mn sv -> greatest mx sv ->
  (mx = 0 -> isotropy dmax sv = Some 0) /\
  (0 < mx -> mn <= 1 -> exists v, isotropy dmax sv = Some v /\ 0 <= v <= 1 /\ (1 - v) * (1 - v) = 1 - mn * mn) /\
  (1 < mn -> isotropy dmax sv = None).
Proof. exact (isotropy_exact dmax sv mn mx). Qed.
Print Assumptions C63_isotropy.
Theorem C63_isotropy_not_the_ratio dmax sv mn mx : (forall x, x ∈ sv -> 0 <= x <= dmax) -> least mn sv -> greatest mx sv ->
  0 < mx -> (isotropy dmax sv = Some (1 - sqrt (1 - (mn / mx) * (mn / mx))) <-> mn = 0 \/ mx = 1).
Proof. exact (isotropy_intended dmax sv mn mx). Qed.
Print Assumptions C63_isotropy_not_the_ratio.
Example C63_square_case : well_formed (jacobianProduct (content squareSample)) /\ mcols (jacobianProduct (content squareSample)) = mrows (jacobianProduct (content squareSample)) /\
  determinant 2 (entry (jacobianProduct (content squareSample))) = 5 /\ manipulability ALL squareSample = Ok (sqrt 5).
Proof. exact case_square. Qed.
Example C63_cube : well_formed cubeMat /\ ~ dependent_rows cubeMat 0 /\
  exists v, manipulability TRANSLATION (legSample 0 0 cubeMat) = Ok v /\ 0 < v.
Proof. exact ex_cube. Qed.
Example C63_flat : well_formed someMat /\ dependent_rows someMat 3 /\ manipulability ROTATION (legSample 0 0 someMat) = Ok 0.
Proof. exact ex_flat. Qed.
Example C63_values : (forall x, x ∈ [4; 2] -> 0 <= x <= 1000) /\ least 2 [4; 2] /\ greatest 4 [4; 2].
Proof. exact ex_sv. Qed.
Example C63_not_a_number : isotropy 1000 [4; 2] = None.
Proof. exact ex_isotropy_nan. Qed.
Example C63_small_values : (forall x, x ∈ [1/2; 1/4] -> 0 <= x <= 1000) /\ least (1/4) [1/2; 1/4] /\ greatest (1/2) [1/2; 1/4].
Proof. exact ex_sv_small. Qed.

(** * C64: distance to the joint limits *)
Theorem C64_limb rank limbs non l : getLimbFromStartRank rank limbs non = Ok l <->
  limb_at rank limbs l \/ (no_limb_at rank limbs /\ limb_at rank non l).
Proof. exact (limb_of_rank rank limbs non l). Qed.
Print Assumptions C64_limb.
Theorem C64_value limbs non q s l conf :
  getLimbFromStartRank (startRank (content s)) limbs non = Ok l -> Load (content s) q = Ok conf ->
  (forall j, j ∈ chain (l_effector l) (l_joint l) -> proper conf j) ->
  exists m, least_margin conf (chain (l_effector l) (l_joint l)) m /\
    distanceToLimits limbs non q s = Ok (Some (1 - exp (-5 * m))).
Proof. exact (limits_value limbs non q s l conf). Qed.
Print Assumptions C64_value.
Theorem C64_margin_unique conf js m m' : least_margin conf js m -> least_margin conf js m' -> m = m'.
Proof. exact (least_margin_unique conf js m m'). Qed.
Print Assumptions C64_margin_unique.
Theorem C64_within limbs non q s l conf :
  getLimbFromStartRank (startRank (content s)) limbs non = Ok l -> Load (content s) q = Ok conf ->
  (forall j, j ∈ chain (l_effector l) (l_joint l) -> proper conf j /\ within conf j) ->
  exists v, distanceToLimits limbs non q s = Ok (Some v) /\ 0 <= v < 1 /\
    (v = 0 <-> exists j, j ∈ chain (l_effector l) (l_joint l) /\ at_bound conf j).
Proof. exact (limits_within limbs non q s l conf). Qed.
Print Assumptions C64_within.
Theorem C64_beyond limbs non q s l conf :
  getLimbFromStartRank (startRank (content s)) limbs non = Ok l -> Load (content s) q = Ok conf ->
  (forall j, j ∈ chain (l_effector l) (l_joint l) -> proper conf j) ->
  (exists j, j ∈ chain (l_effector l) (l_joint l) /\ ~ within conf j) ->
  exists v, distanceToLimits limbs non q s = Ok (Some v) /\ v < 0.
Proof. exact (limits_beyond limbs non q s l conf). Qed.
Print Assumptions C64_beyond.
(** a locked joint: ignored at its value, minus infinity elsewhere *)
Theorem C64_equal_bounds limbs non q s l conf name rank b v :
  getLimbFromStartRank (startRank (content s)) limbs non = Ok l -> Load (content s) q = Ok conf ->
  l_joint l = Joint name rank (Some (b, b)) [] -> conf !! rank = Some v ->
  distanceToLimits limbs non q s = Ok (if Req_EM_T v b then Some (1 - exp (-5)) else None).
Proof. exact (limits_equal_bounds limbs non q s l conf name rank b v). Qed.
Print Assumptions C64_equal_bounds.
Theorem C64_throws limbs non q s : distanceToLimits limbs non q s = Throw <->
  no_limb_at (startRank (content s)) limbs /\ no_limb_at (startRank (content s)) non.
Proof. exact (limits_throws limbs non q s). Qed.
Print Assumptions C64_throws.
Example C64_leg h k m : getLimbFromStartRank (startRank (content (legSample h k m))) legs ∅ = Ok leg.
Proof. exact (ex_leg_limb h k m). Qed.
Example C64_load h k m : Load (content (legSample h k m)) bodyConf = Ok (loaded h k).
Proof. exact (ex_leg_load h k m). Qed.
Example C64_joints h k : 0 <= h <= 2 -> -1 <= k <= 1 -> forall j, j ∈ chain (l_effector leg) (l_joint leg) ->
  proper (loaded h k) j /\ within (loaded h k) j.
Proof. exact (ex_leg_within h k). Qed.
Example C64_middle : exists v, distanceToLimits legs ∅ bodyConf (legSample 1 0 someMat) = Ok (Some v) /\ 0 < v < 1.
Proof. exact ex_leg_middle. Qed.
Example C64_out : exists v, distanceToLimits legs ∅ bodyConf (legSample 3 0 someMat) = Ok (Some v) /\ v < 0.
Proof. exact ex_leg_beyond. Qed.

(** * C65: distance to the reference configuration *)
Theorem C65_value limbs non axis posture nd diffTo q s l conf :
  getLimbFromStartRank (startRank (content s)) limbs non = Ok l -> Load (content s) q = Ok conf ->
  (l_vrank l <= l_evrank l < nd)%nat -> length (diffTo conf) = nd ->
  exists w, (forall i, limb_dof l i -> dof_weight axis posture nd i (w i)) /\
    let d := weighted_sum (map (fun i => (i, w i)) (seq (l_vrank l) (S (l_evrank l) - l_vrank l))) (diffTo conf) in
    (0 <= d -> referenceConfiguration limbs non axis posture nd diffTo q s = Ok (Some (100 - sqrt d))) /\
    (d < 0 -> referenceConfiguration limbs non axis posture nd diffTo q s = Ok None).
Proof. exact (reference_value limbs non axis posture nd diffTo q s l conf). Qed.
Print Assumptions C65_value.
Theorem C65_best limbs non axis posture nd diffTo q s l conf :
  getLimbFromStartRank (startRank (content s)) limbs non = Ok l -> Load (content s) q = Ok conf ->
  (l_vrank l <= l_evrank l < nd)%nat -> length (diffTo conf) = nd ->
  (forall i w, limb_dof l i -> dof_weight axis posture nd i w -> 0 <= w) ->
  exists v, referenceConfiguration limbs non axis posture nd diffTo q s = Ok (Some v) /\ v <= 100 /\
    (v = 100 <-> forall i w, limb_dof l i -> dof_weight axis posture nd i w -> 0 < w -> nth i (diffTo conf) 0 = 0).
Proof. exact (reference_best limbs non axis posture nd diffTo q s l conf). Qed.
Print Assumptions C65_best.
(** one posture weight per degree of freedom, but a limb that ends out of range: undefined *)
Theorem C65_undefined limbs non axis posture nd diffTo q s l conf :
  getLimbFromStartRank (startRank (content s)) limbs non = Ok l -> Load (content s) q = Ok conf ->
  length posture = nd -> (l_evrank l < l_vrank l \/ nd <= l_evrank l)%nat ->
  referenceConfiguration limbs non axis posture nd diffTo q s = Ub.
Proof. exact (reference_undefined limbs non axis posture nd diffTo q s l conf). Qed.
Print Assumptions C65_undefined.
Example C65_undefined_case : referenceConfiguration (<["leg"%string := mkALimb hip 7 6 "knee" 12]> ∅) ∅ legAxis [1; 1; 1; 1; 1; 1; 1; 1] 8 legDiff bodyConf (legSample 1 0 someMat) = Ub.
Proof. exact case_undefined. Qed.
Example C65_weights i w : limb_dof leg i -> dof_weight legAxis [] 8 i w -> 0 < w.
Proof. exact (ex_leg_weights i w). Qed.
Example C65_at_reference : referenceConfiguration legs ∅ legAxis [] 8 legDiff bodyConf (legSample 1 0 someMat) = Ok (Some 100).
Proof. exact ex_leg_reference. Qed.
Example C65_off_reference v :
  referenceConfiguration legs ∅ legAxis [] 8 legDiff bodyConf (legSample 1 1 someMat) = Ok (Some v) -> v < 100.
Proof. exact (ex_leg_reference_off v). Qed.

(** * C66: self collision *)
Theorem C66_database {Q} (valid : Q -> bool) shots fuel nb db db' :
  fullBodyInstance valid shots fuel nb db = Some db' ->
  length db' = Nat.max (length db) nb /\
  exists n, (n <= fuel)%nat /\ db' = db ++ filter valid (map shots (seq 0 n)).
Proof. exact (database_filled valid shots fuel nb db db'). Qed.
Print Assumptions C66_database.
Theorem C66_database_never_ends {Q} (valid : Q -> bool) shots nb db :
  (forall fuel, fullBodyInstance valid shots fuel nb db = None) <->
  forall fuel, (length db + length (filter valid (map shots (seq 0 fuel))) < nb)%nat.
Proof. exact (database_stuck valid shots nb db). Qed.
Print Assumptions C66_database_never_ends.
(** the value is the fraction of the database that is FREE once the limb is moved to the sample *)
Theorem C66_value valid shots fuel db s v db' :
  selfCollisionProbability valid shots fuel db s = Some (Ok v, db') <->
  fullBodyInstance valid shots fuel (Z.to_nat 10000) db = Some db' /\
  exists qs, Forall2 (fun q q' => Load (content s) q = Ok q') db' qs /\
    v = INR (length (filter valid qs)) / INR (length db').
Proof. exact (self_collision_value valid shots fuel db s v db'). Qed.
Print Assumptions C66_value.
Theorem C66_range valid shots fuel db s v db' :
  selfCollisionProbability valid shots fuel db s = Some (Ok v, db') -> 0 <= v <= 1.
Proof. exact (self_collision_range valid shots fuel db s v db'). Qed.
Print Assumptions C66_range.
(** the one database of the program may hold configurations of another robot *)
Theorem C66_other_robot valid shots fuel db s db' q :
  fullBodyInstance valid shots fuel (Z.to_nat 10000) db = Some db' -> q ∈ db ->
  (length q < startRank (content s) + slength (content s))%nat ->
  selfCollisionProbability valid shots fuel db s = Some (Ub, db').
Proof. exact (self_collision_foreign valid shots fuel db s db' q). Qed.
Print Assumptions C66_other_robot.
Example C66_fill : fullBodyInstance Nat.even (fun k => k) 10 3 [100]%nat = Some [100; 0; 2]%nat.
Proof. exact ex_database. Qed.
Example C66_stuck : forall fuel, fullBodyInstance (fun _ => false) (fun k : nat => k) fuel 3 [] = None.
Proof. exact ex_database_stuck. Qed.
Example C66_all_free : selfCollisionProbability freeConf shot 0 (replicate (Z.to_nat 10000) bodyConf) (legSample 1 0 someMat) =
    Some (Ok 1, replicate (Z.to_nat 10000) bodyConf).
Proof. exact ex_self_collision. Qed.
Example C66_foreign : fullBodyInstance freeConf shot 0 (Z.to_nat 10000) smallDB = Some smallDB /\ [0; 0; 0] ∈ smallDB /\
  (length [0; 0; 0] < startRank (content (legSample 0 0 someMat)) + slength (content (legSample 0 0 someMat)))%nat.
Proof. exact ex_foreign. Qed.

(** * C62, the analyses *)
Theorem C62_analyses {E} name (f : E) m : forall b m', AddAnalysis name f m = (b, m') ->
  (b = true <-> m !! name = None) /\
  (forall n, m' !! n = if decide (n = name) then (match m !! name with Some g => Some g | None => Some f end) else m !! n).
Proof. exact (add_analysis name f m). Qed.
Print Assumptions C62_analyses.
Theorem C62_analysis_names : NoDup analysisNames /\ length analysisNames = 15%nat /\
  forall n, n ∈ analysisNames <-> n ∈ ["selfCollisionProbability"; "jointLimitsDistance"; "ReferenceConfiguration"]%string \/
    exists a b, a ∈ ["manipulability"; "isotropy"; "minimumSingularValue"; "maximumSingularValue"]%string /\ b ∈ [""; "Rot"; "Tr"]%string /\ n = (a ++ b)%string.
Proof. exact analysis_names_are. Qed.
Print Assumptions C62_analysis_names.
Example C62_analyses_case : AddAnalysis "isotropy" 1%nat {["isotropy" := 0%nat]} = (false, {["isotropy" := 0%nat]}) /\
  (AddAnalysis "mine" 1%nat {["isotropy" := 0%nat]}).1 = true.
Proof. done. Qed.
