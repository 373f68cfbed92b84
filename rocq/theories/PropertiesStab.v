From Coq Require Import Reals.
From Verif Require Import SampModel StabSpec GeomProofs StabProofs StabProofs2 ReachSpec ReachProofs5 ReachExamples.
From Verif Require Import StateModel.
Local Open Scope R_scope.

(** * C92: the contacts given to the balance library are those recorded in the state *)
Theorem C92_contact_set axis lib B : good_axis axis -> forall s alg fx fy k com,
  setupLibrary axis lib B s alg fx fy = Ok (k, com) ->
  describes B s fx fy k /\ (has_grasp B s -> calg k = ALG_PP) /\ (~ has_grasp B s -> calg k = alg) /\
  com = rcom B (configuration s) /\ setNew lib k = true.
Proof. exact (fun H => contact_set axis B H lib). Qed.
Print Assumptions C92_contact_set.
(** the same for the wrench cones of the reachability tests, with soles of 5 cm *)
Theorem C92_cone_contacts axis lib B : good_axis axis -> forall s k,
  computeContactConeForState axis lib B s = Ok (Some k) ->
  describes B s (5 / 100) (5 / 100) k /\ calg k = ALG_PP /\ setNew lib k = true.
Proof. exact (fun H => cone_set axis H lib B). Qed.
Print Assumptions C92_cone_contacts.
(** the angle between the sole and the limb's normal: the edges of the rectangle are
    orthogonal to the placed normal only when the normal is vertical or horizontal in the
    frame of the effector *)
Theorem C92_sole_plane axis s e l fx fy ps p r : good_axis axis -> vnorm2 (rnormal l) = 1 ->
  vz (rnormal l) = -1 \/ -1 + / 10 ^ 12 <= vz (rnormal l) ->
  positions s !! e = Some p -> rotations s !! e = Some r -> is_rotation r ->
  computeRectangleContact axis e l s fx fy = Ok ps ->
  exists p1 p2 p3 p4 lx ly, ps = [p1; p2; p3; p4] /\ size_or fx (rx l) lx /\ size_or fy (ry l) ly /\
    vdot (vsub p1 p4) (mapp r (rnormal l)) = 4 * lx * (vz (rnormal l) * vx (rnormal l)) /\
    vdot (vsub p1 p2) (mapp r (rnormal l)) = 4 * ly * (vz (rnormal l) * vy (rnormal l)).
Proof. exact (sole_plane axis s e l fx fy ps p r). Qed.
Print Assumptions C92_sole_plane.
(** no undefined behaviour; and a complete record never throws *)
Theorem C92_defined axis lib B s alg fx fy : setupLibrary axis lib B s alg fx fy <> Ub /\
  ((forall e, is_Some (positions s !! e) -> exists l, rlimbs B !! e = Some l /\ is_Some (normals s !! e) /\
     (rtype l = _6_DOF -> is_Some (rotations s !! e))) -> (forall k, setNew lib k = true) ->
   exists r, setupLibrary axis lib B s alg fx fy = Ok r).
Proof. exact (conj (setup_no_ub axis B lib s alg fx fy) (setup_defined axis B lib s alg fx fy)). Qed.
Print Assumptions C92_defined.
Example C92_case : good_axis exaxis /\ (exists k c, setupLibrary exaxis exlib exbody (exLR 0) ALG_PP 0 0 = Ok (k, c) /\ length (cpts k) = 8%nat) /\
  exists k, computeContactConeForState exaxis exlib exbody (exLR 0) = Ok (Some k).
Proof. exact ex_contact_set. Qed.
Example C92_sole : vnorm2 (rnormal (exlimb 1)) = 1 /\ -1 + / 10 ^ 12 <= vz (rnormal (exlimb 1)) /\ is_rotation ProjModel.mid /\
  exists ps, computeRectangleContact exaxis "lf" (exlimb 1) exL 0 0 = Ok ps.
Proof. exact ex_sole. Qed.

(** * C93: the value of the balance test *)
Theorem C93_values axis lib B s acc com alg r : IsStable axis lib B s acc com alg = Ok r ->
  exists k c0 a c, setupLibrary axis lib B s alg 0 0 = Ok (k, c0) /\ chosenAcc B s acc = Ok a /\
    let tiny := Rabs (vx com) <= / 10 ^ 12 /\ Rabs (vy com) <= / 10 ^ 12 /\ Rabs (vz com) <= / 10 ^ 12 in
    ((tiny /\ c = c0) \/ (~ tiny /\ c = com)) /\
    let oa := if rstatic B then None else Some a in
    (calg k = ALG_PP /\
       ((fst (checkEq lib k c oa) = LP_OPTIMAL /\ r = (if snd (checkEq lib k c oa) then dmax else -1)) \/
        ((fst (checkEq lib k c oa) = LP_INFEASIBLE \/ fst (checkEq lib k c oa) = LP_UNBOUNDED) /\ r = - (11 / 10)) \/
        ((exists n, fst (checkEq lib k c oa) = LP_OTHER n) /\ r = - dmax))) \/
    (calg k <> ALG_PP /\
       ((fst (robEq lib k c oa) = LP_OPTIMAL /\ r = snd (robEq lib k c oa)) \/
        ((fst (robEq lib k c oa) = LP_INFEASIBLE \/ fst (robEq lib k c oa) = LP_UNBOUNDED) /\ r = - (11 / 10)) \/
        ((exists n, fst (robEq lib k c oa) = LP_OTHER n) /\ r = - dmax))).
Proof.
  intros H. destruct (stable_cases axis lib B s acc com alg r H) as (k & c0 & a & H1 & H2 & H3).
  exists k, c0, a, (if isZero12 com then c0 else com). split; [done|]. split; [done|]. split; [|exact H3].
  unfold isZero12. destruct (Rleb _ _ && _ && _) eqn:E.
  - left. split; [|done]. apply andb_true_iff in E as [[E1 E2]%andb_true_iff E3]. rewrite !GeomProofs.Rleb_true in *. done.
  - right. split; [|done]. intros (E1 & E2 & E3). apply GeomProofs.Rleb_true in E1, E2, E3. by rewrite E1, E2, E3 in E.
Qed.
Print Assumptions C93_values.
(** the largest double *)
Theorem C93_largest : 1 < dmax /\ dmax = IZR ((2 ^ 53 - 1) * 2 ^ 971).
Proof. split; [exact dmax_pos|reflexivity]. Qed.
Print Assumptions C93_largest.
Example C93_case : IsStable exaxis exlib exbody (exLR 0) vzero vzero (ALG_LP 0) = Ok 3 /\
  IsStable exaxis exlib exbody (exLR 0) vzero vzero ALG_PP = Ok dmax.
Proof. exact ex_stable. Qed.

(** * C94: what the balance test depends on *)
Theorem C94_inputs axis lib B s1 s2 acc com alg :
  configuration s1 = configuration s2 /\ positions s1 = positions s2 /\ normals s1 = normals s2 /\ rotations s1 = rotations s2 ->
  IsStable axis lib B s1 acc com alg = IsStable axis lib B s2 acc com alg.
Proof. exact (stable_ext axis lib B s1 s2 acc com alg). Qed.
Print Assumptions C94_inputs.
Theorem C94_static axis lib B s acc1 acc2 com alg r1 r2 : rstatic B = true ->
  IsStable axis lib B s acc1 com alg = Ok r1 -> IsStable axis lib B s acc2 com alg = Ok r2 -> r1 = r2.
Proof. exact (stable_static axis lib B s acc1 acc2 com alg r1 r2). Qed.
Print Assumptions C94_static.
Theorem C94_acceleration B s acc :
  (acc <> vzero \/ (rextra B < 6)%nat -> chosenAcc B s acc = Ok acc) /\
  (acc = vzero -> (6 <= rextra B)%nat -> (rconfSize B - rextra B + 6 <= length (configuration s))%nat ->
   exists x y z, chosenAcc B s acc = Ok (V3 x y z) /\
     configuration s !! (rconfSize B - rextra B + 3)%nat = Some x /\
     configuration s !! (rconfSize B - rextra B + 4)%nat = Some y /\
     configuration s !! (rconfSize B - rextra B + 5)%nat = Some z).
Proof.
  split; [exact (proj1 (chosen_acc B s acc))|]. intros H1 H2 H3. rewrite (proj2 (chosen_acc B s acc) H1 H2 H3). unfold seg3.
  set (i := (rconfSize B - rextra B + 3)%nat). set (q := configuration s) in *.
  replace (rconfSize B - rextra B + 4)%nat with (i + 1)%nat by (unfold i; lia).
  replace (rconfSize B - rextra B + 5)%nat with (i + 2)%nat by (unfold i; lia).
  destruct (lookup_lt_is_Some_2 q i) as [x Hx]; [unfold i; lia|].
  destruct (lookup_lt_is_Some_2 q (i + 1)) as [y Hy]; [unfold i; lia|].
  destruct (lookup_lt_is_Some_2 q (i + 2)) as [z Hz]; [unfold i; lia|].
  exists x, y, z. split; [|done]. by rewrite (nth_lookup_Some q i 0 x Hx), (nth_lookup_Some q (i + 1) 0 y Hy), (nth_lookup_Some q (i + 2) 0 z Hz).
Qed.
Print Assumptions C94_acceleration.
Example C94_case : rstatic exbody = true /\ (6 <= rextra exbody)%nat /\
  (rconfSize exbody - rextra exbody + 6 <= length (configuration (exLR 0)))%nat /\
  IsStable exaxis exlib exbody (exLR 0) (V3 1 2 3) vzero (ALG_LP 0) = IsStable exaxis exlib exbody (exLR 0) vzero vzero (ALG_LP 0).
Proof. exact ex_inputs. Qed.

(** * C95: the wrench cone; a failure gives constraints that every wrench satisfies *)
Theorem C95_cone axis lib B s Hh : ComputeCentroidalCone axis lib B s = Ok Hh ->
  exists k c, setupLibrary axis lib B s ALG_PP 0 0 = Ok (k, c) /\
   (fst (polytope lib k) = LP_OPTIMAL -> Hh = snd (polytope lib k)) /\
   (fst (polytope lib k) <> LP_OPTIMAL -> forall w, in_polytope Hh w).
Proof. exact (cone_result axis lib B s Hh). Qed.
Print Assumptions C95_cone.
Example C95_case : exists Hh, ComputeCentroidalCone exaxis exlib exbody (exLR 0) = Ok Hh /\ length (fst Hh) = 2%nat.
Proof. exact ex_cone. Qed.
Example C95_failure : exists Hh, ComputeCentroidalCone exaxis badlib exbody (exLR 0) = Ok Hh /\ forall w, in_polytope Hh w.
Proof. exact ex_bad_cone. Qed.
