(** Model of the shooter together with its validator: the constructor of RbPrmShooter,
    BoundSO3 and the answers its loop gets (src/rbprm-shooter.cc, src/rbprm-validation.cc). *)
From Verif Require Export Maps Vec GeomModel ShootModel ValidModel.
Local Open Scope R_scope.

(** rbprm-shooter.cc:69-83; [root i]: the bounds of the root joint's translation [i], if it has any;
    [dmax]: the largest double *)
Definition getTranslationBounds (dmax : R) (root : nat -> option (R * R)) : bounds :=
  let b i := match root i with Some lu => lu | None => (- dmax, dmax) end in
  mkBounds (V3 (b 0%nat).1 (b 1%nat).1 (b 2%nat).1) (V3 (b 0%nat).2 (b 1%nat).2 (b 2%nat).2).

(** rbprm-shooter.cc:377-398; [None]: a triangle the mesh does not have is read *)
Definition normalFromTriangleContact (b2 : nat) (o : surface) : option vec3 :=
  match mesh o with
  | None => Some (normalize (V3 0 0 1))
  | Some ts => match ts !! b2 with Some t => Some (TriangleNormal (placed o t)) | None => None end
  end.

Section shot.
Context {W C O P : Type} `{EqDecision O}.
(** rand() / RAND_MAX, rand() % n, the uniform shooter (as in ShootModel.v; rbprm-shooter.cc:400-477) *)
Variable unit01 : W -> R * W.
Variable randMod : nat -> W -> nat * W.
Variable uniform : W -> conf C * W.
(** an object of the environment or of the robot as placed in the world (rbprm-shooter.cc:41-58) *)
Variable surf : O -> surface.
(** collision pairs of the trunk (hpp-core's CollisionValidation, created at rbprm-validation.cc:22-35):
    those of the robot with itself, those made by addObstacle, the second object of a pair *)
Variable selfPairs : list P.
Variable pairsOf : O -> list P.
Variable object2 : P -> O.
(** fcl: is the pair in collision; triangle b2 and penetration depth of its first contact (rbprm-shooter.cc:460-468) *)
Variable trunkHit : conf C -> P -> option (nat * R).
(** fcl: does a range of motion touch an object (rbprm-rom-validation.cc:49-98) *)
Variable romHit : conf C -> string -> O -> bool.
(** core::JointBoundValidation (rbprm-validation.cc:219) *)
Variable inBounds : conf C -> bool.

(** rbprm-shooter.hh:109-127: what the constructor stores *)
Record shotter := mkShotter {
  surfaces : shooter; validator : rbValidation O unit; trunkPairs : list P; filter_ : list string; eulerSo3_ : list R
}.

(** core::CollisionValidation::validate: the pairs in order up to the first in collision (rbprm-validation.cc:206) *)
Fixpoint firstTrunkHit (q : conf C) (l : list P) : option (P * (nat * R)) :=
  match l with
  | [] => None
  | p :: l' => match trunkHit q p with Some c => Some (p, c) | None => firstTrunkHit q l' end
  end.

(** rbprm-shooter.cc:294-315 and rbprm-validation.cc:78-97: every geometry is added to the trunk's
    obstacles by the validator's constructor and once more by the shooter's *)
Definition construct (names : gmap string unit) (geometries : list O) (affordances : gmap string (list O))
  (filter : list string) (affFilters : gmap string (list string)) : outcome shotter :=
  match InitWeightedTriangles (map surf (getUsedSurfaces affordances affFilters)) with
  | Ok s => Ok (mkShotter s (create tt names filter affFilters affordances)
                  (selfPairs ++ concat (map pairsOf geometries) ++ concat (map pairsOf geometries)) filter [])
  | Throw => Throw
  | Ub => Ub
  end.

(** rbprm-shooter.cc:180-183 and 246-248; the assertion is compiled out *)
Definition BoundSO3 (limitszyx : list R) (s : shotter) : shotter :=
  mkShotter (surfaces s) (validator s) (trunkPairs s) (filter_ s) limitszyx.

(** uses of the validator between two shots (its pairs are reordered, rbprm-validation.cc:143-251) *)
Definition withValidator (v : rbValidation O unit) (s : shotter) : shotter :=
  mkShotter (surfaces s) v (trunkPairs s) (filter_ s) (eulerSo3_ s).

(** rbprm-validation.cc:196-222 as called by rbprm-shooter.cc:432-453, with what lines 460-468 read of
    the report.  Simplified: the pairs the validator reorders meanwhile are not carried to the next call
    (the order has no influence on the verdict) *)
Definition shotReport (s : shotter) (q : conf C) : vreport :=
  let hitp := firstTrunkHit q (trunkPairs s) in
  let free := match hitp with Some _ => false | None => true end in
  let ok := match validate free (inBounds q) (romHit q) (filter_ s) (validator s) with Ok (b, _, _) => b | _ => false end in
  mkVrep ok (negb free)
    (match hitp with
     | Some (p, (b2, depth)) =>
       match normalFromTriangleContact b2 (surf (object2 p)) with Some n => Some (n, Rabs depth) | None => None end
     | None => None
     end).

(** rbprm-shooter.cc:400-477 *)
Definition shoot (dmax : R) (root : nat -> option (R * R)) (ratioWeighted : R) (shootLimit displacementLimit : nat)
  (s : shotter) (w : W) : outcome (bool * conf C * W * nat) :=
  impl_shoot unit01 randMod uniform (shotReport s) (getTranslationBounds dmax root) (eulerSo3_ s) ratioWeighted
    shootLimit displacementLimit (surfaces s) w.
End shot.
Arguments shotter : clear implicits.
