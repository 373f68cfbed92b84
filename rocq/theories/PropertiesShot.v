(** Property C157: the shooter with its validator. *)
From Verif Require Import Maps Vec GeomModel ShootModel ShootSpec ShootExamples ValidModel ValidSpec ShotModel ShotSpec ShotProofs ShotExamples.
Local Open Scope R_scope.

(** C157: a shooter built for a robot and its affordances, given limits, after any use of its validator:
    it ends, and a configuration it found satisfies the reachability condition *)
Theorem C157_shot {W C O P} `{EqDecision O} (unit01 : W -> R * W) randMod (uniform : W -> conf C * W) (surf : O -> surface)
  (selfPairs : list P) pairsOf object2 trunkHit romHit inBounds names geometries affordances filter affFilters s0 limits ops v
  dmax root ratio shootLimit dis w :
  construct surf selfPairs pairsOf names geometries affordances filter affFilters = Ok s0 ->
  val_run ops (create tt names filter affFilters affordances) = Ok v ->
  random_ok unit01 randMod -> limits_ok limits -> root_ok dmax root -> contacts_ok object2 surf trunkHit -> triangles (surfaces s0) <> [] ->
  exists found q w' n,
    shoot unit01 randMod uniform surf object2 trunkHit romHit inBounds dmax root ratio shootLimit dis (withValidator v (BoundSO3 limits s0)) w = Ok (found, q, w', n) /\
    (n <= shootLimit * (2 * dis + 1))%nat /\
    (found = true -> reachability_condition selfPairs pairsOf trunkHit romHit inBounds names geometries affordances filter affFilters q) /\
    ((0 < shootLimit)%nat -> respects dmax root 0 (vx (trans q)) /\ respects dmax root 1 (vy (trans q)) /\ respects dmax root 2 (vz (trans q)) /\
       within_limits limits (orientation q)).
Proof.
  intros Hc Hv. exact (shot_ok unit01 randMod uniform surf selfPairs pairsOf object2 trunkHit romHit inBounds names geometries affordances filter affFilters s0 Hc
    limits ops v Hv dmax root ratio shootLimit dis w).
Qed.
Print Assumptions C157_shot.
(** earlier uses of the validator do not change what is shot *)
Theorem C157_history {W C O P} `{EqDecision O} (unit01 : W -> R * W) randMod (uniform : W -> conf C * W) (surf : O -> surface)
  (selfPairs : list P) pairsOf object2 trunkHit romHit inBounds names geometries affordances filter affFilters s0 limits ops v ops' v'
  dmax root ratio shootLimit dis w :
  construct surf selfPairs pairsOf names geometries affordances filter affFilters = Ok s0 ->
  val_run ops (create tt names filter affFilters affordances) = Ok v -> val_run ops' (create tt names filter affFilters affordances) = Ok v' ->
  shoot unit01 randMod uniform surf object2 trunkHit romHit inBounds dmax root ratio shootLimit dis (withValidator v (BoundSO3 limits s0)) w =
  shoot unit01 randMod uniform surf object2 trunkHit romHit inBounds dmax root ratio shootLimit dis (withValidator v' (BoundSO3 limits s0)) w.
Proof.
  exact (shot_history unit01 randMod uniform surf selfPairs pairsOf object2 trunkHit romHit inBounds names geometries affordances filter affFilters s0
    limits ops v ops' v' dmax root ratio shootLimit dis w).
Qed.
Print Assumptions C157_history.
(** a filter that names a ROM twice, an unknown one or one without objects: nothing is ever found *)
Theorem C157_hopeless {W C O P} `{EqDecision O} (unit01 : W -> R * W) randMod (uniform : W -> conf C * W) (surf : O -> surface)
  (selfPairs : list P) pairsOf object2 trunkHit romHit inBounds names geometries affordances filter affFilters s0 limits ops v
  dmax root ratio shootLimit dis w found q w' n :
  construct surf selfPairs pairsOf names geometries affordances filter affFilters = Ok s0 ->
  val_run ops (create tt names filter affFilters affordances) = Ok v -> hopeless names affordances filter affFilters ->
  shoot unit01 randMod uniform surf object2 trunkHit romHit inBounds dmax root ratio shootLimit dis (withValidator v (BoundSO3 limits s0)) w = Ok (found, q, w', n) ->
  found = false.
Proof.
  intros Hc Hv. exact (shot_hopeless unit01 randMod uniform surf selfPairs pairsOf object2 trunkHit romHit inBounds names geometries affordances filter affFilters s0 Hc
    limits ops v Hv dmax root ratio shootLimit dis w found q w' n).
Qed.
Print Assumptions C157_hopeless.
(** the constructor: triangles of exactly the surfaces of the affordances asked for, if all are meshes *)
Theorem C157_construct {O P} `{EqDecision O} (surf : O -> surface) (selfPairs : list P) pairsOf names geometries affordances filter affFilters :
  (forall r kinds kind objs o, affFilters !! r = Some kinds -> kind ∈ kinds -> affordances !! kind = Some objs -> o ∈ objs -> is_Some (mesh (surf o))) ->
  exists s, construct surf selfPairs pairsOf names geometries affordances filter affFilters = Ok s /\
    forall n t, (n, t) ∈ triangles (surfaces s) <-> exists r kinds kind objs o ts t0,
      affFilters !! r = Some kinds /\ kind ∈ kinds /\ affordances !! kind = Some objs /\ o ∈ objs /\ mesh (surf o) = Some ts /\ t0 ∈ ts /\
      t = (place (surf o) t0.1.1, place (surf o) t0.1.2, place (surf o) t0.2) /\ n = TriangleNormal t.
Proof. exact (construct_ok surf selfPairs pairsOf names geometries affordances filter affFilters). Qed.
Print Assumptions C157_construct.
Theorem C157_not_a_mesh_undefined {O P} `{EqDecision O} (surf : O -> surface) (selfPairs : list P) pairsOf names geometries affordances filter affFilters r kinds kind objs o :
  affFilters !! r = Some kinds -> kind ∈ kinds -> affordances !! kind = Some objs -> o ∈ objs -> mesh (surf o) = None ->
  construct surf selfPairs pairsOf names geometries affordances filter affFilters = Ub.
Proof. exact (construct_ub surf selfPairs pairsOf names geometries affordances filter affFilters r kinds kind objs o). Qed.
Print Assumptions C157_not_a_mesh_undefined.
(** the direction in which a trunk in collision is moved: the unit normal of the triangle touched, or z *)
Theorem C157_direction i o n : normalFromTriangleContact i o = Some n ->
  (mesh o = None -> n = V3 0 0 1) /\
  (forall ts t, mesh o = Some ts -> ts !! i = Some t ->
     let a := place o t.1.1 in let b := place o t.1.2 in let c := place o t.2 in
     vdot n (vsub b a) = 0 /\ vdot n (vsub c a) = 0 /\
     (vcross (vsub b a) (vsub c a) <> vzero -> vnorm2 n = 1 /\ 0 < vdot n (vcross (vsub b a) (vsub c a)))).
Proof. exact (normal_of_contact i o n). Qed.
Print Assumptions C157_direction.
Example C157_example : construct ssurf sself spairs snames [0%nat] saff ["foot"%string] sfilt = Ok sshot /\
  random_ok ShootExamples.half first /\ limits_ok yaw /\ root_ok 10 sroot /\ contacts_ok sobj ssurf strunk /\
  (exists q w', shoot ShootExamples.half first uni ssurf sobj strunk srom sbounds 10 sroot (3 / 10) 1 5 (BoundSO3 yaw sshot) 0%nat = Ok (true, q, w', 2%nat) /\ vz (trans q) = 3 / 100) /\
  hopeless snames saff ["foot"%string; "foot"%string] sfilt.
Proof.
  split; [exact ex_construct|]. split; [exact ex_random|]. split; [exact (proj1 ex_limits)|]. split; [exact ex_root|]. split; [exact ex_contacts|].
  split; [exact ex_shot|exact ex_hopeless].
Qed.
