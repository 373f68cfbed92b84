(** Properties C01-C09: contact bookkeeping of hpp::rbprm::State. *)
From Coq Require Import ZArith Reals Lra.
From Verif Require Import Maps MapsProofs StateModel StateSpec StateProofs Vec VecProofs StateReal StateRealProofs StateExamples.

(** C01 *)
Theorem C01_RemoveContact_exact {Cfg Pos Rot Rob} (id : string) (s : State Cfg Pos Rot Rob) b s' :
  RemoveContact id s = (b, s') ->
  (b = true <-> is_Some (contacts s !! id)) /\
  (b = false -> s' = s) /\
  (b = true -> removed_exactly id s s').
Proof. exact (RemoveContact_correct id s b s'). Qed.
Print Assumptions C01_RemoveContact_exact.
Example C01_example :
  fst (RemoveContact "rf" ex3) = true /\ order (snd (RemoveContact "rf" ex3)) = ["lh"; "lf"]%string
  /\ fst (RemoveContact "xx" ex3) = false.
Proof. vm_compute. done. Qed.

(** C02 *)
Theorem C02_RemoveFirstContact_empty {Cfg Pos Rot Rob} (s : State Cfg Pos Rot Rob) :
  order s = [] -> RemoveFirstContact s = (""%string, s).
Proof. exact (RemoveFirstContact_empty s). Qed.
Print Assumptions C02_RemoveFirstContact_empty.

Theorem C02_RemoveFirstContact_oldest {Cfg Pos Rot Rob} (s : State Cfg Pos Rot Rob) id q :
  order s = id :: q ->
  exists s', RemoveFirstContact s = (id, s') /\ order s' = q /\
    contacts s' !! id = None /\ normals s' !! id = None /\
    positions s' !! id = None /\ rotations s' !! id = None /\
    same_elsewhere (fun k => k = id) s s' /\
    nbContacts s' = ((nbContacts s - 1) mod 2 ^ 64)%Z /\ stable s' = false.
Proof. exact (RemoveFirstContact_cons s id q). Qed.
Print Assumptions C02_RemoveFirstContact_oldest.

Theorem C02_drain_is_fifo {Cfg Pos Rot Rob} (n : nat) (s : State Cfg Pos Rot Rob) :
  n <= length (order s) ->
  fst (drain n s) = take n (order s) /\
  order (snd (drain n s)) = drop n (order s) /\
  same_elsewhere (fun k => k ∈ take n (order s)) s (snd (drain n s)) /\
  (forall k, k ∈ take n (order s) ->
     contacts (snd (drain n s)) !! k = None /\ normals (snd (drain n s)) !! k = None /\
     positions (snd (drain n s)) !! k = None /\ rotations (snd (drain n s)) !! k = None).
Proof. exact (drain_correct n s). Qed.
Print Assumptions C02_drain_is_fifo.
(** in every history the queue lists the contacts by the time they were last recorded *)
Theorem C02_queue_is_chronological {Cfg Pos Rot Rob} (c0 : Cfg) (r0 : Rob) (ops : list (state_op Cfg Pos Rot)) i j a b :
  let s := fold_left state_step ops (state_default c0 r0) in
  i < j -> order s !! i = Some a -> order s !! j = Some b ->
  exists n m, last_added_at ops n a /\ last_added_at ops m b /\ n < m.
Proof. exact (queue_chronological c0 r0 ops i j a b). Qed.
Print Assumptions C02_queue_is_chronological.
Example C02_example : fst (drain 2 ex3) = ["lh"; "rf"]%string /\ order (snd (drain 2 ex3)) = ["lf"]%string.
Proof. vm_compute. done. Qed.

(** C03 *)
Theorem C03_bookkeeping_consistent {Cfg Pos Rot Rob} (c0 : Cfg) (r0 : Rob)
    (ops : list (state_op Cfg Pos Rot)) :
  consistent (fold_left state_step ops (state_default c0 r0)).
Proof. exact (consistent_history c0 r0 ops). Qed.
Print Assumptions C03_bookkeeping_consistent.

Theorem C03_printing_defined {Cfg Pos Rot Rob} (s : State Cfg Pos Rot Rob) :
  consistent s -> (Z.of_nat (size (contacts s)) < 2 ^ 64)%Z ->
  printInternal_names s = Ok (skeys (contacts s)).
Proof. exact (consistent_print s). Qed.
Print Assumptions C03_printing_defined.
Example C03_example : size (contacts ex3) = 3 /\ nbContacts ex3 = 3%Z /\ order ex3 = ["lh"; "rf"; "lf"]%string
  /\ consistent ex3.
Proof. split_and!; [reflexivity..|]. exact ex3_consistent. Qed.

(** C04 *)
Theorem C04_contactCreations_exact {Cfg Rot Rob} (from to : State Cfg vec3 Rot Rob) :
  (forall k, k ∈ contactCreations moved3 to from <-> new_or_moved from to k) /\
  NoDup (contactCreations moved3 to from) /\
  StronglySorted str_le (contactCreations moved3 to from).
Proof. exact (creations_real from to). Qed.
Print Assumptions C04_contactCreations_exact.

Theorem C04_contactCreations_append {Cfg Rot Rob} (from to : State Cfg vec3 Rot Rob) out :
  exists l, contactCreations_into moved3 to from out = out ++ l /\
    (forall k, k ∈ l <-> new_or_moved from to k /\ k ∉ out) /\ NoDup l /\ StronglySorted str_le l.
Proof. exact (creations_into_real from to out). Qed.
Print Assumptions C04_contactCreations_append.
Example C04_example : "rf"%string ∈ contactCreations moved3 exTo exFrom.
Proof.
  apply C04_contactCreations_exact. split; [eexists; reflexivity|].
  right. exists 1%R. split; [exact ex_displacement|lra].
Qed.

(** C05 *)
Theorem C05_breaks_mirror_creations {Cfg Rot Rob} (from to : State Cfg vec3 Rot Rob) :
  contactBreaks moved3 to from = contactCreations moved3 from to /\
  (forall k, k ∈ contactVariations moved3 to from <-> new_or_moved from to k \/ new_or_moved to from k) /\
  NoDup (contactVariations moved3 to from) /\
  (forall k, k ∈ contactVariations moved3 to from <-> k ∈ contactVariations moved3 from to) /\
  (forall k d, displacement from to k d -> (d > 1 / 100)%R ->
     k ∈ contactCreations moved3 to from /\ k ∈ contactBreaks moved3 to from) /\
  contactVariations moved3 to to = [].
Proof. exact (variations_real from to). Qed.
Print Assumptions C05_breaks_mirror_creations.
Example C05_example :
  "rf"%string ∈ contactCreations moved3 exTo exFrom /\ "rf"%string ∈ contactBreaks moved3 exTo exFrom.
Proof.
  destruct (C05_breaks_mirror_creations exFrom exTo) as (_ & _ & _ & _ & H & _).
  apply (H "rf"%string 1%R ex_displacement). lra.
Qed.

(** C06 *)
Theorem C06_fixed_varying_partition {Cfg Rot Rob} (from to : State Cfg vec3 Rot Rob) effs :
  (forall k, k ∈ fixedContacts moved3 to from <-> kept_in_place from to k) /\
  NoDup (fixedContacts moved3 to from) /\
  (forall k, is_Some (positions to !! k) ->
     (k ∈ fixedContacts moved3 to from /\ k ∉ contactVariations moved3 to from) \/
     (k ∉ fixedContacts moved3 to from /\ k ∈ contactVariations moved3 to from)) /\
  allVariations moved3 to from effs = filter (fun e => e ∉ fixedContacts moved3 to from) effs /\
  freeEffectors to effs = filter (fun e => contacts to !! e <> Some true) effs.
Proof. exact (fixed_real from to effs). Qed.
Print Assumptions C06_fixed_varying_partition.
Example C06_example : "lf"%string ∈ fixedContacts moved3 exTo exFrom.
Proof.
  apply (C06_fixed_varying_partition exFrom exTo []). exists 0%R. split; [|lra].
  exists pA, pA. split_and!; [reflexivity..|]. symmetry. apply dist3_refl.
Qed.

(** C07: for every pair of states and every list of effectors, what
    freeVariations returns and when it throws (freeLimbMotions reads the contact
    table with at(), so an effector that is not a variation and has no entry
    makes the call throw std::out_of_range: finding). *)
Theorem C07_freeVariations_exact {Cfg Rot Rob} (from to : State Cfg vec3 Rot Rob) effs :
  ((forall e, e ∈ effs -> ~ new_or_moved from to e -> ~ new_or_moved to from e ->
      is_Some (contacts to !! e)) ->
   freeVariations moved3 to from effs
   = Ok (filter (fun e => e ∉ contactVariations moved3 to from /\ contacts to !! e = Some false) effs)) /\
  ((exists e, e ∈ effs /\ ~ new_or_moved from to e /\ ~ new_or_moved to from e /\
      contacts to !! e = None) ->
   freeVariations moved3 to from effs = Throw).
Proof. exact (freeVariations_exact from to effs). Qed.
Print Assumptions C07_freeVariations_exact.

(** with a table that has an entry for every effector: the effectors in contact
    in neither state *)
Theorem C07_full_tables {Cfg Rot Rob} (from to : State Cfg vec3 Rot Rob) effs :
  (forall e, e ∈ effs -> is_Some (contacts to !! e)) ->
  (forall e, e ∈ effs -> contacts to !! e = Some true <-> is_Some (positions to !! e)) ->
  freeVariations moved3 to from effs
  = Ok (filter (fun e => positions to !! e = None /\ positions from !! e = None) effs).
Proof. exact (freeVariations_total from to effs). Qed.
Print Assumptions C07_full_tables.
Example C07_example :
  (forall e, e ∈ ["lf"; "rf"; "lh"]%string -> is_Some (contacts exTotal !! e)) /\
  (forall e, e ∈ ["lf"; "rf"; "lh"]%string -> contacts exTotal !! e = Some true <-> is_Some (positions exTotal !! e)).
Proof.
  split; intros e He; repeat (apply elem_of_cons in He as [->|He]); try (by apply elem_of_nil in He);
    vm_compute; try (eexists; reflexivity); split; try done; try (intros _; by eexists); by intros [? ?].
Qed.

(** for the states the library produces (C03): throws as soon as one of the
    effectors is free in both, and returns the empty list otherwise (finding:
    no free effector is ever returned) *)
Theorem C07_library_states {Cfg Rot Rob} (from to : State Cfg vec3 Rot Rob) effs :
  consistent to -> consistent from ->
  ((exists e, e ∈ effs /\ contacts to !! e = None /\ contacts from !! e = None) ->
   freeVariations moved3 to from effs = Throw) /\
  ((forall e, e ∈ effs -> is_Some (contacts to !! e) \/ is_Some (contacts from !! e)) ->
   freeVariations moved3 to from effs = Ok []).
Proof. exact (freeVariations_library from to effs). Qed.
Print Assumptions C07_library_states.
Example C07_library_example : consistent exTo /\ consistent exFrom /\
  contacts exTo !! "nose"%string = None /\ contacts exFrom !! "nose"%string = None.
Proof. exact (conj exTo_consistent (conj exFrom_consistent (conj eq_refl eq_refl))). Qed.

(** C08 *)
Theorem C08_effectorDistance_is_max {Cfg Rot Rob} (from to : State Cfg vec3 Rot Rob) :
  ((forall k d, displacement from to k d -> (d <= 1 / 100)%R) -> effectorDistance from to = 0%R) /\
  ((exists k d, displacement from to k d /\ (d > 1 / 100)%R) ->
     (forall k d, displacement from to k d -> (d <= effectorDistance from to)%R) /\
     (exists k, displacement from to k (effectorDistance from to)) /\
     (effectorDistance from to > 1 / 100)%R).
Proof. exact (effectorDistance_correct from to). Qed.
Print Assumptions C08_effectorDistance_is_max.
Theorem C08_effectorDistance_symmetric {Cfg Rot Rob} (from to : State Cfg vec3 Rot Rob) :
  effectorDistance from to = effectorDistance to from.
Proof. exact (effectorDistance_sym from to). Qed.
Print Assumptions C08_effectorDistance_symmetric.
Example C08_example : exists k d, displacement exFrom exTo k d /\ (d > 1 / 100)%R.
Proof. exists "rf"%string, 1%R. split; [exact ex_displacement|lra]. Qed.

(** C09: the copy constructor copies everything; operator= copies everything
    except robustness, which keeps its old value (finding). *)
Theorem C09_copy_exact {Cfg Pos Rot Rob} (s : State Cfg Pos Rot Rob) : state_copy s = s.
Proof. exact (match s with mkState _ _ _ _ _ _ _ _ _ => eq_refl end). Qed.
Print Assumptions C09_copy_exact.
Theorem C09_assign_exact {Cfg Pos Rot Rob} (this other : State Cfg Pos Rot Rob) :
  let s := state_assign this other in
  configuration s = configuration other /\ contacts s = contacts other /\ normals s = normals other /\
  positions s = positions other /\ rotations s = rotations other /\ order s = order other /\
  nbContacts s = nbContacts other /\ stable s = stable other /\
  (s = other <-> robustness this = robustness other).
Proof. exact (state_assign_fields this other). Qed.
Print Assumptions C09_assign_exact.
Theorem C09_assign_loses_robustness : exists this other : State nat nat nat nat,
  consistent this /\ consistent other /\ state_assign this other <> other.
Proof. exact state_assign_drops_robustness. Qed.
Example C09_example : state_copy ex3 = ex3 /\ order (state_assign (snd (RemoveContact "lh" ex3)) ex3) = ["lh"; "rf"; "lf"]%string.
Proof. done. Qed.
Print Assumptions C09_assign_loses_robustness.
