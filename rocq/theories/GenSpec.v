(** Specification vocabulary of the contact-generation properties.  It only
    mentions the services (what the other libraries answer), the public
    fields of states, reports and helpers, and [sortLimbs]/[freeEffectors],
    which have their own properties. *)
From Coq Require Import ZArith.
From Verif Require Import Maps StateModel CombModel GenModel.

Section spec.
Context {Cfg Pos Rot Cand Smp : Type}.
Notation St := (State Cfg Pos Rot Z).
Variable S : services Cfg Pos Rot Cand Smp.

(** [t] has the configuration, tables, order, count and stability of [s]
    (everything but the robustness, which operator= does not copy) *)
Record same_but_robustness (s t : St) : Prop := {
  sb_configuration : configuration t = configuration s;
  sb_contacts : contacts t = contacts s;
  sb_normals : normals t = normals s;
  sb_positions : positions t = positions s;
  sb_rotations : rotations t = rotations s;
  sb_order : order t = order s;
  sb_nb : nbContacts t = nbContacts s;
  sb_stable : stable t = stable s
}.

(** [t] is [s] in another configuration *)
Record moved_to (c : Cfg) (s t : St) : Prop := {
  mt_configuration : configuration t = c;
  mt_contacts : contacts t = contacts s;
  mt_normals : normals t = normals s;
  mt_positions : positions t = positions s;
  mt_rotations : rotations t = rotations s;
  mt_order : order t = order s;
  mt_nb : nbContacts t = nbContacts s;
  mt_stable : stable t = stable s
}.

(** Loading samples one after the other into a configuration *)
Definition load_all (l : list Smp) (c : Cfg) : Cfg := fold_left (fun c s => loadS S s c) l c.

(** [c'] is what making [limb] collision free yields from [c]: [c] itself if it
    is valid, otherwise the configuration reached at the first valid sample. *)
Definition freed (limb : string) (c c' : Cfg) : Prop :=
  (limbValid S limb c = true /\ c' = c) \/
  (limbValid S limb c = false /\
   exists l1 s l2, samples S limb = l1 ++ s :: l2 /\
     c' = load_all (l1 ++ [s]) c /\ limbValid S limb c' = true /\
     forall a x b, l1 = a ++ x :: b -> limbValid S limb (load_all (a ++ [x]) c) = false).

(** no sample frees the limb *)
Definition stuck (limb : string) (c : Cfg) : Prop :=
  limbValid S limb c = false /\
  forall a x b, samples S limb = a ++ x :: b -> limbValid S limb (load_all (a ++ [x]) c) = false.

(** making several limbs collision free in turn *)
Inductive all_freed : list string -> Cfg -> Cfg -> Prop :=
| af_nil c : all_freed [] c c
| af_cons l ls c c1 c2 : freed l c c1 -> all_freed ls c1 c2 -> all_freed (l :: ls) c c2.

(** The limbs whose configuration is free when only the contacts of [c] are
    kept: the free contact limbs, then the limbs without contact. *)
Definition free_limbs (w c : St) : list string :=
  sortLimbs (order w) (freeEffectors c (limbNames S)) ++ nonContacting S.

(** Candidate [c] can be maintained by a helper whose working state is [w];
    [s] is the state obtained. *)
Definition admissible (h : helper Cfg Pos Rot) (c s : St) : Prop :=
  exists c1 c2,
    projRoot S (configuration (working h)) c = (true, c1) /\
    all_freed (free_limbs (working h) c) c1 c2 /\
    validate S c2 = true /\
    moved_to c2 c s /\ robustness s = junkRob S /\
    (quasi h = true -> testReach h = true -> reachQS S (working h) s = true).

(** The queue of candidates a call of maintain_contacts works on *)
Definition maintain_queue (h : helper Cfg Pos Rot) (q : list St) : Prop :=
  (cands h <> [] /\ q = cands h) \/
  (cands h = [] /\ contacts (working h) <> ∅ /\
   q = maintain_contacts_combinatorial (working h) (maxBreaks h)) \/
  (cands h = [] /\ contacts (working h) = ∅ /\ q = []).

(** Configuration at the moment candidate number [length l] is tried: every
    attempt, successful or not, leaves its configuration to the next one. *)
Definition cfg_after (post : bool) (limb : string) (cur : St) (l : list Cand) (c0 : Cfg) : Cfg :=
  fold_left (fun c x => snd (ik S post limb x c cur)) l c0.

(** [p] is the projection of candidate [x], tried after the candidates [l1]:
    the solver succeeds, the limb does not collide, and [p] is [cur] with the
    new contact at the effector's placement. *)
Definition projects (post : bool) (limb : string) (cur : St) (l1 : list Cand) (x : Cand) (p : St) : Prop :=
  exists cfg,
    ik S post limb x (cfg_after post limb cur l1 (configuration cur)) cur = (true, cfg) /\
    limbValid S limb cfg = true /\
    p = mkState cfg (<[limb := true]> (contacts cur)) (<[limb := candNormal S x]> (normals cur))
          (<[limb := fkPos S limb cfg]> (positions cur)) (<[limb := fkRot S limb cfg]> (rotations cur))
          (order cur ++ [limb]) ((nbContacts cur + 1) mod 2 ^ 64)%Z (stable cur) (junkRob S).

(** [s] is [p] but for the count, which is [nb], and the flag, which is [b] *)
Definition contact_added (nb : Z) (b : bool) (p s : St) : Prop :=
  configuration s = configuration p /\ contacts s = contacts p /\ normals s = normals p /\
  positions s = positions p /\ rotations s = rotations p /\ order s = order p /\
  nbContacts s = nb /\ stable s = b /\ robustness s = junkRob S.

(** The state the generator starts from: the working state, not yet stable. *)
Definition start (h : helper Cfg Pos Rot) (cur : St) : Prop :=
  cur = mkState (configuration (working h)) (contacts (working h)) (normals (working h))
          (positions (working h)) (rotations (working h)) (order (working h))
          (nbContacts (working h)) false (robustness (working h)).

(** reachability as requested by the helper *)
Definition reaches (h : helper Cfg Pos Rot) (cur p : St) : Prop :=
  testReach h = true ->
  (quasi h = true -> reachQS S cur p = true) /\
  (quasi h = false -> reachDyn S (previous h) p = true).

(** stability is looked at for a new contact on top of [cur] *)
Definition stability_requested (h : helper Cfg Pos Rot) : Prop :=
  checkGen h = true /\
  (stableForOne h = true \/ ((nbContacts (working h) + 1) mod 2 ^ 64)%Z <> 1%Z).
End spec.

(** ** Candidates tried for one limb *)
Section spec2.
Context {Cfg Pos Rot Cand Smp : Type}.
Notation St := (State Cfg Pos Rot Z).
Variable S : services Cfg Pos Rot Cand Smp.

(** no candidate of [l] has a projection with property [Q] *)
Definition no_projection_with (post : bool) (limb : string) (cur : St) (Q : St -> Prop) (l : list Cand)
  : Prop := forall a x b p, l = a ++ x :: b -> projects S post limb cur a x p -> ~ Q p.

(** [p] is the projection of the first (best ranked) candidate of [l] whose
    projection has property [Q] *)
Definition first_projection_with (post : bool) (limb : string) (cur : St) (Q : St -> Prop)
    (l : list Cand) (p : St) : Prop :=
  exists a x b, l = a ++ x :: b /\ projects S post limb cur a x p /\ Q p /\
    no_projection_with post limb cur Q a.

(** [p] is the projection of some candidate of [l], strictly more robust than
    those before it and at least as robust as all others *)
Definition most_robust_projection (post : bool) (limb : string) (cur : St) (l : list Cand) (p : St)
  : Prop :=
  exists a x b, l = a ++ x :: b /\ projects S post limb cur a x p /\
    no_projection_with post limb cur (fun q => isStable S p <= isStable S q)%Z a /\
    no_projection_with post limb cur (fun q => isStable S p < isStable S q)%Z l.

(** the same among the projections satisfying [Q] *)
Definition best_of (post : bool) (limb : string) (cur : St) (Q : St -> Prop) (l : list Cand) (p : St)
  : Prop :=
  exists a x b, l = a ++ x :: b /\ projects S post limb cur a x p /\ Q p /\
    no_projection_with post limb cur (fun q => Q q /\ isStable S p <= isStable S q)%Z a /\
    no_projection_with post limb cur (fun q => Q q /\ isStable S p < isStable S q)%Z l.

(** [s] is [w] with a contact of [limb] recorded on top of it, in configuration
    [c], at position, normal and rotation [pl], the stability flag being [b] *)
Record placed_contact (w : St) (limb : string) (c : Cfg) (b : bool) (pl : Pos * Pos * Rot) (s : St)
  : Prop := {
  pc_configuration : configuration s = c;
  pc_contacts : contacts s = <[limb := true]> (contacts w);
  pc_positions : positions s = <[limb := fst (fst pl)]> (positions w);
  pc_normals : normals s = <[limb := snd (fst pl)]> (normals w);
  pc_rotations : rotations s = <[limb := snd pl]> (rotations w);
  pc_order : order s = order w ++ [limb];
  pc_nb : nbContacts s = nbContacts w;
  pc_stable : stable s = b
}.

(** [post] is the mode (postural task or not) whose pass decides, when a pass is
    decided by property [Q]: the requested mode, or the plain mode once the
    postural mode has found nothing *)
Definition deciding_mode (h : helper Cfg Pos Rot) (limb : string) (cur : St) (Q : St -> Prop)
    (l : list Cand) (post : bool) : Prop :=
  post = postural h \/
  (postural h = true /\ post = false /\ no_projection_with true limb cur Q l).

(** what a kept sample must satisfy: stability and reachability if requested *)
Definition acceptable (h : helper Cfg Pos Rot) (cur p : St) : Prop :=
  stability_requested h -> (thr h <= isStable S p)%Z /\ reaches S h cur p.
End spec2.

(** [t] is [s] with some contacts of the limbs [A] satisfying [A] created on top of it: all
    other contacts are untouched, in place and in the order *)
Record grown {Cfg Pos Rot} (A : string -> Prop) (s t : State Cfg Pos Rot Z) : Prop := {
  gr_maps : forall k, ~ A k ->
    contacts t !! k = contacts s !! k /\ normals t !! k = normals s !! k /\
    positions t !! k = positions s !! k /\ rotations t !! k = rotations s !! k;
  gr_order : exists extra, order t = order s ++ extra /\ Forall A extra;
  gr_nb : nbContacts t = nbContacts s
}.

(** [l] is a limb of the robot not in contact in [s] *)
Definition free_limb {Cfg Pos Rot Cand Smp} (S : services Cfg Pos Rot Cand Smp)
    (s : State Cfg Pos Rot Z) (l : string) : Prop :=
  l ∈ limbNames S /\ contacts s !! l <> Some true.

(** the contact tables of [s] all describe the limbs of its contact order, each
    once, and the count is their number *)
Record tables_match {Cfg Pos Rot} (s : State Cfg Pos Rot Z) : Prop := {
  tm_keys : forall k,
    (is_Some (contacts s !! k) <-> k ∈ order s) /\
    (is_Some (normals s !! k) <-> k ∈ order s) /\
    (is_Some (positions s !! k) <-> k ∈ order s) /\
    (is_Some (rotations s !! k) <-> k ∈ order s);
  tm_active : forall k, k ∈ order s -> contacts s !! k = Some true;
  tm_order : NoDup (order s);
  tm_nb : nbContacts s = Z.of_nat (length (order s))
}.
